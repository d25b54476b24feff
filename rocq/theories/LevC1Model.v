(** Model of the two [_lte1] functions of cfog/metrics/levenshtein.pyx as C code: lengths, positions and cost are unsigned numbers of 32 bits.
    [boundscheck] is not switched off there: a position outside of a string raises IndexError.
    The functions of [LevModel] are the same ones over natural numbers and lists. *)
From Verif Require Import Base LevModel LevCModel.
Open Scope nat_scope.
Open Scope list_scope.

(** s[i] of a str, checked *)
Definition item (s : str) (i : N) : res N := match nth_error s (N.to_nat i) with Some x => Ok x | None => Err IndexError end.
Definition length32 (s : str) : N := u32 (N.of_nat (length s)).

(** levenshtein.pyx:309-322, 386-399 *)
Fixpoint addition_c (fuel : nat) (A B : str) (LA i j cost : N) : res bool :=
  match fuel with
  | O => Err OutOfFuel
  | S fuel =>
    if N.ltb i LA then
      let! a := item A i in
      let! b := item B j in
      if N.eqb a b then addition_c fuel A B LA (u32 (i + 1)) (u32 (j + 1)) cost
      else if N.eqb cost 1 then Ok false
      else addition_c fuel A B LA i (u32 (j + 1)) 1
    else Ok true
  end.

(** levenshtein.pyx:327-339 *)
Fixpoint substitution_c (fuel : nat) (A B : str) (LA i j cost : N) : res bool :=
  match fuel with
  | O => Err OutOfFuel
  | S fuel =>
    if N.ltb i LA then
      let! a := item A i in
      let! b := item B i in
      if negb (N.eqb a b)
      then if N.eqb cost 1 then Ok false else substitution_c fuel A B LA (u32 (i + 1)) (u32 (j + 1)) 1
      else substitution_c fuel A B LA (u32 (i + 1)) (u32 (j + 1)) cost
    else Ok true
  end.

(** levenshtein.pyx:414: and looks at its right side only when it has to *)
Definition transposed (A B : str) (LA i a b : N) : res bool :=
  if N.ltb (u32 (i + 1)) LA then
    let! a' := item A (u32 (i + 1)) in
    if N.eqb a' b then let! b' := item B (u32 (i + 1)) in Ok (N.eqb b' a) else Ok false
  else Ok false.

(** levenshtein.pyx:404-422 *)
Fixpoint transposition_c (fuel : nat) (A B : str) (LA i j cost : N) : res bool :=
  match fuel with
  | O => Err OutOfFuel
  | S fuel =>
    if N.ltb i LA then
      let! a := item A i in
      let! b := item B i in
      if negb (N.eqb a b)
      then
        if N.eqb cost 1 then Ok false
        else
          let! t := transposed A B LA i a b in
          if t then transposition_c fuel A B LA (u32 (i + 2)) (u32 (j + 2)) 1
          else transposition_c fuel A B LA (u32 (i + 1)) j 1
      else transposition_c fuel A B LA (u32 (i + 1)) j cost
    else Ok true
  end.

(** levenshtein.pyx:282-341, 359-424; [same] is the result of [A is B] *)
Definition lte1_c (loop : nat -> str -> str -> N -> N -> N -> N -> res bool) (same : bool) (A B : str) : res bool :=
  if same then Ok true
  else
    let LA := length32 A in
    let LB := length32 B in
    let '(A, B, LA, LB) := if N.ltb LB LA then (B, A, LB, LA) else (A, B, LA, LB) in
    if N.eqb LA 0 then Ok (N.eqb LB 1)
    else
      let d := sub32 LB LA in
      if N.ltb 1 d then Ok false
      else if N.eqb d 1 then addition_c (S (S (N.to_nat LA))) A B LA 0 0 0
      else loop (S (N.to_nat LA)) A B LA 0%N 0%N 0%N.

(** levenshtein.pyx:267-341 *)
Definition levenshtein_lte1_c := lte1_c substitution_c.
(** levenshtein.pyx:344-424 *)
Definition damerau_lte1_c := lte1_c transposition_c.
