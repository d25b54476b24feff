(** Model of fog/metrics/ (jaccard, dice, overlap, cosine) and of OnlineMean (fog/utils.py).
    [same] is the identity test [A is B] of the two arguments.  Floats are exact: rationals where no square
    root is taken, reals otherwise. *)
From Coq Require Import QArith Reals.
From Verif Require Import Base.
Open Scope nat_scope.

Definition Qnat (n : nat) : Q := inject_Z (Z.of_nat n).

Section Sets.
Context {T : Type} `{EqDec T}.

(** jaccard.py:58-63, dice.py:58-63, overlap.py:44-49, utils.py:26-30: number of elements of A found in B.
    The order of iteration of A does not matter for a count. *)
Definition count_in (A B : list T) : nat := length (filter (fun v => memb v B) A).

(** jaccard.py:55-56 and the others: the smaller one first *)
Definition swap_smaller (A B : list T) : list T * list T :=
  if Nat.ltb (length B) (length A) then (B, A) else (A, B).

(** jaccard.py:20-68 jaccard_similarity; sets, frozensets and dicts are kept as they are, everything else
    goes through [set] *)
Definition jaccard_similarity (same : bool) (A B : list T) : Q :=
  if same then 1%Q
  else
    let A := set_of A in
    let B := set_of B in
    if Nat.eqb (length A) 0 || Nat.eqb (length B) 0 then 0%Q
    else
      let '(A, B) := swap_smaller A B in
      let I := count_in A B in
      let U := (Z.of_nat (length A) + Z.of_nat (length B) - Z.of_nat I)%Z in
      (Qnat I / inject_Z U)%Q.

(** dice.py:17-65 dice_coefficient *)
Definition dice_coefficient (same : bool) (A B : list T) : Q :=
  if same then 1%Q
  else
    let A := set_of A in
    let B := set_of B in
    let '(A, B) := swap_smaller A B in
    let la := length A in
    let lb := length B in
    if Nat.eqb la 0 then (if Nat.eqb lb 0 then 1%Q else 0%Q)
    else
      let I := count_in A B in
      (Qnat (2 * I) / Qnat (la + lb))%Q.

(** overlap.py:13-51 overlap_coefficient *)
Definition overlap_coefficient (same : bool) (A B : list T) : Q :=
  if same then 1%Q
  else
    let A := set_of A in
    let B := set_of B in
    if Nat.eqb (length A) 0 || Nat.eqb (length B) 0 then 0%Q
    else
      let '(A, B) := swap_smaller A B in
      let I := count_in A B in
      (Qnat I / Qnat (Nat.min (length A) (length B)))%Q.

(** utils.py:10-32 intersection_size, on sets; for the same object, python returns len(A), which counts
    the repetitions of a list *)
Definition intersection_size (same : bool) (A B : list T) : nat :=
  if same then length A
  else
    let A := set_of A in
    let B := set_of B in
    let '(A, B) := swap_smaller A B in
    if Nat.eqb (length A) 0 then 0 else count_in A B.

(** jaccard.py:109-121, the loop over A.items() *)
Definition weighted_step (B : dict T Q) (st : Q * Q * list T) (kv : T * Q) : Q * Q * list T :=
  let '(i, u, done) := st in
  let '(k, weight_A) := kv in
  let weight_B := match dget B k with Some w => w | None => 0%Q end in
  let done := if Qeq_bool weight_B 0 then done else sadd done k in
  if negb (Qle_bool weight_B weight_A)
  then ((i + weight_A)%Q, (u + weight_B)%Q, done)
  else ((i + weight_B)%Q, (u + weight_A)%Q, done).

(** jaccard.py:71-130 weighted_jaccard_similarity *)
Definition weighted_jaccard_similarity (same : bool) (A B : dict T Q) : res Q :=
  if same then Ok 1%Q
  else if Nat.eqb (length A) 0 || Nat.eqb (length B) 0 then Ok 0%Q
  else
    let '(A, B) := if Nat.ltb (length B) (length A) then (B, A) else (A, B) in
    let '(i, u, done) := fold_left (weighted_step B) A (0%Q, 0%Q, []) in
    let u := fold_left (fun u kv => if memb (fst kv) done then u else (u + snd kv)%Q) B u in
    if Qeq_bool u 0 then Err ZeroDivisionError else Ok (i / u)%Q.
End Sets.

Section Cosine.
Context {T : Type} `{EqDec T}.
Open Scope R_scope.

(** cosine.py:56-63 *)
Definition cosine_step (B : dict T R) (st : R * R) (kv : T * R) : R * R :=
  let '(xx, xy) := st in
  let '(k, weight) := kv in
  (xx + weight ^ 2, match dget B k with Some v2 => xy + weight * v2 | None => xy end).

(** python [x / math.sqrt(y)] *)
Definition div_sqrt (x y : R) : res R :=
  if Req_EM_T (sqrt y) 0 then Err ZeroDivisionError else Ok (x / sqrt y).

(** cosine.py:18-69 sparse_cosine_similarity *)
Definition sparse_cosine_similarity (same : bool) (A B : dict T R) : res R :=
  if same then Ok 1
  else if Nat.eqb (length A) 0 || Nat.eqb (length B) 0 then Ok 0
  else
    let '(A, B) := if Nat.ltb (length B) (length A) then (B, A) else (A, B) in
    let '(xx, xy) := fold_left (cosine_step B) A (0, 0) in
    let yy := fold_left (fun yy v => yy + v ^ 2) (dvalues B) 0 in
    div_sqrt xy (xx * yy).

(** cosine.py:72-111 sparse_binary_cosine_similarity *)
Definition sparse_binary_cosine_similarity (same : bool) (A B : list T) : res R :=
  if same then Ok 1
  else if Nat.eqb (length A) 0 || Nat.eqb (length B) 0 then Ok 0
  else
    let '(A, B) := swap_smaller A B in
    let xx := INR (length A) in
    let xy := INR (count_in A B) in
    let yy := INR (length B) in
    div_sqrt xy (xx * yy).

(** cosine.py:114-142 sparse_dot_product *)
Definition sparse_dot_product (A B : dict T R) : R :=
  let '(A, B) := if Nat.ltb (length B) (length A) then (B, A) else (A, B) in
  fold_left (fun p kv => match dget B (fst kv) with Some w2 => p + snd kv * w2 | None => p end) A 0.

(** cosine.py:145-146 sparse_norm *)
Definition sparse_norm (A : dict T R) : R := sqrt (fold_left (fun s w => s + w * w) (dvalues A) 0).

(** cosine.py:149-160 sparse_normalize *)
Definition sparse_normalize (A : dict T R) : dict T R :=
  let length := sparse_norm A in
  if Req_EM_T length 0 then [] else map (fun kv => (fst kv, snd kv / length)) A.

(** collections.Counter of an iterable *)
Definition counter (l : list T) : dict T R :=
  fold_left (fun d x => dmodify d x 0 (fun n => n + 1)) l [].

(** cosine.py:163-185 cosine_similarity: on iterables that are not dicts, two Counters are built, which are never the
    same object; on dicts it is sparse_cosine_similarity *)
Definition cosine_similarity (A B : list T) : res R :=
  sparse_cosine_similarity false (counter A) (counter B).

(** cosine.py:188-210 binary_cosine_similarity; two new sets are never the same object; on sets it is
    sparse_binary_cosine_similarity *)
Definition binary_cosine_similarity (A B : list T) : res R :=
  sparse_binary_cosine_similarity false (set_of A) (set_of B).
End Cosine.

(** fog/utils.py:30-79 OnlineMean: (_sum, _n) *)
Definition mean := (Q * nat)%type.
Definition mean_new : mean := (0%Q, 0).
Definition mean_add (m : mean) (x : Q) : mean := ((fst m + x)%Q, snd m + 1).
Definition mean_subtract (m : mean) (x : Q) : res mean :=
  if Nat.eqb (snd m) 0 then Err AssertionError else Ok ((fst m - x)%Q, snd m - 1).
Definition mean_iadd (m other : mean) : mean := ((fst m + fst other)%Q, snd m + snd other).
Definition mean_plus (m other : mean) : mean := mean_iadd (mean_iadd mean_new m) other.
Definition mean_len (m : mean) : nat := snd m.
Definition mean_peek (m : mean) : res Q :=
  if Nat.eqb (snd m) 0 then Err StatisticsError else Ok (fst m / Qnat (snd m))%Q.
