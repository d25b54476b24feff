(** Model of the two distances of cfog/metrics/levenshtein.pyx as the C code that Cython makes of them: unsigned numbers of 16, 32 and 64 bits,
    memory given by malloc, reads and writes without any check ([boundscheck(False)] for the strings, plain pointers for the rest).
    The functions of [LevModel] are the same ones over natural numbers and lists. *)
From Verif Require Import Base LevModel.
Open Scope nat_scope.
Open Scope list_scope.

(** unsigned int, unsigned short, size_t *)
Definition u32 (x : N) : N := N.modulo x 4294967296.
Definition u16 (x : N) : N := N.modulo x 65536.
Definition size_t (x : N) : N := N.modulo x 18446744073709551616.
(** a - b, wrapped around *)
Definition sub32 (a b : N) : N := u32 (a + 4294967296 - b).

(** a block of memory: the size of its cells in bytes, and the cells, [None] when nothing was written; a freed block is [None] *)
Definition block : Type := N * list (option N).
Definition heap : Type := list (option block).
(** a pointer is the number of a block; [None] is NULL *)
Definition pointer : Type := option nat.

(** what a call gives; [Undefined]: undefined behaviour of C; [Overflow]: python's OverflowError *)
Inductive outcome (A : Type) := Done (x : A) (h : heap) | Undefined | Overflow | Endless.
Arguments Done {A}. Arguments Undefined {A}. Arguments Overflow {A}. Arguments Endless {A}.
Definition c (A : Type) : Type := heap -> outcome A.
Definition ret {A} (x : A) : c A := fun h => Done x h.
Definition undefined {A} : c A := fun _ => Undefined.
Definition endless {A} : c A := fun _ => Endless.
Definition seq_c {A B} (m : c A) (f : A -> c B) : c B :=
  fun h => match m h with Done x h => f x h | Undefined => Undefined | Overflow => Overflow | Endless => Endless end.
Notation "'let?' x := m 'in' k" := (seq_c m (fun x => k)) (at level 200, x pattern, m at level 100, k at level 200, right associativity).

Section Memory.
(** whether the system gives so many bytes *)
Variable granted : N -> bool.

(** malloc(n * sizeof(T)), T of [w] bytes *)
Definition malloc (w n : N) : c pointer := fun h =>
  let bytes := size_t (n * w) in
  if granted bytes then Done (Some (length h)) (h ++ [Some (w, repeat None (N.to_nat (N.div bytes w)))]) else Done None h.
Definition block_at (p : pointer) (h : heap) : option block :=
  match p with
  | Some k => match nth_error h k with Some b => b | None => None end
  | None => None
  end.
(** p[i]: undefined outside of the block, in a cell never written, in a freed block, at NULL *)
Definition read (p : pointer) (i : N) : c N := fun h =>
  match block_at p h with
  | Some (_, cells) => match nth_error cells (N.to_nat i) with Some (Some x) => Done x h | _ => Undefined end
  | None => Undefined
  end.
(** p[i] = x *)
Definition write (p : pointer) (i x : N) : c unit := fun h =>
  match p, block_at p h with
  | Some k, Some (w, cells) =>
    if N.ltb i (N.of_nat (length cells)) then Done tt (upd h k (Some (w, upd cells (N.to_nat i) (Some (N.modulo x (2 ^ (8 * w))))))) else Undefined
  | _, _ => Undefined
  end.
(** free(p): undefined on a block already freed; nothing on NULL *)
Definition free (p : pointer) : c unit := fun h =>
  match p with
  | None => Done tt h
  | Some k => match block_at p h with Some _ => Done tt (upd h k None) | None => Undefined end
  end.
(** s[i] of a str, unchecked *)
Definition char (s : str) (i : N) : c N := match nth_error s (N.to_nat i) with Some x => ret x | None => undefined end.

(** levenshtein.pyx:55-57, 169-171 *)
Fixpoint suffix_c (fuel : nat) (A B : str) (LA LB : N) : c (N * N) :=
  match fuel with
  | O => endless
  | S fuel =>
    if N.ltb 0 LA then
      let? a := char A (sub32 LA 1) in
      let? b := char B (sub32 LB 1) in
      if N.eqb a b then suffix_c fuel A B (sub32 LA 1) (sub32 LB 1) else ret (LA, LB)
    else ret (LA, LB)
  end.
(** levenshtein.pyx:62-63, 179-180 *)
Fixpoint prefix_c (fuel : nat) (A B : str) (LA start : N) : c N :=
  match fuel with
  | O => endless
  | S fuel =>
    if N.ltb start LA then
      let? a := char A start in
      let? b := char B start in
      if N.eqb a b then prefix_c fuel A B LA (u32 (start + 1)) else ret start
    else ret start
  end.
(** levenshtein.pyx:82-85 and 200-208: the [codes] and [vector] from i to [stop]; [value] is vector[i] *)
Fixpoint fill_c (fuel : nat) (B : str) (start stop : N) (codes vector : pointer) (value : N -> N) (i : N) : c N :=
  match fuel with
  | O => endless
  | S fuel =>
    if N.ltb i stop then
      let? b := char B (u32 (start + i)) in
      let? _ := write codes i b in
      let? _ := write vector i (value i) in
      fill_c fuel B start stop codes vector value (u32 (i + 1))
    else ret i
  end.
(** levenshtein.pyx:102-122, 234-254: one row *)
Fixpoint row_c (fuel : nat) (charA : N) (codes vector : pointer) (j_end j left current : N) : c N :=
  match fuel with
  | O => endless
  | S fuel =>
    if N.ltb j j_end then
      let above := current in
      let current := left in
      let? left := read vector j in
      let? code := read codes j in
      let current :=
        if N.eqb charA code then current
        else
          let current := if N.ltb left current then left else current in
          let current := if N.ltb above current then above else current in
          u32 (current + 1) in
      let? _ := write vector j current in
      row_c fuel charA codes vector j_end (u32 (j + 1)) left current
    else ret current
  end.
(** levenshtein.pyx:95-124 *)
Fixpoint rows_c (fuel : nat) (A : str) (start LA LB : N) (codes vector : pointer) (i current : N) : c N :=
  match fuel with
  | O => endless
  | S fuel =>
    if N.ltb i LA then
      let left := i in
      let current := u32 (i + 1) in
      let? a := char A (u32 (start + i)) in
      let? current := row_c (S (N.to_nat LB)) (u16 a) codes vector LB 0 left current in
      rows_c fuel A start LA LB codes vector (u32 (i + 1)) current
    else ret current
  end.

(** levenshtein.pyx:54-129: the strings with their lengths, [A] being the shorter one; [in] looks into the whole string (72) *)
Definition levenshtein_body (A B : str) (LA LB : N) : c N :=
  let? (LA, LB) := suffix_c (S (N.to_nat LA)) A B LA LB in
  let? start := prefix_c (S (N.to_nat LA)) A B LA 0 in
  let LA := sub32 LA start in
  let LB := sub32 LB start in
  if N.eqb LA 0 then ret LB
  else if N.eqb LA 1 then
    let? a := char A start in
    if memb a B then ret (sub32 LB 1) else ret LB
  else
    let? codes := malloc 2 LB in
    let? vector := malloc 4 LB in
    let? _ := fill_c (S (N.to_nat LB)) B start LB codes vector (fun i => u32 (i + 1)) 0 in
    let? current := rows_c (S (N.to_nat LA)) A start LA LB codes vector 0 0 in
    let? _ := (let? _ := free codes in free vector) in
    ret current.
(** levenshtein.pyx:28-129; the lengths are cut to 32 bits (47-48) *)
Definition levenshtein_c (A B : str) : c N :=
  if eqb A B then ret 0%N
  else
    let LA := u32 (N.of_nat (length A)) in
    let LB := u32 (N.of_nat (length B)) in
    if N.ltb LB LA then levenshtein_body B A LB LA else levenshtein_body A B LA LB.

(** levenshtein.pyx:224-259; [None] is the return of line 257 *)
Fixpoint banded_c (fuel : nat) (A : str) (start LA LB max_distance diff offset : N) (have_max : bool) (codes vector : pointer)
    (i j_start j_end current : N) : c (option N) :=
  match fuel with
  | O => endless
  | S fuel =>
    if N.ltb i LA then
      let left := i in
      let current := u32 (i + 1) in
      let? a := char A (u32 (start + i)) in
      let j_start := u32 (j_start + if N.ltb offset i then 1 else 0) in
      let j_end := u32 (j_end + if N.ltb j_end LB then 1 else 0) in
      let? current := row_c (S (N.to_nat LB)) (u32 a) codes vector j_end j_start left current in
      let? stop := (if have_max then let? x := read vector (u32 (i + diff)) in ret (N.ltb max_distance x) else ret false) in
      if stop then ret None
      else banded_c fuel A start LA LB max_distance diff offset have_max codes vector (u32 (i + 1)) j_start j_end current
    else ret (Some current)
  end.

(** levenshtein.pyx:188-264: what is left of the strings begins at [start] *)
Definition limited_matrix (max_distance upper_bound : N) (A B : str) (start LA LB : N) : c N :=
  let diff := sub32 LB LA in
  if negb (N.ltb LB max_distance) && N.ltb max_distance diff then ret upper_bound
  else
    let max_distance := if N.ltb LB max_distance then LB else max_distance in
    let? codes := malloc 2 LB in
    let? vector := malloc 4 LB in
    let? i := fill_c (S (N.to_nat LB)) B start max_distance codes vector (fun i => u32 (i + 1)) 0 in
    let? _ := fill_c (S (N.to_nat LB)) B start LB codes vector (fun _ => upper_bound) i in
    let offset := sub32 max_distance diff in
    let have_max := N.ltb max_distance LB in
    let? r := banded_c (S (N.to_nat LA)) A start LA LB max_distance diff offset have_max codes vector 0 0 max_distance 0 in
    match r with
    | None => ret upper_bound
    | Some current =>
      let? _ := (let? _ := free codes in free vector) in
      ret (if N.leb current max_distance then current else upper_bound)
    end.
(** levenshtein.pyx:165-264 *)
Definition limited_body (max_distance upper_bound : N) (A B : str) (LA LB : N) : c N :=
  let capped n := if N.ltb max_distance n then upper_bound else n in
  if N.eqb LA 0 then ret (capped LB)
  else
    let? (LA, LB) := suffix_c (S (N.to_nat LA)) A B LA LB in
    if N.eqb LA 0 then ret (capped LB)
    else
      let? start := prefix_c (S (N.to_nat LA)) A B LA 0 in
      let LA := sub32 LA start in
      let LB := sub32 LB start in
      if N.eqb LA 0 then ret (capped LB) else limited_matrix max_distance upper_bound A B start LA LB.
(** levenshtein.pyx:132-264.  [max_distance] is converted first: OverflowError when it is negative or too large *)
Definition limited_c (max_distance : Z) (A B : str) : c N :=
  if negb ((0 <=? max_distance) && (max_distance <? 4294967296))%Z then fun _ => Overflow
  else
    let max_distance := Z.to_N max_distance in
    if eqb A B then ret 0%N
    else
      let upper_bound := u32 (max_distance + 1) in
      let LA := u32 (N.of_nat (length A)) in
      let LB := u32 (N.of_nat (length B)) in
      if N.ltb LB LA then limited_body max_distance upper_bound B A LB LA else limited_body max_distance upper_bound A B LA LB.
End Memory.
