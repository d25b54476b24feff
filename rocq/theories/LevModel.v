(** Model of cfog/metrics/levenshtein.pyx.  A python [str] is the list of its code points.
    C unsigned integers are natural numbers: lengths and distances stay far below 2^32 (a string
    of 2^32 characters does not fit the C [unsigned int] its length is stored in), so only the
    16-bit truncation of code points ([unsigned short]) is modelled. *)
From Verif Require Import Base.

Definition str := list N.

(** conversion of a code point to [unsigned short] *)
Definition to_ushort (c : N) : N := N.modulo c 65536.

(** levenshtein.pyx:62-63 and 179-180: skip the common prefix, [A] being the shorter string *)
Fixpoint strip_prefix (a b : str) : str * str :=
  match a, b with
  | x :: a', y :: b' => if N.eqb x y then strip_prefix a' b' else (a, b)
  | _, _ => (a, b)
  end.

(** levenshtein.pyx:55-57 and 169-171: skip the common suffix *)
Definition strip_suffix (a b : str) : str * str :=
  let '(ra, rb) := strip_prefix (rev a) (rev b) in (rev ra, rev rb).

(** v[j] = x *)
Fixpoint upd {A} (v : list A) (j : nat) (x : A) : list A :=
  match v, j with
  | [], _ => []
  | _ :: v', O => x :: v'
  | y :: v', S j' => y :: upd v' j' x
  end.

(** levenshtein.pyx:102-122 and 234-254: the inner loop, for the [n] values of j from [j].
    Returns (current, vector). *)
Fixpoint dp_row (charA : N) (codes : list N) (n j left current : nat) (vector : list nat)
    : nat * list nat :=
  match n with
  | O => (current, vector)
  | S n' =>
    let above := current in
    let current := left in
    let left := nth j vector 0 in
    let current :=
      if N.eqb charA (nth j codes 0%N) then current
      else
        let current := if Nat.ltb left current then left else current in
        let current := if Nat.ltb above current then above else current in
        current + 1 in
    dp_row charA codes n' (j + 1) left current (upd vector j current)
  end.

(** levenshtein.pyx:95-124: the outer loop; [rest] is A[start+i:], [LB] the length of codes *)
Fixpoint dp_rows (rest : str) (codes : list N) (i current : nat) (vector : list nat) : nat :=
  match rest with
  | [] => current
  | c :: rest' =>
    let '(current, vector) := dp_row (to_ushort c) codes (length codes) 0 i (i + 1) vector in
    dp_rows rest' codes (i + 1) current vector
  end.

(** levenshtein.pyx:28-129 levenshtein_distance *)
Definition levenshtein_distance (A B : str) : nat :=
  if eqb A B then 0
  else
    let '(A, B) := if Nat.ltb (length B) (length A) then (B, A) else (A, B) in
    let '(a, b) := strip_suffix A B in
    let '(a, b) := strip_prefix a b in
    match a with
    | [] => length b
    | [x] => if memb x B then length b - 1 else length b
    | _ => dp_rows a (map to_ushort b) 0 0 (map (fun i => i + 1) (seq 0 (length b)))
    end.

(** levenshtein.pyx:224-259: the outer loop of the banded computation.  [None] is the early
    return of [upper_bound] (lines 256-257).  [charA] is not truncated there. *)
Fixpoint banded_rows (rest : str) (codes : list N) (max_distance diff offset : nat) (have_max : bool)
    (i j_start j_end current : nat) (vector : list nat) : option nat :=
  match rest with
  | [] => Some current
  | c :: rest' =>
    let j_start := if Nat.ltb offset i then j_start + 1 else j_start in
    let j_end := if Nat.ltb j_end (length codes) then j_end + 1 else j_end in
    let '(current, vector) := dp_row c codes (j_end - j_start) j_start i (i + 1) vector in
    if have_max && Nat.ltb max_distance (nth (i + diff) vector 0) then None
    else banded_rows rest' codes max_distance diff offset have_max (i + 1) j_start j_end current vector
  end.

(** levenshtein.pyx:133-264 limited_levenshtein_distance *)
Definition limited_levenshtein_distance (max_distance : nat) (A B : str) : nat :=
  if eqb A B then 0
  else
    let upper_bound := max_distance + 1 in
    let '(A, B) := if Nat.ltb (length B) (length A) then (B, A) else (A, B) in
    let capped n := if Nat.ltb max_distance n then upper_bound else n in
    if Nat.eqb (length A) 0 then capped (length B)
    else
      let '(a, b) := strip_suffix A B in
      if Nat.eqb (length a) 0 then capped (length b)
      else
        let '(a, b) := strip_prefix a b in
        let LA := length a in
        let LB := length b in
        if Nat.eqb LA 0 then capped LB
        else
          let diff := LB - LA in
          if negb (Nat.ltb LB max_distance) && Nat.ltb max_distance diff then upper_bound
          else
            let max_distance := if Nat.ltb LB max_distance then LB else max_distance in
            let vector := map (fun i => if Nat.ltb i max_distance then i + 1 else upper_bound) (seq 0 LB) in
            match banded_rows a (map to_ushort b) max_distance diff (max_distance - diff)
                    (Nat.ltb max_distance LB) 0 0 max_distance 0 vector with
            | None => upper_bound
            | Some current => if Nat.leb current max_distance then current else upper_bound
            end.

(** levenshtein.pyx:309-322 and 386-399: search of one addition, len(B) = len(A) + 1;
    [cost] is whether one was already seen.  j moves at each turn. *)
Fixpoint addition_loop (a b : str) (cost : bool) {struct b} : res bool :=
  match a with
  | [] => Ok true
  | x :: a' =>
    match b with
    | [] => Err IndexError
    | y :: b' =>
      if N.eqb x y then addition_loop a' b' cost
      else if cost then Ok false else addition_loop a b' true
    end
  end.

(** levenshtein.pyx:327-339: search of one substitution, len(B) = len(A) *)
Fixpoint substitution_loop (a b : str) (cost : bool) : bool :=
  match a, b with
  | x :: a', y :: b' =>
    if N.eqb x y then substitution_loop a' b' cost
    else if cost then false else substitution_loop a' b' true
  | _, _ => true
  end.

(** levenshtein.pyx:404-422: search of one substitution or transposition, len(B) = len(A) *)
Fixpoint transposition_loop (a b : str) (cost : bool) : bool :=
  match a, b with
  | x :: a', y :: b' =>
    if N.eqb x y then transposition_loop a' b' cost
    else if cost then false
    else
      match a', b' with
      | x' :: a'', y' :: b'' =>
        if N.eqb x' y && N.eqb y' x then transposition_loop a'' b'' true
        else transposition_loop a' b' true
      | _, _ => transposition_loop a' b' true
      end
  | _, _ => true
  end.

(** levenshtein.pyx:267-341 and 344-424 share everything but the last loop.  [same] is the result of
    [A is B]: identity of objects, true only for equal strings but not for all of them. *)
Definition lte1 (loop : str -> str -> bool -> bool) (same : bool) (A B : str) : res bool :=
  if same then Ok true
  else
    let '(A, B) := if Nat.ltb (length B) (length A) then (B, A) else (A, B) in
    if Nat.eqb (length A) 0 then Ok (Nat.eqb (length B) 1)
    else
      let d := length B - length A in
      if Nat.ltb 1 d then Ok false
      else if Nat.eqb d 1 then addition_loop A B false
      else Ok (loop A B false).

(** levenshtein.pyx:267-341 *)
Definition levenshtein_distance_lte1 := lte1 substitution_loop.
(** levenshtein.pyx:344-424 *)
Definition damerau_levenshtein_distance_lte1 := lte1 transposition_loop.
