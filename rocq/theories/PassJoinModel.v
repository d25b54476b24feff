(** Model of fog/clustering/passjoin.py.  A python [str] is the list of its code points. *)
From Coq Require Import String.
From Verif Require Import Base LevModel ClustersModel.
Notation length := List.length.
Open Scope nat_scope.
Open Scope list_scope.

(** passjoin.py:26-41 count_substrings_l *)
Definition count_substrings_l (k s l : Z) : Z := ((k ^ 2 - Z.abs (s - l) ^ 2) / 2 + k + 1)%Z.

(** passjoin.py:44-66 count_keys: l from s - k to s *)
Definition count_keys (k s : nat) : Z :=
  fold_left (fun c t => c + count_substrings_l (Z.of_nat k) (Z.of_nat s) (Z.of_nat s - Z.of_nat k + Z.of_nat t))%Z
    (seq 0 (k + 1)) 0%Z.

(** passjoin.py:69-75 sort_key, compared as python compares tuples and strings: longer strings first,
    then by code points.  [sort_le a b] is [sort_key(a) <= sort_key(b)]. *)
Fixpoint str_le (a b : str) : bool :=
  match a, b with
  | [], _ => true
  | _ :: _, [] => false
  | x :: a', y :: b' => N.ltb x y || (N.eqb x y && str_le a' b')
  end.
Definition sort_le (a b : str) : bool :=
  Nat.ltb (length b) (length a) || (Nat.eqb (length b) (length a) && str_le a b).

(** python's [sorted] is stable; so is this insertion sort *)
Fixpoint insert_sorted (x : str) (l : list str) : list str :=
  match l with
  | [] => [x]
  | y :: l' => if sort_le x y then x :: l else y :: insert_sorted x l'
  end.
Definition sorted (l : list str) : list str := fold_right insert_sorted [] l.

(** passjoin.py:78-104 partition.  There is always at least one small segment, so that [i] is
    bound (to small_segments - 1) after the first loop. *)
Definition partition (k l : nat) : list (nat * nat * nat) :=
  let m := k + 1 in
  let a := l / m in
  let b := a + 1 in
  let large_segments := l - a * m in
  let small_segments := m - large_segments in
  let i := small_segments - 1 in
  let offset := i * a + a in
  map (fun i => (i, i * a, a)) (seq 0 small_segments) ++
  map (fun j => (i + 1 + j, offset + j * b, b)) (seq 0 large_segments).

(** passjoin.py:107-120 segments *)
Definition segments (k : nat) (string : str) : list (nat * str) :=
  map (fun '(i, start, len) => (i, slice start (start + len) string)) (partition k (length string)).

(** passjoin.py:123-150 multi_match_aware_interval *)
Definition multi_match_aware_interval (k delta i s pi li : Z) : Z * Z :=
  let start1 := (pi - i)%Z in
  let end1 := (pi + i)%Z in
  let o := (k - i)%Z in
  let start2 := (pi + delta - o)%Z in
  let end2 := (pi + delta + o)%Z in
  let end3 := (s - li)%Z in
  (Z.max 0 (Z.max start1 start2), Z.min end1 (Z.min end2 end3)).

(** passjoin.py:180-190: the loop over [js], skipping repetitions of the last yielded substring *)
Fixpoint substrings_loop (string : str) (li : nat) (js : list nat) (current : option str) : list str :=
  match js with
  | [] => []
  | j :: js' =>
    let substring := slice j (j + li) string in
    if eqb (Some substring) current then substrings_loop string li js' current
    else substring :: substrings_loop string li js' (Some substring)
  end.

(** passjoin.py:153-190 multi_match_aware_substrings.  [start] is never negative, hence the range
    of natural numbers. *)
Definition multi_match_aware_substrings (k : nat) (string : str) (l i pi li : nat) : list str :=
  let s := Z.of_nat (length string) in
  let delta := (s - Z.of_nat l)%Z in
  let '(start, stop) := multi_match_aware_interval (Z.of_nat k) delta (Z.of_nat i) s (Z.of_nat pi) (Z.of_nat li) in
  substrings_loop string li (seq (Z.to_nat start) (Z.to_nat (stop + 1 - start))) None.

(** the index [L]: for each length, strings by (segment index, segment) *)
Definition index_t := dict nat (dict (nat * str) (list str)).

Section PassJoin.
Variable k : nat.
Variable distance : str -> str -> nat.

(** passjoin.py:246-269: pairs yielded for [A] against the index *)
Definition match_string (sort : bool) (L : index_t) (A : str) : list (str * str) :=
  let s := length A in
  let lo := if sort then s else s - k in
  flat_map (fun l =>
    match dget L l with
    | None => []
    | Some Ll =>
      flat_map (fun '(i, start, len) =>
        flat_map (fun substring =>
          match dget Ll (i, substring) with
          | None => []
          | Some candidates =>
            flat_map (fun B =>
              if (Nat.leb s k && Nat.leb l k) || Nat.leb (distance A B) k then [(A, B)] else []) candidates
          end) (multi_match_aware_substrings k A l i start len)) (partition k l)
    end) (seq lo (s + k + 1 - lo)).

(** passjoin.py:273-276 *)
Definition index_string (L : index_t) (A : str) : index_t :=
  dmodify L (length A) [] (fun Ll =>
    fold_left (fun Ll key => dmodify Ll key [] (fun c => c ++ [A])) (segments k A) Ll).

(** passjoin.py:238-276 clustering *)
Fixpoint passjoin_pairs (sort : bool) (data : list str) (L : index_t) : list (str * str) :=
  match data with
  | [] => []
  | A :: rest => match_string sort L A ++ passjoin_pairs sort rest (index_string L A)
  end.

(** passjoin.py:193-283 passjoin.  [fuzzy] keeps its default (False) in clusters_from_pairs. *)
Definition passjoin (set_order : list str -> list str) (data : list str) (sort : bool)
    (lo : nat) (hi : option nat) (mode : string) : res (list (list str)) :=
  let data := if sort then sorted data else data in
  clusters_from_pairs set_order (passjoin_pairs sort data []) lo hi mode false.
End PassJoin.
