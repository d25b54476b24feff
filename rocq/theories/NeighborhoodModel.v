(** Model of fog/clustering/sorted_neighborhood.py *)
From Coq Require Import String.
From Verif Require Import Base ClustersModel PairwiseModel SortModel.
Open Scope nat_scope.
Open Scope string_scope.
Open Scope list_scope.
Notation length := List.length.
Notation concat := List.concat.

Section Neighborhood.
Context {A : Type} `{EqDec A}.
Variable set_order : list A -> list A.
(** the result of make_similarity_function *)
Variable similarity : A -> A -> bool.

(** sorted_neighborhood.py:86-89, 202-205: one sorted copy of the data per key.  A key is given by the
    comparison of keys, [leb a b] being [key(a) <= key(b)].  [once]: data is an iterator (a generator,
    a file, ...), which the first pass exhausts. *)
Fixpoint sorted_passes (once : bool) (data : list A) (keys : list (A -> A -> bool)) : list (list A) :=
  match keys with
  | [] => []
  | k :: keys' => sort_by k data :: sorted_passes once (if once then [] else data) keys'
  end.

(** sorted_neighborhood.py:96-99, 217-218, 223-227: the pair of records at positions i and j, if similar *)
Definition compare (S : list A) (i j : nat) : list (A * A) :=
  match nth_error S i, nth_error S j with
  | Some a, Some b => if similarity a b then [(a, b)] else []
  | _, _ => []
  end.

(** python [range(i, j)] *)
Definition range (i j : nat) : list nat := seq i (j - i).

(** sorted_neighborhood.py:89-99 *)
Definition window_pairs (window : nat) (S : list A) : list (A * A) :=
  let n := length S in
  flat_map (fun i => flat_map (compare S i) (range (i + 1) (Nat.min n (i + window)))) (range 0 n).

(** sorted_neighborhood.py:30-108 sorted_neighborhood.  [keys]: None or the list of comparisons; [key]
    is the comparison of the single key. *)
Definition sorted_neighborhood (once : bool) (data : list A) (key : A -> A -> bool)
    (keys : option (list (A -> A -> bool))) (window lo : nat) (hi : option nat) (mode : string)
    : res (list (list A)) :=
  let multipass_keys := match keys with Some ks => ks | None => [key] end in
  clusters_from_pairs set_order (flat_map (window_pairs window) (sorted_passes once data multipass_keys))
    lo hi mode (match keys with Some _ => true | None => false end).

(** sorted_neighborhood.py:122-125, the enlargement loop; returns [last].  Reading past the end is
    python's IndexError.  [w - 1 = last - f]. *)
Fixpoint enlarge (fuel : nat) (S : list A) (f first last : nat) : res nat :=
  match fuel with
  | O => Err OutOfFuel
  | S fuel' =>
    let! a := index S first in
    let! b := index S last in
    if similarity a b then enlarge fuel' S f last (last + (last - f)) else Ok last
  end.

(** sorted_neighborhood.py:130-139, the retrenchment loop; [k] is [w - window] *)
Fixpoint retrench (k : nat) (S : list A) (last : nat) : res nat :=
  match k with
  | O => Ok last
  | S k' =>
    let! a := index S (last - 1) in
    let! b := index S last in
    if similarity a b then Ok last else retrench k' S (last - 1)
  end.

(** sorted_neighborhood.py:118-149, the outer loop.  [step] is [window - 1]: window is at least 1. *)
Fixpoint aa_loop (fuel : nat) (S : list A) (step first : nat) : res (list (nat * nat)) :=
  match fuel with
  | O => Err OutOfFuel
  | S fuel' =>
    let n := length S in
    let last := first + step in
    if Nat.ltb last n then
      let f := first in
      let! last := enlarge fuel S f first last in
      let! last := retrench (last - f - step) S last in
      let! out := aa_loop fuel' S step (last + 1) in
      Ok ((f, last) :: out)
    else if Nat.ltb first n then Ok [(first, n - 1)] else Ok []
  end.

(** sorted_neighborhood.py:111-149 full_AA_SNM; [fuel] bounds every loop *)
Definition full_AA_SNM (fuel : nat) (S : list A) (step : nat) : res (list (nat * nat)) :=
  aa_loop fuel S step 0.

(** sorted_neighborhood.py:207-227 *)
Definition interval_pairs (S : list A) (interval : nat * nat) : list (A * A) :=
  let '(start, stop) := interval in
  let l := stop - start + 1 in
  if Nat.eqb l 1 then []
  else if Nat.eqb l 2 then compare S start stop
  else flat_map (fun i => flat_map (compare S i) (range (i + 1) (stop + 1))) (range start (stop + 1)).

Definition adaptive_pairs (fuel : nat) (step : nat) (S : list A) : res (list (A * A)) :=
  let! intervals := full_AA_SNM fuel S step in
  Ok (flat_map (interval_pairs S) intervals).

(** sorted_neighborhood.py:152-236 adaptive_sorted_neighborhood, with window = step + 1.  An exception
    of the generator of pairs goes through clusters_from_pairs before anything is yielded. *)
Definition adaptive_sorted_neighborhood (fuel : nat) (once : bool) (data : list A) (key : A -> A -> bool)
    (keys : option (list (A -> A -> bool))) (step lo : nat) (hi : option nat) (mode : string)
    : res (list (list A)) :=
  let multipass_keys := match keys with Some ks => ks | None => [key] end in
  let! pairs := mapM (adaptive_pairs fuel step) (sorted_passes once data multipass_keys) in
  clusters_from_pairs set_order (concat pairs) lo hi mode
    (match keys with Some _ => true | None => false end).
End Neighborhood.
