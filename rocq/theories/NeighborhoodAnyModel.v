(** Model of full_AA_SNM and adaptive_sorted_neighborhood (fog/clustering/sorted_neighborhood.py) for windows that are any integers:
    positions may be negative, and python counts them from the end. *)
From Coq Require Import String.
From Verif Require Import Base ClustersModel PairwiseModel SortModel NeighborhoodModel.
Open Scope Z_scope.
Open Scope list_scope.
Notation length := List.length.

Section Any.
Context {A : Type} `{EqDec A}.
Variable set_order : list A -> list A.
Variable similarity : A -> A -> bool.

(** S[i] *)
Definition index_z (S : list A) (i : Z) : res A :=
  let j := if i <? 0 then i + Z.of_nat (length S) else i in
  if j <? 0 then Err IndexError else index S (Z.to_nat j).

(** sorted_neighborhood.py:122-125; returns [last] *)
Fixpoint enlarge_z (fuel : nat) (S : list A) (f first last : Z) : res Z :=
  match fuel with
  | O => Err OutOfFuel
  | S fuel' =>
    let! a := index_z S first in
    let! b := index_z S last in
    if similarity a b then
      let w := last - f + 1 in
      enlarge_z fuel' S f last (last + w - 1)
    else Ok last
  end.

(** sorted_neighborhood.py:130-139; [k] is [w - window] *)
Fixpoint retrench_z (k : nat) (S : list A) (last : Z) : res Z :=
  match k with
  | O => Ok last
  | S k' =>
    let previous := last - 1 in
    let! a := index_z S previous in
    let! b := index_z S last in
    if similarity a b then Ok last else retrench_z k' S previous
  end.

(** sorted_neighborhood.py:118-149 *)
Fixpoint aa_z (fuel : nat) (S : list A) (window first : Z) : res (list (Z * Z)) :=
  match fuel with
  | O => Err OutOfFuel
  | S fuel' =>
    let n := Z.of_nat (length S) in
    let step := window - 1 in
    let last := first + step in
    if last <? n then
      let f := first in
      let! last := enlarge_z fuel S f first last in
      let! last := retrench_z (Z.to_nat (last - f + 1 - window)) S last in
      let! out := aa_z fuel' S window (last + 1) in
      Ok ((f, last) :: out)
    else if first <? n then Ok [(first, n - 1)] else Ok []
  end.

(** range(i, j) *)
Definition range_z (i j : Z) : list Z := map (fun k => i + Z.of_nat k) (seq 0 (Z.to_nat (j - i))).

(** sorted_neighborhood.py:214-227: the pair of records at positions i and j, if similar *)
Definition compare_z (S : list A) (i j : Z) : res (list (A * A)) :=
  let! a := index_z S i in
  let! b := index_z S j in
  Ok (if similarity a b then [(a, b)] else []).

(** sorted_neighborhood.py:207-227 *)
Definition interval_z (S : list A) (interval : Z * Z) : res (list (A * A)) :=
  let '(start, stop) := interval in
  let l := stop - start + 1 in
  if l =? 1 then Ok []
  else if l =? 2 then compare_z S start stop
  else
    let! found := mapM (fun ij => compare_z S (fst ij) (snd ij)) (flat_map (fun i => map (fun j => (i, j)) (range_z (i + 1) (stop + 1))) (range_z start (stop + 1))) in
    Ok (List.concat found).

(** one pass; full_AA_SNM is a generator, but no pair is used before the last one is known *)
Definition adaptive_pairs_z (fuel : nat) (window : Z) (S : list A) : res (list (A * A)) :=
  let! intervals := aa_z fuel S window 0 in
  let! found := mapM (interval_z S) intervals in
  Ok (List.concat found).

(** sorted_neighborhood.py:152-236 *)
Definition adaptive_z (fuel : nat) (once : bool) (data : list A) (key : A -> A -> bool) (keys : option (list (A -> A -> bool)))
    (window : Z) (lo : nat) (hi : option nat) (mode : string) : res (list (list A)) :=
  let multipass_keys := match keys with Some ks => ks | None => [key] end in
  let! pairs := mapM (adaptive_pairs_z fuel window) (sorted_passes once data multipass_keys) in
  clusters_from_pairs set_order (List.concat pairs) lo hi mode (match keys with Some _ => true | None => false end).
End Any.
