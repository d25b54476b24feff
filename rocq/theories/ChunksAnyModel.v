(** Model of upper_triangular_matrix_chunk_iter (fog/clustering/utils.py) and of the functions of fog/clustering/pairwise.py that use it,
    for chunk sizes that are any integers. *)
From Coq Require Import ZArith.
From Verif Require Import Base ClustersModel PairwiseModel.
Open Scope Z_scope.
Open Scope list_scope.
Notation length := List.length.

(** range(n) *)
Definition range_of (n : Z) : list Z := map Z.of_nat (seq 0 (Z.to_nat n)).

(** data[i:j] *)
Definition slice_z {A} (i j : Z) (data : list A) : list A :=
  let n := Z.of_nat (length data) in
  let bound := fun k => Z.min n (if k <? 0 then Z.max 0 (k + n) else k) in
  slice (Z.to_nat (bound i)) (Z.to_nat (bound j)) data.

(** math.ceil(n / chunk_size), on exact numbers *)
Definition ceil_z (n chunk_size : Z) : Z := - ((- n) / chunk_size).

(** utils.py:188-218 *)
Definition chunks_z {A} (data : list A) (chunk_size : Z) : res (list (list A * list A * Z * Z)) :=
  let n := Z.of_nat (length data) in
  if chunk_size =? 0 then Err ZeroDivisionError
  else
    let c := ceil_z n chunk_size in
    Ok (flat_map (fun j =>
          let j_offset := j * chunk_size in
          let j_limit := j_offset + chunk_size in
          map (fun i =>
            let i_offset := i * chunk_size in
            let i_limit := i_offset + chunk_size in
            (slice_z i_offset i_limit data, if negb (i_offset =? j_offset) then slice_z j_offset j_limit data else [], i_offset, j_offset))
          (range_of (Z.min (j + 1) c)))
        (range_of c)).

Section Pairwise.
Context {A K : Type}.
Variable similarity : K -> K -> bool.

(** pairwise.py:118-143: the offsets, multiples of a positive size, are not negative when there is a chunk *)
Definition worker_z (payload : list K * list K * Z * Z) : list (nat * nat) :=
  let '(rows, cols, offset_i, offset_j) := payload in
  pairwise_worker similarity (rows, cols, Z.to_nat offset_i, Z.to_nat offset_j).

(** pairwise.py:268-368 with processes > 1 *)
Definition components_z (key : A -> K) (data : list A) (lo : nat) (hi : option nat) (chunk_size : Z)
    (arrival : list (list (nat * nat)) -> list (list (nat * nat))) : res (list (list A)) :=
  let! chunks := chunks_z (map key data) chunk_size in
  yield_components data (parallel_sets (length data) (arrival (map worker_z chunks))) lo hi.

(** pairwise.py:146-265 with processes > 1 *)
Definition fuzzy_z (key : A -> K) (data : list A) (lo : nat) (hi : option nat) (chunk_size : Z) : res (list (list A)) :=
  let! chunks := chunks_z (map key data) chunk_size in
  yield_fuzzy data (List.concat (map worker_z chunks)) lo hi.
End Pairwise.
