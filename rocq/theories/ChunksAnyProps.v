(** C206: chunk sizes that are any integers *)
From Coq Require Import ZArith String.
From Verif Require Import Base BaseFacts ClustersModel PairwiseModel ChunksAnyModel ChunksAnyProofs.
Open Scope Z_scope.
Open Scope list_scope.
Notation length := List.length.

(** sizes from 0 on: the models of C14, C15 and C17 *)
Theorem C206_natural {A K} (similarity : K -> K -> bool) (key : A -> K) (data : list A) lo hi chunk_size arrival :
  components_z similarity key data lo hi (Z.of_nat chunk_size) arrival = pairwise_connected_components_parallel similarity key data lo hi chunk_size arrival /\
  fuzzy_z similarity key data lo hi (Z.of_nat chunk_size) = pairwise_fuzzy_clusters_parallel similarity key data lo hi chunk_size.
Proof.
  unfold components_z, fuzzy_z, pairwise_connected_components_parallel, pairwise_fuzzy_clusters_parallel. rewrite chunks_z_nat.
  destruct (upper_triangular_matrix_chunk_iter (map key data) chunk_size) as [l|e]; cbn [bind]; [rewrite worker_z_nat|]; split; reflexivity.
Qed.

(** a null size is an error, whatever the data *)
Theorem C206_zero {A K} (similarity : K -> K -> bool) (key : A -> K) (data : list A) lo hi arrival :
  components_z similarity key data lo hi 0 arrival = Err ZeroDivisionError /\ fuzzy_z similarity key data lo hi 0 = Err ZeroDivisionError.
Proof. split; reflexivity. Qed.

(** with a negative size nothing is compared: there is no chunk, whatever the similarity every item stays alone, and no error tells it *)
Theorem C206_negative {A K} (similarity : K -> K -> bool) (key : A -> K) (data : list A) lo hi chunk_size arrival : chunk_size < 0 -> arrival [] = [] ->
  chunks_z (map key data) chunk_size = Ok [] /\
  fuzzy_z similarity key data lo hi chunk_size = Ok [] /\
  components_z similarity key data lo hi chunk_size arrival = Ok (if Nat.leb lo 1 && le_max 1 hi then map (fun x => [x]) data else []).
Proof.
  intros L Ha. split; [apply chunks_z_neg; exact L|]. unfold fuzzy_z, components_z. rewrite chunks_z_neg by exact L. cbn [bind map]. split; [reflexivity|].
  rewrite Ha. unfold parallel_sets, yield_components. cbn [List.concat fold_left]. rewrite alone.
  destruct (Nat.leb lo 1 && le_max 1 hi); [apply read_alone | reflexivity].
Qed.

Example C206_ex : let run := fun chunk_size => components_z (fun _ _ => true) (fun x => x) [1; 2; 3]%nat 2 None chunk_size (fun l => l) in
  run 2 = Ok [[1; 2; 3]]%nat /\ run 0 = Err ZeroDivisionError /\ run (-2) = Ok [] /\ fuzzy_z (fun _ _ => true) (fun x => x) [1; 2; 3]%nat 2 None (-2) = Ok [] /\
  components_z (fun _ _ => true) (fun x => x) [1; 2; 3]%nat 1 None (-2) (fun l => l) = Ok [[1]; [2]; [3]]%nat.
Proof. vm_compute. repeat split. Qed.

Print Assumptions C206_natural.
Print Assumptions C206_zero.
Print Assumptions C206_negative.
