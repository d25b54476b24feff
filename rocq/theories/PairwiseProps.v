(** C14 - C17: pairwise clustering (fog/clustering/pairwise.py and the chunks of utils.py). *)
From Coq Require Import String Sorted.
From Verif Require Import Base BaseFacts ClustersModel ClustersSpec ClustersProofs
  PairwiseModel PairwiseSpec PairwiseProofs.

(** C14: every pair of positions i < j is compared, exactly once; a null chunk size raises. *)
Theorem C14_chunks {A} (data : list A) chunk_size chunks : 1 <= chunk_size ->
  upper_triangular_matrix_chunk_iter data chunk_size = Ok chunks ->
  NoDup (flat_map chunk_cells chunks) /\
  forall i j, In (i, j) (flat_map chunk_cells chunks) <-> i < j /\ j < List.length data.
Proof. exact (chunks_cover data chunk_size chunks). Qed.

(** C14: the rows and columns of a chunk are the data at the offsets of the chunk *)
Theorem C14_chunk_contents {A} (data : list A) chunk_size chunks rows cols oi oj : 1 <= chunk_size ->
  upper_triangular_matrix_chunk_iter data chunk_size = Ok chunks ->
  In (rows, cols, oi, oj) chunks ->
  rows = slice oi (oi + chunk_size) data /\
  cols = (if Nat.eqb oi oj then [] else slice oj (oj + chunk_size) data).
Proof. exact (chunks_contents data chunk_size chunks rows cols oi oj). Qed.

Theorem C14_total {A} (data : list A) chunk_size : 1 <= chunk_size ->
  exists chunks, upper_triangular_matrix_chunk_iter data chunk_size = Ok chunks.
Proof. exact (chunks_total data chunk_size). Qed.

Example C14_ex : exists chunks,
  upper_triangular_matrix_chunk_iter [10; 11; 12; 13; 14] 2 = Ok chunks /\
  flat_map chunk_cells chunks =
    [(0,1); (0,2); (0,3); (1,2); (1,3); (2,3); (0,4); (1,4); (2,4); (3,4)].
Proof. eexists. split; vm_compute; reflexivity. Qed.

(** C15: sequential run *)
Theorem C15_serial {A K} (similarity : K -> K -> bool) (key : A -> K) (data : list A) lo hi :
  exists idx out, pairwise_connected_components similarity key data lo hi = Ok out /\ reads data idx out /\
    is_components (fun i => i < List.length data) (similar_at similarity (map key data)) lo hi idx.
Proof. exact (pairwise_cc_correct similarity key data lo hi). Qed.

(** C15: several processes, any order of arrival of the results of workers, any chunk size *)
Theorem C15_parallel {A K} (similarity : K -> K -> bool) (key : A -> K) (data : list A) lo hi
    chunk_size arrival :
  1 <= chunk_size -> (forall l, Permutation (arrival l) l) ->
  exists idx out,
    pairwise_connected_components_parallel similarity key data lo hi chunk_size arrival = Ok out /\
    reads data idx out /\
    is_components (fun i => i < List.length data) (similar_at similarity (map key data)) lo hi idx.
Proof. exact (pairwise_cc_parallel_correct similarity key data lo hi chunk_size arrival). Qed.

(** C15: hence the same clusters as in a sequential run *)
Theorem C15_schedule_independent {A K} (similarity : K -> K -> bool) (key : A -> K) (data : list A) lo hi
    chunk_size arrival :
  1 <= chunk_size -> (forall l, Permutation (arrival l) l) ->
  exists out1 out2,
    pairwise_connected_components similarity key data lo hi = Ok out1 /\
    pairwise_connected_components_parallel similarity key data lo hi chunk_size arrival = Ok out2 /\
    same_clusters out1 out2.
Proof. exact (pairwise_cc_same similarity key data lo hi chunk_size arrival). Qed.

Definition ex_close (a b : nat) : bool := Nat.leb (a - b + (b - a)) 1.

Example C15_ex :
  pairwise_connected_components ex_close (fun x => x) [1; 7; 2; 3; 8; 20] 2 None = Ok [[1; 2; 3]; [7; 8]] /\
  pairwise_connected_components_parallel ex_close (fun x => x) [1; 7; 2; 3; 8; 20] 2 None 2 (@rev _)
    = Ok [[1; 2; 3]; [7; 8]].
Proof. split; vm_compute; reflexivity. Qed.

(** C16: characterisation of what the leader mode yields, and of its failure: the clusters of the
    leaders, in order, those of fewer than min_size items (and the leaders alone) left out, up to the first
    cluster that has more than max_size items, where the function raises AttributeError. *)
Theorem C16_leader {A} (similarity : A -> A -> bool) (data : list A) lo hi :
  exists leaders out, are_leaders similarity data leaders /\ StronglySorted lt leaders /\
    let clusters := map (leader_cluster similarity data leaders) leaders in
    pairwise_leader similarity data lo hi
      = (out, if forallb (cluster_fits hi) clusters then None else Some AttributeError) /\
    reads data (filter (cluster_kept lo) (takewhile (cluster_fits hi) clusters)) out.
Proof. exact (pairwise_leader_correct similarity data lo hi). Qed.

(** C16: the clusters of the leaders partition the positions of the data *)
Theorem C16_leader_partition {A} (similarity : A -> A -> bool) (data : list A) leaders :
  are_leaders similarity data leaders -> NoDup leaders ->
  Permutation (List.concat (map (leader_cluster similarity data leaders) leaders)) (seq 0 (List.length data)).
Proof. exact (leader_clusters_partition similarity data leaders). Qed.

(** C16: without max_size nothing fails *)
Theorem C16_leader_total {A} (similarity : A -> A -> bool) (data : list A) lo :
  snd (pairwise_leader similarity data lo None) = None.
Proof. exact (pairwise_leader_total similarity data lo). Qed.

(** C16 claims success for any size bounds: refuted, an oversized cluster raises *)
Theorem C16_max_size_refuted :
  exists data : list nat, snd (pairwise_leader ex_close data 2 (Some 2)) = Some AttributeError.
Proof. exists [2; 1; 3]. vm_compute. reflexivity. Qed.

Example C16_ex : pairwise_leader ex_close [2; 1; 3; 9; 4; 10] 2 None = ([[2; 1; 3]; [9; 10]], None).
Proof. vm_compute. reflexivity. Qed.

(** C17: sequential and parallel runs both give stars that cover *)
Theorem C17_serial {A K} (similarity : K -> K -> bool) (key : A -> K) (data : list A) lo hi :
  exists idx out, pairwise_fuzzy_clusters similarity key data lo hi = Ok out /\ reads data idx out /\
    are_stars (similar_positions similarity (map key data)) lo hi idx.
Proof. exact (pairwise_fuzzy_correct similarity key data lo hi). Qed.

Theorem C17_parallel {A K} (similarity : K -> K -> bool) (key : A -> K) (data : list A) lo hi chunk_size :
  1 <= chunk_size ->
  exists idx out, pairwise_fuzzy_clusters_parallel similarity key data lo hi chunk_size = Ok out /\
    reads data idx out /\
    are_stars (similar_positions similarity (map key data)) lo hi idx.
Proof. exact (pairwise_fuzzy_parallel_correct similarity key data lo hi chunk_size). Qed.

(** C17 claims the same clusters for any number of processes: refuted *)
Definition ex_edges (a b : nat) : bool :=
  memb (a, b) [(0, 1); (1, 9); (2, 9); (2, 3)].

Theorem C17_processes_refuted :
  exists (similarity : nat -> nat -> bool) data chunk_size out1 out2,
    pairwise_fuzzy_clusters similarity (fun x => x) data 2 None = Ok out1 /\
    pairwise_fuzzy_clusters_parallel similarity (fun x => x) data 2 None chunk_size = Ok out2 /\
    ~ same_clusters out1 out2.
Proof.
  exists ex_edges, (seq 0 10), 4, [[0; 1]; [9; 1; 2]; [3; 2]], [[0; 1]; [2; 3; 9]].
  split; [vm_compute; reflexivity|]. split; [vm_compute; reflexivity|].
  intros Hs. apply same_clusters_length in Hs. discriminate.
Qed.

(** the dispatcher *)
Theorem C17_unknown_mode {A} (similarity : A -> A -> bool) data lo hi mode :
  ~ In mode ["leader"; "fuzzy_clusters"; "connected_components"]%string ->
  pairwise similarity data lo hi mode = ([], Some TypeError).
Proof. exact (pairwise_unknown similarity data lo hi mode). Qed.

Theorem C17_known_modes {A} (similarity : A -> A -> bool) data lo :
  forall mode, In mode ["leader"; "fuzzy_clusters"; "connected_components"]%string ->
  snd (pairwise similarity data lo None mode) = None.
Proof. exact (pairwise_known similarity data lo). Qed.

Print Assumptions C14_chunks.
Print Assumptions C14_chunk_contents.
Print Assumptions C14_total.
Print Assumptions C15_serial.
Print Assumptions C15_parallel.
Print Assumptions C15_schedule_independent.
Print Assumptions C16_leader.
Print Assumptions C16_leader_partition.
Print Assumptions C16_leader_total.
Print Assumptions C16_max_size_refuted.
Print Assumptions C17_serial.
Print Assumptions C17_parallel.
Print Assumptions C17_processes_refuted.
Print Assumptions C17_unknown_mode.
Print Assumptions C17_known_modes.
