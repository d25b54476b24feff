(** C18 - C20, C59: blocking, key collision, intersection index. *)
From Coq Require Import String QArith.
From Verif Require Import Base BaseFacts ClustersModel ClustersSpec ClustersProofs PairwiseModel PairwiseSpec
  PairwiseProofs BlockingModel BlockingSpec BlockingProofs.
Notation length := List.length.
Notation concat := List.concat.
Open Scope nat_scope.
Open Scope string_scope.
Open Scope list_scope.

(** a reordering of the results of [imap_unordered], or none (one process) *)
Definition schedule {X} (arrival : option (list X -> list X)) : Prop :=
  forall r, arrival = Some r -> forall l, Permutation (r l) l.

Section Blocking.
Context {A B : Type} `{EqDec A} `{EqDec B}.

(** C18: the pairs given to the clustering *)
Theorem C18_links block_order similarity (block : A -> B) (blocks : A -> list B) data arrival x y :
  (forall l : list B, Permutation (block_order l) l) -> schedule arrival ->
  (In (x, y) (blocking_pairs similarity (dispatch_block block data) arrival) <->
   block_link (fun x => [block x]) similarity data x y) /\
  (In (x, y) (blocking_pairs similarity (dispatch_blocks block_order blocks data) arrival) <->
   block_link blocks similarity data x y).
Proof.
  exact (fun Hp Ha => conj (dispatch_In block_order Hp similarity (inl block) data arrival x y Ha)
                           (dispatch_In block_order Hp similarity (inr blocks) data arrival x y Ha)).
Qed.

(** C18: clusters.  [blocks_of how] lists the blocks of an item. *)
Theorem C18_components set_order block_order similarity (how : (A -> B) + (A -> list B)) data lo hi arrival :
  (forall l : list A, Permutation (set_order l) l) -> (forall l : list B, Permutation (block_order l) l) ->
  schedule arrival ->
  exists out, blocking set_order block_order similarity how data lo hi arrival "connected_components" = Ok out /\
    is_components (fun x => exists y, block_link (blocks_of how) similarity data x y \/
                                      block_link (blocks_of how) similarity data y x)
      (block_link (blocks_of how) similarity data) lo hi out.
Proof.
  exact (fun Hs Hb => blocking_components set_order Hs block_order Hb similarity how data lo hi arrival).
Qed.

(** C18: neither the number of processes nor any order matters *)
Theorem C18_schedule_independent (so1 so2 : list A -> list A) (bo1 bo2 : list B -> list B)
    similarity how data lo hi arr1 arr2 :
  (forall l, Permutation (so1 l) l) -> (forall l, Permutation (so2 l) l) ->
  (forall l, Permutation (bo1 l) l) -> (forall l, Permutation (bo2 l) l) ->
  schedule arr1 -> schedule arr2 ->
  exists out1 out2,
    blocking so1 bo1 similarity how data lo hi arr1 "connected_components" = Ok out1 /\
    blocking so2 bo2 similarity how data lo hi arr2 "connected_components" = Ok out2 /\
    same_clusters out1 out2.
Proof. exact (blocking_same so1 so2 bo1 bo2 similarity how data lo hi arr1 arr2). Qed.
End Blocking.

Example C18_ex :
  blocking (fun l => l) (fun l => rev l) (fun a b => Nat.leb (b - a) 2)
    (inr (fun n => [n / 5; n / 7])) [1; 3; 4; 5; 6; 8; 12; 20] 2 None (Some (@rev _)) "connected_components" =
  Ok [[5; 4; 6; 8; 3; 1]] /\
  blocking (fun l => l) (fun l : list nat => l) (fun a b => Nat.leb (b - a) 2)
    (inl (fun n => n / 5)) [1; 3; 4; 5; 6; 8; 12; 20] 2 None None "connected_components" =
  Ok [[1; 3; 4]; [5; 6; 8]].
Proof. split; vm_compute; reflexivity. Qed.

Section KeyCollision.
Context {A K : Type} `{EqDec A} `{EqDec K}.
Variable truthy : K -> bool.

(** C19, with [key]: one group per truthy key, all its items, in the order of the data *)
Theorem C19_key (key : A -> K) (data : list A) lo hi :
  exists ks, NoDup ks /\ (forall k, In k ks <-> truthy k = true /\ exists x, In x data /\ key x = k) /\
    key_collision_key truthy key data lo hi =
      filter (fun c => Nat.leb lo (length c) && le_max (length c) hi)
        (map (fun k => filter (fun x => if eq_dec (key x) k then true else false) data) ks).
Proof. exact (key_collision_key_spec truthy key data lo hi). Qed.

(** C59, with [keys] and merge: components of "sharing a key", whatever min_size and max_size are *)
Theorem C59_merge set_order (keys : A -> option (list K)) (data : list A) lo hi :
  (forall l : list A, Permutation (set_order l) l) ->
  exists out, key_collision_keys set_order truthy keys data lo hi true = Ok out /\
    is_components (fun x => In x data) (key_link truthy keys data) 2 None out.
Proof. exact (fun Hs => key_collision_merge set_order Hs truthy keys data lo hi). Qed.

(** C59, with [keys] and without merge *)
Theorem C59_no_merge set_order (keys : A -> option (list K)) (data : list A) lo hi :
  (forall x l, keys x = Some l -> NoDup l) ->
  exists ks, NoDup ks /\
    (forall k, In k ks <-> truthy k = true /\ exists x l, In x data /\ keys x = Some l /\ In k l) /\
    key_collision_keys set_order truthy keys data lo hi false =
      Ok (filter (fun c => Nat.leb lo (length c) && le_max (length c) hi)
        (map (fun k => filter (fun x => match keys x with None => false | Some l => memb k l end) data) ks)).
Proof. exact (key_collision_nomerge set_order truthy keys data lo hi). Qed.
End KeyCollision.

(** C19, with [keys] and merge: min_size and max_size are ignored, a cluster of 3 comes out with max_size = 2 *)
Theorem C19_merge_bounds_refuted : exists (truthy : nat -> bool) (keys : nat -> option (list nat)) data lo hi out c,
  key_collision_keys (fun l => l) truthy keys data lo hi true = Ok out /\ In c out /\
  ~ size_within lo hi (length c).
Proof. exact key_collision_bounds_refuted. Qed.

(** C19, with [keys] and merge, for the default bounds *)
Theorem C19_merge_partial {A K} `{EqDec A} `{EqDec K} (truthy : K -> bool) set_order (keys : A -> option (list K))
    (data : list A) :
  (forall l : list A, Permutation (set_order l) l) ->
  exists out, key_collision_keys set_order truthy keys data 2 None true = Ok out /\
    is_components (fun x => In x data) (key_link truthy keys data) 2 None out.
Proof. exact (fun Hs => key_collision_merge set_order Hs truthy keys data 2 None). Qed.

Example C19_ex :
  key_collision_key (fun k => negb (Nat.eqb k 0)) (fun n => Nat.modulo n 4) [1; 4; 5; 2; 8; 9; 3; 7] 2 (Some 2) =
    [[3; 7]] /\
  key_collision_key (fun k => negb (Nat.eqb k 0)) (fun n => Nat.modulo n 4) [1; 4; 5; 2; 8; 9; 3; 7] 1 None =
    [[1; 5; 9]; [2]; [3; 7]] /\
  key_collision_keys (fun l => l) (fun k => negb (Nat.eqb k 0))
    (fun n => if Nat.eqb n 8 then None else Some [Nat.modulo n 2; Nat.modulo n 3]) [1; 4; 5; 8; 6] 2 None true =
    Ok [[1; 5; 4]].
Proof. repeat split; vm_compute; reflexivity. Qed.

Example C59_ex :
  key_collision_keys (fun l => l) (fun k => negb (Nat.eqb k 0))
    (fun n => Some [Nat.modulo n 2; 10 * Nat.modulo n 3]) [1; 4; 5; 8; 6] 2 None false =
    Ok [[1; 5]; [1; 4]; [5; 8]] /\
  (* repeated keys repeat the item *)
  key_collision_keys (fun l => l) (fun k => true) (fun n : nat => Some [n; n]) [1] 2 None false = Ok [[1; 1]].
Proof. split; vm_compute; reflexivity. Qed.

Section Intersection.
Context {A T : Type} `{EqDec T}.
Variable token_order : list T -> list T.
Hypothesis token_order_perm : forall l, Permutation (token_order l) l.

(** C20: pairs of positions (the later one first); for any radius, the sets must intersect *)
Theorem C20_pairs jaccard radius (keys : list (list T)) i j :
  In (i, j) (intersection_pairs token_order jaccard radius keys) <->
  token_link jaccard radius keys i j /\
  exists a b x, nth_error keys i = Some a /\ nth_error keys j = Some b /\ In x a /\ In x b.
Proof. exact (intersection_pairs_In token_order token_order_perm jaccard radius keys i j). Qed.

(** C20: with a positive radius, all the pairs whose similarity reaches it *)
Theorem C20_positive_radius jaccard radius (keys : list (list T)) i j : (0 < radius)%Q ->
  (In (i, j) (intersection_pairs token_order jaccard radius keys) <-> token_link jaccard radius keys i j).
Proof. exact (intersection_pairs_pos token_order token_order_perm jaccard radius keys i j). Qed.

(** C20: clusters *)
Theorem C20_components (set_order : list nat -> list nat) (data : list A) (jaccard : bool)
    (radius : Q) (key : A -> list T) lo hi :
  (forall l, Permutation (set_order l) l) -> (0 < radius)%Q ->
  exists idx out,
    intersection_index token_order set_order data (if jaccard then "jaccard" else "overlap") radius key lo hi
      "connected_components" = Ok out /\ reads data idx out /\
    is_components (fun i => exists j, token_link jaccard radius (map key data) i j \/ token_link jaccard radius (map key data) j i)
      (token_link jaccard radius (map key data)) lo hi idx.
Proof. exact (intersection_index_components token_order token_order_perm set_order data jaccard radius key lo hi). Qed.

(** C20: only two metrics are known *)
Theorem C20_metrics (set_order : list nat -> list nat) (data : list A) metric radius (key : A -> list T) lo hi mode :
  metric <> "jaccard" -> metric <> "overlap" ->
  intersection_index token_order set_order data metric radius key lo hi mode = Err TypeError.
Proof. exact (intersection_index_metrics token_order set_order data metric radius key lo hi mode). Qed.
End Intersection.

Example C20_ex :
  intersection_pairs (fun l => l) true (1 # 2) [[1; 2; 3]; [3; 1; 1]; [4]; [4; 5]; []; [2; 3]] =
    [(1, 0); (3, 2); (5, 0)] /\
  intersection_pairs (fun l => l) false 1 [[1; 2; 3]; [3; 1; 1]; [4]; [4; 5]; []; [2; 3]] =
    [(1, 0); (3, 2); (5, 0)] /\
  intersection_index (fun l => l) (fun l => l) [[1; 2; 3]; [3; 1; 1]; [4]; [4; 5]; []; [2; 3]] "jaccard" (1 # 2)
    (fun x => x) 3 None "connected_components" = Ok [[[3; 1; 1]; [1; 2; 3]; [2; 3]]].
Proof. repeat split; vm_compute; reflexivity. Qed.

Print Assumptions C18_links.
Print Assumptions C18_components.
Print Assumptions C18_schedule_independent.
Print Assumptions C19_key.
Print Assumptions C19_merge_bounds_refuted.
Print Assumptions C19_merge_partial.
Print Assumptions C59_merge.
Print Assumptions C59_no_merge.
Print Assumptions C20_pairs.
Print Assumptions C20_positive_radius.
Print Assumptions C20_components.
Print Assumptions C20_metrics.
