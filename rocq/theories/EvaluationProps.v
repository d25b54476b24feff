(** C42, C43, C65: evaluation of clusterings *)
From Coq Require Import QArith.
From Verif Require Import Base MetricsModel EvaluationModel EvaluationSpec EvaluationProofs.
Open Scope nat_scope.

Section BestMatching.
Context {T : Type} `{EqDec T}.
Implicit Types truth predicted : list (list T).

(** C42: the function accepts exactly the valid inputs and only ever raises TypeError *)
Theorem C42_errors truth predicted allow :
  (valid truth predicted allow <-> exists s, best_matching_macro_average truth predicted allow = Ok s) /\
  (forall e, best_matching_macro_average truth predicted allow = Err e -> e = TypeError).
Proof. exact (errors_iff truth predicted allow). Qed.

(** C42: a partition compared with itself *)
Theorem C42_identity truth allow :
  truth <> [] -> Forall (fun c => c <> []) truth -> NoDup (concat truth) ->
  exists p r f, best_matching_macro_average truth truth allow = Ok (p, r, f) /\ (p == 1 /\ r == 1 /\ f == 1)%Q.
Proof. exact (identity_score truth allow). Qed.

(** C42: the order (hence the labels) of the clusters does not matter *)
Theorem C42_clusters_order truth truth' predicted predicted' allow p r f :
  Permutation truth truth' -> Permutation predicted predicted' ->
  best_matching_macro_average truth predicted allow = Ok (p, r, f) ->
  exists p' r' f', best_matching_macro_average truth' predicted' allow = Ok (p', r', f') /\ (p == p' /\ r == r' /\ f == f')%Q.
Proof. exact (clusters_order truth truth' predicted predicted' allow p r f). Qed.

(** C65: each truth cluster is matched with a predicted cluster of maximal F1, and the three scores are averages over
    the truth clusters; items out of the truth are not counted *)
Theorem C65_value truth predicted allow p r f :
  best_matching_macro_average truth predicted allow = Ok (p, r, f) ->
  exists cs, Forall2 (best_match truth predicted) truth cs /\
    (p == average (map (fun tc => precision_of truth (fst tc) (snd tc)) (combine truth cs)))%Q /\
    (r == average (map (fun tc => recall_of (fst tc) (snd tc)) (combine truth cs)))%Q /\
    (f == average (map (fun tc => f1_of truth (fst tc) (snd tc)) (combine truth cs)))%Q.
Proof. exact (value_spec truth predicted allow p r f). Qed.

(** C65: the scores are in [0, 1] when no truth cluster repeats an item *)
Theorem C65_bounded truth predicted allow p r f : Forall (@NoDup T) truth ->
  best_matching_macro_average truth predicted allow = Ok (p, r, f) -> (0 <= p <= 1 /\ 0 <= r <= 1 /\ 0 <= f <= 1)%Q.
Proof. exact (bounded_score truth predicted allow p r f). Qed.

(** C65: perfect scores mean that each truth cluster is one of the predicted ones, up to items out of the truth *)
Theorem C65_perfect truth predicted allow p r f : Forall (@NoDup T) truth ->
  best_matching_macro_average truth predicted allow = Ok (p, r, f) ->
  ((forall t, In t truth -> exists c, In c predicted /\ Permutation t (filter (fun x => memb x (concat truth)) c)) ->
   (p == 1 /\ r == 1 /\ f == 1)%Q) /\
  ((f == 1)%Q ->
   forall t, In t truth -> exists c, In c predicted /\ Permutation t (filter (fun x => memb x (concat truth)) c)).
Proof. exact (perfect_score truth predicted allow p r f). Qed.

(** C65: the F-score does not depend on the order of the items inside the clusters *)
Theorem C65_items_order truth truth' predicted predicted' allow p r f :
  Forall2 (@Permutation T) truth truth' -> Forall2 (@Permutation T) predicted predicted' ->
  best_matching_macro_average truth predicted allow = Ok (p, r, f) ->
  exists p' r' f', best_matching_macro_average truth' predicted' allow = Ok (p', r', f') /\ (f == f')%Q.
Proof. exact (items_order truth truth' predicted predicted' allow p r f). Qed.
End BestMatching.
Print Assumptions C42_errors.
Print Assumptions C42_identity.
Print Assumptions C42_clusters_order.
Print Assumptions C65_value.
Print Assumptions C65_bounded.
Print Assumptions C65_perfect.
Print Assumptions C65_items_order.

(** C42: a repeated item in a truth cluster is accepted and gives a precision of 2 *)
Theorem C42_range_refuted : exists (truth predicted : list (list nat)) p r f,
  best_matching_macro_average truth predicted false = Ok (p, r, f) /\ ~ (p <= 1)%Q.
Proof.
  exists [[0; 0]], [[0]]. eexists _, _, _. split; [vm_compute; reflexivity|]. vm_compute. intros E. exact (E eq_refl).
Qed.
Print Assumptions C42_range_refuted.

(** C42: when two predicted clusters have the same F1, the first met decides precision and recall *)
Theorem C42_items_order_refuted : exists (truth truth' predicted : list (list nat)) p r f p' r' f',
  Forall2 (@Permutation nat) truth truth' /\
  best_matching_macro_average truth predicted false = Ok (p, r, f) /\
  best_matching_macro_average truth' predicted false = Ok (p', r', f') /\ ~ (p == p')%Q /\ ~ (r == r')%Q.
Proof.
  exists [[0; 1; 2; 3; 4; 5; 6; 7]; seq 8 17], [[2; 1; 0; 3; 4; 5; 6; 7]; seq 8 17],
    [[0; 1; 8; 9]; [2; 3; 4; 5; 10; 11; 12; 13; 14; 15; 16; 17; 18; 19; 20; 21]; [6; 7; 22; 23; 24]].
  eexists _, _, _, _, _, _. split; [|split; [vm_compute; reflexivity|split; [vm_compute; reflexivity|split; vm_compute; discriminate]]].
  constructor; [|constructor; [apply Permutation_refl|constructor]].
  eapply Permutation_trans; [apply perm_skip, perm_swap|]. eapply Permutation_trans; [apply perm_swap|]. apply perm_skip, perm_swap.
Qed.
Print Assumptions C42_items_order_refuted.

Example best_matching_repository_tests :
  let truth := [[11; 12; 13]; [21; 22]; [31]; [41; 42; 43; 44]] in
  let clusters := [[11; 21; 12; 13]; [22; 31]; [41; 42; 43; 44]] in
  let more := [[11; 21; 12; 13]; [22; 31; 51]; [41; 42; 43; 44; 52]; [53; 54]] in
  (match best_matching_macro_average truth clusters false with
   | Ok (p, r, f) => p == 11 # 16 /\ r == 7 # 8 /\ f == 127 # 168
   | Err _ => False end)%Q /\
  best_matching_macro_average truth clusters false = best_matching_macro_average truth more true /\
  best_matching_macro_average [[11]] [[12]] false = Err TypeError /\
  best_matching_macro_average [[11; 21]] [[11]; [21]; [11]] false = Err TypeError /\
  best_matching_macro_average [[11]; []] [[11]] false = Err TypeError /\
  best_matching_macro_average [[11]] [[11]; []] false = Err TypeError /\
  best_matching_macro_average [] [[11]] false = Err TypeError /\
  best_matching_macro_average [[11]] [] false = Err TypeError /\
  best_matching_macro_average [[11]] [[11; 21]] false = Err TypeError.
Proof. vm_compute. repeat split; reflexivity. Qed.

Example best_matching_non_vacuous : valid [[1; 2]; [3]] [[1]; [2; 3; 4]] true /\ ~ valid [[1; 2]; [3]] [[1]; [2; 3; 4]] false.
Proof.
  split; [apply errors_iff; eexists; vm_compute; reflexivity|].
  intros Hv. apply errors_iff in Hv. destruct Hv as (s & E). vm_compute in E. discriminate.
Qed.

(** C43: one cluster per distinct label, by first appearance, holding its items in order *)
Theorem C43_labels_to_clusters {I L} `{EqDec L} (labels : list (I * L)) :
  labels_to_clusters labels = map (labelled labels) (set_of (map snd labels)).
Proof. exact (labels_to_clusters_spec labels). Qed.
Print Assumptions C43_labels_to_clusters.

(** C43: the label of a key is the index of the last cluster having it *)
Theorem C43_clusters_to_labels {I K} `{EqDec K} (key : I -> K) clusters k i :
  dget (clusters_to_labels key clusters) k = Some i <->
  (exists c x, nth_error clusters i = Some c /\ In x c /\ key x = k) /\
  (forall j c x, i < j -> nth_error clusters j = Some c -> In x c -> key x <> k).
Proof. exact (clusters_to_labels_last key clusters k i). Qed.
Print Assumptions C43_clusters_to_labels.

(** C43: ... hence the index of its cluster when the clusters are disjoint *)
Theorem C43_disjoint {I K} `{EqDec K} (key : I -> K) clusters i c x : NoDup (map key (concat clusters)) ->
  nth_error clusters i = Some c -> In x c -> dget (clusters_to_labels key clusters) (key x) = Some i.
Proof. exact (clusters_to_labels_disjoint key clusters i c x). Qed.
Print Assumptions C43_disjoint.

(** C43: from clusters to labels and back *)
Theorem C43_round_trip_clusters {I K} `{EqDec K} (key : I -> K) clusters :
  NoDup (map key (concat clusters)) -> Forall (fun c => c <> []) clusters ->
  labels_to_clusters (clusters_to_labels key clusters) = map (map key) clusters.
Proof. exact (round_trip key clusters). Qed.
Print Assumptions C43_round_trip_clusters.

(** C43: from labels to clusters and back: the new label is the rank of the old one among the distinct labels *)
Theorem C43_round_trip_labels {I L} `{EqDec I} `{EqDec L} (labels : list (I * L)) x l i :
  NoDup (map fst labels) -> In (x, l) labels ->
  (dget (clusters_to_labels (fun x => x) (labels_to_clusters labels)) x = Some i <->
   nth_error (set_of (map snd labels)) i = Some l).
Proof. exact (labels_round_trip labels x l i). Qed.
Print Assumptions C43_round_trip_labels.

(** C43: flat lists the labels of 0 .. n-1 *)
Theorem C43_flat (d : dict Z nat) : NoDup (dkeys d) -> (forall k, In k (dkeys d) -> (0 <= k < Z.of_nat (length d))%Z) ->
  exists r, flat_labels d = Ok r /\ length r = length d /\ forall j, j < length d -> nth_error r j = Some (dget d (Z.of_nat j)).
Proof. exact (flat_labels_spec d). Qed.
Print Assumptions C43_flat.

Example labels_repository_tests :
  labels_to_clusters [(0, 1); (1, 1); (2, 3); (3, 3); (4, 2)] = [[0; 1]; [2; 3]; [4]] /\
  labels_to_clusters (enumerate [1; 1; 3; 3; 2]) = [[0; 1]; [2; 3]; [4]] /\
  clusters_to_labels (fun x => x) [[0; 1]; [2; 3]; [4]] = [(0, 0); (1, 0); (2, 1); (3, 1); (4, 2)] /\
  clusters_to_labels (fun x => x * 10) [[0; 1]; [2; 3]; [4]] = [(0, 0); (10, 0); (20, 1); (30, 1); (40, 2)] /\
  flat_labels (clusters_to_labels (fun x => x) [[2; 3]; [0; 1]; [4]]%Z) = Ok [Some 1; Some 1; Some 0; Some 0; Some 2].
Proof. vm_compute. repeat split; reflexivity. Qed.
