(** C154: nn_descent_full with a seed, python's heapq and floats. *)
From Coq Require Import QArith Qround Permutation Lia Lqa String.
From Verif Require Import Base BaseFacts ClustersModel ClustersSpec PairwiseModel LevModel GraphModel MetricsModel StringsModel SortModel BlockingSpec PairwiseSpec NNDescentModel NNDescentSpec NNDescentFullProofs NNDescentProps HeapModel HeapSpec HeapProofs HeapProps
  FloatModel FloatProofs FloatMetricsProofs FloatEvalProofs RandomModel RandomDrawProofs SeededModel SeededProofs SeededFullModel SeededFullProofs.
Open Scope nat_scope.
Open Scope list_scope.
Notation length := List.length.
Local Open Scope string_scope.
Local Open Scope list_scope.

(** a run that comes to its end is one of NNDescentModel, for some draws, and for a sampling rate and a threshold whose products need no rounding *)
Theorem C154_draws {A} set_order (similarity distance : option (A -> A -> Q)) V tries fuel turns a k radius rho delta lo hi mode :
  let kk := match k with Some k => k | None => Nat.log2 (length V) end in
  nn_descent_full_seeded set_order similarity distance V tries fuel turns a k radius rho delta lo hi mode <> Err OutOfFuel ->
  exists draws later rho' delta', Forall (fun d => d < length V) draws /\
    (rho' * inject_Z (Z.of_nat kk) == fl (rho * inject_Z (Z.of_nat kk)))%Q /\
    (delta' * inject_Z (Z.of_nat (length V * kk)) == fl (delta * inject_Z (Z.of_nat (length V * kk))))%Q /\
    nn_descent_full set_order (heapify full_lt) (heapreplace full_lt) similarity distance V turns draws later k radius rho' delta' lo hi mode =
      nn_descent_full_seeded set_order similarity distance V tries fuel turns a k radius rho delta lo hi mode.
Proof.
  intros kk. unfold nn_descent_full_seeded, nn_descent_full. destruct distance as [d|]; [apply descent_full_seeded_is|]. destruct similarity as [s|]; [apply descent_full_seeded_is|].
  unfold call_none_seeded, call_none. destruct (exact_product rho kk) as (rho' & R). destruct (exact_product delta (length V * kk)) as (delta' & D).
  set (ko := match k with Some k => Ok k | None => match V with [] => Err ValueError | _ => _ end end). destruct ko as [k'|e] eqn:Ek; cbn [bind].
  - destruct (Nat.eqb_spec (length V * k') 0) as [Z|Z]; [apply descent_full_seeded_is|]. intros _.
    destruct (sample_seeded_is tries (length V) k' 0 fuel [] (seed a)) as (ds & F & B); [nia|apply sound_seed|]. exists ds, (fun _ => 0), rho', delta'. repeat split; auto.
    destruct (sample_seeded _ _ _ _ _ _ _) as [[out g]|e]; cbn [bind].
    + destruct B as [_ B]. specialize (B []). rewrite app_nil_r in B. rewrite B. reflexivity.
    + destruct B as [-> ->]. reflexivity.
  - intros _. exists [], (fun _ => 0), rho', delta'. repeat split; auto.
Qed.
Print Assumptions C154_draws.

(** the clusters are made of pairs within the radius *)
Theorem C154_links {A} `{EqDec A} set_order (similarity : option (A -> A -> Q)) (distance : A -> A -> Q) V tries fuel turns a k radius rho delta lo hi out :
  (forall l, Permutation (set_order l) l) -> (forall x y, distance x y == distance y x)%Q ->
  nn_descent_full_seeded set_order similarity (Some distance) V tries fuel turns a k radius rho delta lo hi "connected_components" = Ok out ->
  exists pairs clusters, (forall i j, In (i, j) pairs -> i <> j /\ exists x y, nth_error V i = Some x /\ nth_error V j = Some y /\ (distance x y <= radius)%Q) /\
    is_components (fun i => exists j, In (i, j) pairs \/ In (j, i) pairs) (fun i j => In (i, j) pairs) lo hi clusters /\ reads V clusters out.
Proof.
  intros P S E. destruct (C154_draws set_order similarity (Some distance) V tries fuel turns a k radius rho delta lo hi "connected_components") as (draws & later & rho' & delta' & F & _ & _ & G); [rewrite E; discriminate|].
  rewrite E in G. revert G. apply C140_nn_descent_full; auto. apply Forall_forall. exact F.
Qed.
Print Assumptions C154_links.

(** whatever the seed, it never ends on no data, without neighbors to look for (one item and the default number, for instance) or without a positive delta *)
Theorem C154_endless {A} set_order (similarity distance : option (A -> A -> Q)) V tries fuel turns a k radius rho delta lo hi mode out : (forall l, Permutation (set_order l) l) ->
  length V = 0 \/ match k with Some k => k | None => Nat.log2 (length V) end = 0 \/ (delta <= 0)%Q ->
  nn_descent_full_seeded set_order similarity distance V tries fuel turns a k radius rho delta lo hi mode <> Ok out.
Proof.
  intros P Z E. destruct (C154_draws set_order similarity distance V tries fuel turns a k radius rho delta lo hi mode) as (draws & later & rho' & delta' & F & _ & D & G); [rewrite E; discriminate|].
  rewrite E in G. set (kk := match k with Some k => k | None => Nat.log2 (length V) end) in *. revert G. apply C79_full_endless; auto.
  fold kk. destruct (Nat.eq_dec (length V) 0); [auto|]. destruct (Nat.eq_dec kk 0); [auto|]. right. right. destruct Z as [Z|[Z|Z]]; try contradiction.
  assert (N : (0 < inject_Z (Z.of_nat (length V * kk)))%Q) by (change 0%Q with (inject_Z 0); rewrite <- Zlt_Qlt; nia).
  assert (L : (fl (delta * inject_Z (Z.of_nat (length V * kk))) <= 0)%Q). { apply fl_le; [apply float53_0|]. nra. }
  rewrite <- D in L. nra.
Qed.
Print Assumptions C154_endless.

(** otherwise it raises nothing *)
Theorem C154_raises_nothing {A} `{EqDec A} set_order (similarity distance : option (A -> A -> Q)) V tries fuel turns a k radius rho delta lo hi e : (forall l, Permutation (set_order l) l) ->
  0 < match k with Some k => k | None => Nat.log2 (length V) end < length V -> (0 < delta)%Q -> similarity <> None \/ distance <> None ->
  nn_descent_full_seeded set_order similarity distance V tries fuel turns a k radius rho delta lo hi "connected_components" = Err e -> e = OutOfFuel.
Proof.
  intros P K Dl S E. set (kk := match k with Some k => k | None => Nat.log2 (length V) end) in *.
  destruct (exn_fuel e) as [->|Ne]; [reflexivity|].
  destruct (C154_draws set_order similarity distance V tries fuel turns a k radius rho delta lo hi "connected_components") as (draws & later & rho' & delta' & F & _ & D & G); [rewrite E; congruence|].
  fold kk in D. rewrite E in G. exfalso. rewrite Forall_forall in F.
  set (N := length V) in *. set (blocks := (draws ++ seq 0 N) :: repeat (seq 0 N) N).
  assert (N0 : (0 < inject_Z (Z.of_nat (N * kk)))%Q) by (change 0%Q with (inject_Z 0); rewrite <- Zlt_Qlt; nia).
  assert (D0 : (0 < delta')%Q). { assert (X : (0 < fl (delta * inject_Z (Z.of_nat (N * kk))))%Q) by (apply fl_positive; nra). rewrite <- D in X. nra. }
  set (extra := N * (kk * (2 * N)) + 2).
  assert (In_all : forall r, In r (draws ++ (seq 0 N ++ concat (repeat (seq 0 N) N))) -> r < N).
  { intros r Hr. apply in_app_or in Hr as [Hr|Hr]; [apply F, Hr|]. apply in_app_or in Hr as [Hr|Hr]; [apply in_seq in Hr; lia|].
    apply in_concat in Hr as (b & Hb & Hr). apply repeat_spec in Hb. subst b. apply in_seq in Hr. lia. }
  destruct (C79_full_ends set_order P (heapify full_lt) (heapreplace full_lt) (heap first_le) C140_full_entries V (draws ++ (seq 0 N ++ concat (repeat (seq 0 N) N))) In_all later
    similarity distance blocks k radius rho' delta' lo hi (turns + extra)) as (out & O); auto.
  - unfold blocks. cbn [concat]. rewrite app_assoc. reflexivity.
  - unfold blocks. cbn [length]. rewrite repeat_length. lia.
  - unfold blocks. constructor; [intros j Hj; apply in_or_app; right; apply in_seq; lia|]. apply Forall_forall. intros b Hb. apply repeat_spec in Hb. subst b. intros j Hj. apply in_seq. lia.
  - fold kk N. unfold extra. lia.
  - rewrite (nn_full_more set_order similarity distance V) in O by (rewrite G; congruence). rewrite G in O. discriminate O.
Qed.
Print Assumptions C154_raises_nothing.

(** ** Examples *)
(** test/clustering/nn_descent_test.py with one neighbor, then with two; python goes through sets of such small numbers in increasing order *)
Definition full_seeded a k := nn_descent_full_seeded (sort_by Nat.leb) None (Some lev_distance) nn_data 100 100 100 a k 1 (1 # 2) (1152921504606847 # 1152921504606846976) 2 None "connected_components".
Example full_seeded_one : full_seeded 123 (Some 1) = Ok [[codes "Mister Hide"; codes "Mister Hyde"]; [codes "Claudia Loc"; codes "Cladia Loc"]].
Proof. vm_compute. reflexivity. Qed.
Example full_seeded_two : full_seeded 123 (Some 2) = Ok [[codes "Mister Hide"; codes "Mister Hyde"]; [codes "Claudia Loc"; codes "Cladia Loc"]].
Proof. vm_compute. reflexivity. Qed.
(** the same test would fail with other seeds *)
Example full_seeded_none : full_seeded 2 (Some 1) = Ok [].
Proof. vm_compute. reflexivity. Qed.
Example full_seeded_half : match full_seeded 0 (Some 2) with Ok l => length l | Err _ => 9 end = 1.
Proof. vm_compute. reflexivity. Qed.
(** int(0.3 * 10) is 3 though the float 0.3 is below 3/10; 0.001 * 1000 is 1.0 though the float 0.001 is above 1/1000 *)
Example rate_rounded : Qfloor (fmul (5404319552844595 # 18014398509481984) (Qnat 10)) = 3%Z /\ Qfloor ((5404319552844595 # 18014398509481984) * Qnat 10) = 2%Z.
Proof. vm_compute. split; reflexivity. Qed.
Example delta_rounded : Qle_bool (fmul (1152921504606847 # 1152921504606846976) (Qnat 1000)) 1 = true /\ Qle_bool ((1152921504606847 # 1152921504606846976) * Qnat 1000) 1 = false.
Proof. vm_compute. split; reflexivity. Qed.
