(** Proofs about the metrics. *)
From Coq Require Import QArith Qminmax Qfield Reals Lra.
From Verif Require Import Base BaseFacts BlockingSpec BlockingProofs MetricsModel MetricsSpec.
Open Scope nat_scope.
Open Scope list_scope.

(** ** Set metrics *)
Section Sets.
Context {T : Type} `{EqDec T}.

Lemma set_card (A : list T) : card (fun x => In x A) (length (set_of A)).
Proof. apply card_list; [apply set_of_NoDup|apply set_of_In]. Qed.

Lemma inter_card (A B : list T) : card (fun x => In x A /\ In x B) (count_in (set_of A) (set_of B)).
Proof. apply card_inter; [apply set_of_NoDup|apply set_of_In|apply set_of_In]. Qed.

Lemma card_ext (P P' : T -> Prop) n : (forall x, P x <-> P' x) -> card P n -> card P' n.
Proof. intros HP (l & Hn & Hl & E). exists l. split; [auto|]. split; [|auto]. intros x. rewrite Hl. apply HP. Qed.

Lemma count_in_sym (A B : list T) : count_in (set_of A) (set_of B) = count_in (set_of B) (set_of A).
Proof.
  apply (card_unique (fun x => In x A /\ In x B)); [apply inter_card|].
  apply (card_ext (fun x => In x B /\ In x A)); [tauto|apply inter_card].
Qed.

Lemma count_in_le (A B : list T) : count_in A B <= length A.
Proof. apply filter_le. Qed.

Lemma union_card (A B : list T) : card (fun x => In x A \/ In x B)
  (length (set_of A) + length (set_of B) - count_in (set_of A) (set_of B)).
Proof. apply card_union; try apply set_of_NoDup; apply set_of_In. Qed.

(** the swap does not change anything *)
Lemma swapped (f : nat -> nat -> nat -> Q) (A B : list T) :
  (forall a b i, f a b i = f b a i) ->
  (let '(A, B) := swap_smaller (set_of A) (set_of B) in f (length A) (length B) (count_in A B)) =
  f (length (set_of A)) (length (set_of B)) (count_in (set_of A) (set_of B)).
Proof.
  intros Hf. unfold swap_smaller. destruct (Nat.ltb _ _); [|reflexivity].
  rewrite count_in_sym. apply Hf.
Qed.

Lemma Qdiv_nat_eq a b : b <> 0 -> a = b -> (Qnat a / Qnat b == 1)%Q.
Proof.
  intros Hb ->. unfold Qnat. apply Qmult_inv_r. intros E. unfold Qeq in E. simpl in E. lia.
Qed.

Lemma Qnat_div_0_1 a b : a <= b -> (0 <= Qnat a / Qnat b <= 1)%Q.
Proof.
  intros Hab. destruct b as [|b].
  - assert (a = 0) by lia. subst. unfold Qnat, Qdiv. simpl. split; unfold Qle; simpl; lia.
  - assert (Hp : (0 < Qnat (S b))%Q) by (unfold Qnat, Qlt; simpl; lia).
    split.
    + apply Qle_shift_div_l; [exact Hp|]. unfold Qnat, Qle. simpl. lia.
    + apply Qle_shift_div_r; [exact Hp|]. unfold Qnat, Qle. simpl. lia.
Qed.

Lemma Qnat_div_1 a b : b <> 0 -> (Qnat a / Qnat b == 1)%Q -> a = b.
Proof.
  intros Hb E. assert (Hp : ~ (Qnat b == 0)%Q) by (unfold Qnat, Qeq; simpl; lia).
  assert (Qnat a == Qnat b)%Q.
  { rewrite <- (Qmult_1_l (Qnat b)), <- E. field. exact Hp. }
  unfold Qnat, Qeq in H0. simpl in H0. lia.
Qed.

Lemma Qnat_sub a b i : i <= a -> i <= b -> inject_Z (Z.of_nat a + Z.of_nat b - Z.of_nat i) = Qnat (a + b - i).
Proof. intros. unfold Qnat. f_equal. lia. Qed.

Lemma count_in_bounds (A B : list T) :
  count_in (set_of A) (set_of B) <= length (set_of A) /\ count_in (set_of A) (set_of B) <= length (set_of B).
Proof. split; [apply count_in_le|rewrite count_in_sym; apply count_in_le]. Qed.

Lemma jaccard_value (A B : list T) :
  (jaccard_similarity false A B ==
   Qnat (count_in (set_of A) (set_of B)) / Qnat (length (set_of A) + length (set_of B) - count_in (set_of A) (set_of B)))%Q.
Proof.
  unfold jaccard_similarity.
  destruct (count_in_bounds A B) as [Ha Hb].
  destruct (Nat.eqb_spec (length (set_of A)) 0) as [E|E].
  { simpl. replace (count_in (set_of A) (set_of B)) with 0 by lia. unfold Qnat, Qdiv. simpl. rewrite Qmult_0_l. reflexivity. }
  destruct (Nat.eqb_spec (length (set_of B)) 0) as [E'|E'].
  { simpl. replace (count_in (set_of A) (set_of B)) with 0 by lia. unfold Qnat, Qdiv. simpl. rewrite Qmult_0_l. reflexivity. }
  simpl. rewrite (swapped (fun a b i => (Qnat i / inject_Z (Z.of_nat a + Z.of_nat b - Z.of_nat i))%Q) A B).
  - rewrite Qnat_sub by assumption. reflexivity.
  - intros a b i. rewrite (Z.add_comm (Z.of_nat a)). reflexivity.
Qed.

Lemma dice_value (A B : list T) : length (set_of A) + length (set_of B) <> 0 ->
  (dice_coefficient false A B ==
   Qnat (2 * count_in (set_of A) (set_of B)) / Qnat (length (set_of A) + length (set_of B)))%Q.
Proof.
  intros Hn. unfold dice_coefficient, swap_smaller.
  destruct (count_in_bounds A B) as [Ha Hb].
  destruct (Nat.ltb_spec (length (set_of B)) (length (set_of A))) as [Hlt|Hge].
  - rewrite (count_in_sym B A), (Nat.add_comm (length (set_of B))).
    destruct (Nat.eqb_spec (length (set_of B)) 0) as [E|E]; [|reflexivity].
    destruct (Nat.eqb_spec (length (set_of A)) 0) as [E'|E']; [lia|].
    replace (count_in (set_of A) (set_of B)) with 0 by lia. unfold Qnat, Qdiv. simpl. rewrite Qmult_0_l. reflexivity.
  - destruct (Nat.eqb_spec (length (set_of A)) 0) as [E|E]; [|reflexivity].
    destruct (Nat.eqb_spec (length (set_of B)) 0) as [E'|E']; [lia|].
    replace (count_in (set_of A) (set_of B)) with 0 by lia. unfold Qnat, Qdiv. simpl. rewrite Qmult_0_l. reflexivity.
Qed.

Lemma overlap_value (A B : list T) : length (set_of A) <> 0 -> length (set_of B) <> 0 ->
  overlap_coefficient false A B =
   (Qnat (count_in (set_of A) (set_of B)) / Qnat (Nat.min (length (set_of A)) (length (set_of B))))%Q.
Proof.
  intros H1 H2. unfold overlap_coefficient.
  destruct (Nat.eqb_spec (length (set_of A)) 0); [lia|]. destruct (Nat.eqb_spec (length (set_of B)) 0); [lia|].
  simpl. apply (swapped (fun a b i => (Qnat i / Qnat (Nat.min a b))%Q) A B).
  intros a b i. rewrite Nat.min_comm. reflexivity.
Qed.

Lemma jaccard_correct same (A B : list T) i u : coherent same A B ->
  card (fun x => In x A /\ In x B) i -> card (fun x => In x A \/ In x B) u -> u <> 0 ->
  (jaccard_similarity same A B == Qnat i / Qnat u)%Q.
Proof.
  intros Hc Hi Hu Hn. destruct same.
  - specialize (Hc eq_refl). simpl. symmetry. apply Qdiv_nat_eq; [exact Hn|].
    apply (card_unique (fun x => In x A)).
    + revert Hi. apply card_ext. intros x. rewrite <- (Hc x). tauto.
    + revert Hu. apply card_ext. intros x. rewrite <- (Hc x). tauto.
  - rewrite jaccard_value.
    rewrite (card_unique _ _ _ Hi (inter_card A B)), (card_unique _ _ _ Hu (union_card A B)). reflexivity.
Qed.

Lemma dice_correct same (A B : list T) i n m : coherent same A B ->
  card (fun x => In x A /\ In x B) i -> card (fun x => In x A) n -> card (fun x => In x B) m -> n + m <> 0 ->
  (dice_coefficient same A B == Qnat (2 * i) / Qnat (n + m))%Q.
Proof.
  intros Hc Hi Hn Hm Hnm. destruct same.
  - specialize (Hc eq_refl). simpl dice_coefficient. symmetry. apply Qdiv_nat_eq; [exact Hnm|].
    assert (i = n) by (apply (card_unique (fun x => In x A)); [revert Hi; apply card_ext; intros x; rewrite <- (Hc x); tauto|exact Hn]).
    assert (m = n) by (apply (card_unique (fun x => In x A)); [revert Hm; apply card_ext; intros x; rewrite <- (Hc x); tauto|exact Hn]).
    lia.
  - rewrite (card_unique _ _ _ Hn (set_card A)), (card_unique _ _ _ Hm (set_card B)) in *.
    rewrite (card_unique _ _ _ Hi (inter_card A B)). apply dice_value. exact Hnm.
Qed.

Lemma overlap_correct same (A B : list T) i n m : coherent same A B ->
  card (fun x => In x A /\ In x B) i -> card (fun x => In x A) n -> card (fun x => In x B) m -> n <> 0 -> m <> 0 ->
  (overlap_coefficient same A B == Qnat i / Qnat (Nat.min n m))%Q.
Proof.
  intros Hc Hi Hn Hm H1 H2. destruct same.
  - specialize (Hc eq_refl). simpl overlap_coefficient. symmetry.
    assert (i = n) by (apply (card_unique (fun x => In x A)); [revert Hi; apply card_ext; intros x; rewrite <- (Hc x); tauto|exact Hn]).
    assert (m = n) by (apply (card_unique (fun x => In x A)); [revert Hm; apply card_ext; intros x; rewrite <- (Hc x); tauto|exact Hn]).
    apply Qdiv_nat_eq; lia.
  - rewrite (card_unique _ _ _ Hn (set_card A)), (card_unique _ _ _ Hm (set_card B)) in *.
    rewrite (card_unique _ _ _ Hi (inter_card A B)). rewrite overlap_value by assumption. reflexivity.
Qed.

Lemma set_of_nil_iff (A : list T) : length (set_of A) = 0 <-> A = [].
Proof.
  split; intros E; [|subst; reflexivity].
  destruct A as [|x A]; [reflexivity|]. exfalso.
  assert (In x (set_of (x :: A))) by (apply set_of_In; left; reflexivity).
  destruct (set_of (x :: A)); [assumption|discriminate].
Qed.

(** empty arguments *)
Lemma metrics_empty (A B : list T) : A = [] \/ B = [] ->
  jaccard_similarity false A B = 0%Q /\ overlap_coefficient false A B = 0%Q /\
  dice_coefficient false A B = (match A, B with [], [] => 1%Q | _, _ => 0%Q end).
Proof.
  intros Hab. unfold jaccard_similarity, overlap_coefficient, dice_coefficient, swap_smaller.
  destruct (Nat.eqb_spec (length (set_of A)) 0) as [E|E].
  - pose proof (proj1 (set_of_nil_iff A) E); subst. rewrite E. simpl.
    destruct (Nat.eqb_spec (length (set_of B)) 0) as [E'|E'].
    + pose proof (proj1 (set_of_nil_iff B) E'); subst. auto.
    + split; [reflexivity|]. split; [reflexivity|]. destruct B; [contradiction E'; reflexivity|reflexivity].
  - assert (HA : A <> []) by (rewrite <- set_of_nil_iff; exact E).
    assert (HB : B = []) by tauto. subst. simpl. split; [reflexivity|]. split; [reflexivity|].
    destruct (Nat.ltb_spec 0 (length (set_of A))); [|lia]. simpl.
    destruct (Nat.eqb_spec (length (set_of A)) 0); [contradiction|].
    destruct A; [contradiction|reflexivity].
Qed.

Lemma jaccard_sym same (A B : list T) : (jaccard_similarity same A B == jaccard_similarity same B A)%Q.
Proof.
  destruct same; [reflexivity|]. rewrite !jaccard_value, (count_in_sym B A), (Nat.add_comm (length (set_of B))). reflexivity.
Qed.

Lemma dice_sym same (A B : list T) : (dice_coefficient same A B == dice_coefficient same B A)%Q.
Proof.
  destruct same; [reflexivity|].
  destruct (Nat.eq_dec (length (set_of A) + length (set_of B)) 0) as [E|E].
  - assert (A = []) by (apply set_of_nil_iff; lia). assert (B = []) by (apply set_of_nil_iff; lia). subst. reflexivity.
  - rewrite (dice_value A B E), (dice_value B A) by lia.
    rewrite (count_in_sym B A), (Nat.add_comm (length (set_of B))). reflexivity.
Qed.

Lemma overlap_sym same (A B : list T) : overlap_coefficient same A B = overlap_coefficient same B A.
Proof.
  destruct same; [reflexivity|].
  destruct (Nat.eq_dec (length (set_of A)) 0) as [E|E].
  { pose proof (proj1 (set_of_nil_iff A) E); subst.
    rewrite (proj1 (proj2 (metrics_empty [] B (or_introl eq_refl)))), (proj1 (proj2 (metrics_empty B [] (or_intror eq_refl)))). reflexivity. }
  destruct (Nat.eq_dec (length (set_of B)) 0) as [E'|E'].
  { pose proof (proj1 (set_of_nil_iff B) E'); subst.
    rewrite (proj1 (proj2 (metrics_empty [] A (or_introl eq_refl)))), (proj1 (proj2 (metrics_empty A [] (or_intror eq_refl)))). reflexivity. }
  rewrite (overlap_value A B E E'), (overlap_value B A E' E), (count_in_sym B A), (Nat.min_comm (length (set_of B))). reflexivity.
Qed.

Lemma metrics_range same (A B : list T) :
  (0 <= jaccard_similarity same A B <= 1)%Q /\ (0 <= dice_coefficient same A B <= 1)%Q /\
  (0 <= overlap_coefficient same A B <= 1)%Q.
Proof.
  destruct same; [simpl; repeat split; unfold Qle; simpl; lia|].
  destruct (count_in_bounds A B) as [Ha Hb].
  split; [|split].
  - rewrite jaccard_value. apply Qnat_div_0_1. lia.
  - destruct (Nat.eq_dec (length (set_of A) + length (set_of B)) 0) as [E|E].
    + assert (A = []) by (apply set_of_nil_iff; lia). assert (B = []) by (apply set_of_nil_iff; lia). subst.
      simpl. split; unfold Qle; simpl; lia.
    + rewrite (dice_value A B E). apply Qnat_div_0_1. lia.
  - destruct (Nat.eq_dec (length (set_of A)) 0) as [E|E].
    { apply set_of_nil_iff in E. subst. rewrite (proj1 (proj2 (metrics_empty [] B (or_introl eq_refl)))). split; unfold Qle; simpl; lia. }
    destruct (Nat.eq_dec (length (set_of B)) 0) as [E'|E'].
    { apply set_of_nil_iff in E'. subst. rewrite (proj1 (proj2 (metrics_empty A [] (or_intror eq_refl)))). split; unfold Qle; simpl; lia. }
    rewrite (overlap_value A B E E'). apply Qnat_div_0_1. lia.
Qed.

Lemma count_in_full (A B : list T) : count_in A B = length A -> forall x, In x A -> In x B.
Proof.
  unfold count_in. induction A as [|a A IH]; simpl; [tauto|].
  destruct (memb a B) eqn:E; simpl; intros Hl x Hx.
  - destruct Hx as [<-|Hx]; [apply memb_true; exact E|]. apply IH; [lia|exact Hx].
  - pose proof (filter_le (fun v => memb v B) A). lia.
Qed.

Lemma full_equal (A B : list T) : count_in (set_of A) (set_of B) = length (set_of A) ->
  count_in (set_of A) (set_of B) = length (set_of B) -> forall x, In x A <-> In x B.
Proof.
  intros H1 H2 x. rewrite <- (set_of_In A), <- (set_of_In B). split; apply count_in_full; [exact H1|].
  rewrite count_in_sym. exact H2.
Qed.

Lemma metrics_one same (A B : list T) : coherent same A B ->
  (jaccard_similarity same A B == 1)%Q \/ (dice_coefficient same A B == 1)%Q -> forall x, In x A <-> In x B.
Proof.
  intros Hc Hone. destruct same; [exact (Hc eq_refl)|].
  destruct (count_in_bounds A B) as [Ha Hb].
  destruct (Nat.eq_dec (length (set_of A) + length (set_of B)) 0) as [E|E].
  { assert (A = []) by (apply set_of_nil_iff; lia). assert (B = []) by (apply set_of_nil_iff; lia). subst. tauto. }
  apply full_equal; destruct Hone as [Hone|Hone].
  - rewrite jaccard_value in Hone. apply Qnat_div_1 in Hone; lia.
  - rewrite (dice_value A B E) in Hone. apply Qnat_div_1 in Hone; lia.
  - rewrite jaccard_value in Hone. apply Qnat_div_1 in Hone; lia.
  - rewrite (dice_value A B E) in Hone. apply Qnat_div_1 in Hone; lia.
Qed.

Lemma intersection_size_itself (A : list T) : NoDup A -> card (fun x => In x A) (intersection_size true A A).
Proof. intros Hn. exists A. cbn [intersection_size]. split; [exact Hn | split; [reflexivity | tauto]]. Qed.
Lemma intersection_size_correct (A B : list T) : card (fun x => In x A /\ In x B) (intersection_size false A B).
Proof.
  unfold intersection_size, swap_smaller. destruct (count_in_bounds A B) as [Ha Hb].
  pose proof (inter_card A B) as Hc.
  destruct (Nat.ltb_spec (length (set_of B)) (length (set_of A))).
  - destruct (Nat.eqb_spec (length (set_of B)) 0).
    + replace (count_in (set_of A) (set_of B)) with 0 in Hc by lia. exact Hc.
    + rewrite (count_in_sym B A). exact Hc.
  - destruct (Nat.eqb_spec (length (set_of A)) 0); [|exact Hc].
    replace (count_in (set_of A) (set_of B)) with 0 in Hc by lia. exact Hc.
Qed.
End Sets.

(** ** Sums *)
Section QSums.
Context {T : Type} `{EqDec T}.
Open Scope Q_scope.

Lemma Qsum_perm l l' : Permutation l l' -> Qsum l == Qsum l'.
Proof.
  induction 1; simpl; [reflexivity|rewrite IHPermutation; reflexivity|ring|rewrite IHPermutation1; exact IHPermutation2].
Qed.

Lemma Qsum_app l l' : Qsum (l ++ l') == Qsum l + Qsum l'.
Proof. induction l as [|x l IH]; simpl; [ring|rewrite IH; ring]. Qed.

Lemma Qsum_ext {X} (f g : X -> Q) l : (forall x, In x l -> f x == g x) -> Qsum (map f l) == Qsum (map g l).
Proof.
  induction l as [|x l IH]; simpl; intros Hl; [reflexivity|].
  rewrite (Hl x), IH by auto. reflexivity.
Qed.

Lemma Qsum_zero {X} (f : X -> Q) l : (forall x, In x l -> f x == 0) -> Qsum (map f l) == 0.
Proof.
  induction l as [|x l IH]; simpl; intros Hl; [reflexivity|].
  rewrite (Hl x), IH by auto. ring.
Qed.

Lemma Qsum_le {X} (f g : X -> Q) l : (forall x, In x l -> f x <= g x) -> Qsum (map f l) <= Qsum (map g l).
Proof.
  induction l as [|x l IH]; simpl; intros Hl; [apply Qle_refl|].
  apply Qplus_le_compat; auto.
Qed.

Lemma Qsum_nonneg {X} (f : X -> Q) l : (forall x, In x l -> 0 <= f x) -> 0 <= Qsum (map f l).
Proof.
  intros Hl. rewrite <- (Qsum_zero (fun _ : X => 0) l) by reflexivity. apply Qsum_le. exact Hl.
Qed.

(** a sum over keys, cut in two *)
Lemma Qsum_split (f : T -> Q) (ks a b : list T) : NoDup ks -> NoDup a -> NoDup b ->
  (forall k, In k a -> ~ In k b) -> (forall k, In k a -> In k ks) -> (forall k, In k b -> In k ks) ->
  (forall k, In k ks -> ~ In k a -> ~ In k b -> f k == 0) ->
  Qsum (map f ks) == Qsum (map f a) + Qsum (map f b).
Proof.
  intros Hks Ha Hb Hab Hia Hib Hz.
  assert (HP : Permutation ks ((a ++ b) ++ filter (fun k => negb (memb k (a ++ b))) ks)).
  { apply NoDup_Permutation; [exact Hks| |].
    - apply NoDup_app_iff. split; [apply NoDup_app_iff; auto|]. split; [apply NoDup_filter, Hks|].
      intros k Hk Hf. apply filter_In in Hf as [_ Hf]. apply negb_true_iff, memb_false in Hf. contradiction.
    - intros k. rewrite in_app_iff, filter_In, negb_true_iff, memb_false.
      destruct (in_dec eq_dec k (a ++ b)) as [Hk|Hk]; [|tauto].
      rewrite in_app_iff in Hk. split; [intros; left; rewrite in_app_iff; exact Hk|]. intros _. destruct Hk; auto. }
  rewrite (Qsum_perm _ _ (Permutation_map f HP)), !map_app, !Qsum_app.
  rewrite (Qsum_zero f (filter _ ks)); [ring|].
  intros k Hk. apply filter_In in Hk as [Hk Hn]. apply negb_true_iff, memb_false in Hn. rewrite in_app_iff in Hn.
  apply Hz; tauto.
Qed.
End QSums.

(** ** Weighted jaccard *)
Section Weighted.
Context {T : Type} `{EqDec T}.
Open Scope Q_scope.

Lemma weights_dget (A : dict T Q) w k : weights 0 A w ->
  (match dget A k with Some v => v | None => 0 end) = w k.
Proof.
  intros (Hn & Hv & H0). destruct (dget A k) eqn:E.
  - symmetry. apply Hv. apply dget_Some_In. exact E.
  - symmetry. apply H0. intros Hin. apply (dget_In_keys A k) in Hin as (v & Ev). congruence.
Qed.

Lemma weighted_loop (B : dict T Q) wb : weights 0 B wb ->
  forall (A : dict T Q) wa i u done, (forall k v, In (k, v) A -> wa k = v) ->
  (forall k, In k done -> ~ wb k == 0) ->
  exists i' u' done', fold_left (weighted_step B) A (i, u, done) = (i', u', done') /\
    i' == i + Qsum (map (fun k => Qmin (wa k) (wb k)) (dkeys A)) /\
    u' == u + Qsum (map (fun k => Qmax (wa k) (wb k)) (dkeys A)) /\
    (forall k, In k done' <-> In k done \/ (In k (dkeys A) /\ ~ wb k == 0)).
Proof.
  intros HB. induction A as [|[k v] A IH]; intros wa i u done Hwa Hdone.
  - exists i, u, done. simpl. split; [reflexivity|]. split; [ring|]. split; [ring|]. tauto.
  - cbn [fold_left weighted_step]. rewrite (weights_dget B wb k HB).
    set (done1 := if Qeq_bool (wb k) 0 then done else sadd done k).
    assert (Hd1 : forall x, In x done1 <-> In x done \/ (x = k /\ ~ wb k == 0)).
    { intros x. unfold done1. destruct (Qeq_bool (wb k) 0) eqn:E.
      - apply Qeq_bool_iff in E. tauto.
      - assert (~ wb k == 0) by (intros E'; apply Qeq_bool_iff in E'; congruence).
        rewrite sadd_In. tauto. }
    assert (Ev : wa k = v) by (apply Hwa; left; reflexivity).
    destruct (negb (Qle_bool (wb k) v)) eqn:E.
    + assert (Hlt : v < wb k).
      { apply negb_true_iff in E. apply Qnot_le_lt. intros Hle. apply Qle_bool_iff in Hle. congruence. }
      destruct (IH wa (i + v) (u + wb k) done1) as (i' & u' & d' & E1 & E2 & E3 & E4).
      { intros k' v' Hin. apply Hwa. right. exact Hin. }
      { intros x Hx. apply Hd1 in Hx as [Hx|[-> Hx]]; auto. }
      exists i', u', d'. split; [exact E1|]. simpl. rewrite E2, E3, Ev.
      rewrite (Q.min_l v (wb k)) by (apply Qlt_le_weak, Hlt). rewrite (Q.max_r v (wb k)) by (apply Qlt_le_weak, Hlt).
      split; [ring|]. split; [ring|]. intros x. rewrite E4, Hd1.
      split; [intros [[?|[-> ?]]|?]; tauto|]. intros [?|[[->|?] ?]]; tauto.
    + assert (Hle : wb k <= v) by (apply negb_false_iff in E; apply Qle_bool_iff; exact E).
      destruct (IH wa (i + wb k) (u + v) done1) as (i' & u' & d' & E1 & E2 & E3 & E4).
      { intros k' v' Hin. apply Hwa. right. exact Hin. }
      { intros x Hx. apply Hd1 in Hx as [Hx|[-> Hx]]; auto. }
      exists i', u', d'. split; [exact E1|]. simpl. rewrite E2, E3, Ev.
      rewrite (Q.min_r v (wb k)) by exact Hle. rewrite (Q.max_l v (wb k)) by exact Hle.
      split; [ring|]. split; [ring|]. intros x. rewrite E4, Hd1.
      split; [intros [[?|[-> ?]]|?]; tauto|]. intros [?|[[->|?] ?]]; tauto.
Qed.

Lemma finalize_loop (done : list T) (B : dict T Q) u :
  fold_left (fun u kv => if memb (fst kv) done then u else (u + snd kv)) B u ==
  u + Qsum (map snd (filter (fun kv => negb (memb (fst kv) done)) B)).
Proof.
  revert u. induction B as [|[k v] B IH]; intros u; simpl; [ring|].
  destruct (memb k done); simpl; rewrite IH; [reflexivity|ring].
Qed.

Lemma Qmin_sym_eq a b : Qmin a b == Qmin b a.
Proof. apply Q.min_comm. Qed.

(** the core, A being the one iterated over *)
Lemma weighted_core (A B : dict T Q) wa wb ks : weights 0 A wa -> weights 0 B wb -> covers ks A B ->
  (forall k, 0 <= wa k) -> (forall k, 0 <= wb k) ->
  let '(i, u, done) := fold_left (weighted_step B) A (0, 0, []) in
  i == Qsum (map (fun k => Qmin (wa k) (wb k)) ks) /\
  fold_left (fun u kv => if memb (fst kv) done then u else (u + snd kv)) B u ==
    Qsum (map (fun k => Qmax (wa k) (wb k)) ks).
Proof.
  intros HA HB (Hks & Hka & Hkb) Pa Pb.
  destruct HA as (Hna & Hwa & Hza).
  destruct (weighted_loop B wb HB A wa 0 0 [] Hwa) as (i & u & done & E & Ei & Eu & Hd).
  { intros k []. }
  rewrite E. destruct HB as (Hnb & Hwb & Hzb).
  set (rest := filter (fun kv => negb (memb (fst kv) done)) B).
  set (rk := filter (fun k => negb (memb k (dkeys A))) (dkeys B)).
  assert (HkA : forall k, In k (dkeys A) -> In k ks).
  { intros k Hk. apply in_map_iff in Hk as ([k' v] & <- & Hin). eapply Hka; eauto. }
  assert (HkB : forall k, In k (dkeys B) -> In k ks).
  { intros k Hk. apply in_map_iff in Hk as ([k' v] & <- & Hin). eapply Hkb; eauto. }
  assert (Nrk : NoDup rk) by (apply NoDup_filter; exact Hnb).
  assert (Hrk : forall k, In k rk <-> In k (dkeys B) /\ ~ In k (dkeys A)).
  { intros k. unfold rk. rewrite filter_In, negb_true_iff, memb_false. reflexivity. }
  assert (Za : forall k, ~ In k (dkeys A) -> wa k = 0) by exact Hza.
  assert (Zb : forall k, ~ In k (dkeys B) -> wb k = 0) by exact Hzb.
  split.
  - rewrite Ei, Qplus_0_l.
    rewrite (Qsum_split (fun k => Qmin (wa k) (wb k)) ks (dkeys A) rk); auto.
    + rewrite (Qsum_zero _ rk); [ring|]. intros k Hk. apply Hrk in Hk as [_ Hk]. rewrite (Za k Hk).
      apply Q.min_l. apply Pb.
    + intros k Hk Hk'. apply Hrk in Hk' as [_ Hk']. contradiction.
    + intros k Hk. apply Hrk in Hk as [Hk _]. auto.
    + intros k _ Hk Hk'. rewrite (Za k Hk). apply Q.min_l. apply Pb.
  - rewrite finalize_loop. fold rest. rewrite Eu, Qplus_0_l.
    rewrite (Qsum_split (fun k => Qmax (wa k) (wb k)) ks (dkeys A) rk); auto.
    + apply Qplus_comp; [reflexivity|].
      (* the elements of B that are not done are those of rk and null ones *)
      assert (G : forall B' : dict T Q, (forall k v, In (k, v) B' -> wb k = v) ->
        Qsum (map snd (filter (fun kv => negb (memb (fst kv) done)) B')) ==
        Qsum (map (fun k => Qmax (wa k) (wb k)) (filter (fun k => negb (memb k (dkeys A))) (dkeys B')))).
      { induction B' as [|[k v] B' IH]; intros HB'; [reflexivity|].
        assert (IH' := IH (fun k' v' Hin => HB' k' v' (or_intror Hin))). clear IH.
        assert (Ev : wb k = v) by (apply HB'; left; reflexivity).
        unfold dkeys in *. cbn [map filter fst snd].
        destruct (memb k done) eqn:Ed; cbn [negb].
        - apply memb_true, Hd in Ed. destruct Ed as [[]|[Ed _]].
          rewrite (proj2 (memb_true k (map fst A)) Ed). cbn [negb]. exact IH'.
        - apply memb_false in Ed. rewrite Hd in Ed.
          destruct (memb k (map fst A)) eqn:Ek; cbn [negb map Qsum fold_right fst snd].
          + apply memb_true in Ek.
            assert (Ez : wb k == 0).
            { destruct (Qeq_dec (wb k) 0) as [?|Hn]; [assumption|]. exfalso. apply Ed. right. auto. }
            rewrite Ev in Ez. unfold Qsum in *. rewrite IH', Ez. ring.
          + apply memb_false in Ek. rewrite (Za k Ek), Ev.
            unfold Qsum in *. rewrite IH'. rewrite (Q.max_r 0 v); [reflexivity|]. rewrite <- Ev. apply Pb. }
      apply G. exact Hwb.
    + intros k Hk Hk'. apply Hrk in Hk' as [_ Hk']. contradiction.
    + intros k Hk. apply Hrk in Hk as [Hk _]. auto.
    + intros k _ Hk Hk'. rewrite (Za k Hk). rewrite Zb; [apply Q.max_id|].
      intros Hb. apply Hk', Hrk. auto.
Qed.

Lemma covers_sym ks (A B : dict T Q) : covers ks A B -> covers ks B A.
Proof. unfold covers. tauto. Qed.

Lemma weighted_value (A B : dict T Q) wa wb ks : weights 0 A wa -> weights 0 B wb -> covers ks A B ->
  (forall k, 0 <= wa k) -> (forall k, 0 <= wb k) -> A <> [] -> B <> [] ->
  let i := Qsum (map (fun k => Qmin (wa k) (wb k)) ks) in
  let u := Qsum (map (fun k => Qmax (wa k) (wb k)) ks) in
  if Qeq_bool u 0 then weighted_jaccard_similarity false A B = Err ZeroDivisionError
  else exists q, weighted_jaccard_similarity false A B = Ok q /\ q == i / u.
Proof.
  intros HA HB Hks Pa Pb NA NB i u. unfold weighted_jaccard_similarity.
  destruct A as [|pa A]; [contradiction|]. destruct B as [|pb B]; [contradiction|].
  cbn [length Nat.eqb orb]. set (A1 := pa :: A) in *. set (B1 := pb :: B) in *.
  destruct (Nat.ltb (S (length B)) (S (length A))).
  - pose proof (weighted_core B1 A1 wb wa ks HB HA (covers_sym _ _ _ Hks) Pb Pa) as G.
    destruct (fold_left (weighted_step A1) B1 (0, 0, [])) as [[i' u'] done]. destruct G as [Gi Gu].
    set (u2 := fold_left _ A1 u') in *.
    assert (Ei : i' == i) by (rewrite Gi; apply Qsum_ext; intros k _; apply Q.min_comm).
    assert (Eu : u2 == u) by (rewrite Gu; apply Qsum_ext; intros k _; apply Q.max_comm).
    assert (Eb : Qeq_bool u2 0 = Qeq_bool u 0) by (rewrite Eu; reflexivity).
    rewrite Eb. destruct (Qeq_bool u 0); [reflexivity|]. eexists. split; [reflexivity|]. rewrite Ei, Eu. reflexivity.
  - pose proof (weighted_core A1 B1 wa wb ks HA HB Hks Pa Pb) as G.
    destruct (fold_left (weighted_step B1) A1 (0, 0, [])) as [[i' u'] done]. destruct G as [Gi Gu].
    set (u2 := fold_left _ B1 u') in *.
    assert (Eb : Qeq_bool u2 0 = Qeq_bool u 0) by (rewrite Gu; reflexivity).
    rewrite Eb. destruct (Qeq_bool u 0); [reflexivity|]. eexists. split; [reflexivity|]. rewrite Gi, Gu. reflexivity.
Qed.

Lemma min_max_range (wa wb : T -> Q) ks : (forall k, 0 <= wa k) -> (forall k, 0 <= wb k) ->
  ~ Qsum (map (fun k => Qmax (wa k) (wb k)) ks) == 0 ->
  0 <= Qsum (map (fun k => Qmin (wa k) (wb k)) ks) / Qsum (map (fun k => Qmax (wa k) (wb k)) ks) <= 1.
Proof.
  intros Pa Pb Hn. set (i := Qsum (map (fun k => Qmin (wa k) (wb k)) ks)). set (u := Qsum (map (fun k => Qmax (wa k) (wb k)) ks)) in *.
  assert (H0 : 0 <= i).
  { apply Qsum_nonneg. intros k _. apply Q.min_glb; auto. }
  assert (H1 : i <= u).
  { apply Qsum_le. intros k _. apply Qle_trans with (wa k); [apply Q.le_min_l|apply Q.le_max_l]. }
  assert (Hu : 0 < u).
  { apply Qle_lteq in H1. assert (0 <= u) as Hu by (destruct H1 as [H1|H1]; [apply Qlt_le_weak; eapply Qle_lt_trans; eauto|rewrite <- H1; exact H0]).
    apply Qle_lteq in Hu as [Hu|Hu]; [exact Hu|]. exfalso. apply Hn. symmetry. exact Hu. }
  split.
  - apply Qle_shift_div_l; [exact Hu|]. rewrite Qmult_0_l. exact H0.
  - apply Qle_shift_div_r; [exact Hu|]. rewrite Qmult_1_l. exact H1.
Qed.
End Weighted.

Section WeightedMain.
Context {T : Type} `{EqDec T}.
Open Scope Q_scope.

Lemma weighted_empty (A B : dict T Q) : A = [] \/ B = [] -> weighted_jaccard_similarity false A B = Ok 0.
Proof.
  intros [-> | ->]; [reflexivity|]. unfold weighted_jaccard_similarity. rewrite orb_true_r. reflexivity.
Qed.

Lemma weighted_covers (A B : dict T Q) : exists ks, covers ks A B.
Proof.
  exists (set_of (dkeys A ++ dkeys B)). split; [apply set_of_NoDup|].
  split; intros k v Hin; apply set_of_In, in_app_iff; [left|right]; apply (in_map fst) in Hin; exact Hin.
Qed.

Definition res_Qeq (x y : res Q) : Prop :=
  match x, y with
  | Ok a, Ok b => a == b
  | Err e, Err e' => e = e'
  | _, _ => False
  end.

Lemma weighted_sym (A B : dict T Q) wa wb same : weights 0 A wa -> weights 0 B wb ->
  (forall k, 0 <= wa k) -> (forall k, 0 <= wb k) ->
  res_Qeq (weighted_jaccard_similarity same A B) (weighted_jaccard_similarity same B A).
Proof.
  intros HA HB Pa Pb. destruct same; [simpl; reflexivity|].
  destruct A as [|pa A]; [rewrite (weighted_empty [] B), (weighted_empty B []) by auto; simpl; reflexivity|].
  destruct B as [|pb B]; [rewrite (weighted_empty (pa :: A) []), (weighted_empty [] (pa :: A)) by auto; simpl; reflexivity|].
  destruct (weighted_covers (pa :: A) (pb :: B)) as (ks & Hks).
  pose proof (weighted_value _ _ wa wb ks HA HB Hks Pa Pb ltac:(discriminate) ltac:(discriminate)) as G1.
  pose proof (weighted_value _ _ wb wa ks HB HA (covers_sym _ _ _ Hks) Pb Pa ltac:(discriminate) ltac:(discriminate)) as G2.
  cbv zeta in *.
  assert (E1 : Qsum (map (fun k => Qmin (wb k) (wa k)) ks) == Qsum (map (fun k => Qmin (wa k) (wb k)) ks))
    by (apply Qsum_ext; intros; apply Q.min_comm).
  assert (E2 : Qsum (map (fun k => Qmax (wb k) (wa k)) ks) == Qsum (map (fun k => Qmax (wa k) (wb k)) ks))
    by (apply Qsum_ext; intros; apply Q.max_comm).
  assert (Eb : Qeq_bool (Qsum (map (fun k => Qmax (wb k) (wa k)) ks)) 0 = Qeq_bool (Qsum (map (fun k => Qmax (wa k) (wb k)) ks)) 0)
    by (rewrite E2; reflexivity).
  rewrite Eb in G2. destruct (Qeq_bool (Qsum (map (fun k => Qmax (wa k) (wb k)) ks)) 0).
  - rewrite G1, G2. reflexivity.
  - destruct G1 as (q1 & -> & Q1), G2 as (q2 & -> & Q2). simpl. rewrite Q1, Q2, E1, E2. reflexivity.
Qed.

Lemma weighted_range (A B : dict T Q) wa wb same q : weights 0 A wa -> weights 0 B wb ->
  (forall k, 0 <= wa k) -> (forall k, 0 <= wb k) ->
  weighted_jaccard_similarity same A B = Ok q -> 0 <= q <= 1.
Proof.
  intros HA HB Pa Pb E. destruct same; [injection E as <-; split; unfold Qle; simpl; lia|].
  destruct A as [|pa A]; [rewrite weighted_empty in E by auto; injection E as <-; split; unfold Qle; simpl; lia|].
  destruct B as [|pb B]; [rewrite weighted_empty in E by auto; injection E as <-; split; unfold Qle; simpl; lia|].
  destruct (weighted_covers (pa :: A) (pb :: B)) as (ks & Hks).
  pose proof (weighted_value _ _ wa wb ks HA HB Hks Pa Pb ltac:(discriminate) ltac:(discriminate)) as G.
  cbv zeta in G. destruct (Qeq_bool (Qsum (map (fun k => Qmax (wa k) (wb k)) ks)) 0) eqn:Eb.
  - rewrite G in E. discriminate.
  - destruct G as (q' & E' & Q'). rewrite E in E'. injection E' as <-. rewrite Q'. apply min_max_range; auto.
    intros Z. apply Qeq_bool_iff in Z. congruence.
Qed.
End WeightedMain.

(** ** Cosine *)
Section CosineProofs.
Context {T : Type} `{EqDec T}.
Open Scope R_scope.

Lemma Rsum_perm l l' : Permutation l l' -> Rsum l = Rsum l'.
Proof. induction 1; simpl; [reflexivity|lra|lra|congruence]. Qed.

Lemma Rsum_app l l' : Rsum (l ++ l') = Rsum l + Rsum l'.
Proof. induction l as [|x l IH]; simpl; [ring|rewrite IH; ring]. Qed.

Lemma Rsum_ext {X} (f g : X -> R) l : (forall x, In x l -> f x = g x) -> Rsum (map f l) = Rsum (map g l).
Proof. intros Hl. f_equal. apply map_ext_in. exact Hl. Qed.

Lemma Rsum_zero {X} (f : X -> R) l : (forall x, In x l -> f x = 0) -> Rsum (map f l) = 0.
Proof. induction l as [|x l IH]; simpl; intros Hl; [reflexivity|]. rewrite (Hl x), IH by auto. ring. Qed.

Lemma Rsum_nonneg {X} (f : X -> R) l : (forall x, In x l -> 0 <= f x) -> 0 <= Rsum (map f l).
Proof.
  induction l as [|x l IH]; simpl; intros Hl; [lra|].
  pose proof (Hl x (or_introl eq_refl)). pose proof (IH (fun y Hy => Hl y (or_intror Hy))). lra.
Qed.

Lemma Rsum_support (f : T -> R) (ks a : list T) : NoDup ks -> NoDup a -> (forall k, In k a -> In k ks) ->
  (forall k, ~ In k a -> f k = 0) -> Rsum (map f ks) = Rsum (map f a).
Proof.
  intros Hks Ha Hin Hz.
  assert (HP : Permutation ks (a ++ filter (fun k => negb (memb k a)) ks)).
  { apply NoDup_Permutation; [exact Hks| |].
    - apply NoDup_app_iff. split; [exact Ha|]. split; [apply NoDup_filter, Hks|].
      intros k Hk Hf. apply filter_In in Hf as [_ Hf]. apply negb_true_iff, memb_false in Hf. contradiction.
    - intros k. rewrite in_app_iff, filter_In, negb_true_iff, memb_false.
      destruct (in_dec eq_dec k a); [|tauto]. split; auto. }
  rewrite (Rsum_perm _ _ (Permutation_map f HP)), map_app, Rsum_app, (Rsum_zero f (filter _ ks)); [ring|].
  intros k Hk. apply filter_In in Hk as [_ Hk]. apply negb_true_iff, memb_false in Hk. auto.
Qed.

Lemma cosine_loop (B : dict T R) wb : weights 0 B wb -> forall (A : dict T R) wa xx xy,
  (forall k v, In (k, v) A -> wa k = v) ->
  fold_left (cosine_step B) A (xx, xy) =
  (xx + Rsum (map (fun k => wa k * wa k) (dkeys A)), xy + Rsum (map (fun k => wa k * wb k) (dkeys A))).
Proof.
  intros (Hnb & Hwb & Hzb). induction A as [|[k v] A IH]; intros wa xx xy Hwa.
  - simpl. rewrite !Rplus_0_r. reflexivity.
  - cbn [fold_left cosine_step]. rewrite (IH wa) by (intros; apply Hwa; right; assumption).
    assert (Ev : wa k = v) by (apply Hwa; left; reflexivity). simpl. rewrite Ev. f_equal; [ring|].
    destruct (dget B k) as [v2|] eqn:E.
    + rewrite (Hwb k v2) by (apply dget_Some_In; exact E). ring.
    + rewrite (Hzb k); [ring|]. intros Hin. apply (dget_In_keys B k) in Hin as (v' & Ev'). congruence.
Qed.

Lemma squares_loop (l : list R) s : fold_left (fun yy v => yy + v ^ 2) l s = s + Rsum (map (fun v => v * v) l).
Proof. revert s. induction l as [|x l IH]; intros s; simpl; [ring|]. rewrite IH. ring. Qed.

Lemma norm_squared (B : dict T R) wb : (forall k v, In (k, v) B -> wb k = v) ->
  Rsum (map (fun v => v * v) (dvalues B)) = Rsum (map (fun k => wb k * wb k) (dkeys B)).
Proof.
  induction B as [|[k v] B IH]; intros Hwb; simpl; [reflexivity|].
  rewrite (Hwb k v) by (left; reflexivity). f_equal. apply IH. intros; apply Hwb; right; assumption.
Qed.

Lemma dot_nonneg (ks : list T) v : 0 <= dot ks v v.
Proof. apply Rsum_nonneg. intros k _. apply Rle_0_sqr. Qed.

Lemma dot_sym (ks : list T) v w : dot ks v w = dot ks w v.
Proof. apply Rsum_ext. intros. ring. Qed.

Lemma weights_support (A : dict T R) wa ks f : weights 0 A wa -> NoDup ks -> (forall k v, In (k, v) A -> In k ks) ->
  (forall k, wa k = 0 -> f k = 0) -> Rsum (map f ks) = Rsum (map f (dkeys A)).
Proof.
  intros (Hn & Hv & Hz) Hks Hin Hf. apply Rsum_support; auto.
  intros k Hk. apply in_map_iff in Hk as ([k' v] & <- & Hk). eapply Hin; eauto.
Qed.

Lemma swap_pair {X Y} (b : bool) (f : X -> X -> Y) x y : (let '(a, c) := if b then (y, x) else (x, y) in f a c) = if b then f y x else f x y.
Proof. destruct b; reflexivity. Qed.

Lemma cosine_value (A B : dict T R) wa wb ks : weights 0 A wa -> weights 0 B wb -> covers ks A B ->
  A <> [] -> B <> [] ->
  sparse_cosine_similarity false A B = div_sqrt (dot ks wa wb) (dot ks wa wa * dot ks wb wb).
Proof.
  intros HA HB (Hks & Hka & Hkb) NA NB.
  assert (G : forall (A B : dict T R) wa wb, weights 0 A wa -> weights 0 B wb ->
     (forall k v, In (k, v) A -> In k ks) -> (forall k v, In (k, v) B -> In k ks) ->
     (let '(xx, xy) := fold_left (cosine_step B) A (0, 0) in
      let yy := fold_left (fun yy v => yy + v ^ 2) (dvalues B) 0 in div_sqrt xy (xx * yy)) =
     div_sqrt (dot ks wa wb) (dot ks wa wa * dot ks wb wb)).
  { clear - Hks. intros A B wa wb HA HB Hka Hkb.
    rewrite (cosine_loop B wb HB A wa 0 0) by apply HA. cbv zeta.
    rewrite squares_loop, (norm_squared B wb) by apply HB. rewrite !Rplus_0_l.
    unfold dot. rewrite (weights_support A wa ks (fun k => wa k * wb k) HA Hks Hka) by (intros k ->; ring).
    rewrite (weights_support A wa ks (fun k => wa k * wa k) HA Hks Hka) by (intros k ->; ring).
    rewrite (weights_support B wb ks (fun k => wb k * wb k) HB Hks Hkb) by (intros k ->; ring). reflexivity. }
  unfold sparse_cosine_similarity.
  destruct A as [|pa A]; [contradiction|]. destruct B as [|pb B]; [contradiction|].
  cbn [length Nat.eqb orb].
  destruct (Nat.ltb (S (length B)) (S (length A))).
  - etransitivity; [apply (G (pb :: B) (pa :: A) wb wa HB HA Hkb Hka)|]. rewrite (dot_sym ks wb wa). f_equal. ring.
  - apply (G (pa :: A) (pb :: B) wa wb HA HB Hka Hkb).
Qed.

Lemma div_sqrt_norms (ks : list T) wa wb x :
  div_sqrt x (dot ks wa wa * dot ks wb wb) =
  if Req_EM_T (norm ks wa * norm ks wb) 0 then Err ZeroDivisionError else Ok (x / (norm ks wa * norm ks wb)).
Proof. unfold div_sqrt, norm. rewrite sqrt_mult by apply dot_nonneg. reflexivity. Qed.

Lemma norm_zero (ks : list T) v : norm ks v = 0 <-> forall k, In k ks -> v k = 0.
Proof.
  unfold norm. split.
  - intros E. apply sqrt_eq_0 in E; [|apply dot_nonneg]. unfold dot in E.
    induction ks as [|k ks IH]; simpl in *; [tauto|].
    pose proof (Rle_0_sqr (v k)) as Hk. unfold Rsqr in Hk.
    pose proof (dot_nonneg ks v) as Hr. unfold dot in Hr.
    intros k' [<-|Hk']; [|apply IH; [lra|exact Hk']].
    assert (v k * v k = 0) by lra. nra.
  - intros Hz. unfold dot. rewrite (Rsum_zero (fun k => v k * v k)); [apply sqrt_0|].
    intros k Hk. rewrite (Hz k Hk). ring.
Qed.

(** Cauchy-Schwarz *)
Lemma cauchy_schwarz (ks : list T) v w : dot ks v w * dot ks v w <= dot ks v v * dot ks w w.
Proof.
  unfold dot. induction ks as [|k ks IH]; simpl; [lra|].
  set (p := Rsum (map (fun k => v k * w k) ks)) in *. set (s := Rsum (map (fun k => v k * v k) ks)) in *.
  set (t := Rsum (map (fun k => w k * w k) ks)) in *.
  assert (Hs : 0 <= s) by (apply Rsum_nonneg; intros; apply Rle_0_sqr).
  assert (Ht : 0 <= t) by (apply Rsum_nonneg; intros; apply Rle_0_sqr).
  set (a := v k). set (b := w k).
  assert (G : 2 * p * (a * b) <= s * (b * b) + t * (a * a)).
  { assert (Hsq : (2 * p * (a * b)) * (2 * p * (a * b)) <= (s * (b * b) + t * (a * a)) * (s * (b * b) + t * (a * a))).
    { assert (H1 : (p * p) * ((a * b) * (a * b)) <= (s * t) * ((a * b) * (a * b)))
        by (apply Rmult_le_compat_r; [apply Rle_0_sqr|exact IH]).
      pose proof (Rle_0_sqr (s * (b * b) - t * (a * a))) as H2. unfold Rsqr in H2. nra. }
    assert (Hr : 0 <= s * (b * b) + t * (a * a)).
    { pose proof (Rmult_le_pos s (b * b) Hs (Rle_0_sqr b)). pose proof (Rmult_le_pos t (a * a) Ht (Rle_0_sqr a)). lra. }
    apply Rnot_lt_le. intros Hlt. apply (Rlt_not_le _ _ (Rmult_le_0_lt_compat _ _ _ _ Hr Hr Hlt Hlt)). exact Hsq. }
  nra.
Qed.

Lemma dot_norms (ks : list T) v w : - (norm ks v * norm ks w) <= dot ks v w <= norm ks v * norm ks w.
Proof.
  pose proof (cauchy_schwarz ks v w) as G. unfold norm. rewrite <- sqrt_mult by apply dot_nonneg.
  assert (Hn : 0 <= dot ks v v * dot ks w w) by (apply Rmult_le_pos; apply dot_nonneg).
  assert (Ha : Rabs (dot ks v w) <= sqrt (dot ks v v * dot ks w w)).
  { rewrite <- sqrt_Rsqr_abs. apply sqrt_le_1_alt. exact G. }
  pose proof (Rle_abs (dot ks v w)). pose proof (Rle_abs (- dot ks v w)) as Hb. rewrite Rabs_Ropp in Hb. lra.
Qed.

Lemma div_le_1 x n : 0 < n -> - n <= x <= n -> -1 <= x / n <= 1.
Proof.
  intros Hn Hx. unfold Rdiv. pose proof (Rinv_0_lt_compat n Hn) as Hi.
  assert (E : n * / n = 1) by (apply Rinv_r; lra). nra.
Qed.

Lemma norm_nonneg (ks : list T) v : 0 <= norm ks v.
Proof. apply sqrt_pos. Qed.

Lemma cosine_range (A B : dict T R) wa wb same x : weights 0 A wa -> weights 0 B wb ->
  sparse_cosine_similarity same A B = Ok x ->
  -1 <= x <= 1 /\ ((forall k, 0 <= wa k) -> (forall k, 0 <= wb k) -> 0 <= x).
Proof.
  intros HA HB E. destruct same; [injection E as <-; split; [lra|intros; lra]|].
  destruct A as [|pa A]; [injection E as <-; split; [lra|intros; lra]|].
  destruct B as [|pb B]; [unfold sparse_cosine_similarity in E; rewrite orb_true_r in E; injection E as <-; split; [lra|intros; lra]|].
  set (ks := set_of (dkeys (pa :: A) ++ dkeys (pb :: B))).
  assert (Hks : covers ks (pa :: A) (pb :: B)).
  { split; [apply set_of_NoDup|].
    split; intros k v Hin; apply set_of_In, in_app_iff; [left|right]; apply (in_map fst) in Hin; exact Hin. }
  rewrite (cosine_value _ _ wa wb ks HA HB Hks), div_sqrt_norms in E by discriminate.
  destruct (Req_EM_T (norm ks wa * norm ks wb) 0) as [_|Hn]; [discriminate|]. injection E as <-.
  assert (Hp : 0 < norm ks wa * norm ks wb).
  { pose proof (Rmult_le_pos _ _ (norm_nonneg ks wa) (norm_nonneg ks wb)). lra. }
  split; [apply div_le_1; [exact Hp|apply dot_norms]|].
  intros Pa Pb. apply Rmult_le_pos; [apply Rsum_nonneg; intros; apply Rmult_le_pos; auto|].
  left. apply Rinv_0_lt_compat. exact Hp.
Qed.

Lemma cosine_sym (A B : dict T R) wa wb same : weights 0 A wa -> weights 0 B wb ->
  sparse_cosine_similarity same A B = sparse_cosine_similarity same B A.
Proof.
  intros HA HB. destruct same; [reflexivity|].
  destruct A as [|pa A]; [unfold sparse_cosine_similarity; simpl; rewrite orb_true_r; reflexivity|].
  destruct B as [|pb B]; [unfold sparse_cosine_similarity; simpl; reflexivity|].
  set (ks := set_of (dkeys (pa :: A) ++ dkeys (pb :: B))).
  assert (Hks : covers ks (pa :: A) (pb :: B)).
  { split; [apply set_of_NoDup|].
    split; intros k v Hin; apply set_of_In, in_app_iff; [left|right]; apply (in_map fst) in Hin; exact Hin. }
  assert (Hks' : covers ks (pb :: B) (pa :: A)) by (unfold covers in *; tauto).
  rewrite (cosine_value _ _ wa wb ks HA HB Hks), (cosine_value _ _ wb wa ks HB HA Hks') by discriminate.
  rewrite (dot_sym ks wb wa). f_equal. ring.
Qed.

Lemma dot_product_correct (A B : dict T R) wa wb ks : weights 0 A wa -> weights 0 B wb -> covers ks A B ->
  sparse_dot_product A B = dot ks wa wb.
Proof.
  intros HA HB (Hks & Hka & Hkb).
  assert (G : forall (A B : dict T R) wa wb, weights 0 A wa -> weights 0 B wb -> (forall k v, In (k, v) A -> In k ks) ->
    fold_left (fun p kv => match dget B (fst kv) with Some w2 => p + snd kv * w2 | None => p end) A 0 = dot ks wa wb).
  { clear - Hks. intros A B wa wb HA HB Hka. unfold dot.
    rewrite (weights_support A wa ks (fun k => wa k * wb k) HA Hks Hka) by (intros k ->; ring).
    destruct HA as (_ & Hwa & _). destruct HB as (_ & Hwb & Hzb).
    clear Hka. cut (forall s, fold_left (fun p kv => match dget B (fst kv) with Some w2 => p + snd kv * w2 | None => p end) A s =
      s + Rsum (map (fun k => wa k * wb k) (dkeys A))); [intros G; rewrite G; ring|].
    induction A as [|[k v] A IH]; intros s; simpl; [ring|].
    rewrite IH by (intros; apply Hwa; right; assumption). rewrite (Hwa k v) by (left; reflexivity).
    destruct (dget B k) as [v2|] eqn:E.
    - rewrite (Hwb k v2) by (apply dget_Some_In; exact E). ring.
    - rewrite (Hzb k); [ring|]. intros Hin. apply (dget_In_keys B k) in Hin as (v' & Ev'). congruence. }
  unfold sparse_dot_product. destruct (Nat.ltb _ _); [|apply G; assumption].
  rewrite dot_sym. apply G; assumption.
Qed.

Lemma sparse_norm_correct (A : dict T R) wa ks : weights 0 A wa -> covers ks A A -> sparse_norm A = norm ks wa.
Proof.
  intros HA (Hks & Hka & _). unfold sparse_norm, norm. f_equal.
  assert (G : forall (l : list R) s, fold_left (fun s w => s + w * w) l s = s + Rsum (map (fun v => v * v) l)).
  { clear. induction l as [|x l IH]; intros s; simpl; [ring|]. rewrite IH. ring. }
  rewrite G, Rplus_0_l, (norm_squared A wa) by apply HA. unfold dot.
  rewrite (weights_support A wa ks (fun k => wa k * wa k) HA Hks Hka) by (intros k ->; ring). reflexivity.
Qed.

Lemma normalize_weights (A : dict T R) wa ks : weights 0 A wa -> covers ks A A ->
  weights 0 (sparse_normalize A) (fun k => wa k / norm ks wa).
Proof.
  intros HA Hks. unfold sparse_normalize. rewrite (sparse_norm_correct A wa ks HA Hks).
  pose proof HA as (Hn & Hv & Hz).
  destruct (Req_EM_T (norm ks wa) 0) as [E|E].
  - split; [constructor|]. split; [intros k v []|]. intros k _.
    destruct (in_dec eq_dec k (dkeys A)) as [Hk|Hk].
    + assert (Hin : In k ks) by (apply in_map_iff in Hk as ([k' v] & <- & Hk); eapply (proj1 (proj2 Hks)); eauto).
      rewrite (proj1 (norm_zero ks wa) E k Hin). unfold Rdiv. ring.
    + rewrite (Hz k Hk). unfold Rdiv. ring.
  - assert (Ek : map fst (map (fun kv : T * R => (fst kv, snd kv / norm ks wa)) A) = map fst A) by (rewrite map_map; reflexivity).
    split; [rewrite Ek; exact Hn|]. split.
    + intros k v Hin. apply in_map_iff in Hin as ([k' v'] & [= <- <-] & Hin). rewrite (Hv k' v' Hin). reflexivity.
    + intros k Hk. rewrite Ek in Hk. rewrite (Hz k Hk). unfold Rdiv. ring.
Qed.

Lemma normalize_keys (A : dict T R) k v : In (k, v) (sparse_normalize A) -> exists v', In (k, v') A.
Proof.
  unfold sparse_normalize. destruct (Req_EM_T _ 0); [intros []|].
  intros Hin. apply in_map_iff in Hin as ([k' v'] & [= <- <-] & Hin). eauto.
Qed.

Lemma normalize_norm (A : dict T R) wa ks : weights 0 A wa -> covers ks A A -> norm ks wa <> 0 ->
  sparse_norm (sparse_normalize A) = 1.
Proof.
  intros HA Hks Hn.
  rewrite (sparse_norm_correct (sparse_normalize A) (fun k => wa k / norm ks wa) ks).
  - unfold norm at 1. unfold dot.
    rewrite (Rsum_ext _ (fun k => (wa k * wa k) * (/ norm ks wa * / norm ks wa))) by (intros; unfold Rdiv; ring).
    assert (G : forall c (l : list T) f, Rsum (map (fun k => f k * c) l) = Rsum (map f l) * c).
    { clear. induction l as [|k l IH]; intros f; simpl; [ring|]. rewrite IH. ring. }
    rewrite G. fold (dot ks wa wa).
    assert (E : dot ks wa wa = norm ks wa * norm ks wa) by (unfold norm; rewrite sqrt_sqrt; [reflexivity|apply dot_nonneg]).
    rewrite E. replace (norm ks wa * norm ks wa * (/ norm ks wa * / norm ks wa)) with 1 by (field; exact Hn).
    apply sqrt_1.
  - apply normalize_weights; assumption.
  - destruct Hks as (H1 & H2 & H3). split; [exact H1|].
    split; intros k v Hin; apply normalize_keys in Hin as (v' & Hin); eauto.
Qed.

Lemma normalized_dot (A B : dict T R) wa wb ks : weights 0 A wa -> weights 0 B wb -> covers ks A B ->
  norm ks wa <> 0 -> norm ks wb <> 0 ->
  sparse_dot_product (sparse_normalize A) (sparse_normalize B) = dot ks wa wb / (norm ks wa * norm ks wb).
Proof.
  intros HA HB (H1 & H2 & H3) Na Nb.
  rewrite (dot_product_correct _ _ (fun k => wa k / norm ks wa) (fun k => wb k / norm ks wb) ks).
  - unfold dot at 1. rewrite (Rsum_ext _ (fun k => (wa k * wb k) * (/ norm ks wa * / norm ks wb))) by (intros; unfold Rdiv; ring).
    assert (G : forall c (l : list T) f, Rsum (map (fun k => f k * c) l) = Rsum (map f l) * c).
    { clear. induction l as [|k l IH]; intros f; simpl; [ring|]. rewrite IH. ring. }
    rewrite G. fold (dot ks wa wb). field. auto.
  - apply normalize_weights; [exact HA|]. split; auto.
  - apply normalize_weights; [exact HB|]. split; auto.
  - split; [exact H1|]. split; intros k v Hin; apply normalize_keys in Hin as (v' & Hin); eauto.
Qed.

(** counters *)
Lemma counter_weights (l : list T) : weights 0 (counter l) (fun k => INR (count_occ eq_dec l k)).
Proof.
  unfold counter.
  assert (G : forall l d w, weights 0 d w ->
     weights 0 (fold_left (fun d x => dmodify d x 0 (fun n => n + 1)) l d) (fun k => w k + INR (count_occ eq_dec l k))).
  { clear l. induction l as [|x l IH]; intros d w Hd.
    - destruct Hd as (H1 & H2 & H3). simpl. split; [exact H1|]. split; intros; rewrite Rplus_0_r; auto.
    - cbn [fold_left].
      assert (Hd' : weights 0 (dmodify d x 0 (fun n => n + 1)) (fun k => w k + if eq_dec x k then 1 else 0)).
      { destruct Hd as (H1 & H2 & H3).
        assert (Hn : NoDup (dkeys (dmodify d x 0 (fun n => n + 1)))) by (rewrite dkeys_dmodify; apply sadd_NoDup; exact H1).
        split; [exact Hn|]. split.
        - intros k v Hin. apply In_dget in Hin; [|exact Hn]. destruct (eq_dec x k) as [<-|Hne].
          + rewrite dget_dmodify_same in Hin. injection Hin as <-.
            destruct (dget d x) as [v|] eqn:E; [rewrite (H2 x v) by (apply dget_Some_In; exact E); ring|].
            rewrite (H3 x); [ring|]. intros Hin. apply (dget_In_keys d x) in Hin as (v & Ev). congruence.
          + rewrite dget_dmodify_other in Hin by exact Hne. rewrite (H2 k v) by (apply dget_Some_In; exact Hin). ring.
        - intros k Hk. fold (dkeys (dmodify d x 0 (fun n => n + 1))) in Hk. rewrite dkeys_dmodify, sadd_In in Hk.
          destruct (eq_dec x k) as [<-|Hne]; [tauto|]. rewrite (H3 k); [ring|]. unfold dkeys in Hk. tauto. }
      destruct (IH _ _ Hd') as (K1 & K2 & K3). split; [exact K1|].
      assert (Ek : forall k, w k + (if eq_dec x k then 1 else 0) + INR (count_occ eq_dec l k) = w k + INR (count_occ eq_dec (x :: l) k)).
      { intros k. simpl. destruct (eq_dec x k); [rewrite S_INR|]; ring. }
      split; intros; rewrite <- Ek; auto. }
  destruct (G l [] (fun _ => 0)) as (K1 & K2 & K3).
  { split; [constructor|]. split; [intros k v []|reflexivity]. }
  split; [exact K1|]. split; intros; rewrite <- (Rplus_0_l (INR _)); auto.
Qed.

(** binary cosine *)
Lemma binary_cosine_value (A B : list T) i n m : card (fun x => In x A /\ In x B) i ->
  card (fun x => In x A) n -> card (fun x => In x B) m -> n <> 0%nat -> m <> 0%nat ->
  binary_cosine_similarity A B = Ok (INR i / (sqrt (INR n) * sqrt (INR m))).
Proof.
  intros Hi Hn Hm N1 N2.
  rewrite (card_unique _ _ _ Hn (set_card A)), (card_unique _ _ _ Hm (set_card B)) in *.
  rewrite (card_unique _ _ _ Hi (inter_card A B)). clear Hi Hn Hm.
  unfold binary_cosine_similarity, sparse_binary_cosine_similarity, swap_smaller.
  destruct (Nat.eqb_spec (length (set_of A)) 0); [contradiction|]. destruct (Nat.eqb_spec (length (set_of B)) 0); [contradiction|].
  cbn [orb].
  assert (Pn : 0 < INR (length (set_of A))) by (apply lt_0_INR; lia).
  assert (Pm : 0 < INR (length (set_of B))) by (apply lt_0_INR; lia).
  assert (G : forall x y z, 0 < x -> 0 < y -> div_sqrt z (x * y) = Ok (z / (sqrt x * sqrt y))).
  { intros x y z Hx Hy. unfold div_sqrt. rewrite sqrt_mult by lra.
    destruct (Req_EM_T (sqrt x * sqrt y) 0) as [E|_]; [|reflexivity].
    pose proof (sqrt_lt_R0 x Hx). pose proof (sqrt_lt_R0 y Hy). nra. }
  destruct (Nat.ltb _ _).
  - rewrite (count_in_sym B A), G by assumption. f_equal. f_equal. ring.
  - apply G; assumption.
Qed.

Lemma binary_cosine_empty (A B : list T) : A = [] \/ B = [] -> binary_cosine_similarity A B = Ok 0.
Proof.
  intros [-> | ->]; unfold binary_cosine_similarity, sparse_binary_cosine_similarity; simpl; [reflexivity|].
  rewrite orb_true_r. reflexivity.
Qed.

Lemma binary_cosine_range (A B : list T) : exists x, binary_cosine_similarity A B = Ok x /\ 0 <= x <= 1 /\
  binary_cosine_similarity B A = Ok x.
Proof.
  destruct (Nat.eq_dec (length (set_of A)) 0) as [E|E].
  { apply set_of_nil_iff in E. subst. exists 0. rewrite !binary_cosine_empty by auto. repeat split; lra. }
  destruct (Nat.eq_dec (length (set_of B)) 0) as [E'|E'].
  { apply set_of_nil_iff in E'. subst. exists 0. rewrite !binary_cosine_empty by auto. repeat split; lra. }
  pose proof (binary_cosine_value A B _ _ _ (inter_card A B) (set_card A) (set_card B) E E') as G.
  pose proof (binary_cosine_value B A _ _ _ (inter_card B A) (set_card B) (set_card A) E' E) as G'.
  eexists. split; [exact G|]. split.
  - destruct (count_in_bounds A B) as [Ha Hb].
    assert (Pn : 0 < INR (length (set_of A))) by (apply lt_0_INR; lia).
    assert (Pm : 0 < INR (length (set_of B))) by (apply lt_0_INR; lia).
    pose proof (sqrt_lt_R0 _ Pn) as Sn. pose proof (sqrt_lt_R0 _ Pm) as Sm.
    pose proof (pos_INR (count_in (set_of A) (set_of B))) as Hi.
    apply le_INR in Ha, Hb.
    assert (Hp : 0 < sqrt (INR (length (set_of A))) * sqrt (INR (length (set_of B)))) by (apply Rmult_lt_0_compat; assumption).
    split; [apply Rmult_le_pos; [exact Hi|left; apply Rinv_0_lt_compat; exact Hp]|].
    apply (div_le_1 _ _ Hp). split; [lra|].
    rewrite <- sqrt_mult by lra. rewrite <- (sqrt_square (INR (count_in (set_of A) (set_of B))) Hi).
    apply sqrt_le_1_alt. apply Rmult_le_compat; lra.
  - rewrite G', (count_in_sym B A). f_equal. f_equal. ring.
Qed.
End CosineProofs.

(** ** Online mean *)
Fixpoint mean_run (h : history) : res mean :=
  match h with
  | New => Ok mean_new
  | Added h x => let! m := mean_run h in Ok (mean_add m x)
  | Subtracted h x => let! m := mean_run h in mean_subtract m x
  | Merged h h' => let! m := mean_run h in let! m' := mean_run h' in Ok (mean_iadd m m')
  end.

Lemma mean_holds h l : holds h l -> exists m, mean_run h = Ok m /\ mean_len m = length l /\ (fst m == Qsum l)%Q.
Proof.
  induction 1 as [|h l x Hh IH|h l1 x l2 Hh IH|h h' l l' Hh IH Hh' IH'].
  - exists mean_new. repeat split.
  - destruct IH as (m & E & El & Es). simpl. rewrite E. eexists. split; [reflexivity|]. simpl. split; [unfold mean_len in El; lia|].
    rewrite Es. ring.
  - destruct IH as (m & E & El & Es). simpl. rewrite E. simpl. unfold mean_subtract, mean_len in *.
    rewrite app_length in El. simpl in El. destruct (Nat.eqb_spec (snd m) 0) as [Z|Z]; [lia|].
    eexists. split; [reflexivity|]. simpl. split; [rewrite app_length; lia|].
    rewrite Es, !Qsum_app. simpl. ring.
  - destruct IH as (m & E & El & Es), IH' as (m' & E' & El' & Es'). simpl. rewrite E, E'. simpl.
    eexists. split; [reflexivity|]. simpl. unfold mean_len in *. split; [rewrite app_length; lia|].
    rewrite Es, Es', Qsum_app. reflexivity.
Qed.

Lemma mean_peek_correct h l : holds h l -> exists m, mean_run h = Ok m /\
  match l with
  | [] => mean_peek m = Err StatisticsError /\ forall x, mean_subtract m x = Err AssertionError
  | _ => exists q, mean_peek m = Ok q /\ (q == Qsum l / Qnat (length l))%Q
  end.
Proof.
  intros Hh. destruct (mean_holds h l Hh) as (m & E & El & Es). exists m. split; [exact E|].
  unfold mean_peek, mean_subtract, mean_len in *. rewrite El. destruct l as [|x l]; [split; reflexivity|].
  simpl length. cbn [Nat.eqb]. eexists. split; [reflexivity|]. rewrite Es. reflexivity.
Qed.

Lemma mean_subtract_add m x : exists m', mean_subtract (mean_add m x) x = Ok m' /\ snd m' = snd m /\ (fst m' == fst m)%Q.
Proof.
  unfold mean_subtract, mean_add. simpl. destruct (Nat.eqb_spec (snd m + 1) 0); [lia|].
  eexists. split; [reflexivity|]. simpl. split; [lia|ring].
Qed.

Lemma mean_plus_iadd m m' : snd (mean_plus m m') = snd (mean_iadd m m') /\ (fst (mean_plus m m') == fst (mean_iadd m m'))%Q.
Proof. unfold mean_plus, mean_iadd. simpl. split; [lia|ring]. Qed.
