(** The helpers of the three metrics. *)
From Coq Require Import QArith Qround Lqa.
From Verif Require Import Base PPJoinModel PPJoinSpec PPJoinProofs.
Open Scope nat_scope.

Lemma qn_le a b : (qn a <= qn b)%Q <-> a <= b.
Proof. unfold qn. rewrite <- Zle_Qle. lia. Qed.
Lemma qn_lt a b : (qn a < qn b)%Q <-> a < b.
Proof. unfold qn. rewrite <- Zlt_Qlt. lia. Qed.
Lemma qn_plus a b : (qn (a + b) == qn a + qn b)%Q.
Proof. unfold qn. rewrite Nat2Z.inj_add, inject_Z_plus. reflexivity. Qed.
Lemma qn_mult a b : (qn (a * b) == qn a * qn b)%Q.
Proof. unfold qn. rewrite Nat2Z.inj_mul, inject_Z_mult. reflexivity. Qed.
Lemma qn_minus a b : b <= a -> (qn (a - b) == qn a - qn b)%Q.
Proof. intros Hb. unfold qn. rewrite Nat2Z.inj_sub by lia. unfold Zminus, Qminus. rewrite inject_Z_plus, inject_Z_opp. reflexivity. Qed.
Lemma qn_nonneg a : (0 <= qn a)%Q.
Proof. change 0%Q with (qn 0). apply qn_le. lia. Qed.
Lemma qn_1 : qn 1 = 1%Q. Proof. reflexivity. Qed.
Lemma qn_S a : (qn (S a) == qn a + 1)%Q.
Proof. rewrite <- Nat.add_1_r, qn_plus. reflexivity. Qed.

Lemma int_ge n q : (qn n <= q)%Q -> n <= int q.
Proof.
  intros L. unfold int. apply Qfloor_resp_le in L. unfold qn in L. rewrite Qfloor_Z in L. lia.
Qed.
Lemma int_lt n q : (q < qn n)%Q -> 1 <= n -> int q < n.
Proof.
  intros L H1. unfold int. assert (Qfloor q < Z.of_nat n)%Z; [|lia].
  rewrite Zlt_Qlt. eapply Qle_lt_trans; [apply Qfloor_le|exact L].
Qed.
Lemma int_mono q q' : (q <= q')%Q -> int q <= int q'.
Proof. intros L. unfold int. apply Qfloor_resp_le in L. lia. Qed.
Lemma ceil_le n q : (q <= qn n)%Q -> ceil q <= n.
Proof. intros L. unfold ceil. apply Qceiling_resp_le in L. unfold qn in L. rewrite Qceiling_Z in L. lia. Qed.
Lemma ceil_mono q q' : (q <= q')%Q -> ceil q <= ceil q'.
Proof. intros L. unfold ceil. apply Qceiling_resp_le in L. lia. Qed.
Lemma ceil_gt n q : n < ceil q <-> (qn n < q)%Q.
Proof.
  unfold ceil. split.
  - intros L. destruct (Qlt_le_dec (qn n) q) as [|G]; [auto|]. apply Qceiling_resp_le in G. unfold qn in G. rewrite Qceiling_Z in G. lia.
  - intros L. assert (Z.of_nat n < Qceiling q)%Z; [|lia]. rewrite Zlt_Qlt. eapply Qlt_le_trans; [exact L|apply Qle_ceiling].
Qed.

Open Scope Q_scope.
Lemma flag_ok t n : t < 1 -> (1 <= n)%nat -> Qle_bool (qn n) t = false.
Proof.
  intros Ht Hn. destruct (Qle_bool (qn n) t) eqn:E; [|reflexivity]. apply Qle_bool_iff in E.
  apply qn_le in Hn. rewrite qn_1 in Hn. lra.
Qed.

(** an index or probe length of the form int(c * l + 1 + epsilon) *)
Lemma prefix_ge_1 c l : 0 <= c -> (1 <= int (c * qn l + 1 + EPSILON))%nat.
Proof. intros Hc. apply int_ge. pose proof (qn_nonneg l). rewrite qn_1. unfold EPSILON. nra. Qed.
Lemma prefix_le c l : (1 <= l)%nat -> c <= 1 -> EPSILON < 1 - c -> (int (c * qn l + 1 + EPSILON) <= l)%nat.
Proof.
  intros Hl Hc He. assert (int (c * qn l + 1 + EPSILON) < l + 1)%nat; [|lia]. apply int_lt; [|lia].
  rewrite qn_plus, qn_1. apply qn_le in Hl. rewrite qn_1 in Hl. nra.
Qed.
Lemma prefix_mono c c' l : c <= c' -> (int (c * qn l + 1 + EPSILON) <= int (c' * qn l + 1 + EPSILON))%nat.
Proof. intros Hc. apply int_mono. pose proof (qn_nonneg l). nra. Qed.
(** records sharing at least (1 - c) * l tokens meet in their prefixes *)
Lemma prefix_meets c l o : (o <= l)%nat -> (1 - c) * qn l <= qn o -> (l - o < int (c * qn l + 1 + EPSILON))%nat.
Proof.
  intros Ho Hc. assert (l - o + 1 <= int (c * qn l + 1 + EPSILON))%nat; [|lia].
  apply int_ge. rewrite qn_plus, qn_minus, qn_1 by lia. unfold EPSILON. lra.
Qed.

Definition helper_of (m : metric) (t : Q) : helper :=
  match m with Jaccard => jaccard_helper t | Dice => dice_helper t | BinaryCosine => binary_cosine_helper t end.

Lemma div_eq a b q : 0 < b -> (q == a / b <-> q * b == a).
Proof.
  intros Hb. assert (Nb : ~ b == 0) by (intros E; rewrite E in Hb; apply (Qlt_irrefl 0); exact Hb).
  split; intros E; [rewrite E; field; exact Nb|rewrite <- E; field; exact Nb].
Qed.

Lemma threshold_pos m t : threshold_ok m t -> 0 < t < 1.
Proof. intros [H1 H2]. destruct m; split; try lra; tauto. Qed.

Lemma helper_of_bounds m t : threshold_ok m t -> helper_bounds (helper_of m t) t.
Proof.
  intros Hok. pose proof (threshold_pos m t Hok) as [T0 T1]. destruct Hok as [_ Hok]. destruct m; simpl.
  - (* jaccard *)
    set (k := 1 - 2 * t / (1 + t)). assert (Hk : 2 * t / (1 + t) * (1 + t) == 2 * t) by (field; lra).
    assert (K0 : 0 <= k) by (unfold k; nra). assert (K1 : k <= 1 - t) by (unfold k; nra).
    constructor; simpl; fold k.
    + intros l Hl. apply prefix_ge_1; auto.
    + intros l Hl. apply prefix_mono; auto.
    + intros l Hl. apply prefix_le; auto; unfold EPSILON; lra.
    + intros l Hl. apply flag_ok; auto. apply prefix_ge_1; auto.
    + intros l l' Hl. apply ceil_mono. apply qn_le in Hl. nra.
  - (* dice *)
    assert (Hk : t / (2 - t) * (2 - t) == t) by (field; lra). set (k := t / (2 - t)) in *.
    assert (K0 : 0 <= k) by nra. assert (K1 : k <= t) by nra. assert (K2 : t <= 2 * k) by nra.
    assert (K3 : t < 2 * k) by nra.
    constructor; simpl; fold k.
    + intros l Hl. apply prefix_ge_1; lra.
    + intros l Hl. apply prefix_mono; lra.
    + intros l Hl. apply prefix_le; auto; try lra. unfold EPSILON. lra.
    + intros l Hl. apply flag_ok; auto. apply prefix_ge_1; lra.
    + intros l l' Hl. apply ceil_mono. apply qn_le in Hl.
      assert (E : forall n, qn n * t / (2 - t) == qn n * k) by (intros n; unfold k; field; lra). rewrite !E. nra.
  - (* binary cosine *)
    destruct Hok as [_ Hok].
    constructor; simpl.
    + intros l Hl. apply prefix_ge_1; lra.
    + intros l Hl. apply prefix_mono; nra.
    + intros l Hl. apply prefix_le; auto; [nra|]. unfold EPSILON. lra.
    + intros l Hl. apply flag_ok; auto. apply prefix_ge_1; lra.
    + intros l l' Hl. apply ceil_mono. apply qn_le in Hl. nra.
Qed.

(** the least number of common tokens *)
Lemma least_above_spec fuel t p n : forall b,
  t * t * qn p <= (qn b + EPSILON) * (qn b + EPSILON) -> (n <= b)%nat -> (b <= n + fuel)%nat -> (least_above fuel t p n <= b)%nat.
Proof.
  revert n. induction fuel as [|fuel IH]; intros n b Hb H1 H2; simpl; [lia|].
  destruct (Qle_bool _ _) eqn:E; [lia|]. apply IH; auto; [|lia].
  destruct (Nat.eq_dec n b) as [->|]; [|lia]. apply Qle_bool_iff in Hb. congruence.
Qed.
Lemma least_above_gt fuel t p n : forall b,
  (qn b + EPSILON) * (qn b + EPSILON) < t * t * qn p -> (b < n + fuel)%nat -> (b < least_above fuel t p n)%nat.
Proof.
  revert n. induction fuel as [|fuel IH]; intros n b Hb H2; simpl; [lia|].
  destruct (Qle_bool _ _) eqn:E; [|apply IH; auto; lia].
  apply Qle_bool_iff in E. destruct (Nat.le_gt_cases n b) as [L|L]; [|lia]. exfalso.
  apply qn_le in L. pose proof (qn_nonneg n). unfold EPSILON in *. nra.
Qed.

Record finds (h : helper) (lx ly o : nat) : Prop := {
  f_min : (min_possible_length h lx <= ly)%nat;
  f_require : (require_overlap h lx ly <= o)%nat;
  f_reaches : reaches h lx ly o = true;
  f_px : (lx - o < probe_length h lx)%nat;
  f_py : (ly - o < probe_length h ly)%nat
}.

Lemma helper_of_finds m t lx ly o : threshold_ok m t -> (1 <= ly)%nat -> (ly <= lx)%nat -> (o <= ly)%nat ->
  sim_at_least m t lx ly o -> finds (helper_of m t) lx ly o.
Proof.
  intros Hok Ly Lxy Lo Hs. pose proof (threshold_pos m t Hok) as [T0 T1]. destruct Hok as [_ Hok].
  assert (QY : 1 <= qn ly) by (rewrite <- qn_1; apply qn_le; auto).
  assert (QXY : qn ly <= qn lx) by (apply qn_le; auto). assert (QO : qn o <= qn ly) by (apply qn_le; auto).
  pose proof (qn_nonneg o) as QO0.
  destruct m; cbn [sim_at_least] in Hs; change natq with qn in Hs.
  - rewrite qn_minus, qn_plus in Hs by lia.
    assert (Hx : t * qn lx <= qn o) by nra. assert (Hy : t * qn ly <= qn o) by nra.
    assert (Hk : t / (1 + t) * (1 + t) == t) by (field; lra).
    constructor; simpl.
    + apply ceil_le. unfold EPSILON. lra.
    + apply ceil_le. rewrite qn_plus. set (k := t / (1 + t)) in *. unfold EPSILON. nra.
    + apply Qle_bool_iff. rewrite qn_minus, qn_plus by lia.
      assert (D : 0 < qn lx + qn ly - qn o) by lra.
      assert (t <= qn o / (qn lx + qn ly - qn o)); [|unfold EPSILON; lra].
      apply Qle_shift_div_l; auto.
    + apply prefix_meets; [lia|]. lra.
    + apply prefix_meets; [lia|]. lra.
  - rewrite qn_plus in Hs.
    assert (Hk : t / (2 - t) * (2 - t) == t) by (field; lra).
    assert (Hx : t / (2 - t) * qn lx <= qn o) by (set (k := t / (2 - t)) in *; nra).
    assert (Hy : t / (2 - t) * qn ly <= qn o) by (set (k := t / (2 - t)) in *; nra).
    constructor; simpl.
    + apply ceil_le. assert (E : qn lx * t / (2 - t) == t / (2 - t) * qn lx) by (field; lra). rewrite E. unfold EPSILON. lra.
    + apply ceil_le. rewrite qn_plus. assert (E : (qn lx + qn ly) * t / 2 == (1 # 2) * (t * (qn lx + qn ly))) by field. rewrite E. unfold EPSILON. lra.
    + apply Qle_bool_iff. rewrite qn_plus. assert (D : 0 < qn lx + qn ly) by lra.
      assert (t <= 2 * qn o / (qn lx + qn ly)); [|unfold EPSILON; lra].
      apply Qle_shift_div_l; auto.
    + apply prefix_meets; [lia|]. lra.
    + apply prefix_meets; [lia|]. lra.
  - destruct Hs as [Hs|Hs]; [lra|]. rewrite qn_mult in Hs.
    assert (Hx : t * t * qn lx <= qn o).
    { assert (t * t * qn lx * qn ly <= qn o * qn ly) by nra. apply Qmult_le_r with (z := qn ly); lra. }
    assert (Hy : t * t * qn ly <= qn o) by nra.
    constructor; simpl.
    + apply ceil_le. unfold EPSILON. lra.
    + apply least_above_spec; [|lia|]; [|nia]. rewrite qn_mult. unfold EPSILON. nra.
    + apply orb_true_iff. destruct (Qlt_le_dec EPSILON t) as [L|L]; [right|left; apply Qle_bool_iff; exact L].
      apply Qle_bool_iff. rewrite qn_mult. eapply Qle_trans; [|exact Hs]. apply Qmult_le_compat_r; [|nra].
      unfold EPSILON in *. nra.
    + apply prefix_meets; [lia|]. lra.
    + apply prefix_meets; [lia|]. lra.
Qed.

Lemma helper_of_sound m t lx ly o : threshold_ok m t -> (1 <= ly)%nat -> (ly <= lx)%nat -> (o <= ly)%nat ->
  reaches (helper_of m t) lx ly o = true -> sim_at_least m (t - EPSILON) lx ly o.
Proof.
  intros Hok Ly Lxy Lo Hr.
  assert (QY : 1 <= qn ly) by (rewrite <- qn_1; apply qn_le; auto).
  assert (QXY : qn ly <= qn lx) by (apply qn_le; auto). assert (QO : qn o <= qn ly) by (apply qn_le; auto).
  pose proof (qn_nonneg o) as QO0.
  destruct m; simpl in *; change natq with qn.
  - apply Qle_bool_iff in Hr. rewrite qn_minus, qn_plus in * by lia.
    assert (D : 0 < qn lx + qn ly - qn o) by lra.
    assert (E : qn o / (qn lx + qn ly - qn o) * (qn lx + qn ly - qn o) == qn o) by (field; lra).
    set (u := qn o / (qn lx + qn ly - qn o)) in *. rewrite <- E at 2. apply Qmult_le_compat_r; lra.
  - apply Qle_bool_iff in Hr. rewrite qn_plus in *.
    assert (E : 2 * qn o / (qn lx + qn ly) * (qn lx + qn ly) == 2 * qn o) by (field; lra).
    set (u := 2 * qn o / (qn lx + qn ly)) in *. rewrite <- E. apply Qmult_le_compat_r; lra.
  - apply orb_true_iff in Hr as [Hr|Hr]; apply Qle_bool_iff in Hr; [left; lra|right; exact Hr].
Qed.

(** when the required overlap is not below the length, for similar records *)
Lemma helper_of_lost m t lx ly o : threshold_ok m t -> (1 <= ly)%nat -> (ly <= lx)%nat -> (o <= ly)%nat ->
  sim_at_least m t lx ly o ->
  (Qle_bool (qn (require_overlap (helper_of m t) lx ly)) (qn lx - t) = false <-> (lx = ly /\ o = ly /\ too_short m t lx)).
Proof.
  intros Hok Ly Lxy Lo Hs. pose proof (helper_of_finds m t lx ly o Hok Ly Lxy Lo Hs) as [_ Hr _ _ _].
  pose proof (threshold_pos m t Hok) as [T0 T1].
  set (r := require_overlap (helper_of m t) lx ly) in *.
  assert (E1 : Qle_bool (qn r) (qn lx - t) = false <-> (lx <= r)%nat).
  { split; intros E.
    - destruct (Nat.le_gt_cases lx r) as [|G]; [auto|]. exfalso. assert (G' : (r + 1 <= lx)%nat) by lia. apply qn_le in G'.
      rewrite qn_plus, qn_1 in G'. assert (L : qn r <= qn lx - t) by lra. apply Qle_bool_iff in L. congruence.
    - destruct (Qle_bool _ _) eqn:L; [|reflexivity]. apply Qle_bool_iff in L. apply qn_le in E. lra. }
  rewrite E1.
  assert (E2 : forall l, (1 <= l)%nat -> ((l <= require_overlap (helper_of m t) l l)%nat <-> too_short m t l)).
  { intros l Hl. assert (E : (l <= require_overlap (helper_of m t) l l)%nat <-> (l - 1 < require_overlap (helper_of m t) l l)%nat) by lia.
    rewrite E. clear E. assert (QL : 1 <= qn l) by (rewrite <- qn_1; apply qn_le; auto).
    destruct m; cbn [helper_of jaccard_helper dice_helper binary_cosine_helper require_overlap too_short]; change natq with qn.
    - rewrite ceil_gt, qn_minus, qn_plus, qn_1 by lia.
      assert (Hk : t / (1 + t) * (1 + t) == t) by (field; lra). set (k := t / (1 + t)) in *. unfold EPSILON.
      assert (E : (qn l - 1 + (1 # 1000000)) * (1 + t) < 2 * t * qn l <-> (qn l - 1 + (1 # 1000000)) * (1 + t) < (k * (qn l + qn l)) * (1 + t)).
      { assert (F : k * (qn l + qn l) * (1 + t) == 2 * t * qn l) by (transitivity ((k * (1 + t)) * (qn l + qn l)); [ring|rewrite Hk; ring]). rewrite F. reflexivity. }
      rewrite E, Qmult_lt_r by lra. split; intros; lra.
    - rewrite ceil_gt, qn_minus, qn_plus, qn_1 by lia. unfold EPSILON.
      assert (E : (qn l + qn l) * t / 2 == t * qn l) by field. rewrite E. split; intros; lra.
    - assert (Q1 : qn (l - 1) == qn l - 1) by (rewrite qn_minus, qn_1 by lia; reflexivity).
      split.
      + intros L. destruct (Qlt_le_dec (qn l - 1 + (1 # 1000000)) (t * qn l)) as [|G]; [auto|]. exfalso.
        assert (least_above (l * l) t (l * l) 0 <= l - 1)%nat; [|lia].
        apply least_above_spec; [|lia|nia]. rewrite Q1, qn_mult. unfold EPSILON.
        assert (F : t * t * (qn l * qn l) == (t * qn l) * (t * qn l)) by ring. rewrite F.
        assert (V : 0 <= t * qn l) by nra. clear - G V. nra.
      + intros L. apply least_above_gt; [|nia]. rewrite Q1, qn_mult. unfold EPSILON.
        assert (F : t * t * (qn l * qn l) == (t * qn l) * (t * qn l)) by ring. rewrite F.
        assert (V : 0 <= t * qn l) by nra. clear - L V QL. nra. }
  split.
  - intros L. assert (lx = ly) by lia. subst ly. split; [auto|]. split; [lia|]. apply E2; [lia|exact L].
  - intros (-> & -> & S). unfold r. apply E2; auto.
Qed.
