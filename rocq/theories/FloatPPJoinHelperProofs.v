(** The helpers of ppjoin in floats: what they compute is off by far less than epsilon. *)
From Coq Require Import QArith Qround Qabs Lqa.
From Verif Require Import Base PPJoinModel PPJoinSpec PPJoinProofs PPJoinHelperProofs FloatModel FloatSpec FloatProofs FloatPPJoinModel FloatPPJoinSpec.
Open Scope Q_scope.

Notation u := (1 # 9007199254740992).
Lemma pow2_u : pow2 (-53) == u. Proof. reflexivity. Qed.
Lemma fl_up q : 0 <= q -> fl q <= q + u * q.
Proof. intros H. apply fl_bounds in H. rewrite pow2_u in H. tauto. Qed.
Lemma fl_down q : 0 <= q -> q - u * q <= fl q.
Proof. intros H. apply fl_bounds in H. rewrite pow2_u in H. tauto. Qed.
Lemma fl_in q B : 0 <= q -> q <= B -> q - B * u <= fl q /\ fl q <= q + B * u.
Proof. intros H0 HB. pose proof (fl_up q H0). pose proof (fl_down q H0). split; lra. Qed.
Lemma eps_bounds : (999999999 # 1000000000000000) <= EPSILON_float /\ EPSILON_float <= (1000000001 # 1000000000000000).
Proof. split; vm_compute; discriminate. Qed.
Lemma float53_1 : float53 1. Proof. apply (float53_Z 1). lia. Qed.
Lemma float53_qn n : (Z.of_nat n <= 2 ^ 53)%Z -> float53 (qn n).
Proof. intros Hn. apply float53_Z. lia. Qed.
Lemma float53_double t : float53 t -> float53 (2 * t).
Proof.
  intros (m & k & Hm & E). exists m, (k + 1)%Z. split; [exact Hm|]. rewrite E. change ((2 # 1) ^ (k + 1)) with (pow2 (k + 1)). rewrite pow2_S. unfold pow2. ring.
Qed.

(** the size up to which records are considered *)
Lemma qn_max n : small n -> qn n <= 1048576.
Proof. intros Hn. unfold qn. change 1048576 with (inject_Z 1048576). rewrite <- Zle_Qle. exact Hn. Qed.

(** ** int(c * l + 1 + epsilon) *)
Notation prefix c l := (fadd (fadd (fmul c (qn l)) 1) EPSILON_float).
Lemma prefix_float_ge_1 c l : 0 <= c -> (1 <= int (prefix c l))%nat.
Proof.
  intros Hc. apply int_ge. rewrite qn_1. pose proof (qn_nonneg l) as L0. pose proof eps_bounds as [E0 _].
  unfold fadd, fmul. apply fl_ge; [apply float53_1|].
  assert (1 <= fl (fl (c * qn l) + 1)); [|lra]. apply fl_ge; [apply float53_1|].
  pose proof (fl_nonneg (c * qn l) ltac:(nra)). lra.
Qed.
Lemma prefix_float_mono c c' l : c <= c' -> (int (prefix c l) <= int (prefix c' l))%nat.
Proof.
  intros Hc. apply int_mono. pose proof (qn_nonneg l) as L0. unfold fadd, fmul. apply fl_mono. apply Qplus_le_compat; [|apply Qle_refl].
  apply fl_mono. apply Qplus_le_compat; [|apply Qle_refl]. apply fl_mono. nra.
Qed.
Lemma prefix_float_le c l : (1 <= l)%nat -> 0 <= c -> c <= 1 - (1 # 500000) -> (int (prefix c l) <= l)%nat.
Proof.
  intros Hl H0 Hc. assert (int (prefix c l) < l + 1)%nat; [|lia]. apply int_lt; [|lia].
  rewrite qn_plus, qn_1. apply qn_le in Hl. rewrite qn_1 in Hl. set (L := qn l) in *. clearbody L. pose proof eps_bounds as [E0 E1]. set (E := EPSILON_float) in *. clearbody E.
  assert (Z0 : 0 <= c * L) by nra. assert (Z1 : c * L <= (1 - (1 # 500000)) * L) by nra. unfold fadd, fmul. set (z := c * L) in *. clearbody z.
  pose proof (fl_up z Z0). pose proof (fl_nonneg z Z0). set (a := fl z) in *. clearbody a.
  pose proof (fl_up (a + 1) ltac:(lra)). pose proof (fl_nonneg (a + 1) ltac:(lra)). set (b := fl (a + 1)) in *. clearbody b.
  pose proof (fl_up (b + E) ltac:(lra)). lra.
Qed.
Lemma prefix_float_ge c l : small l -> 0 <= c -> c <= 1 -> c * qn l + 1 + (9 # 10000000) <= prefix c l.
Proof.
  intros Hl H0 Hc. apply qn_max in Hl. pose proof (qn_nonneg l) as L0. set (L := qn l) in *. clearbody L. pose proof eps_bounds as [E0 E1]. set (E := EPSILON_float) in *. clearbody E.
  assert (Z0 : 0 <= c * L) by nra. assert (Z1 : c * L <= 1048576) by nra. unfold fadd, fmul. set (z := c * L) in *. clearbody z.
  pose proof (fl_in z _ Z0 Z1) as [A1 A2]. pose proof (fl_nonneg z Z0). set (a := fl z) in *. clearbody a.
  pose proof (fl_in (a + 1) 1048578 ltac:(lra) ltac:(lra)) as [B1 B2]. pose proof (fl_nonneg (a + 1) ltac:(lra)). set (b := fl (a + 1)) in *. clearbody b.
  pose proof (fl_in (b + E) 1048580 ltac:(lra) ltac:(lra)) as [C1 C2]. lra.
Qed.
(** records sharing at least (1 - c) * l tokens, or almost, meet in their prefixes *)
Lemma prefix_float_meets c l o : small l -> 0 <= c -> c <= 1 -> (o <= l)%nat -> (1 - c) * qn l <= qn o + (8 # 10000000) -> (l - o < int (prefix c l))%nat.
Proof.
  intros Hl H0 H1 Ho Hc. assert (l - o + 1 <= int (prefix c l))%nat; [|lia].
  apply int_ge. rewrite qn_plus, qn_minus, qn_1 by lia. pose proof (prefix_float_ge c l Hl H0 H1). lra.
Qed.

(** ** The factors *)
Lemma minus_in x : 0 <= x -> x <= 1 -> 0 <= fsub 1 x /\ fsub 1 x <= 1 /\ 1 - x - u <= fsub 1 x /\ fsub 1 x <= 1 - x + u.
Proof.
  intros X0 X1. unfold fsub. pose proof (fl_in (1 - x) 1 ltac:(lra) ltac:(lra)) as [A B].
  split; [apply fl_nonneg; lra|]. split; [apply fl_le; [apply float53_1|lra]|]. split; lra.
Qed.
Lemma minus_mono x y : x <= y -> fsub 1 y <= fsub 1 x.
Proof. intros L. unfold fsub. apply fl_mono. lra. Qed.
(** x / d for a rounded d *)
Lemma div_in x d D e : 0 <= x -> x <= 1 -> 1 <= d -> 1 <= D -> d - e <= D -> D <= d + e -> 0 <= e ->
  0 <= fdiv x D /\ fdiv x D <= 1 /\ x / d - e - u <= fdiv x D /\ fdiv x D <= x / d + e + u.
Proof.
  intros X0 X1 d1 D1 L U He.
  assert (Q0 : 0 <= x / D) by (apply Qle_shift_div_l; lra). assert (Q1 : x / D <= 1) by (apply Qle_shift_div_r; lra).
  assert (E : x / D * D == x) by (field; lra). assert (E' : x / d * d == x) by (field; lra).
  assert (Q2 : 0 <= x / d) by (apply Qle_shift_div_l; lra). assert (Q3 : x / d <= 1) by (apply Qle_shift_div_r; lra).
  unfold fdiv. pose proof (fl_in (x / D) 1 Q0 Q1) as [A B]. pose proof (fl_nonneg (x / D) Q0) as N. pose proof (fl_le 1 (x / D) float53_1 Q1) as M.
  set (y := x / D) in *. set (z := x / d) in *. set (w := fl y) in *. clearbody y z w.
  assert (R1 : y - z <= e) by nra. assert (R2 : z - y <= e) by nra. split; [auto|]. split; [auto|]. split; lra.
Qed.
Lemma mul_in x B n : 0 <= x -> 0 <= qn n -> x * qn n <= B -> x * qn n - B * u <= fmul x (qn n) /\ fmul x (qn n) <= x * qn n + B * u.
Proof. intros. unfold fmul. apply fl_in; nra. Qed.
(** x - epsilon: what is below a number of tokens, or almost, stays below *)
Lemma minus_eps_le x n : (Z.of_nat n <= 2 ^ 53)%Z -> x <= qn n + (995 # 1000000000) -> (ceil (fsub x EPSILON_float) <= n)%nat.
Proof.
  intros Hn Hx. apply ceil_le. unfold fsub. apply fl_le; [apply float53_qn; auto|]. pose proof eps_bounds as [E0 E1]. lra.
Qed.
(** what is clearly above stays above *)
Lemma minus_eps_gt x n : x <= 4194304 -> qn n + (1005 # 1000000000) < x -> (n < ceil (fsub x EPSILON_float))%nat.
Proof.
  intros Hn Hx. apply ceil_gt. unfold fsub. pose proof eps_bounds as [E0 E1]. pose proof (qn_nonneg n).
  pose proof (fl_in (x - EPSILON_float) 4194304 ltac:(lra) ltac:(lra)) as [A _]. lra.
Qed.
Section Threshold.
Variable t : Q.
Hypothesis Ft : float53 t.
Hypothesis T0 : 0 < t.
Hypothesis T1 : t < 1.

(** 1 + t *)
Lemma one_plus : 1 <= fadd 1 t /\ fadd 1 t <= 2 /\ 2 * t <= fadd 1 t /\ 1 + t - 2 * u <= fadd 1 t /\ fadd 1 t <= 1 + t + 2 * u.
Proof.
  unfold fadd. pose proof (fl_in (1 + t) 2 ltac:(lra) ltac:(lra)) as [A B].
  split; [apply fl_ge; [apply float53_1|lra]|]. split; [apply fl_le; [apply (float53_Z 2); lia|lra]|].
  split; [apply fl_ge; [apply float53_double; auto|lra]|]. split; lra.
Qed.
(** 2 - t *)
Lemma two_minus : 1 <= fsub 2 t /\ fsub 2 t <= 2 /\ 2 - t - 2 * u <= fsub 2 t /\ fsub 2 t <= 2 - t + 2 * u.
Proof.
  unfold fsub. pose proof (fl_in (2 - t) 2 ltac:(lra) ltac:(lra)) as [A B].
  split; [apply fl_ge; [apply float53_1|lra]|]. split; [apply fl_le; [apply (float53_Z 2); lia|lra]|]. split; lra.
Qed.
End Threshold.

Definition helper_float_of (m : metric) (t : Q) : helper :=
  match m with Jaccard => jaccard_helper_float t | Dice => dice_helper_float t | BinaryCosine => binary_cosine_helper_float t end.

Lemma threshold_float_pos m t : threshold_ok_float m t -> float53 t /\ (1 # 100000) <= t /\ t < 1.
Proof. intros (F & H1 & H2). split; [auto|]. split; [|auto]. destruct m; auto. destruct H2 as [H2 H3]. nra. Qed.

(** the factors of the three metrics *)
Lemma jaccard_factor t : float53 t -> 0 < t -> t < 1 -> let x := fdiv (fmul 2 t) (fadd 1 t) in t <= x /\ x <= 1.
Proof.
  intros F T0 T1. pose proof (one_plus t F T0 T1) as (A1 & A2 & A3 & _). cbv zeta. unfold fdiv.
  assert (E : fmul 2 t == 2 * t) by (unfold fmul; apply fl_id, float53_double; auto). set (D := fadd 1 t) in *. clearbody D.
  assert (E' : fmul 2 t / D == 2 * t / D) by (rewrite E; reflexivity). rewrite (fl_comp _ _ E'). split.
  - apply fl_ge; auto. apply Qle_shift_div_l; nra.
  - apply fl_le; [apply float53_1|]. apply Qle_shift_div_r; lra.
Qed.
Lemma dice_factor t : float53 t -> 0 < t -> t < 1 -> let x := fdiv t (fsub 2 t) in
  0 <= x /\ x <= t /\ t / (2 - t) - 3 * u <= x /\ x <= t / (2 - t) + 3 * u.
Proof.
  intros F T0 T1. pose proof (two_minus t T0 T1) as (A1 & A2 & A3 & A4). cbv zeta.
  pose proof (div_in t (2 - t) (fsub 2 t) (2 * u) ltac:(lra) ltac:(lra) ltac:(lra) A1 A3 A4 ltac:(lra)) as (B1 & B2 & B3 & B4).
  split; [exact B1|]. split; [|split; lra].
  unfold fdiv. apply fl_le; auto. set (D := fsub 2 t) in *. clearbody D. apply Qle_shift_div_r; nra.
Qed.
Lemma cosine_factor t : float53 t -> 0 < t -> t < 1 -> let x := fmul t t in 0 <= x /\ x <= t /\ t * t - u <= x /\ x <= t * t + u.
Proof.
  intros F T0 T1. cbv zeta. unfold fmul. pose proof (fl_in (t * t) 1 ltac:(nra) ltac:(nra)) as [A B]. split; [apply fl_nonneg; nra|].
  split; [apply fl_le; [auto|nra]|]. split; lra.
Qed.

Lemma helper_float_bounds m t : threshold_ok_float m t -> helper_bounds (helper_float_of m t) t.
Proof.
  intros Hok. pose proof (threshold_float_pos m t Hok) as (F & T0 & T1). destruct Hok as (_ & _ & Hok).
  pose proof (minus_in t ltac:(lra) ltac:(lra)) as (M1 & M2 & M3 & M4). destruct m; simpl.
  - pose proof (jaccard_factor t F ltac:(lra) T1) as [X1 X2]. set (x := fdiv (fmul 2 t) (fadd 1 t)) in *.
    pose proof (minus_in x ltac:(lra) X2) as (N1 & N2 & N3 & N4).
    constructor; simpl; fold x.
    + intros l Hl. apply prefix_float_ge_1; auto.
    + intros l Hl. apply prefix_float_mono, minus_mono; auto.
    + intros l Hl. apply prefix_float_le; auto. lra.
    + intros l Hl. apply flag_ok; auto. apply prefix_float_ge_1; auto.
    + intros l l' Hl. apply ceil_mono. apply qn_le in Hl. unfold fsub, fmul. apply fl_mono. apply Qplus_le_compat; [|apply Qle_refl]. apply fl_mono. nra.
  - pose proof (dice_factor t F ltac:(lra) T1) as (X1 & X2 & X3 & X4). set (x := fdiv t (fsub 2 t)) in *.
    assert (K : t / 2 <= t / (2 - t)).
    { assert (E : t / (2 - t) * (2 - t) == t) by (field; lra). set (k := t / (2 - t)) in *. clearbody k. assert (E2 : t / 2 == (1 # 2) * t) by field. rewrite E2. nra. }
    assert (E2 : t / 2 == (1 # 2) * t) by field. rewrite E2 in K. set (k := t / (2 - t)) in *. clearbody k. clear E2.
    pose proof (minus_in x ltac:(lra) ltac:(lra)) as (N1 & N2 & N3 & N4).
    constructor; simpl; fold x.
    + intros l Hl. apply prefix_float_ge_1; auto.
    + intros l Hl. apply prefix_float_mono, minus_mono; auto.
    + intros l Hl. apply prefix_float_le; auto. lra.
    + intros l Hl. apply flag_ok; auto. apply prefix_float_ge_1; auto.
    + intros l l' Hl. apply ceil_mono. apply qn_le in Hl. unfold fsub at 1 3, fmul, fdiv. apply fl_mono. apply Qplus_le_compat; [|apply Qle_refl]. apply fl_mono.
      pose proof (two_minus t ltac:(lra) T1) as (A1 & _). set (D := fsub 2 t) in *. clearbody D. unfold Qdiv. apply Qmult_le_compat_r; [apply fl_mono; nra|].
      apply Qinv_le_0_compat. lra.
  - destruct Hok as [_ Hok]. pose proof (cosine_factor t F ltac:(lra) T1) as (X1 & X2 & X3 & X4). set (x := fmul t t) in *.
    set (tt := t * t) in *. clearbody tt. pose proof (minus_in x ltac:(lra) ltac:(lra)) as (N1 & N2 & N3 & N4).
    constructor; simpl; fold x.
    + intros l Hl. apply prefix_float_ge_1; auto.
    + intros l Hl. apply prefix_float_mono, minus_mono; auto.
    + intros l Hl. apply prefix_float_le; auto. lra.
    + intros l Hl. apply flag_ok; auto. apply prefix_float_ge_1; auto.
    + intros l l' Hl. apply ceil_mono. apply qn_le in Hl. unfold fsub, fmul. apply fl_mono. apply Qplus_le_compat; [|apply Qle_refl]. apply fl_mono.
      apply Qmult_le_compat_r; [|lra]. apply fl_mono. nra.
Qed.

(** the square root of a product of two lengths *)
Lemma sqrt_in p : 1 <= p -> let s := fsqrt p in 1 <= s /\ s * s <= (1 + 5 * u) * p /\ (1 - 5 * u) * p <= s * s.
Proof.
  intros Hp. cbv zeta. split; [apply fsqrt_ge; [apply float53_1|lra|lra]|].
  pose proof (fsqrt_near p ltac:(lra)) as [A B]. assert (P : pow2 (-52) == 2 * u) by reflexivity. rewrite P in A, B. clear P.
  set (q := fsqrt p * fsqrt p) in *. clearbody q. split.
  - eapply Qle_trans; [exact A|]. apply Qmult_le_compat_r; [vm_compute; discriminate|lra].
  - eapply Qle_trans; [|exact B]. apply Qmult_le_compat_r; [vm_compute; discriminate|lra].
Qed.
Lemma square_le a b : 0 <= a -> 0 <= b -> a * a <= b * b -> a <= b.
Proof. intros A B L. destruct (Qlt_le_dec b a) as [C|C]; [|auto]. exfalso. nra. Qed.

Lemma mul_le_l c a b : 0 <= c -> a <= b -> c * a <= c * b.
Proof. intros C L. nra. Qed.
Lemma prod_in n x B : 0 <= n -> n <= B -> 0 <= x -> x <= 1 -> 0 <= n * x /\ n * x <= B.
Proof. intros. split; nra. Qed.

Lemma helper_float_finds m t lx ly o : threshold_ok_float m t -> (1 <= ly)%nat -> (ly <= lx)%nat -> (o <= ly)%nat -> small lx ->
  sim_at_least m t lx ly o -> finds (helper_float_of m t) lx ly o.
Proof.
  intros Hok Ly Lxy Lo Lmax Hs. pose proof (threshold_float_pos m t Hok) as (F & T0 & T1). destruct Hok as (_ & _ & Hok).
  assert (QY : 1 <= qn ly) by (rewrite <- qn_1; apply qn_le; auto).
  assert (QXY : qn ly <= qn lx) by (apply qn_le; auto). assert (QO : qn o <= qn ly) by (apply qn_le; auto).
  pose proof (qn_nonneg o) as QO0. pose proof (qn_max lx Lmax) as QX.
  assert (Fo : (Z.of_nat o <= 2 ^ 53)%Z) by (unfold small in Lmax; lia). assert (Fy : (Z.of_nat ly <= 2 ^ 53)%Z) by (unfold small in Lmax; lia).
  assert (Lmay : small ly) by (unfold small in *; lia).
  pose proof (minus_in t ltac:(lra) ltac:(lra)) as (M1 & M2 & M3 & M4). pose proof eps_bounds as [E0 E1].
  destruct m; cbn [sim_at_least] in Hs; change natq with qn in Hs.
  - rewrite qn_minus, qn_plus in Hs by lia.
    assert (Hx : t * qn lx <= qn o) by nra. assert (Hy : t * qn ly <= qn o) by nra.
    constructor; cbn [helper_float_of jaccard_helper_float min_possible_length require_overlap reaches probe_length].
    + apply minus_eps_le; auto. unfold fmul. assert (fl (qn lx * t) <= qn ly); [|lra]. apply fl_le; [apply float53_qn; auto|]. lra.
    + apply minus_eps_le; auto. pose proof (one_plus t F ltac:(lra) T1) as (A1 & A2 & A3 & A4 & A5).
      pose proof (div_in t (1 + t) (fadd 1 t) (2 * u) ltac:(lra) ltac:(lra) ltac:(lra) A1 A4 A5 ltac:(lra)) as (B1 & B2 & B3 & B4).
      assert (Hk : t / (1 + t) * (1 + t) == t) by (field; lra). set (k := t / (1 + t)) in *. set (K := fdiv t (fadd 1 t)) in *. clearbody k K.
      assert (Q2 : qn (lx + ly) == qn lx + qn ly) by apply qn_plus. set (n := qn (lx + ly)) in *.
      assert (V : K * n <= qn o + 3 * u * 2097152) by (assert (k * n <= qn o) by (apply Qmult_le_r with (z := 1 + t); [lra|]; assert (EE : k * n * (1 + t) == t * n) by (rewrite <- Hk at 2; ring); rewrite EE, Q2; clear - Hs; lra); assert ((K - k) * n <= 3 * u * 2097152) by (clear - B4 Q2 QX QXY QY; nra); lra).
      pose proof (mul_in K 2097154 (lx + ly) B1 (qn_nonneg _) ltac:(fold n; lra)) as [_ C]. fold n in C. lra.
    + apply Qle_bool_iff. unfold fadd, fdiv. apply fl_ge; auto. assert (t <= fl (qn o / qn (lx + ly - o))); [|lra].
      apply fl_ge; auto. rewrite qn_minus, qn_plus by lia. apply Qle_shift_div_l; lra.
    + apply prefix_float_meets; auto; [lia|]. clear - M3 Hx QX QXY QY. nra.
    + apply prefix_float_meets; auto. clear - M3 Hy QX QXY QY. nra.
  - rewrite qn_plus in Hs. pose proof (dice_factor t F ltac:(lra) T1) as (X1 & X2 & X3 & X4).
    assert (Hk : t / (2 - t) * (2 - t) == t) by (field; lra).
    assert (K1 : t / (2 - t) <= 1) by (apply Qle_shift_div_r; lra). assert (K0 : 0 <= t / (2 - t)) by (apply Qle_shift_div_l; lra).
    set (k := t / (2 - t)) in *.
    assert (Hx : k * qn lx <= qn o) by nra. assert (Hy : k * qn ly <= qn o) by nra.
    pose proof (minus_in (fdiv t (fsub 2 t)) ltac:(lra) ltac:(lra)) as (N1 & N2 & N3 & N4).
    constructor; cbn [helper_float_of dice_helper_float min_possible_length require_overlap reaches probe_length].
    + apply minus_eps_le; auto. pose proof (two_minus t ltac:(lra) T1) as (A1 & A2 & A3 & A4).
      unfold fdiv, fmul. set (D := fsub 2 t) in *. clearbody D.
      destruct (prod_in (qn lx) t 1048576 ltac:(lra) ltac:(lra) ltac:(lra) ltac:(lra)) as [W0 W1]. pose proof (fl_in (qn lx * t) 1048576 W0 W1) as [B1 B2]. pose proof (fl_nonneg (qn lx * t) W0) as B0. set (a := fl (qn lx * t)) in *. clearbody a.
      assert (V : a / D <= qn o + (1 # 1000000000)).
      { apply Qle_shift_div_r; [lra|]. assert (qn lx * t <= qn o * (2 - t)).
        { assert (E : qn lx * t == k * qn lx * (2 - t)) by (rewrite <- Hk at 1; ring). rewrite E. apply Qmult_le_compat_r; lra. }
        clear - H B2 A1 A3 QO QO0 QX QXY. nra. }
      assert (V0 : 0 <= a / D) by (apply Qle_shift_div_l; lra). set (b := a / D) in *. clearbody b.
      pose proof (fl_in b 1048577 V0 ltac:(lra)) as [_ C]. lra.
    + apply minus_eps_le; auto. unfold fdiv, fmul. assert (Q2 : qn (lx + ly) == qn lx + qn ly) by apply qn_plus. set (n := qn (lx + ly)) in *.
      destruct (prod_in (n) t 2097152 ltac:(lra) ltac:(lra) ltac:(lra) ltac:(lra)) as [W0 W1]. pose proof (fl_in (n * t) 2097152 W0 W1) as [B1 B2]. pose proof (fl_nonneg (n * t) W0) as B0. set (a := fl (n * t)) in *. clearbody a.
      assert (V : a / 2 == (1 # 2) * a) by field. assert (V2 : a <= 2 * qn o + 2097152 * u) by nra.
      pose proof (fl_in (a / 2) 1048577 ltac:(lra) ltac:(lra)) as [_ C]. lra.
    + apply Qle_bool_iff. unfold fadd, fdiv. apply fl_ge; auto. assert (t <= fl (2 * qn o / qn (lx + ly))); [|lra].
      apply fl_ge; auto. rewrite qn_plus. apply Qle_shift_div_l; lra.
    + apply prefix_float_meets; auto; [lia|]. clearbody k. set (x := fdiv t (fsub 2 t)) in *. clearbody x. clear - N3 X3 X4 Hx QX QXY QY. nra.
    + apply prefix_float_meets; auto. clearbody k. set (x := fdiv t (fsub 2 t)) in *. clearbody x. clear - N3 X3 X4 Hy QX QXY QY. nra.
  - destruct Hs as [Hs|Hs]; [lra|]. pose proof (qn_mult lx ly) as P2. assert (Hs2 : t * t * (qn lx * qn ly) <= qn o * qn o) by (rewrite <- P2; exact Hs). destruct Hok as [_ Hok].
    pose proof (cosine_factor t F ltac:(lra) T1) as (X1 & X2 & X3 & X4).
    assert (Hx : t * t * qn lx <= qn o).
    { assert (t * t * qn lx * qn ly <= qn o * qn ly) by (clear - Hs2 QO QO0; nra). apply Qmult_le_r with (z := qn ly); lra. }
    assert (Hy : t * t * qn ly <= qn o) by (clear - Hx QXY T0; nra).
    assert (P1 : 1 <= qn (lx * ly)) by (rewrite qn_mult; clear - QY QXY; nra). pose proof (sqrt_in _ P1) as (S1 & S2 & S3).
    pose proof (minus_in (fmul t t) ltac:(lra) ltac:(lra)) as (N1 & N2 & N3 & N4).
    assert (OS : qn o <= fsqrt (qn (lx * ly))).
    { apply fsqrt_ge; [apply float53_qn; auto|lra|]. rewrite P2. clear - QO QXY QO0. nra. }
    (* t * s <= o, up to a relative error *)
    assert (TS : t * fsqrt (qn (lx * ly)) <= (1 + 5 * u) * qn o).
    { set (s := fsqrt (qn (lx * ly))) in *. clearbody s. set (p := qn (lx * ly)) in *. clearbody p. apply square_le; [nra|lra|].
      assert (E : t * s * (t * s) == t * t * (s * s)) by ring. rewrite E.
      assert (t * t * (s * s) <= t * t * ((1 + 5 * u) * p)) by (apply mul_le_l; [clear - T0; nra|exact S2]).
      assert ((1 + 5 * u) * (t * t * p) <= (1 + 5 * u) * (qn o * qn o)) by (apply mul_le_l; [lra|exact Hs]).
      assert (0 <= qn o * qn o) by nra. set (oo := qn o * qn o) in *. assert (E2 : (1 + 5 * u) * qn o * ((1 + 5 * u) * qn o) == (1 + 5 * u) * ((1 + 5 * u) * oo)) by (unfold oo; ring). rewrite E2. clearbody oo.
      assert (E3 : t * t * ((1 + 5 * u) * p) == (1 + 5 * u) * (t * t * p)) by ring. rewrite E3 in H. set (w := t * t * (s * s)) in *. set (v := t * t * p) in *. clearbody w v. lra. }
    constructor; cbn [helper_float_of binary_cosine_helper_float min_possible_length require_overlap reaches probe_length].
    + apply minus_eps_le; auto. unfold fmul.
      destruct (prod_in (qn lx) t 1048576 ltac:(lra) ltac:(lra) ltac:(lra) ltac:(lra)) as [W0 W1]. pose proof (fl_in (qn lx * t) 1048576 W0 W1) as [B1 B2]. pose proof (fl_nonneg (qn lx * t) W0) as B0. set (a := fl (qn lx * t)) in *. clearbody a.
      assert (V : a * t <= qn o + 1048576 * u) by (assert (a * t <= (qn lx * t + 1048576 * u) * t) by (apply Qmult_le_compat_r; lra); clear - H Hx T1; lra).
      pose proof (fl_in (a * t) 1048577 (Qmult_le_0_compat a t B0 ltac:(lra)) ltac:(lra)) as [_ C]. lra.
    + apply minus_eps_le; auto. unfold fmul. set (s := fsqrt (qn (lx * ly))) in *. clearbody s.
      pose proof (fl_in (t * s) 1048577 (Qmult_le_0_compat t s ltac:(lra) ltac:(lra)) ltac:(lra)) as [_ C]. lra.
    + apply Qle_bool_iff. unfold fadd, fdiv. apply fl_ge; auto. set (s := fsqrt (qn (lx * ly))) in *. clearbody s.
      assert (V : t - 10 * u <= qn o / s).
      { apply Qle_shift_div_l; [lra|]. clear - TS OS S1 QO0. lra. }
      assert (V1 : qn o / s <= 2) by (apply Qle_shift_div_r; lra).
      set (y := qn o / s) in *. clearbody y. pose proof (fl_in y 2 ltac:(lra) V1) as [C _]. lra.
    + apply prefix_float_meets; auto; [lia|]. set (x := fmul t t) in *. clearbody x. set (tt := t * t) in *. clearbody tt. clear - N3 X3 X4 Hx QX QXY QY. nra.
    + apply prefix_float_meets; auto. set (x := fmul t t) in *. clearbody x. set (tt := t * t) in *. clearbody tt. clear - N3 X3 X4 Hy QX QXY QY. nra.
Qed.

Lemma helper_float_sound m t lx ly o : threshold_ok_float m t -> (1 <= ly)%nat -> (ly <= lx)%nat -> (o <= ly)%nat -> small lx ->
  reaches (helper_float_of m t) lx ly o = true -> sim_at_least m (t - (1000001 # 1000000000000)) lx ly o.
Proof.
  intros Hok Ly Lxy Lo Lmax Hr. pose proof (threshold_float_pos m t Hok) as (F & T0 & T1). destruct Hok as (_ & _ & Hok).
  assert (QY : 1 <= qn ly) by (rewrite <- qn_1; apply qn_le; auto).
  assert (QXY : qn ly <= qn lx) by (apply qn_le; auto). assert (QO : qn o <= qn ly) by (apply qn_le; auto).
  pose proof (qn_nonneg o) as QO0. pose proof (qn_max lx Lmax) as QX. pose proof eps_bounds as [E0 E1].
  destruct m; cbn [helper_float_of jaccard_helper_float dice_helper_float binary_cosine_helper_float reaches sim_at_least] in *; change natq with qn;
    apply Qle_bool_iff in Hr; unfold fadd, fdiv in Hr.
  - assert (D : qn (lx + ly - o) == qn lx + qn ly - qn o) by (rewrite qn_minus, qn_plus by lia; reflexivity).
    set (n := qn (lx + ly - o)) in *. clearbody n. assert (Y0 : 0 <= qn o / n) by (apply Qle_shift_div_l; lra). assert (Y1 : qn o / n <= 1) by (apply Qle_shift_div_r; lra).
    assert (E : qn o / n * n == qn o) by (field; lra). set (y := qn o / n) in *. clearbody y.
    pose proof (fl_in y 1 Y0 Y1) as [_ A]. pose proof (fl_nonneg y Y0) as A0. set (a := fl y) in *. clearbody a.
    pose proof (fl_in (a + EPSILON_float) 2 ltac:(lra) ltac:(lra)) as [_ B]. rewrite <- E. apply Qmult_le_compat_r; lra.
  - assert (D : qn (lx + ly) == qn lx + qn ly) by apply qn_plus.
    set (n := qn (lx + ly)) in *. clearbody n. assert (Y0 : 0 <= 2 * qn o / n) by (apply Qle_shift_div_l; lra). assert (Y1 : 2 * qn o / n <= 1) by (apply Qle_shift_div_r; lra).
    assert (E : 2 * qn o / n * n == 2 * qn o) by (field; lra). set (y := 2 * qn o / n) in *. clearbody y.
    pose proof (fl_in y 1 Y0 Y1) as [_ A]. pose proof (fl_nonneg y Y0) as A0. set (a := fl y) in *. clearbody a.
    pose proof (fl_in (a + EPSILON_float) 2 ltac:(lra) ltac:(lra)) as [_ B]. rewrite <- E. apply Qmult_le_compat_r; lra.
  - pose proof (qn_mult lx ly) as P2. assert (P1 : 1 <= qn (lx * ly)) by (rewrite P2; clear - QY QXY; nra). pose proof (sqrt_in _ P1) as (S1 & S2 & S3).
    assert (OS : qn o <= fsqrt (qn (lx * ly))).
    { apply fsqrt_ge; [apply float53_qn; unfold small in Lmax; lia|lra|]. rewrite P2. clear - QO QXY QO0. nra. }
    set (s := fsqrt (qn (lx * ly))) in *. clearbody s. set (p := qn (lx * ly)) in *. clearbody p.
    assert (Y0 : 0 <= qn o / s) by (apply Qle_shift_div_l; lra). assert (Y1 : qn o / s <= 1) by (apply Qle_shift_div_r; lra).
    assert (E : qn o / s * s == qn o) by (field; lra). set (y := qn o / s) in *. clearbody y.
    pose proof (fl_in y 1 Y0 Y1) as [_ A]. pose proof (fl_nonneg y Y0) as A0. set (a := fl y) in *. clearbody a.
    pose proof (fl_in (a + EPSILON_float) 2 ltac:(lra) ltac:(lra)) as [_ B].
    assert (V : t - (1000001 # 1000000000000) <= y - (1 # 10000000000000)) by lra. clear A B Hr E0 E1. set (q := t - (1000001 # 1000000000000)) in *.
    destruct (Qlt_le_dec 0 q) as [Q0|Q0]; [right|left; exact Q0]. clearbody q.
    assert (W : q <= (1 - (1 # 10000000000000)) * y) by lra.
    assert (W2 : q * s <= (1 - (1 # 10000000000000)) * qn o) by (rewrite <- E, Qmult_assoc; apply Qmult_le_compat_r; lra).
    assert (W3 : q * s * (q * s) <= (1 - (1 # 10000000000000)) * qn o * ((1 - (1 # 10000000000000)) * qn o)) by (assert (0 <= q * s) by nra; clear - W2 H; nra).
    assert (W4 : (1 - 5 * u) * (q * q * p) <= q * s * (q * s)).
    { assert (X : q * s * (q * s) == q * q * (s * s)) by ring. rewrite X. assert (X2 : (1 - 5 * u) * (q * q * p) == q * q * ((1 - 5 * u) * p)) by ring. rewrite X2.
      apply mul_le_l; [nra|exact S3]. }
    assert (OO : 0 <= qn o * qn o) by nra.
    assert (X : (1 - (1 # 10000000000000)) * qn o * ((1 - (1 # 10000000000000)) * qn o) == (1 - (1 # 10000000000000)) * (1 - (1 # 10000000000000)) * (qn o * qn o)) by ring. rewrite X in W3.
    set (oo := qn o * qn o) in *. set (v := q * q * p) in *. set (w := q * s * (q * s)) in *. clearbody oo v w. clear - OO W3 W4. lra.
Qed.

Lemma require_same m t l : threshold_ok_float m t -> (1 <= l)%nat -> small l -> exists x,
  require_overlap (helper_float_of m t) l l = ceil (fsub x EPSILON_float) /\ x <= 1048577 /\
  (too_short_at (101 # 100000000) m t l -> qn l - 1 + (1005 # 1000000000) < x) /\ (~ too_short_at (99 # 100000000) m t l -> x <= qn l - 1 + (995 # 1000000000)).
Proof.
  intros Hok L1 Lmax. pose proof (threshold_float_pos m t Hok) as (F & T0 & T1). clear Hok.
  assert (QL : 1 <= qn l) by (rewrite <- qn_1; apply qn_le; auto). pose proof (qn_max l Lmax) as QX.
  assert (LL : qn (l + l) == 2 * qn l) by (rewrite qn_plus; ring).
  destruct m; cbn [helper_float_of jaccard_helper_float dice_helper_float binary_cosine_helper_float require_overlap too_short_at]; change natq with qn.
  - pose proof (one_plus t F ltac:(lra) T1) as (A1 & A2 & A3 & A4 & A5).
    pose proof (div_in t (1 + t) (fadd 1 t) (2 * u) ltac:(lra) ltac:(lra) ltac:(lra) A1 A4 A5 ltac:(lra)) as (B1 & B2 & B3 & B4).
    assert (Hk : t / (1 + t) * (1 + t) == t) by (field; lra). assert (K1 : t / (1 + t) <= 1) by (apply Qle_shift_div_r; lra).
    assert (K2 : t / (1 + t) <= 1 # 2) by (apply Qle_shift_div_r; lra).
    set (k := t / (1 + t)) in *. set (K := fdiv t (fadd 1 t)) in *. clearbody k K.
    assert (V1 : K * qn (l + l) <= k * qn (l + l) + 3 * u * 2097152) by (clear - B4 LL QX QL; nra).
    assert (V2 : k * qn (l + l) - 3 * u * 2097152 <= K * qn (l + l)) by (clear - B3 LL QX QL; nra).
    assert (V3 : k * qn (l + l) <= 1048576) by (clear - K2 LL QX QL; nra).
    pose proof (mul_in K 1048577 (l + l) B1 (qn_nonneg _) ltac:(lra)) as [C1 C2].
    exists (fmul K (qn (l + l))). split; [reflexivity|]. split; [lra|].
    assert (G : forall e, (qn l - 1 + e) * (1 + t) < 2 * t * qn l <-> qn l - 1 + e < k * qn (l + l)).
    { intros e. assert (X : 2 * t * qn l == k * qn (l + l) * (1 + t)) by (rewrite LL, <- Hk at 1; ring). rewrite X. apply Qmult_lt_r. lra. }
    rewrite (G (101 # 100000000)), (G (99 # 100000000)). split; intros Hts; [lra|].
    apply Qnot_lt_le in Hts. lra.
  - destruct (prod_in (qn (l + l)) t 2097152 ltac:(lra) ltac:(lra) ltac:(lra) ltac:(lra)) as [W0 W1]. unfold fdiv, fmul.
    pose proof (fl_in _ _ W0 W1) as [B1 B2]. pose proof (fl_nonneg _ W0) as B0. set (a := fl (qn (l + l) * t)) in *. clearbody a.
    assert (E2 : a / 2 == (1 # 2) * a) by field. pose proof (fl_in (a / 2) 1048577 ltac:(lra) ltac:(lra)) as [C1 C2].
    assert (X : qn (l + l) * t == 2 * (t * qn l)) by (rewrite LL; ring).
    exists (fl (a / 2)). split; [reflexivity|]. set (v := t * qn l) in *. clearbody v.
    assert (X2 : fl (a / 2) <= 1048577) by (apply fl_le; [apply (float53_Z 1048577); lia|lra]).
    split; [exact X2|]. split; intros Hts; [lra|]. apply Qnot_lt_le in Hts. lra.
  - assert (S : fsqrt (qn (l * l)) == qn l).
    { rewrite qn_mult. apply fsqrt_square; [apply float53_qn; unfold small in Lmax; lia|lra]. }
    destruct (prod_in (qn l) t 1048576 ltac:(lra) ltac:(lra) ltac:(lra) ltac:(lra)) as [W0 W1].
    assert (X : t * fsqrt (qn (l * l)) == qn l * t) by (rewrite S; ring).
    exists (fmul t (fsqrt (qn (l * l)))). split; [reflexivity|]. unfold fmul. rewrite (fl_comp _ _ X).
    pose proof (fl_in _ _ W0 W1) as [B1 B2]. assert (Y : t * qn l == qn l * t) by ring. rewrite Y. set (v := qn l * t) in *. clearbody v.
    split; [lra|]. split; intros Hts; [lra|]. apply Qnot_lt_le in Hts. lra.
Qed.
(** when the required overlap of two equal records is their whole size *)
Lemma require_float_lost m t l : threshold_ok_float m t -> (1 <= l)%nat -> small l ->
  (too_short_at (101 # 100000000) m t l -> (l <= require_overlap (helper_float_of m t) l l)%nat) /\
  ((l <= require_overlap (helper_float_of m t) l l)%nat -> too_short_at (99 # 100000000) m t l).
Proof.
  intros Hok L1 Lmax. destruct (require_same m t l Hok L1 Lmax) as (x & -> & X0 & X1 & X2).
  assert (Q1 : qn (l - 1) == qn l - 1) by (rewrite qn_minus, qn_1 by lia; reflexivity). split.
  - intros Hts. specialize (X1 Hts). assert (l - 1 < ceil (fsub x EPSILON_float))%nat; [|lia]. apply minus_eps_gt; lra.
  - intros Hl. assert (D : too_short_at (99 # 100000000) m t l \/ ~ too_short_at (99 # 100000000) m t l).
    { destruct m; cbn [too_short_at]; match goal with |- ?a < ?b \/ _ => destruct (Qlt_le_dec a b); [left; auto|right; apply Qle_not_lt; auto] end. }
    destruct D as [D|D]; [exact D|]. exfalso. specialize (X2 D).
    assert (ceil (fsub x EPSILON_float) <= l - 1)%nat; [|lia]. apply minus_eps_le; [unfold small in Lmax; lia|lra].
Qed.
(** the required overlap is not too great a number *)
Lemma require_float_le m t a b : threshold_ok_float m t -> small a -> small b -> (require_overlap (helper_float_of m t) a b <= N.to_nat 4194304)%nat.
Proof.
  intros Hok La Lb. pose proof (threshold_float_pos m t Hok) as (F & T0 & T1). clear Hok.
  apply qn_max in La. apply qn_max in Lb. pose proof (qn_nonneg a). pose proof (qn_nonneg b).
  assert (Q4 : qn (N.to_nat 4194304) == 4194304) by (unfold qn; rewrite N_nat_Z; reflexivity).
  assert (AB : qn (a + b) == qn a + qn b) by apply qn_plus. pose proof eps_bounds as [E0 E1].
  assert (F4 : float53 4194304) by (apply (float53_Z 4194304); lia).
  assert (G : forall x, x <= 4194304 -> (ceil (fsub x EPSILON_float) <= N.to_nat 4194304)%nat).
  { intros x Hx. apply ceil_le. rewrite Q4. unfold fsub. apply fl_le; auto. lra. }
  destruct m; cbn [helper_float_of jaccard_helper_float dice_helper_float binary_cosine_helper_float require_overlap]; apply G.
  - pose proof (one_plus t F ltac:(lra) T1) as (A1 & A2 & A3 & A4 & A5). unfold fmul, fdiv. apply fl_le; auto.
    assert (fl (t / fadd 1 t) <= 1) by (apply fl_le; [apply float53_1|]; apply Qle_shift_div_r; lra). nra.
  - unfold fdiv, fmul. apply fl_le; auto. apply Qle_shift_div_r; [lra|]. assert (fl (qn (a + b) * t) <= 4194304) by (apply fl_le; auto; nra). lra.
  - unfold fmul. apply fl_le; auto.
    assert (fsqrt (qn (a * b)) <= 1048576).
    { destruct (Nat.eq_dec (a * b) 0) as [->|Hn]; [vm_compute; discriminate|].
      apply fsqrt_le; [apply (float53_Z 1048576); lia| |lra|].
      - assert (1 <= a * b)%nat by lia. apply qn_le in H1. rewrite qn_1 in H1. lra.
      - rewrite qn_mult. nra. }
    nra.
Qed.
