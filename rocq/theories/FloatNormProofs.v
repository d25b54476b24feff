From Coq Require Import QArith Qabs Qround Qpower ZArith Lia Lqa Psatz List Permutation Setoid Morphisms.
From Verif Require Import Base MetricsModel FloatModel FloatSpec FloatProofs FloatMetricsProofs FloatNormModel FloatNormSpec.
Import ListNotations.
Open Scope Q_scope.

(** ** Scaling by a power of two *)
Lemma fl_pos_scale q k : 0 < q -> fl_pos (q * pow2 k) == fl_pos q * pow2 k.
Proof.
  intros H. pose proof (exponent_spec q H) as [L U]. set (e := exponent q) in *. pose proof (pow2_pos k) as P.
  rewrite (fl_pos_eq (q * pow2 k) (e + k)).
  - rewrite (fl_pos_eq q e) by auto.
    assert (E : q * pow2 k * pow2 (52 - (e + k)) == q * pow2 (52 - e)).
    { rewrite <- Qmult_assoc, <- pow2_plus. replace (k + (52 - (e + k)))%Z with (52 - e)%Z by lia. reflexivity. }
    rewrite (nearest_even_comp _ _ E), <- Qmult_assoc, <- pow2_plus. replace (e - 52 + k)%Z with (e + k - 52)%Z by lia. reflexivity.
  - nra.
  - rewrite pow2_plus. apply Qmult_le_compat_r; lra.
  - replace (e + k + 1)%Z with (e + 1 + k)%Z by lia. rewrite pow2_plus. apply Qmult_lt_r; auto.
Qed.
Lemma fl_scale q k : fl (q * pow2 k) == fl q * pow2 k.
Proof.
  pose proof (pow2_pos k) as P. destruct (Q_dec q 0) as [[H|H]|H].
  - assert (E : q * pow2 k == - (- q * pow2 k)) by ring. rewrite E, fl_opp.
    assert (E2 : q == - - q) by ring. rewrite E2 at 2. rewrite fl_opp.
    destruct (fl_case (- q * pow2 k)) as [[_ ->]|[[X _]|[X _]]]; [|nra|nra].
    destruct (fl_case (- q)) as [[_ ->]|[[X _]|[X _]]]; [|nra|nra]. rewrite fl_pos_scale by lra. ring.
  - destruct (fl_case (q * pow2 k)) as [[_ ->]|[[X _]|[X _]]]; [|nra|nra].
    destruct (fl_case q) as [[_ ->]|[[X _]|[X _]]]; [|nra|nra]. apply fl_pos_scale; auto.
  - rewrite H. rewrite Qmult_0_l, fl_0. ring.
Qed.
Lemma sticky_comp a b : a == b -> sticky a == sticky b.
Proof.
  intros X. unfold sticky. rewrite (Qfloor_comp _ _ X). destruct (Qeq_bool _ a) eqn:E1, (Qeq_bool _ b) eqn:E2; try lra; exfalso.
  - apply Qeq_bool_iff in E1. apply (Qeq_bool_neq _ _ E2). rewrite E1. exact X.
  - apply Qeq_bool_iff in E2. apply (Qeq_bool_neq _ _ E1). rewrite E2. symmetry. exact X.
Qed.
Lemma fsqrt_scale q k : 0 <= q -> fsqrt (q * pow2 (2 * k)) == fsqrt q * pow2 k.
Proof.
  intros H. pose proof (pow2_pos (2 * k)) as P. apply Qle_lt_or_eq in H as [H|H].
  - assert (H' : 0 < q * pow2 (2 * k)) by nra.
    destruct (fsqrt_eq q H) as (e & L & U & ->). destruct (fsqrt_eq _ H') as (e' & L' & U' & ->).
    assert (E : e' = (e + k)%Z).
    { assert (B1 : pow2 (2 * (e + k)) <= q * pow2 (2 * k)).
      { replace (2 * (e + k))%Z with (2 * e + 2 * k)%Z by lia. rewrite pow2_plus. apply Qmult_le_compat_r; lra. }
      assert (B2 : q * pow2 (2 * k) < pow2 (2 * (e + k) + 2)).
      { replace (2 * (e + k) + 2)%Z with (2 * e + 2 + 2 * k)%Z by lia. rewrite pow2_plus. apply Qmult_lt_r; auto. }
      assert (2 * (e + k) < 2 * e' + 2)%Z by (apply pow2_lt; lra). assert (2 * e' < 2 * (e + k) + 2)%Z by (apply pow2_lt; lra). lia. }
    subst e'. rewrite <- fl_scale. apply fl_comp.
    assert (E : q * pow2 (2 * k) * pow2 (2 * (60 - (e + k))) == q * pow2 (2 * (60 - e))).
    { rewrite <- Qmult_assoc, <- pow2_plus. replace (2 * k + 2 * (60 - (e + k)))%Z with (2 * (60 - e))%Z by lia. reflexivity. }
    rewrite (sticky_comp _ _ E), <- Qmult_assoc, <- pow2_plus. replace (e - 60 + k)%Z with (e + k - 60)%Z by lia. reflexivity.
  - rewrite <- H, Qmult_0_l, fsqrt_0. ring.
Qed.

(** ** Powers of 1 + u and 1 - u *)
Definition u : Q := pow2 (-53).
Fixpoint qpow (x : Q) (n : nat) : Q := match n with O => 1 | S n => x * qpow x n end.
Lemma u_pos : 0 < u. Proof. reflexivity. Qed.
Lemma u_small : u < 1 # 1000. Proof. reflexivity. Qed.
Lemma qpow_pos x n : 0 < x -> 0 < qpow x n.
Proof. intros H. induction n as [|n IH]; cbn [qpow]; [reflexivity|nra]. Qed.
Lemma qpow_add x n m : qpow x (n + m) == qpow x n * qpow x m.
Proof. induction n as [|n IH]; cbn [qpow Nat.add]; [ring|rewrite IH; ring]. Qed.
Lemma qpow_low n : qpow (1 - u) n <= 1.
Proof. pose proof u_pos. pose proof u_small. induction n as [|n IH]; cbn [qpow]; [lra|]. pose proof (qpow_pos (1 - u) n ltac:(lra)). nra. Qed.
Lemma qpow_high n : 1 <= qpow (1 + u) n.
Proof. pose proof u_pos. induction n as [|n IH]; cbn [qpow]; [lra|]. nra. Qed.
Lemma Qnat_S n : Qnat (S n) == Qnat n + 1.
Proof. replace (S n) with (n + 1)%nat by lia. rewrite Qnat_plus. reflexivity. Qed.
Lemma bernoulli n : 1 - Qnat n * u <= qpow (1 - u) n.
Proof.
  pose proof u_pos. pose proof u_small. induction n as [|n IH]; cbn [qpow]; [change (Qnat 0) with 0; lra|]. rewrite Qnat_S. pose proof (Qnat_0 n) as N0.
  assert (0 <= Qnat n * u) by nra. assert (A : (1 - u) * (1 - Qnat n * u) <= (1 - u) * qpow (1 - u) n) by nra.
  assert (0 <= u * (Qnat n * u)) by nra. lra.
Qed.
Lemma qpow_inverse n : qpow (1 - u) n * qpow (1 + u) n <= 1.
Proof.
  pose proof u_pos. pose proof u_small. induction n as [|n IH]; cbn [qpow]; [lra|].
  pose proof (qpow_pos (1 - u) n ltac:(lra)). pose proof (qpow_pos (1 + u) n ltac:(lra)). set (a := qpow (1 - u) n) in *. set (b := qpow (1 + u) n) in *.
  assert (E : (1 - u) * a * ((1 + u) * b) == (1 - u * u) * (a * b)) by ring. rewrite E. assert (0 < u * u) by nra. assert (0 < a * b) by nra. assert (u * u < 1) by nra. nra.
Qed.

(** ** The sum of squares in floats *)
Notation sumsq := (fold_left (fun s w => fadd s (fmul w w))).
Lemma squares_pos ws : 0 <= squares ws.
Proof. induction ws as [|w ws IH]; cbn [squares]; [lra|nra]. Qed.
Lemma squares_zero ws : squares ws == 0 <-> forall w, In w ws -> w == 0.
Proof.
  induction ws as [|w ws IH]; cbn [squares In]; [split; [intros _ ? []|reflexivity]|]. pose proof (squares_pos ws). split.
  - intros E w' [<-|Hw].
    + assert (S : w * w == 0) by nra. apply Qmult_integral in S. tauto.
    + apply (proj1 IH); [nra|exact Hw].
  - intros Z. assert (E : squares ws == 0) by (apply IH; auto). rewrite E, (Z w) by auto. reflexivity.
Qed.
Lemma fmul_square w : 0 <= fmul w w /\ (1 - u) * (w * w) <= fmul w w /\ fmul w w <= (1 + u) * (w * w).
Proof. unfold fmul. assert (S : 0 <= w * w) by nra. pose proof (fl_nonneg _ S). destruct (fl_bounds _ S) as [A B]. fold u in A, B. split; [auto|split; lra]. Qed.
Lemma sumsq_high ws : forall s, 0 <= s -> sumsq ws s <= qpow (1 + u) (length ws) * s + qpow (1 + u) (S (length ws)) * squares ws.
Proof.
  pose proof u_pos as U0. induction ws as [|w ws IH]; intros s S0; cbn [fold_left squares length].
  - cbn [qpow]. lra.
  - destruct (fmul_square w) as (F0 & _ & F2). set (f := fmul w w) in *.
    assert (S1 : 0 <= s + f) by lra. destruct (fl_bounds _ S1) as [_ B]. fold u in B. pose proof (fl_nonneg _ S1) as S2. fold (fadd s f) in B, S2.
    specialize (IH _ S2). set (s' := fadd s f) in *. set (p := qpow (1 + u) (length ws)) in *.
    assert (P : 0 < p) by (apply qpow_pos; lra). assert (P1 : 1 <= p) by apply qpow_high. pose proof (squares_pos ws) as Q0. cbn [qpow] in *. fold p in IH |- *. clearbody s' f p.
    assert (X : p * s' <= p * ((1 + u) * (s + (1 + u) * (w * w)))).
    { assert (s' <= (1 + u) * (s + (1 + u) * (w * w))) by nra. rewrite !(Qmult_comm p). apply Qmult_le_compat_r; lra. }
    assert (Y : (1 + u) * p * squares ws <= (1 + u) * ((1 + u) * p) * squares ws) by (apply Qmult_le_compat_r; [nra|auto]).
    lra.
Qed.
Lemma sumsq_low ws : forall s, 0 <= s -> qpow (1 - u) (length ws) * s + qpow (1 - u) (S (length ws)) * squares ws <= sumsq ws s.
Proof.
  pose proof u_pos as U0. pose proof u_small as U1. induction ws as [|w ws IH]; intros s S0; cbn [fold_left squares length].
  - cbn [qpow]. lra.
  - destruct (fmul_square w) as (F0 & F1 & _). set (f := fmul w w) in *.
    assert (S1 : 0 <= s + f) by lra. destruct (fl_bounds _ S1) as [B _]. fold u in B. pose proof (fl_nonneg _ S1) as S2. fold (fadd s f) in B, S2.
    specialize (IH _ S2). set (s' := fadd s f) in *. set (p := qpow (1 - u) (length ws)) in *.
    assert (P : 0 < p) by (apply qpow_pos; lra). assert (P1 : p <= 1) by apply qpow_low. pose proof (squares_pos ws) as Q0. cbn [qpow] in *. fold p in IH |- *. clearbody s' f p.
    assert (X : p * ((1 - u) * (s + (1 - u) * (w * w))) <= p * s').
    { assert ((1 - u) * (s + (1 - u) * (w * w)) <= s') by nra. rewrite !(Qmult_comm p). apply Qmult_le_compat_r; lra. }
    assert (Y : (1 - u) * ((1 - u) * p) * squares ws <= (1 - u) * p * squares ws).
    { apply Qmult_le_compat_r; [|auto]. assert (0 < (1 - u) * p) by nra. set (z := (1 - u) * p) in *. clearbody z. nra. }
    lra.
Qed.
Lemma sumsq_ge ws : forall s, 0 <= s -> float53 s -> s <= sumsq ws s.
Proof.
  induction ws as [|w ws IH]; intros s S0 F; cbn [fold_left]; [lra|]. destruct (fmul_square w) as (F0 & _).
  assert (X : s <= fadd s (fmul w w)) by (apply fl_ge; [auto|lra]). specialize (IH (fadd s (fmul w w)) ltac:(lra) (fl_float53 _)). lra.
Qed.
Lemma sumsq_ge_each ws : forall s w, 0 <= s -> In w ws -> fmul w w <= sumsq ws s.
Proof.
  induction ws as [|w ws IH]; intros s w' S0 []; cbn [fold_left]; destruct (fmul_square w) as (F0 & _).
  - subst w'. assert (X : fmul w w <= fadd s (fmul w w)) by (apply fl_ge; [apply fl_float53|lra]).
    pose proof (sumsq_ge ws (fadd s (fmul w w)) ltac:(lra) (fl_float53 _)). lra.
  - apply IH; auto. apply fl_nonneg. lra.
Qed.

Section Norm.
Context {T : Type}.
Implicit Types A : dict T Q.

Lemma norm_nonneg A : 0 <= norm_float A.
Proof. unfold norm_float. pose proof (fsqrt_mono 0 _ (Qle_refl 0) (squares_nonneg (dvalues A) 0 (Qle_refl 0))) as X. rewrite fsqrt_0 in X. exact X. Qed.
Lemma norm_float53 A : float53 (norm_float A).
Proof. apply fsqrt_float53. Qed.
(** the square of the norm is close to the sum of the squares *)
Lemma norm_close A : let n := (length A + 7)%nat in
  qpow (1 - u) n * squares (map snd A) <= norm_float A * norm_float A /\ norm_float A * norm_float A <= qpow (1 + u) n * squares (map snd A).
Proof.
  intros n. pose proof u_pos as U0. pose proof u_small as U1. unfold norm_float, dvalues. set (ws := map snd A).
  assert (Len : length ws = length A) by apply map_length. pose proof (squares_pos ws) as Q0.
  pose proof (sumsq_high ws 0 ltac:(lra)) as H. pose proof (sumsq_low ws 0 ltac:(lra)) as L. rewrite Len in H, L. set (s := sumsq ws 0) in *.
  set (h := qpow (1 + u) (S (length A))) in *. set (l := qpow (1 - u) (S (length A))) in *.
  assert (Hl : 0 < l) by (apply qpow_pos; lra). assert (Hh : 0 < h) by (apply qpow_pos; lra).
  assert (E1 : qpow (1 + u) n == h * qpow (1 + u) 6) by (unfold h, n; rewrite <- qpow_add; replace (S (length A) + 6)%nat with (length A + 7)%nat by lia; reflexivity).
  assert (E2 : qpow (1 - u) n == l * qpow (1 - u) 6) by (unfold l, n; rewrite <- qpow_add; replace (S (length A) + 6)%nat with (length A + 7)%nat by lia; reflexivity).
  rewrite E1, E2. set (sq := squares ws) in *. clearbody h l sq s n.
  apply Qle_lt_or_eq in Q0 as [Q0|Q0].
  - assert (S0 : 0 < s) by nra. destruct (fsqrt_near s S0) as [N1 N2].
    assert (C1 : (1 + pow2 (-52)) * (1 + pow2 (-52)) <= qpow (1 + u) 6) by (vm_compute; discriminate).
    assert (C2 : qpow (1 - u) 6 <= (1 - pow2 (-52)) * (1 - pow2 (-52))) by (vm_compute; discriminate).
    assert (P1 : 0 < qpow (1 - u) 6) by reflexivity. assert (P2 : 0 < qpow (1 + u) 6) by reflexivity.
    set (c1 := (1 + pow2 (-52)) * (1 + pow2 (-52))) in *. set (c2 := (1 - pow2 (-52)) * (1 - pow2 (-52))) in *. set (a := qpow (1 + u) 6) in *. set (b := qpow (1 - u) 6) in *.
    clearbody a b c1 c2. split.
    + assert (X : b * s <= c2 * s) by (apply Qmult_le_compat_r; lra). assert (Y : b * (l * sq) <= b * s) by (rewrite !(Qmult_comm b); apply Qmult_le_compat_r; lra). lra.
    + assert (X : c1 * s <= a * s) by (apply Qmult_le_compat_r; lra). assert (Y : a * s <= a * (h * sq)) by (rewrite !(Qmult_comm a); apply Qmult_le_compat_r; lra). lra.
  - rewrite <- Q0 in *. assert (S0 : s == 0) by lra. rewrite S0, fsqrt_0. split; lra.
Qed.
Lemma norm_zero A : norm_float A == 0 <-> forall k w, In (k, w) A -> w == 0.
Proof.
  pose proof u_pos as U0. pose proof u_small as U1. destruct (norm_close A) as [L H]. set (n := (length A + 7)%nat) in *.
  assert (Hl : 0 < qpow (1 - u) n) by (apply qpow_pos; lra). pose proof (squares_pos (map snd A)) as Q0. split.
  - intros E k w Hin. apply (proj1 (squares_zero (map snd A))).
    + rewrite E in L. nra.
    + apply in_map_iff. exists (k, w). auto.
  - intros Z. assert (E : squares (map snd A) == 0). { apply squares_zero. intros w Hw. apply in_map_iff in Hw as ([k w'] & <- & Hin). apply (Z k w' Hin). }
    rewrite E in H. pose proof (norm_nonneg A). nra.
Qed.
(** no weight exceeds the norm *)
Lemma norm_ge A k w : floats A -> In (k, w) A -> Qabs w <= norm_float A.
Proof.
  intros F Hin. pose proof (F k w Hin) as Fw.
  assert (Fa : float53 (Qabs w)). { apply (Qabs_case w); intros _; [exact Fw|apply float53_opp; exact Fw]. }
  assert (E : Qabs w * Qabs w == w * w) by (apply (Qabs_case w); intros _; ring).
  rewrite <- (fsqrt_rounded_square (Qabs w) Fa (Qabs_nonneg w)). unfold norm_float. apply fsqrt_mono.
  - apply fl_nonneg. pose proof (Qabs_nonneg w). nra.
  - rewrite E. apply (sumsq_ge_each (dvalues A) 0 w); [lra|]. apply in_map_iff. exists (k, w). auto.
Qed.

(** ** The normalized vector *)
Lemma normalize_some A : ~ norm_float A == 0 -> normalize_float A = map (fun kw => (fst kw, fdiv (snd kw) (norm_float A))) A.
Proof. intros N. unfold normalize_float. destruct (Qeq_bool _ 0) eqn:E; [apply Qeq_bool_iff in E; contradiction|reflexivity]. Qed.
Lemma normalize_none A : norm_float A == 0 -> normalize_float A = [].
Proof. intros N. unfold normalize_float. apply Qeq_bool_iff in N. rewrite N. reflexivity. Qed.
Lemma norm_positive A : ~ norm_float A == 0 -> 0 < norm_float A.
Proof. intros N. pose proof (norm_nonneg A). lra. Qed.

Lemma normalize_values A : ~ norm_float A == 0 ->
  pointwise (fun w v => rounds (w / norm_float A) v) A (normalize_float A).
Proof.
  intros N. rewrite normalize_some by auto. generalize (norm_float A). intros L. unfold pointwise. clear N.
  induction A as [|kw A IH]; constructor; cbn [fst snd]; auto. split; [reflexivity|apply fl_rounds].
Qed.

Lemma normalize_length A : ~ norm_float A == 0 -> length (normalize_float A) = length A.
Proof. intros N. rewrite normalize_some by auto. apply map_length. Qed.
Lemma normalize_in A k v : In (k, v) (normalize_float A) -> exists w, In (k, w) A /\ v = fl (w / norm_float A) /\ 0 < norm_float A.
Proof.
  destruct (Qeq_dec (norm_float A) 0) as [E|E]; [rewrite normalize_none by auto; intros []|]. rewrite normalize_some by auto.
  intros Hin. apply in_map_iff in Hin as ([k' w] & [= <- <-] & Hin). exists w. repeat split; auto using norm_positive.
Qed.
Lemma div_range w L : 0 < L -> Qabs w <= L -> -1 <= w / L /\ w / L <= 1.
Proof.
  intros H Hw. apply Qabs_Qle_condition in Hw as [W1 W2]. split.
  - apply Qle_shift_div_l; lra.
  - apply Qle_shift_div_r; lra.
Qed.
Lemma normalize_range A k v : floats A -> In (k, v) (normalize_float A) -> -1 <= v /\ v <= 1.
Proof.
  intros F Hin. apply normalize_in in Hin as (w & Hin & -> & P). destruct (div_range w _ P (norm_ge A k w F Hin)) as [B1 B2].
  split; [apply fl_ge; [|exact B1]|apply fl_le; [|exact B2]]; apply (float53_Z (-1)) || apply (float53_Z 1); lia.
Qed.
Lemma fl_sign q : (0 < q -> 0 < fl q) /\ (q < 0 -> fl q < 0) /\ (q == 0 -> fl q == 0).
Proof.
  destruct (fl_case q) as [[P ->]|[[P ->]|[P ->]]].
  - pose proof (fl_pos_pos q P). repeat split; intros; lra.
  - repeat split; intros; lra.
  - pose proof (fl_pos_pos (- q) ltac:(lra)). repeat split; intros; lra.
Qed.
Lemma div_sign w L : 0 < L -> (0 < w -> 0 < w / L) /\ (w < 0 -> w / L < 0) /\ (w == 0 -> w / L == 0).
Proof.
  intros P. pose proof (Qinv_lt_0_compat L P) as I. unfold Qdiv. repeat split; intros; try nra.
Qed.
Lemma normalize_sign A : ~ norm_float A == 0 ->
  pointwise (fun w v => (0 < w <-> 0 < v) /\ (w < 0 <-> v < 0)) A (normalize_float A).
Proof.
  intros N. pose proof (norm_positive A N) as P. rewrite normalize_some by auto. revert P. generalize (norm_float A). intros L P. unfold pointwise. clear N.
  induction A as [|[k w] A IH]; constructor; cbn [fst snd]; auto. split; [reflexivity|]. unfold fdiv.
  destruct (div_sign w L P) as (S1 & S2 & S3). destruct (fl_sign (w / L)) as (R1 & R2 & R3).
  destruct (Q_dec w 0) as [[H|H]|H].
  - specialize (R2 (S2 H)). split; split; intros; lra.
  - specialize (R1 (S1 H)). split; split; intros; lra.
  - specialize (R3 (S3 H)). split; split; intros; lra.
Qed.
Lemma normalize_mono A i j k1 w1 k2 w2 v1 v2 : nth_error A i = Some (k1, w1) -> nth_error A j = Some (k2, w2) ->
  nth_error (normalize_float A) i = Some (k1, v1) -> nth_error (normalize_float A) j = Some (k2, v2) -> w1 <= w2 -> v1 <= v2.
Proof.
  intros H1 H2. destruct (Qeq_dec (norm_float A) 0) as [E|E]; [rewrite normalize_none by auto; destruct i; discriminate|].
  pose proof (norm_positive A E) as P. rewrite normalize_some by auto. rewrite !nth_error_map, H1, H2. cbn [option_map fst snd]. intros [= <-] [= <-] W.
  apply fl_mono. unfold Qdiv. apply Qmult_le_compat_r; [exact W|]. pose proof (Qinv_lt_0_compat _ P). lra.
Qed.
Lemma normalize_single (k : T) w : float53 w -> ~ w == 0 -> exists v, normalize_float [(k, w)] = [(k, v)] /\ (0 < w -> v == 1) /\ (w < 0 -> v == -1).
Proof.
  intros F N. assert (E : norm_float [(k, w)] == Qabs w).
  { unfold norm_float. cbn [dvalues map fold_left snd]. unfold fadd, fmul. rewrite Qplus_0_l, (fl_id _ (fl_float53 _)).
    assert (E : w * w == Qabs w * Qabs w) by (apply (Qabs_case w); intros _; ring). rewrite E.
    apply fsqrt_rounded_square; [apply (Qabs_case w); intros _; [exact F|apply float53_opp; exact F]|apply Qabs_nonneg]. }
  assert (A : 0 < Qabs w) by (apply (Qabs_case w); intros ?; lra).
  rewrite normalize_some by lra. cbn [map fst snd]. exists (fdiv w (norm_float [(k, w)])). split; [reflexivity|]. unfold fdiv. split; intros H.
  - assert (D : w / norm_float [(k, w)] == 1) by (rewrite E, Qabs_pos by lra; field; lra). rewrite D. reflexivity.
  - assert (D : w / norm_float [(k, w)] == -1) by (rewrite E, Qabs_neg by lra; field; lra). rewrite D. reflexivity.
Qed.

(** ** How far the normalized vector is from the unit sphere *)
Lemma fl_squared q : (1 - u) * (1 - u) * (q * q) <= fl q * fl q /\ fl q * fl q <= (1 + u) * (1 + u) * (q * q).
Proof.
  pose proof (fl_near q) as N. fold u in N. pose proof u_pos as U0. pose proof u_small as U1. apply Qabs_Qle_condition in N as [N1 N2].
  set (x := fl q) in *. clearbody x. revert N1 N2. apply (Qabs_case q); intros H N1 N2.
  - assert (X1 : (1 - u) * q <= x) by lra. assert (X2 : x <= (1 + u) * q) by lra. assert (X0 : 0 <= (1 - u) * q) by nra. split.
    + setoid_replace ((1 - u) * (1 - u) * (q * q)) with ((1 - u) * q * ((1 - u) * q)) by ring. nra.
    + setoid_replace ((1 + u) * (1 + u) * (q * q)) with ((1 + u) * q * ((1 + u) * q)) by ring. nra.
  - assert (X1 : (1 - u) * (- q) <= - x) by lra. assert (X2 : - x <= (1 + u) * (- q)) by lra. assert (X0 : 0 <= (1 - u) * (- q)) by nra. split.
    + setoid_replace ((1 - u) * (1 - u) * (q * q)) with ((1 - u) * (- q) * ((1 - u) * (- q))) by ring. setoid_replace (x * x) with (- x * - x) by ring. nra.
    + setoid_replace ((1 + u) * (1 + u) * (q * q)) with ((1 + u) * (- q) * ((1 + u) * (- q))) by ring. setoid_replace (x * x) with (- x * - x) by ring. nra.
Qed.
Lemma squares_divided A L : 0 < L -> let N := map (fun kw => (fst kw, fdiv (snd kw) L)) A in
  (1 - u) * (1 - u) * squares (map snd A) <= squares (map snd N) * (L * L) /\
  squares (map snd N) * (L * L) <= (1 + u) * (1 + u) * squares (map snd A).
Proof.
  intros P. pose proof (Qmult_lt_0_compat _ _ P P) as PP. induction A as [|[k w] A [IH1 IH2]]; cbn [map squares fst snd]; [split; lra|].
  unfold fdiv at 1 2 4 5. pose proof (fl_squared (w / L)) as [F1 F2]. set (v := fl (w / L)) in *.
  assert (E : w / L * (w / L) * (L * L) == w * w) by (field; lra). set (qq := w / L * (w / L)) in *. clearbody v qq.
  set (s := squares (map snd A)) in *. cbn zeta in IH1, IH2. set (t := squares (map snd (map (fun kw : T * Q => (fst kw, fdiv (snd kw) L)) A))) in *. clearbody s t.
  rewrite <- E. set (ll := L * L) in *. clearbody ll.
  pose proof (Qmult_le_compat_r _ _ ll F1 ltac:(lra)). pose proof (Qmult_le_compat_r _ _ ll F2 ltac:(lra)). split; lra.
Qed.
Lemma normalize_ratio A : ~ norm_float A == 0 -> let n := (length A + 7)%nat in let x := squares (map snd (normalize_float A)) in
  (1 - u) * (1 - u) <= x * qpow (1 + u) n /\ x * qpow (1 - u) n <= (1 + u) * (1 + u).
Proof.
  intros N n x. pose proof (norm_positive A N) as P. pose proof (squares_divided A (norm_float A) P) as [D1 D2]. cbn zeta in D1, D2. rewrite <- normalize_some in D1, D2 by auto.
  fold x in D1, D2. destruct (norm_close A) as [C1 C2]. fold n in C1, C2.
  assert (X0 : 0 <= x) by apply squares_pos. pose proof (squares_pos (map snd A)) as S0. set (s := squares (map snd A)) in *. set (L := norm_float A) in *.
  assert (S1 : 0 < s). { apply Qnot_le_lt. intros C. assert (E : s == 0) by lra. rewrite E in C2. nra. }
  pose proof u_pos as U0. pose proof u_small as U1. set (h := qpow (1 + u) n) in *. set (l := qpow (1 - u) n) in *. clearbody h l x L s. split.
  - apply Qmult_le_r with (z := s); [exact S1|]. assert (x * (L * L) <= x * (h * s)) by (rewrite !(Qmult_comm x); apply Qmult_le_compat_r; auto). lra.
  - apply Qmult_le_r with (z := s); [exact S1|]. assert (x * (l * s) <= x * (L * L)) by (rewrite !(Qmult_comm x); apply Qmult_le_compat_r; auto). lra.
Qed.
Lemma small_error n : (Z.of_nat n <= 2 ^ 50)%Z -> Qnat n * u <= 1 # 8.
Proof.
  intros H. assert (B : Qnat n <= pow2 50) by (apply Qnat_pow2; [lia|exact H]). pose proof u_pos as U0. setoid_replace (1 # 8) with (pow2 50 * u) by reflexivity.
  apply Qmult_le_compat_r; lra.
Qed.
Lemma normalize_unit A : ~ norm_float A == 0 -> (Z.of_nat (length A) <= 2 ^ 50)%Z ->
  Qabs (squares (map snd (normalize_float A)) - 1) <= (Qnat (length A) + 12) * pow2 (-52).
Proof.
  intros N B. destruct (normalize_ratio A N) as [R1 R2]. cbn zeta in R1, R2. pose proof (bernoulli (length A + 7)) as Be. pose proof (qpow_inverse (length A + 7)) as In.
  assert (X0 := squares_pos (map snd (normalize_float A))). set (x := squares (map snd (normalize_float A))) in *. pose proof (small_error _ B) as Sm.
  assert (U52 : pow2 (-52) == 2 * u) by reflexivity. rewrite U52. clear U52. rewrite Qnat_plus in Be. change (Qnat 7) with 7 in Be.
  pose proof u_pos as U0. pose proof u_small as U1. pose proof (qpow_pos (1 + u) (length A + 7) ltac:(lra)) as H0. pose proof (qpow_pos (1 - u) (length A + 7) ltac:(lra)) as L0.
  set (h := qpow (1 + u) (length A + 7)) in *. set (l := qpow (1 - u) (length A + 7)) in *. pose proof (Qnat_0 (length A)) as M0. set (m := Qnat (length A)) in *.
  assert (US : u * 1000000 < 1) by reflexivity.
  clearbody h l x m. clear B N. set (e := (m + 7) * u) in *. assert (E1 : (m + 12) * (2 * u) == 2 * e + 10 * u) by (unfold e; ring). rewrite E1.
  assert (E2 : e <= 1 # 7) by (unfold e; lra). assert (E0 : 0 <= e) by (unfold e; nra). clearbody e. clear Sm. generalize dependent u. intros v. intros.
  assert (V2 : 0 <= v * v) by nra. assert (V3 : v * v <= v) by nra.
  apply Qabs_Qle_condition. split.
  - assert (A1 : (1 - v) * (1 - v) * l <= x * h * l) by (apply Qmult_le_compat_r; lra). assert (A2 : x * (l * h) <= x * 1) by (rewrite !(Qmult_comm x); apply Qmult_le_compat_r; lra).
    assert (A3 : (1 - v) * (1 - v) * (1 - e) <= (1 - v) * (1 - v) * l) by (rewrite !(Qmult_comm ((1 - v) * (1 - v))); apply Qmult_le_compat_r; lra).
    assert (A4 : 1 - 2 * v - e <= (1 - v) * (1 - v) * (1 - e)) by nra. lra.
  - apply Qnot_lt_le. intros C. assert (C' : 1 + (2 * e + 10 * v) < x) by lra.
    assert (A1 : (1 - e) * (1 + (2 * e + 10 * v)) <= x * l). { assert ((1 - e) * (1 + (2 * e + 10 * v)) <= l * (1 + (2 * e + 10 * v))) by (apply Qmult_le_compat_r; lra). nra. }
    nra.
Qed.
Lemma normalize_norm_float A : ~ norm_float A == 0 -> (Z.of_nat (length A) <= 2 ^ 50)%Z ->
  Qabs (norm_float (normalize_float A) - 1) <= (Qnat (length A) + 12) * pow2 (-51).
Proof.
  intros N B. pose proof (normalize_unit A N B) as R. destruct (norm_close (normalize_float A)) as [C1 C2]. cbn zeta in C1, C2. rewrite normalize_length in C1, C2 by auto.
  pose proof (bernoulli (length A + 7)) as Be. pose proof (qpow_inverse (length A + 7)) as In. pose proof (norm_nonneg (normalize_float A)) as M0. set (M := norm_float (normalize_float A)) in *.
  assert (X0 := squares_pos (map snd (normalize_float A))). set (x := squares (map snd (normalize_float A))) in *. pose proof (small_error _ B) as Sm.
  assert (U52 : pow2 (-52) == 2 * u) by reflexivity. assert (U51 : pow2 (-51) == 4 * u) by reflexivity. rewrite U52 in R. rewrite U51. clear U52 U51. rewrite Qnat_plus in Be. change (Qnat 7) with 7 in Be.
  pose proof u_pos as U0. pose proof (qpow_pos (1 + u) (length A + 7) ltac:(lra)) as H0. assert (L0 : 0 < qpow (1 - u) (length A + 7)) by (apply qpow_pos; reflexivity).
  set (h := qpow (1 + u) (length A + 7)) in *. set (l := qpow (1 - u) (length A + 7)) in *. pose proof (Qnat_0 (length A)) as m0. set (m := Qnat (length A)) in *.
  assert (US : u * 1000000 < 1) by reflexivity. clearbody h l x m M. clear B N. set (d := (m + 12) * (2 * u)) in *.
  assert (E : (m + 7) * u <= d * (1 # 2)) by (unfold d; nra). assert (E1 : (m + 12) * (4 * u) == 2 * d) by (unfold d; ring). rewrite E1.
  assert (D0 : 0 <= d) by (unfold d; nra). assert (D1 : d <= 1 # 2) by (unfold d; lra). clearbody d. apply Qabs_Qle_condition in R as [R1 R2].
  assert (L : 1 - d * (1 # 2) <= l) by lra. clear Be E E1 Sm. apply Qabs_Qle_condition. split.
  - assert (A1 : (1 - d * (1 # 2)) * (1 - d) <= M * M).
    { assert ((1 - d * (1 # 2)) * (1 - d) <= l * (1 - d)) by (apply Qmult_le_compat_r; lra). assert (l * (1 - d) <= l * x) by (rewrite !(Qmult_comm l); apply Qmult_le_compat_r; lra). lra. }
    apply Qnot_lt_le. intros C. assert (M < 1 - 2 * d) by lra. nra.
  - assert (A1 : M * M * l <= 1 + d).
    { assert (M * M * l <= h * x * l) by (apply Qmult_le_compat_r; lra). assert (x * (l * h) <= x * 1) by (rewrite !(Qmult_comm x); apply Qmult_le_compat_r; lra). lra. }
    apply Qnot_lt_le. intros C. assert (C' : 1 + 2 * d < M) by lra.
    assert (A2 : (1 + 4 * d) * (1 - d * (1 # 2)) < M * M * l).
    { assert (1 + 4 * d < M * M) by nra. assert ((1 + 4 * d) * (1 - d * (1 # 2)) <= (1 + 4 * d) * l) by (rewrite !(Qmult_comm (1 + 4 * d)); apply Qmult_le_compat_r; lra). nra. }
    nra.
Qed.
End Norm.
