From Coq Require Import List ZArith QArith Qabs Lia Lqa Permutation.
From Verif Require Import Base BaseFacts MetricsModel EvaluationModel EvaluationSpec EvaluationProofs FloatModel FloatSpec FloatProofs FloatMetricsProofs FloatCountProofs FloatEvalModel.
Import ListNotations.
Open Scope Q_scope.

Notation u := (pow2 (-53)).
Lemma u_pos : 0 < u. Proof. reflexivity. Qed.
Lemma div_le x y a b c d : 0 < b -> 0 < d -> 0 <= c * a -> x <= c * a -> d * b <= y -> x / y <= c / d * (a / b).
Proof.
  intros B D A X Y. assert (DB : 0 < d * b) by nra. assert (Y0 : 0 < y) by lra.
  setoid_replace (c / d * (a / b)) with (c * a / (d * b)) by (field; lra).
  apply Qle_shift_div_r; [exact Y0|]. apply Qle_trans with (c * a); [exact X|].
  setoid_replace (c * a / (d * b) * y) with (c * a * y / (d * b)) by (field; lra). apply Qle_shift_div_l; [exact DB|]. nra.
Qed.
Lemma div_ge x y a b c d : 0 < b -> 0 < y -> 0 < d -> 0 <= c * a -> c * a <= x -> y <= d * b -> c / d * (a / b) <= x / y.
Proof.
  intros B Y0 D A X Y. assert (DB : 0 < d * b) by nra.
  setoid_replace (c / d * (a / b)) with (c * a / (d * b)) by (field; lra).
  apply Qle_shift_div_l; [exact Y0|]. apply Qle_trans with (c * a); [|exact X].
  setoid_replace (c * a / (d * b) * y) with (c * a * y / (d * b)) by (field; lra). apply Qle_shift_div_r; [exact DB|]. nra.
Qed.
Lemma float53_double x : float53 x -> float53 (2 * x).
Proof.
  intros (m & k & B & E). exists m, (k + 1)%Z. split; [exact B|]. rewrite E. change (2 # 1) with 2.
  pose proof (pow2_S k) as P. unfold pow2 in P. change (2 # 1) with 2 in P. rewrite P. ring.
Qed.
Lemma fl_lower q : 0 <= q -> (1 - u) * q <= fl q.
Proof. intros H. pose proof (proj1 (fl_bounds q H)). lra. Qed.
Lemma fl_upper q : 0 <= q -> fl q <= (1 + u) * q.
Proof. intros H. pose proof (proj2 (fl_bounds q H)). lra. Qed.
Lemma fl_positive q : 0 < q -> 0 < fl q.
Proof. intros H. pose proof (fl_lower q ltac:(lra)). assert (0 < 1 - u) by reflexivity. nra. Qed.

(** the F1 score in floats *)
Definition f1_float (p r : Q) : Q := fdiv (fmul (fmul 2 p) r) (fadd p r).
Lemma f1_float_near P R : 0 < P -> 0 < R -> let f := f1_float (fl P) (fl R) in let F := 2 * P * R / (P + R) in (1 - pow2 (-50)) * F <= f /\ f <= (1 + pow2 (-50)) * F.
Proof.
  intros HP HR f F. pose proof (fl_lower P ltac:(lra)) as p1. pose proof (fl_upper P ltac:(lra)) as p2. pose proof (fl_lower R ltac:(lra)) as r1. pose proof (fl_upper R ltac:(lra)) as r2.
  assert (U1 : 0 < 1 - u) by reflexivity. assert (U2 : 0 < 1 + u) by reflexivity. unfold f, f1_float, fdiv, fmul, fadd. clear f.
  pose proof (fl_float53 P) as F53.
  assert (E2 : fl (2 * fl P) == 2 * fl P) by (apply fl_id, float53_double, F53). rewrite (fl_comp_eq _ _ (Qmult_comp _ _ E2 _ _ (Qeq_refl (fl R)))).
  set (p := fl P) in *. set (r := fl R) in *.
  assert (pp : 0 < p) by nra. assert (rp : 0 < r) by nra.
  assert (x0 : 0 < 2 * p * r) by nra. pose proof (fl_lower (2 * p * r) ltac:(lra)) as x1. pose proof (fl_upper (2 * p * r) ltac:(lra)) as x2. set (x := fl (2 * p * r)) in *.
  pose proof (fl_lower (p + r) ltac:(lra)) as y1. pose proof (fl_upper (p + r) ltac:(lra)) as y2. set (y := fl (p + r)) in *.
  assert (y0 : 0 < y) by nra. assert (xp : 0 < x) by nra.
  assert (PR : 0 < P * R) by nra.
  assert (X2 : x <= (1 + u) * (1 + u) * (1 + u) * (2 * P * R)).
  { apply Qle_trans with (1 := x2). setoid_replace ((1 + u) * (1 + u) * (1 + u) * (2 * P * R)) with ((1 + u) * (2 * ((1 + u) * P * ((1 + u) * R)))) by ring.
    apply Qmult_le_l; [exact U2|]. assert (p * r <= (1 + u) * P * ((1 + u) * R)) by (apply Qmult_le_compat_nonneg; lra). lra. }
  assert (X1 : (1 - u) * (1 - u) * (1 - u) * (2 * P * R) <= x).
  { apply Qle_trans with (2 := x1). setoid_replace ((1 - u) * (1 - u) * (1 - u) * (2 * P * R)) with ((1 - u) * (2 * ((1 - u) * P * ((1 - u) * R)))) by ring.
    apply Qmult_le_l; [exact U1|]. assert ((1 - u) * P * ((1 - u) * R) <= p * r) by (apply Qmult_le_compat_nonneg; split; try lra; nra). lra. }
  assert (Y1 : (1 - u) * (1 - u) * (P + R) <= y).
  { apply Qle_trans with (2 := y1). setoid_replace ((1 - u) * (1 - u) * (P + R)) with ((1 - u) * ((1 - u) * P + (1 - u) * R)) by ring. apply Qmult_le_l; [exact U1|lra]. }
  assert (Y2 : y <= (1 + u) * (1 + u) * (P + R)).
  { apply Qle_trans with (1 := y2). setoid_replace ((1 + u) * (1 + u) * (P + R)) with ((1 + u) * ((1 + u) * P + (1 + u) * R)) by ring. apply Qmult_le_l; [exact U2|lra]. }
  assert (F0 : 0 < F) by (unfold F; apply Qlt_shift_div_l; lra).
  assert (Z : 0 < x / y) by (apply Qlt_shift_div_l; lra).
  pose proof (fl_lower (x / y) ltac:(lra)) as z1. pose proof (fl_upper (x / y) ltac:(lra)) as z2.
  split.
  - apply Qle_trans with (2 := z1).
    pose proof (div_ge x y (2 * P * R) (P + R) ((1 - u) * (1 - u) * (1 - u)) ((1 + u) * (1 + u)) ltac:(lra) y0 ltac:(reflexivity) ltac:(apply Qmult_le_0_compat; [vm_compute; discriminate|lra]) X1 Y2) as D. fold F in D.
    apply Qle_trans with ((1 - u) * ((1 - u) * (1 - u) * (1 - u) / ((1 + u) * (1 + u)) * F)); [|apply Qmult_le_l; [exact U1|exact D]].
    rewrite Qmult_assoc. apply Qmult_le_compat_r; [vm_compute; discriminate|lra].
  - apply Qle_trans with (1 := z2).
    pose proof (div_le x y (2 * P * R) (P + R) ((1 + u) * (1 + u) * (1 + u)) ((1 - u) * (1 - u)) ltac:(lra) ltac:(reflexivity) ltac:(apply Qmult_le_0_compat; [vm_compute; discriminate|lra]) X2 Y1) as D. fold F in D.
    apply Qle_trans with ((1 + u) * ((1 + u) * (1 + u) * (1 + u) / ((1 - u) * (1 - u)) * F)); [apply Qmult_le_l; [exact U2|exact D]|].
    rewrite Qmult_assoc. apply Qmult_le_compat_r; [vm_compute; discriminate|lra].
Qed.
Lemma f1_float_range p r : float53 p -> 0 < p <= 1 -> 0 < r <= 1 -> 0 < f1_float p r <= 1.
Proof.
  intros Fp Hp Hr. unfold f1_float, fdiv, fmul, fadd.
  assert (E2 : fl (2 * p) == 2 * p) by (apply fl_id, float53_double, Fp). rewrite (fl_comp_eq _ _ (Qmult_comp _ _ E2 _ _ (Qeq_refl r))).
  assert (x0 : 0 < 2 * p * r) by nra. assert (L : fl (2 * p * r) <= fl (p + r)) by (apply fl_mono; nra).
  pose proof (fl_positive _ x0) as X. assert (Y : 0 < fl (p + r)) by lra.
  split; [apply fl_positive, Qlt_shift_div_l; lra|]. apply fl_le; [apply (float53_Z 1); cbn; lia|]. apply Qle_shift_div_r; lra.
Qed.
Lemma f1_float_one p r : p == 1 -> r == 1 -> f1_float p r == 1.
Proof.
  intros Ep Er. unfold f1_float, fdiv, fmul, fadd. rewrite (fl_comp_eq _ _ (Qmult_comp _ _ (Qeq_refl 2) _ _ Ep)).
  rewrite (fl_comp_eq (fl (2 * 1) * r) 2) by (rewrite Er; reflexivity). rewrite (fl_comp_eq (p + r) 2) by (rewrite Ep, Er; reflexivity). reflexivity.
Qed.

(** ** Sums and means *)
Lemma fold_mean l m : fold_left mean_add_float l m = (fold_left fadd l (fst m), (snd m + length l)%nat).
Proof.
  revert m. induction l as [|x l IH]; intros [s n]; cbn [fold_left fst snd length]; [rewrite Nat.add_0_r; reflexivity|].
  rewrite IH. unfold mean_add_float. cbn [fst snd]. f_equal. lia.
Qed.
Lemma Qnat_S n : Qnat (S n) == Qnat n + 1.
Proof. replace (S n) with (n + 1)%nat by lia. rewrite Qnat_plus. reflexivity. Qed.
Definition total (l : list Q) : Q := fold_right Qplus 0 l.
Lemma sum_near l : forall s k N, Forall (fun x => 0 <= x <= 1) l -> 0 <= s <= Qnat k -> (k + length l <= N)%nat -> (Z.of_nat N <= 2 ^ 53)%Z ->
  Qabs (fold_left fadd l s - (s + total l)) <= u * (Qnat N * Qnat (length l)).
Proof.
  induction l as [|x l IH]; intros s k N Hl Hs HN HB; cbn [fold_left total fold_right length].
  - setoid_replace (s - (s + 0)) with 0 by ring. change (Qabs 0) with 0. change (Qnat 0) with 0. rewrite Qmult_0_r. lra.
  - apply Forall_cons_iff in Hl as [[X0 X1] Hl]. cbn [length] in HN.
    assert (S1 : 0 <= fadd s x <= Qnat (S k)).
    { unfold fadd. split; [apply fl_nonneg; lra|]. apply fl_le; [apply Qnat_float53; lia|]. rewrite Qnat_S. lra. }
    specialize (IH (fadd s x) (S k) N Hl S1 ltac:(lia) HB). fold (total l) in *.
    pose proof (fl_near (s + x)) as E. fold (fadd s x) in E. rewrite (Qabs_pos (s + x)) in E by lra.
    assert (L : s + x <= Qnat N) by (pose proof (proj2 (Qnat_le (S k) N) ltac:(lia)) as L; rewrite Qnat_S in L; lra).
    assert (E' : Qabs (fadd s x - (s + x)) <= u * Qnat N) by (apply Qle_trans with (1 := E); rewrite !(Qmult_comm u); apply Qmult_le_compat_r; [exact L|vm_compute; discriminate]).
    setoid_replace (fold_left fadd l (fadd s x) - (s + (x + total l))) with ((fold_left fadd l (fadd s x) - (fadd s x + total l)) + (fadd s x - (s + x))) by ring.
    apply Qle_trans with (1 := Qabs_triangle _ _). rewrite Qnat_S. lra.
Qed.
Lemma sum_range l : forall s k, Forall (fun x => 0 <= x <= 1) l -> 0 <= s <= Qnat k -> (Z.of_nat (k + length l) <= 2 ^ 53)%Z -> 0 <= fold_left fadd l s <= Qnat (k + length l).
Proof.
  induction l as [|x l IH]; intros s k Hl Hs HB; cbn [fold_left length]; [rewrite Nat.add_0_r; exact Hs|].
  apply Forall_cons_iff in Hl as [[X0 X1] Hl]. cbn [length] in HB. replace (k + S (length l))%nat with (S k + length l)%nat by lia.
  apply IH; [exact Hl| |lia]. unfold fadd. split; [apply fl_nonneg; lra|]. apply fl_le; [apply Qnat_float53; lia|]. rewrite Qnat_S. lra.
Qed.
Lemma total_near l L e : Forall2 (fun x X => Qabs (x - X) <= e) l L -> Qabs (total l - total L) <= Qnat (length l) * e.
Proof.
  intros F. induction F as [|x X l L E F IH]; cbn [total fold_right length]; [change (Qnat 0) with 0; rewrite Qmult_0_l; vm_compute; discriminate|].
  fold (total l) (total L). setoid_replace (x + total l - (X + total L)) with ((x - X) + (total l - total L)) by ring.
  apply Qle_trans with (1 := Qabs_triangle _ _). rewrite Qnat_S. lra.
Qed.
(** the mean in floats of numbers near some others *)
Lemma mean_near l L e x : Forall (fun x => 0 <= x <= 1) l -> Forall2 (fun x X => Qabs (x - X) <= e) l L -> (Z.of_nat (length l) <= 2 ^ 53)%Z ->
  mean_peek_float (fold_left mean_add_float l (0, 0%nat)) = Ok x -> Qabs (x - average L) <= e + (Qnat (length l) + 1) * u.
Proof.
  intros Hl F HB E. rewrite fold_mean in E. unfold mean_peek_float in E. cbn [fst snd Nat.add] in E.
  destruct (Nat.eqb_spec (length l) 0) as [|NZ]; [discriminate E|]. injection E; intros <-. clear E.
  pose proof (Qnat_1 (length l) ltac:(lia)) as N1. set (n := Qnat (length l)) in *.
  assert (LL : length L = length l) by (clear -F; induction F; cbn; congruence).
  pose proof (sum_near l 0 0 (length l) Hl ltac:(change (Qnat 0) with 0; lra) ltac:(lia) HB) as S1.
  pose proof (sum_range l 0 0 Hl ltac:(change (Qnat 0) with 0; lra) HB) as S2. cbn [Nat.add] in S2. fold n in S1, S2. set (s := fold_left fadd l 0) in *.
  pose proof (total_near l L e F) as T. fold n in T.
  unfold fdiv. assert (Q0 : 0 <= s / n) by (apply Qle_shift_div_l; lra). assert (Q1 : s / n <= 1) by (apply Qle_shift_div_r; lra).
  pose proof (fl_near (s / n)) as R. rewrite (Qabs_pos (s / n)) in R by exact Q0.
  assert (R' : Qabs (fl (s / n) - s / n) <= u) by (apply Qle_trans with (1 := R); rewrite <- (Qmult_1_r u) at 2; rewrite !(Qmult_comm u); apply Qmult_le_compat_r; [exact Q1|vm_compute; discriminate]).
  assert (A : Qabs (s / n - average L) <= e + n * u).
  { unfold average. fold (total L). rewrite LL. fold (Qnat (length l)). fold n. setoid_replace (s / n - total L / n) with ((s - total L) / n) by (field; lra).
    unfold Qdiv. rewrite Qabs_Qmult. rewrite (Qabs_pos (/ n)) by (apply Qlt_le_weak, Qinv_lt_0_compat; lra). apply Qle_shift_div_r; [lra|].
    setoid_replace (s - total L) with ((s - (0 + total l)) + (total l - total L)) by ring. apply Qle_trans with (1 := Qabs_triangle _ _). lra. }
  setoid_replace (fl (s / n) - average L) with ((fl (s / n) - s / n) + (s / n - average L)) by ring. apply Qle_trans with (1 := Qabs_triangle _ _). lra.
Qed.

(** the mean is one when they all are *)
Lemma sum_ones l : forall k, Forall (fun x => x == 1) l -> (Z.of_nat (k + length l) <= 2 ^ 53)%Z -> forall s, s == Qnat k -> fold_left fadd l s == Qnat (k + length l).
Proof.
  induction l as [|x l IH]; intros k Hl HB s Es; cbn [fold_left length]; [rewrite Nat.add_0_r; exact Es|].
  apply Forall_cons_iff in Hl as [X Hl]. cbn [length] in HB. replace (k + S (length l))%nat with (S k + length l)%nat by lia.
  apply IH; [exact Hl|lia|]. unfold fadd. rewrite (fl_comp_eq (s + x) (Qnat (S k))) by (rewrite Es, X, Qnat_S; reflexivity). apply fl_id, Qnat_float53. lia.
Qed.
Definition gap := pow2 (-22).
Lemma float53_gap k : (1 <= k)%nat -> (Z.of_nat k <= 2 ^ 30)%Z -> float53 (Qnat k - gap).
Proof.
  intros H1 H2. exists (Z.of_nat k * 2 ^ 22 - 1)%Z, (-22)%Z. split; [lia|]. unfold gap, pow2, Qnat. unfold Zminus. rewrite inject_Z_plus, inject_Z_mult.
  change (inject_Z (- (1))) with (-(1)). assert (E : inject_Z (2 ^ 22) * (2 # 1) ^ (-22) == 1) by reflexivity.
  setoid_replace ((inject_Z (Z.of_nat k) * inject_Z (2 ^ 22) + - (1)) * (2 # 1) ^ (-22)) with (inject_Z (Z.of_nat k) * (inject_Z (2 ^ 22) * (2 # 1) ^ (-22)) - (2 # 1) ^ (-22)) by ring.
  rewrite E. ring.
Qed.
Lemma sum_gap l : forall s k, Forall (fun x => 0 <= x <= 1) l -> (1 <= k)%nat -> 0 <= s <= Qnat k - gap -> (Z.of_nat (k + length l) <= 2 ^ 30)%Z -> fold_left fadd l s <= Qnat (k + length l) - gap.
Proof.
  induction l as [|x l IH]; intros s k Hl Hk Hs HB; cbn [fold_left length]; [rewrite Nat.add_0_r; lra|].
  apply Forall_cons_iff in Hl as [[X0 X1] Hl]. cbn [length] in HB. replace (k + S (length l))%nat with (S k + length l)%nat by lia.
  apply IH; [exact Hl|lia| |lia]. unfold fadd. split; [apply fl_nonneg; lra|]. apply fl_le; [apply float53_gap; lia|]. rewrite Qnat_S. lra.
Qed.
Lemma sum_some_gap l : forall s k, Forall (fun x => 0 <= x <= 1) l -> (exists x, In x l /\ x <= 1 - gap) -> 0 <= s <= Qnat k -> (Z.of_nat (k + length l) <= 2 ^ 30)%Z ->
  fold_left fadd l s <= Qnat (k + length l) - gap.
Proof.
  induction l as [|x l IH]; intros s k Hl (y & I & Y) Hs HB; [contradiction I|]. cbn [fold_left length]. cbn [length] in HB.
  apply Forall_cons_iff in Hl as [[X0 X1] Hl]. replace (k + S (length l))%nat with (S k + length l)%nat by lia. destruct I as [->|I].
  - apply sum_gap; [exact Hl|lia| |lia]. unfold fadd. split; [apply fl_nonneg; lra|]. apply fl_le; [apply float53_gap; lia|]. rewrite Qnat_S. lra.
  - apply IH; [exact Hl|exists y; auto| |lia]. unfold fadd. split; [apply fl_nonneg; lra|]. apply fl_le; [apply Qnat_float53; lia|]. rewrite Qnat_S. lra.
Qed.
Lemma mean_one l x : Forall (fun x => 0 <= x <= 1) l -> Forall (fun x => x == 1 \/ x <= 1 - gap) l -> (Z.of_nat (length l) <= 2 ^ 30)%Z ->
  mean_peek_float (fold_left mean_add_float l (0, 0%nat)) = Ok x -> (x == 1 <-> Forall (fun x => x == 1) l).
Proof.
  intros Hl Hg HB E. rewrite fold_mean in E. unfold mean_peek_float in E. cbn [fst snd Nat.add] in E.
  destruct (Nat.eqb_spec (length l) 0) as [|NZ]; [discriminate E|]. injection E; intros <-. clear E.
  pose proof (Qnat_1 (length l) ltac:(lia)) as N1. split.
  - intros E. apply Forall_forall. intros y I. rewrite Forall_forall in Hg. destruct (Hg y I) as [|G]; [assumption|exfalso].
    pose proof (sum_some_gap l 0 0 Hl (ex_intro _ y (conj I G)) ltac:(change (Qnat 0) with 0; lra) HB) as S1. cbn [Nat.add] in S1.
    pose proof (sum_range l 0 0 Hl ltac:(change (Qnat 0) with 0; lra) ltac:(lia)) as S2. cbn [Nat.add] in S2.
    set (s := fold_left fadd l 0) in *. set (n := Qnat (length l)) in *.
    assert (NB : n <= pow2 30) by (unfold n, Qnat; rewrite pow2_Z by lia; rewrite <- Zle_Qle; exact HB).
    assert (L : s / n <= 1 - pow2 (-52)).
    { apply Qle_shift_div_r; [lra|]. assert (P : pow2 (-52) * n <= gap).
      { apply Qle_trans with (pow2 (-52) * pow2 30); [rewrite !(Qmult_comm (pow2 (-52))); apply Qmult_le_compat_r; [exact NB|vm_compute; discriminate]|vm_compute; discriminate]. } lra. }
    assert (L' : fdiv s n <= 1 - pow2 (-52)).
    { unfold fdiv. apply fl_le; [|exact L]. exists (2 ^ 52 - 1)%Z, (-52)%Z. split; [lia|reflexivity]. }
    assert (0 < pow2 (-52)) by reflexivity. lra.
  - intros H1. pose proof (sum_ones l 0 H1 ltac:(lia) 0 (Qeq_refl 0)) as S1. cbn [Nat.add] in S1. unfold fdiv.
    rewrite (fl_comp_eq _ 1); [reflexivity|]. rewrite S1. field. lra.
Qed.

(** ** Scores *)
Lemma frac_positive a b : (1 <= a)%nat -> (1 <= b)%nat -> 0 < frac a b.
Proof. intros Ha Hb. unfold frac. fold (Qnat a) (Qnat b). pose proof (Qnat_1 a Ha). pose proof (Qnat_1 b Hb). apply Qlt_shift_div_l; lra. Qed.
Definition scored (tp s n : nat) : Q * Q * Q := (fl (frac tp s), fl (frac tp n), f1_float (fl (frac tp s)) (fl (frac tp n))).
Lemma score_float_ok tp s n : (1 <= tp)%nat -> (1 <= s)%nat -> (1 <= n)%nat -> score_float tp s n = Ok (scored tp s n).
Proof.
  intros Ht Hs Hn. unfold score_float. replace (Z.of_nat tp + (Z.of_nat s - Z.of_nat tp))%Z with (Z.of_nat s) by lia. replace (Z.of_nat tp + (Z.of_nat n - Z.of_nat tp))%Z with (Z.of_nat n) by lia.
  assert (Q : forall a b, ~ b == 0 -> qdiv_float a b = Ok (fdiv a b)) by (intros a b NZ; unfold qdiv_float; destruct (Qeq_bool b 0) eqn:E; [apply Qeq_bool_eq in E; contradiction|reflexivity]).
  rewrite Q by (pose proof (frac_pos s Hs); lra). cbn [bind]. rewrite Q by (pose proof (frac_pos n Hn); lra). cbn [bind].
  change (fdiv (inject_Z (Z.of_nat tp)) (inject_Z (Z.of_nat s))) with (fl (frac tp s)). change (fdiv (inject_Z (Z.of_nat tp)) (inject_Z (Z.of_nat n))) with (fl (frac tp n)).
  pose proof (fl_positive _ (frac_positive tp s Ht Hs)) as P. pose proof (fl_positive _ (frac_positive tp n Ht Hn)) as R.
  pose proof (fl_positive (fl (frac tp s) + fl (frac tp n)) ltac:(lra)) as Y. rewrite Q by (unfold fadd; lra). reflexivity.
Qed.
Lemma frac_f1 tp s n : (1 <= tp)%nat -> (1 <= s)%nat -> (1 <= n)%nat -> 2 * frac tp s * frac tp n / (frac tp s + frac tp n) == frac (2 * tp) (s + n).
Proof.
  intros Ht Hs Hn. unfold frac. fold (Qnat tp) (Qnat s) (Qnat n) (Qnat (2 * tp)) (Qnat (s + n)). rewrite Qnat_mult, Qnat_plus. change (Qnat 2) with 2.
  pose proof (Qnat_1 tp Ht). pose proof (Qnat_1 s Hs). pose proof (Qnat_1 n Hn). field. repeat split; nra.
Qed.
Definition eps := pow2 (-50).
Lemma scored_near tp s n : (1 <= tp)%nat -> (1 <= s)%nat -> (1 <= n)%nat -> (1 - eps) * frac (2 * tp) (s + n) <= snd (scored tp s n) <= (1 + eps) * frac (2 * tp) (s + n).
Proof.
  intros Ht Hs Hn. rewrite <- (frac_f1 tp s n Ht Hs Hn). exact (f1_float_near _ _ (frac_positive tp s Ht Hs) (frac_positive tp n Ht Hn)).
Qed.
Lemma scored_range tp s n : (1 <= tp)%nat -> (tp <= s)%nat -> (tp <= n)%nat -> in01 (scored tp s n).
Proof.
  intros Ht Hs Hn. assert (B : forall b, (tp <= b)%nat -> 0 < fl (frac tp b) <= 1).
  { intros b Hb. split; [apply fl_positive, frac_positive; lia|]. apply fl_le; [apply (float53_Z 1); cbn; lia|]. apply frac_bounds. exact Hb. }
  pose proof (B s Hs). pose proof (B n Hn). pose proof (f1_float_range (fl (frac tp s)) (fl (frac tp n)) (fl_float53 _) (B s Hs) (B n Hn)).
  unfold in01, scored. cbn [fst snd]. lra.
Qed.
(** distinct scores of small clusters stay in order *)
Lemma frac_step a b a' b' : (1 <= a)%nat -> (1 <= b)%nat -> (1 <= b')%nat -> (Z.of_nat a <= 2 ^ 20)%Z -> (Z.of_nat b' <= 2 ^ 21)%Z ->
  frac (2 * a) b < frac (2 * a') b' -> (1 + pow2 (-41)) * frac (2 * a) b <= frac (2 * a') b'.
Proof.
  intros Ha Hb Hb' B1 B2 L. unfold frac in *. fold (Qnat (2 * a)) (Qnat (2 * a')) (Qnat b) (Qnat b') in *. rewrite !Qnat_mult in *. change (Qnat 2) with 2 in *.
  pose proof (Qnat_1 a Ha) as A. pose proof (Qnat_1 b Hb) as B. pose proof (Qnat_1 b' Hb') as B'.
  assert (L1 : 2 * Qnat a * Qnat b' < 2 * Qnat a' * Qnat b).
  { assert (E : 2 * Qnat a / Qnat b * (Qnat b * Qnat b') < 2 * Qnat a' / Qnat b' * (Qnat b * Qnat b')) by (apply Qmult_lt_r; [nra|exact L]).
    setoid_replace (2 * Qnat a / Qnat b * (Qnat b * Qnat b')) with (2 * Qnat a * Qnat b') in E by (field; lra).
    setoid_replace (2 * Qnat a' / Qnat b' * (Qnat b * Qnat b')) with (2 * Qnat a' * Qnat b) in E by (field; lra). exact E. }
  assert (L2 : (a * b' + 1 <= a' * b)%nat).
  { assert (E : Qnat (a * b') < Qnat (a' * b)) by (rewrite !Qnat_mult; lra). apply Qnat_lt in E. lia. }
  apply Qnat_le in L2. rewrite Qnat_plus, !Qnat_mult in L2. change (Qnat 1) with 1 in L2.
  assert (K : pow2 (-41) * (Qnat a * Qnat b') <= 1).
  { pose proof (Qnat_pow2 a 20 ltac:(lia) B1) as P1. pose proof (Qnat_pow2 b' 21 ltac:(lia) B2) as P2.
    apply Qle_trans with (pow2 (-41) * (pow2 20 * pow2 21)); [|vm_compute; discriminate]. rewrite !(Qmult_comm (pow2 (-41))). apply Qmult_le_compat_r; [|vm_compute; discriminate].
    apply Qmult_le_compat_nonneg; lra. }
  apply Qle_shift_div_l; [lra|]. setoid_replace ((1 + pow2 (-41)) * (2 * Qnat a / Qnat b) * Qnat b') with ((1 + pow2 (-41)) * (2 * Qnat a * Qnat b') / Qnat b) by (field; lra).
  apply Qle_shift_div_r; [lra|]. lra.
Qed.
Lemma scored_order tp s tp' s' n : (1 <= tp)%nat -> (1 <= s)%nat -> (1 <= n)%nat -> (1 <= tp')%nat -> (1 <= s')%nat ->
  (Z.of_nat tp <= 2 ^ 20)%Z -> (Z.of_nat s' <= 2 ^ 20)%Z -> (Z.of_nat n <= 2 ^ 20)%Z ->
  snd (scored tp' s' n) <= snd (scored tp s n) -> frac (2 * tp') (s' + n) <= frac (2 * tp) (s + n).
Proof.
  intros H1 H2 H3 H4 H5 B1 B2 B3 L. apply Qnot_lt_le. intros C.
  pose proof (frac_step tp (s + n) tp' (s' + n) H1 ltac:(lia) ltac:(lia) B1 ltac:(lia) C) as G.
  pose proof (scored_near tp s n H1 H2 H3) as N1. pose proof (scored_near tp' s' n H4 H5 H3) as N2.
  pose proof (frac_positive (2 * tp) (s + n) ltac:(lia) ltac:(lia)) as P. set (F := frac (2 * tp) (s + n)) in *. set (F' := frac (2 * tp') (s' + n)) in *.
  assert (X : (1 - eps) * ((1 + pow2 (-41)) * F) <= (1 - eps) * F') by (apply Qmult_le_l; [reflexivity|exact G]).
  assert (Y : (1 + eps) * F < (1 - eps) * (1 + pow2 (-41)) * F) by (apply Qmult_lt_r; [exact P|reflexivity]). lra.
Qed.
(** a score that is not 1 is well below *)
Lemma scored_gap tp s n : (1 <= tp)%nat -> (tp <= s)%nat -> (tp <= n)%nat -> (Z.of_nat s <= 2 ^ 20)%Z -> (Z.of_nat n <= 2 ^ 20)%Z ->
  (frac (2 * tp) (s + n) == 1 /\ fst (fst (scored tp s n)) == 1 /\ snd (fst (scored tp s n)) == 1 /\ snd (scored tp s n) == 1) \/
  (~ frac (2 * tp) (s + n) == 1 /\ snd (scored tp s n) <= 1 - gap).
Proof.
  intros H1 H2 H3 B1 B2. destruct (Nat.eq_dec (2 * tp) (s + n)) as [E|E].
  - left. assert (s = tp) by lia. assert (n = tp) by lia. subst s n. assert (F : frac tp tp == 1) by (apply frac_one; lia).
    assert (F' : fl (frac tp tp) == 1) by (rewrite (fl_comp_eq _ _ F); reflexivity).
    split; [apply frac_one; lia|]. unfold scored. cbn [fst snd]. repeat split; try exact F'. apply f1_float_one; exact F'.
  - right. split; [intros C; apply frac_one in C; lia|].
    pose proof (scored_near tp s n H1 ltac:(lia) ltac:(lia)) as [_ N1]. apply Qle_trans with (1 := N1).
    assert (G : frac (2 * tp) (s + n) <= 1 - pow2 (-21)).
    { unfold frac. fold (Qnat (2 * tp)) (Qnat (s + n)). pose proof (Qnat_1 (s + n) ltac:(lia)) as N. apply Qle_shift_div_r; [lra|].
      assert (L : (2 * tp + 1 <= s + n)%nat) by lia. apply Qnat_le in L. rewrite Qnat_plus in L. change (Qnat 1) with 1 in L.
      pose proof (Qnat_pow2 (s + n) 21 ltac:(lia) ltac:(lia)) as P.
      assert (K : pow2 (-21) * Qnat (s + n) <= 1) by (apply Qle_trans with (pow2 (-21) * pow2 21); [rewrite !(Qmult_comm (pow2 (-21))); apply Qmult_le_compat_r; [exact P|vm_compute; discriminate]|vm_compute; discriminate]). lra. }
    apply Qle_trans with ((1 + eps) * (1 - pow2 (-21))); [apply Qmult_le_l; [reflexivity|exact G]|vm_compute; discriminate].
Qed.

(** ** One cluster *)
Definition candidate (sizes : dict nat nat) (n : nat) (it : nat * nat) : Q * Q * Q := scored (snd it) (cand sizes (fst it)) n.
Lemma find_best_float_spec sizes n cands : (1 <= n)%nat ->
  (forall i tp, In (i, tp) cands -> (1 <= tp)%nat /\ exists s, dget sizes i = Some s /\ (1 <= s)%nat) -> forall bf b,
  exists r, find_best_float sizes n cands bf b = Ok r /\
    ((r = b /\ forall it, In it cands -> snd (candidate sizes n it) <= bf) \/
     exists it, In it cands /\ r = Some (candidate sizes n it) /\ bf < snd (candidate sizes n it) /\ forall it', In it' cands -> snd (candidate sizes n it') <= snd (candidate sizes n it)).
Proof.
  intros Hn. induction cands as [|[i tp] cands IH]; intros Hok bf b; cbn [find_best_float].
  - exists b. split; [reflexivity|]. left. split; [reflexivity|]. intros it [].
  - destruct (Hok i tp (or_introl eq_refl)) as (Ht & s & Hs & Hs1). rewrite Hs. rewrite (score_float_ok tp s n Ht Hs1 Hn). unfold scored at 1. cbn [bind].
    assert (Hok' : forall i tp, In (i, tp) cands -> (1 <= tp)%nat /\ exists s, dget sizes i = Some s /\ (1 <= s)%nat) by (intros; apply Hok; right; assumption).
    change (fl (frac tp s), fl (frac tp n), f1_float (fl (frac tp s)) (fl (frac tp n))) with (scored tp s n).
    assert (Ec : candidate sizes n (i, tp) = scored tp s n) by (unfold candidate; cbn [fst snd]; unfold cand; rewrite Hs; reflexivity).
    change (f1_float (fl (frac tp s)) (fl (frac tp n))) with (snd (scored tp s n)). rewrite <- Ec.
    destruct (Qltb bf (snd (candidate sizes n (i, tp)))) eqn:Eb.
    + apply Qltb_lt in Eb. destruct (IH Hok' (snd (candidate sizes n (i, tp))) (Some (candidate sizes n (i, tp)))) as (o & Eo & [[-> Hle]|(it & Hin & -> & Hlt & Hle)]).
      * eexists. split; [exact Eo|]. right. exists (i, tp). split; [left; reflexivity|]. split; [reflexivity|]. split; [exact Eb|]. intros it [<-|Hit]; [lra|exact (Hle it Hit)].
      * eexists. split; [exact Eo|]. right. exists it. split; [right; exact Hin|]. split; [reflexivity|]. split; [lra|]. intros it' [<-|Hit]; [lra|exact (Hle it' Hit)].
    + apply Qltb_ge in Eb. destruct (IH Hok' bf b) as (o & Eo & [[-> Hle]|(it & Hin & -> & Hlt & Hle)]).
      * exists b. split; [exact Eo|]. left. split; [reflexivity|]. intros it [<-|Hit]; [lra|exact (Hle it Hit)].
      * eexists. split; [exact Eo|]. right. exists it. split; [right; exact Hin|]. split; [reflexivity|]. split; [exact Hlt|]. intros it' [<-|Hit]; [lra|exact (Hle it' Hit)].
Qed.
Lemma find_best_float_relabel s sizes sizes' n : (forall i, dget sizes' (s i) = dget sizes i) -> forall c bf b,
  find_best_float sizes' n (map_keys s c) bf b = find_best_float sizes n c bf b.
Proof.
  intros Hs. induction c as [|[i tp] c IH]; intros bf b; cbn [map_keys map find_best_float fst snd]; [reflexivity|]. rewrite Hs.
  destruct (dget sizes i); [|reflexivity]. destruct (score_float tp _ n) as [[[p r] f]|]; cbn [bind]; [|reflexivity].
  destruct (Qltb bf f); apply IH.
Qed.

Section Cluster.
Context {T : Type} `{EqDec T}.
Lemma filter_shorter (f : T -> bool) l : (length (filter f l) <= length l)%nat.
Proof. induction l as [|a l IH]; cbn [filter length]; [lia|]. destruct (f a); cbn [length]; lia. Qed.
Definition small (clusters : list (list T)) : Prop := Forall (fun c => (Z.of_nat (length c) <= 2 ^ 20)%Z) clusters.
Lemma match_cluster_float_relabel (s : nat -> nat) (index index' : dict T nat) sizes sizes' t : (forall i j, s i = s j -> i = j) ->
  (forall x, In x t -> dget index' x = option_map s (dget index x)) -> (forall i, dget sizes' (s i) = dget sizes i) ->
  match_cluster_float index' sizes' t = match_cluster_float index sizes t.
Proof.
  intros inj Hg Hs. unfold match_cluster_float. destruct (Nat.eqb (length t) 0); [reflexivity|].
  pose proof (count_candidates_relabel s index index' inj t Hg [] 0) as Hc. simpl in Hc. rewrite Hc.
  destruct (count_candidates index t [] 0) as [[c n]|]; cbn [bind]; [|reflexivity].
  rewrite (find_best_float_relabel s sizes sizes' n Hs c). reflexivity.
Qed.

Section One.
Variables (truth predicted : list (list T)).
Local Notation ti := (set_of (concat truth)).
Hypothesis Hnd : NoDup (kept ti (concat predicted)).
Definition scored_with (t c : list T) : Q * Q * Q := scored (hits t c) (counted truth c) (length t).

Lemma match_cluster_float_spec t : incl t (concat truth) ->
  match match_cluster_float (indexed ti 0 predicted) (sized ti 0 predicted) t with
  | Ok q => t <> [] /\ incl t (concat predicted) /\
      exists c, In c predicted /\ (1 <= hits t c)%nat /\ (1 <= counted truth c)%nat /\ q = scored_with t c /\
        ((Z.of_nat (length t) <= 2 ^ 20)%Z -> small predicted -> best_match truth predicted t c)
  | Err e => e = TypeError /\ ~ (t <> [] /\ incl t (concat predicted))
  end.
Proof.
  intros Ht. unfold match_cluster_float. destruct t as [|a t'].
  { cbn. split; [reflexivity|]. tauto. }
  remember (a :: t') as t eqn:Et. replace (Nat.eqb (length t) 0) with false by (subst t; reflexivity).
  assert (Hne : t <> []) by (subst t; discriminate).
  assert (Hlen : (1 <= length t)%nat) by (subst t; simpl; lia).
  assert (Ha : In a t) by (subst t; left; reflexivity). clear t' Et.
  pose proof (count_candidates_spec (indexed ti 0 predicted) t [] 0 (NoDup_nil _)) as Hc.
  destruct (count_candidates (indexed ti 0 predicted) t [] 0) as [[cands n]|e].
  - destruct Hc as (Hall & Hn & Hndc & Hcount & Hkeys). simpl in Hn. subst n. cbn [bind].
    assert (Hread : forall i tp, In (i, tp) cands -> exists c, nth_error predicted i = Some c /\ tp = hits t c /\ (1 <= hits t c)%nat).
    { intros i tp Hin. assert (Hk : In i (dkeys cands)) by (apply (in_map fst) in Hin; exact Hin).
      apply Hkeys in Hk. destruct Hk as [[]|(x & Hx & Hg)].
      pose proof Hg as Hg'. apply dget_indexed_iff in Hg; [|exact Hnd]. destruct Hg as (c & Hnth & Hxc).
      exists c. split; [exact Hnth|]. specialize (Hcount i). unfold cand in Hcount at 1.
      rewrite (In_dget cands i tp Hndc Hin) in Hcount. cbn in Hcount. rewrite (at_index_hits truth predicted Hnd t i c Ht Hnth) in Hcount.
      split; [exact Hcount|]. rewrite <- (at_index_hits truth predicted Hnd t i c Ht Hnth).
      assert (Hf : In x (filter (at_index (indexed ti 0 predicted) i) t)).
      { rewrite filter_In. split; [exact Hx|]. unfold at_index. rewrite Hg'. apply Nat.eqb_refl. }
       destruct (filter _ t); [destruct Hf|simpl; lia]. }
    assert (Hsz : forall i c, nth_error predicted i = Some c -> dget (sized ti 0 predicted) i = Some (counted truth c)).
    { intros i c Hi. rewrite dget_sized. simpl. rewrite Nat.sub_0_r, Hi. simpl. rewrite kept_counted. reflexivity. }
    assert (Hcd : forall i c, nth_error predicted i = Some c -> candidate (sized ti 0 predicted) (length t) (i, hits t c) = scored_with t c).
    { intros i c Hi. unfold candidate, scored_with. cbn [fst snd]. unfold cand. rewrite (Hsz i c Hi). reflexivity. }
    destruct (find_best_float_spec (sized ti 0 predicted) (length t) cands Hlen) with (bf := (-1)%Q) (b := @None (Q * Q * Q)) as (r & Er & Hr).
    { intros i tp Hin. destruct (Hread i tp Hin) as (c & Hi & -> & Hh). split; [exact Hh|].
      exists (counted truth c). split; [apply Hsz, Hi|]. exact (hits_counted truth t c Hh Ht). }
    rewrite Er. cbn [bind].
    assert (Hpos : forall c, (1 <= hits t c)%nat -> 0 <= snd (scored_with t c)).
    { intros c Hh. unfold scored_with. pose proof (scored_near (hits t c) (counted truth c) (length t) Hh (hits_counted truth t c Hh Ht) Hlen) as [N1 _].
      apply Qle_trans with (2 := N1). pose proof (frac_positive (2 * hits t c) (counted truth c + length t) ltac:(lia) ltac:(lia)).
      apply Qmult_le_0_compat; [vm_compute; discriminate|lra]. }
    destruct Hr as [[-> Hle]|([i tp] & Hin & -> & Hlt & Hle)].
    + exfalso. destruct (dget (indexed ti 0 predicted) a) as [i|] eqn:Hg; [|exact (Hall a Ha Hg)].
      assert (Hk : In i (dkeys cands)) by (apply Hkeys; right; exists a; auto).
      unfold dkeys in Hk. apply in_map_iff in Hk. destruct Hk as ([i' tp] & E & Hin). simpl in E. subst i'.
      destruct (Hread i tp Hin) as (c & Hi & -> & Hh). specialize (Hle _ Hin). rewrite (Hcd i c Hi) in Hle.
      specialize (Hpos c Hh). lra.
    + destruct (Hread i tp Hin) as (c & Hi & -> & Hh). split; [exact Hne|]. split.
      { intros x Hx. destruct (dget (indexed ti 0 predicted) x) as [k|] eqn:Hg; [|exfalso; exact (Hall x Hx Hg)].
        apply dget_indexed_iff in Hg; [|exact Hnd]. destruct Hg as (c' & Hc' & Hx'). unfold kept in Hx'.
        rewrite filter_In in Hx'. apply in_concat. exists c'. split; [eapply nth_error_In; exact Hc'|tauto]. }
      exists c. split; [eapply nth_error_In; exact Hi|]. split; [exact Hh|]. split; [exact (hits_counted truth t c Hh Ht)|]. split; [exact (Hcd i c Hi)|].
      intros B1 B2. split; [eapply nth_error_In; exact Hi|]. split; [exact Hh|]. intros c' Hc'.
      destruct (Nat.eq_dec (hits t c') 0) as [E0|E0].
      { unfold f1_of at 1. rewrite E0. unfold f1_of. pose proof (frac_positive (2 * hits t c) (counted truth c + length t) ltac:(lia) ltac:(lia)) as P.
        setoid_replace (frac (2 * 0) (counted truth c' + length t)) with 0 by (unfold frac; cbn; unfold Qdiv; rewrite Qmult_0_l; reflexivity). lra. }
      apply In_nth_error in Hc'. destruct Hc' as (j & Hj).
      assert (Hk : In j (dkeys cands)).
      { apply Hkeys. right. pose proof (at_index_hits truth predicted Hnd t j c' Ht Hj) as Hat. 
        destruct (filter (at_index (indexed ti 0 predicted) j) t) as [|x l] eqn:Ef; [simpl in Hat; lia|].
        assert (Hx : In x (filter (at_index (indexed ti 0 predicted) j) t)) by (rewrite Ef; left; reflexivity).
        rewrite filter_In in Hx. exists x. split; [tauto|]. destruct Hx as [_ Hx]. unfold at_index in Hx.
        destruct (dget (indexed ti 0 predicted) x); [|discriminate]. apply Nat.eqb_eq in Hx. congruence. }
      unfold dkeys in Hk. apply in_map_iff in Hk. destruct Hk as ([j' tp'] & E & Hin'). simpl in E. subst j'.
      destruct (Hread j tp' Hin') as (c'' & Hj' & E & Hh'). rewrite Hj in Hj'. injection Hj' as <-. subst tp'.
      specialize (Hle _ Hin'). rewrite (Hcd j c' Hj), (Hcd i c Hi) in Hle.
      assert (Bc : forall c, In c predicted -> (Z.of_nat (counted truth c) <= 2 ^ 20)%Z).
      { intros d Hd. unfold small in B2. rewrite Forall_forall in B2. specialize (B2 d Hd). unfold counted. pose proof (filter_shorter (fun x => memb x (concat truth)) d). lia. }
      unfold f1_of. pose proof (hits_le_length t c). apply scored_order; try assumption; [exact (hits_counted truth t c Hh Ht)|exact (hits_counted truth t c' Hh' Ht)|lia|].
      apply Bc. eapply nth_error_In; exact Hj.
  - destruct Hc as [-> (x & Hx & Hg)]. cbn [bind]. split; [reflexivity|]. intros [_ Hincl].
    apply dget_indexed_None in Hg. apply Hg. unfold kept. rewrite filter_In. split; [apply Hincl, Hx|].
    rewrite ti_memb, memb_true. apply Ht, Hx.
Qed.
End One.

Lemma match_truth_float_spec (index : dict T nat) sizes l : forall P R F,
  match match_truth_float index sizes l (P, R, F) with
  | Ok m => exists qs, Forall2 (fun t q => match_cluster_float index sizes t = Ok q) l qs /\
      m = (fold_left mean_add_float (map (fun q => fst (fst q)) qs) P, fold_left mean_add_float (map (fun q => snd (fst q)) qs) R, fold_left mean_add_float (map snd qs) F)
  | Err e => exists t, In t l /\ match_cluster_float index sizes t = Err e
  end.
Proof.
  induction l as [|t l IH]; intros P R F; cbn [match_truth_float].
  - exists []. split; [constructor|reflexivity].
  - destruct (match_cluster_float index sizes t) as [[[p r] f]|e] eqn:Et; cbn [bind].
    + specialize (IH (mean_add_float P p) (mean_add_float R r) (mean_add_float F f)).
      destruct (match_truth_float index sizes l _) as [m|e].
      * destruct IH as (qs & Hqs & ->). exists ((p, r, f) :: qs). split; [constructor; assumption|reflexivity].
      * destruct IH as (t' & Hin & E). exists t'. split; [right; exact Hin|exact E].
    + exists t. split; [left; reflexivity|exact Et].
Qed.

Definition peeked (l : list Q) (x : Q) : Prop := mean_peek_float (fold_left mean_add_float l (0, 0%nat)) = Ok x.
Lemma float_spec (truth predicted : list (list T)) allow :
  match best_matching_float truth predicted allow with
  | Ok (p, r, f) => valid truth predicted allow /\
      exists qs, Forall2 (fun t q => match_cluster_float (indexed (set_of (concat truth)) 0 predicted) (sized (set_of (concat truth)) 0 predicted) t = Ok q) truth qs /\
        peeked (map (fun q => fst (fst q)) qs) p /\ peeked (map (fun q => snd (fst q)) qs) r /\ peeked (map snd qs) f
  | Err e => e = TypeError /\ ~ valid truth predicted allow
  end.
Proof.
  unfold best_matching_float. destruct truth as [|t0 tr].
  { simpl. split; [reflexivity|]. intros (Hv & _). tauto. }
  remember (t0 :: tr) as truth eqn:Etr. assert (Hnt : truth <> []) by (subst; discriminate).
  replace (Nat.eqb (length truth) 0) with false by (subst; reflexivity). clear t0 tr Etr.
  destruct predicted as [|p0 pr].
  { simpl. split; [reflexivity|]. intros (_ & Hv & _). tauto. }
  remember (p0 :: pr) as predicted eqn:Epr. assert (Hnp : predicted <> []) by (subst; discriminate).
  replace (Nat.eqb (length predicted) 0) with false by (subst; reflexivity). clear p0 pr Epr.
  pose proof (index_predicted_spec allow (set_of (concat truth)) predicted 0 [] [] ltac:(intros j [])) as Hi.
  assert (Hke : kept (set_of (concat truth)) (concat predicted) = filter (fun x => memb x (concat truth)) (concat predicted)).
  { unfold kept. apply filter_ext. intros x. apply ti_memb. }
  destruct (index_predicted allow (set_of (concat truth)) 0 predicted [] []) as [r|e].
  - destruct Hi as ((Hf & Hall & Hnd & _) & ->). cbn [bind app].
    pose proof (match_cluster_float_spec truth predicted Hnd) as Hm.
    pose proof (match_truth_float_spec (indexed (set_of (concat truth)) 0 predicted) (sized (set_of (concat truth)) 0 predicted) truth (0, 0%nat) (0, 0%nat) (0, 0%nat)) as Ht.
    assert (Hincl : forall t, In t truth -> incl t (concat truth)).
    { intros t Hin x Hx. apply in_concat. exists t. auto. }
    destruct (match_truth_float _ _ truth _) as [m|e].
    + destruct Ht as (qs & Hqs & ->). cbn [bind].
      assert (Hlen : length qs = length truth) by (clear - Hqs; induction Hqs; simpl; lia).
      assert (Hl1 : length qs <> 0%nat) by (destruct truth; [congruence|simpl in Hlen; lia]).
      assert (Hp : forall g : Q * Q * Q -> Q, exists x, peeked (map g qs) x).
      { intros g. unfold peeked. rewrite fold_mean. unfold mean_peek_float. cbn [fst snd Nat.add]. rewrite map_length. destruct (Nat.eqb_spec (length qs) 0) as [|_]; [contradiction|]. eexists; reflexivity. }
      destruct (Hp (fun q => fst (fst q))) as [p Ep]. destruct (Hp (fun q => snd (fst q))) as [r Er]. destruct (Hp snd) as [f Ef].
      pose proof Ep as Ep'. pose proof Er as Er'. pose proof Ef as Ef'. unfold peeked in Ep', Er', Ef'. rewrite Ep', Er', Ef'. cbn [bind]. split; [|exists qs; auto].
      assert (Hne : forall t, In t truth -> t <> [] /\ incl t (concat predicted)).
      { intros t Hin. specialize (Hm t (Hincl t Hin)). destruct (Forall2_in_left _ _ _ _ Hqs Hin) as (q & _ & Eq). rewrite Eq in Hm. tauto. }
      split; [exact Hnt|]. split; [exact Hnp|].
      split; [apply Forall_forall; intros t Hin; apply (Hne t Hin)|]. split; [exact Hf|]. split; [|split].
      -- destruct Hall as [E|Hall]; [left; exact E|right]. intros x Hx. specialize (Hall x Hx). rewrite set_of_In in Hall. exact Hall.
      -- rewrite <- Hke. exact Hnd.
      -- intros x Hx. apply in_concat in Hx. destruct Hx as (t & Hin & Hx). apply (Hne t Hin), Hx.
    + destruct Ht as (t & Hin & Et). cbn [bind]. specialize (Hm t (Hincl t Hin)). rewrite Et in Hm. destruct Hm as [-> Hno].
      split; [reflexivity|]. intros (_ & _ & Hft & _ & _ & _ & Hcov). apply Hno. rewrite Forall_forall in Hft.
      split; [apply Hft, Hin|]. intros x Hx. apply Hcov, (Hincl t Hin x Hx).
  - destruct Hi as [-> Hno]. cbn [bind]. split; [reflexivity|]. intros (_ & _ & _ & Hf & Hall & Hnd & _). apply Hno.
    split; [exact Hf|]. split; [|split].
    + destruct Hall as [E|Hall]; [left; exact E|right]. intros x Hx. rewrite set_of_In. auto.
    + rewrite Hke. exact Hnd.
    + intros x _ [].
Qed.
End Cluster.

(** ** The whole function *)
Section Whole.
Context {T : Type} `{EqDec T}.
Implicit Types truth predicted : list (list T).
Lemma scored_with_ok truth (t c : list T) : NoDup t -> incl t (concat truth) -> (1 <= hits t c)%nat -> (1 <= counted truth c)%nat ->
  in01 (scored_with truth t c) /\ Qabs (fst (fst (scored_with truth t c)) - precision_of truth t c) <= eps /\
  Qabs (snd (fst (scored_with truth t c)) - recall_of t c) <= eps /\ Qabs (snd (scored_with truth t c) - f1_of truth t c) <= eps.
Proof.
  intros Hn Hi Hh Hc. pose proof (hits_le_length t c) as L1. pose proof (hits_le_counted truth t c Hn Hi) as L2.
  split; [apply scored_range; assumption|]. unfold scored_with.
  assert (B : forall a b, (1 <= a)%nat -> (a <= b)%nat -> Qabs (fl (frac a b) - frac a b) <= eps).
  { intros a b Ha Hb. pose proof (frac_positive a b Ha ltac:(lia)) as P. pose proof (frac_bounds a b Hb) as [_ Q1].
    pose proof (fl_lower (frac a b) ltac:(lra)) as X1. pose proof (fl_upper (frac a b) ltac:(lra)) as X2.
    assert (U0 : 0 <= u) by (vm_compute; discriminate). assert (U1 : u <= eps) by (vm_compute; discriminate).
    assert (U2 : u * frac a b <= u * 1) by (rewrite !(Qmult_comm u); apply Qmult_le_compat_r; assumption).
    apply Qabs_Qle_condition. split; lra. }
  split; [|split].
  - apply B; assumption.
  - apply B; assumption.
  - pose proof (scored_near (hits t c) (counted truth c) (length t) Hh Hc ltac:(lia)) as [X1 X2]. fold (f1_of truth t c) in *.
    pose proof (frac_bounds (2 * hits t c) (counted truth c + length t) ltac:(lia)) as [P Q1]. fold (f1_of truth t c) in P, Q1.
    assert (U0 : 0 <= eps) by (vm_compute; discriminate).
    assert (U2 : eps * f1_of truth t c <= eps * 1) by (rewrite !(Qmult_comm eps); apply Qmult_le_compat_r; assumption).
    apply Qabs_Qle_condition. unfold f1_of in *. split; lra.
Qed.

Lemma Forall2_imp {A B} (P R : A -> B -> Prop) l l' : (forall a b, P a b -> R a b) -> Forall2 P l l' -> Forall2 R l l'.
Proof. intros Hi F. induction F; constructor; auto. Qed.
Lemma Forall2_map_right {A B C} (P : A -> C -> Prop) (g : B -> C) l l' : Forall2 (fun a b => P a (g b)) l l' -> Forall2 P l (map g l').
Proof. induction 1; cbn; constructor; auto. Qed.
Lemma Forall2_choose {A B C} (R : A -> B -> Prop) (M : A -> B -> C -> Prop) l l' : Forall2 R l l' -> (forall a b, In a l -> R a b -> exists c, M a b c) ->
  exists zs, l' = map fst zs /\ Forall2 (fun a z => In a l /\ M a (fst z) (snd z)) l zs.
Proof.
  induction 1 as [|a b l l' Hab F IH]; intros Hm; [exists []; split; [reflexivity|constructor]|].
  destruct (Hm a b (or_introl eq_refl) Hab) as [c Hc]. destruct IH as (zs & E & Hz); [intros a' b' Hin; apply Hm; right; exact Hin|].
  exists ((b, c) :: zs). split; [cbn; rewrite E; reflexivity|]. constructor; [split; [left; reflexivity|exact Hc]|].
  eapply Forall2_imp; [|exact Hz]. intros x z [H1 H2]. split; [right; exact H1|exact H2].
Qed.
Definition matched truth predicted (t : list T) (q : Q * Q * Q) (c : list T) : Prop :=
  In c predicted /\ (1 <= hits t c)%nat /\ (1 <= counted truth c)%nat /\ q = scored_with truth t c /\
  ((Z.of_nat (length t) <= 2 ^ 20)%Z -> small predicted -> best_match truth predicted t c).
Lemma float_matches truth predicted allow p r f : best_matching_float truth predicted allow = Ok (p, r, f) ->
  exists zs, Forall2 (fun t z => In t truth /\ matched truth predicted t (fst z) (snd z)) truth zs /\
    peeked (map (fun z => fst (fst (fst z))) zs) p /\ peeked (map (fun z => snd (fst (fst z))) zs) r /\ peeked (map (fun z => snd (fst z)) zs) f.
Proof.
  intros E. pose proof (float_spec truth predicted allow) as Hs. rewrite E in Hs. destruct Hs as (Hv & qs & Hqs & Hp & Hr & Hf).
  assert (Hnd : NoDup (kept (set_of (concat truth)) (concat predicted))).
  { unfold kept. rewrite (filter_ext _ (fun x => memb x (concat truth))) by (intros x; apply ti_memb). apply Hv. }
  destruct (Forall2_choose _ (matched truth predicted) truth qs Hqs) as (zs & -> & Hz).
  { intros t q Hin Eq. assert (Hi : incl t (concat truth)) by (intros x Hx; apply in_concat; exists t; auto).
    pose proof (match_cluster_float_spec truth predicted Hnd t Hi) as Hm. rewrite Eq in Hm. destruct Hm as (_ & _ & c & M). exists c. exact M. }
  rewrite !map_map in *. exists zs. auto.
Qed.
Lemma Forall2_zip {A B} (P : A -> B -> Prop) (R : B -> Prop) l l' : Forall2 P l l' -> (forall a b, P a b -> R b) -> Forall R l'.
Proof. intros F Hi. induction F; constructor; eauto. Qed.
Lemma Forall2_map_zip {A B X Y} (P : A -> B -> Prop) (R : X -> Y -> Prop) (g : B -> X) (h : A -> B -> Y) l l' : Forall2 P l l' -> (forall a b, P a b -> R (g b) (h a b)) ->
  Forall2 R (map g l') (map (fun ab => h (fst ab) (snd ab)) (combine l l')).
Proof. intros F Hi. induction F; cbn; constructor; eauto. Qed.
Lemma combine_snd {A B C Y} (h : A -> C -> Y) (l : list A) (zs : list (B * C)) :
  map (fun ab => h (fst ab) (snd (snd ab))) (combine l zs) = map (fun tc => h (fst tc) (snd tc)) (combine l (map snd zs)).
Proof. revert zs. induction l as [|a l IH]; intros [|z zs]; cbn; try reflexivity. rewrite IH. reflexivity. Qed.
Definition bound (n : nat) : Q := (Qnat n + 9) * u.
Lemma bound_eq n : eps + (Qnat n + 1) * u == bound n.
Proof. unfold bound, eps. assert (E : pow2 (-50) == 8 * u) by reflexivity. rewrite E. ring. Qed.
Lemma in_truth truth (t : list T) : In t truth -> incl t (concat truth).
Proof. intros Hin x Hx. apply in_concat. exists t. auto. Qed.

Lemma float_value truth predicted allow p r f : Forall (@NoDup T) truth -> small truth -> small predicted -> (Z.of_nat (length truth) <= 2 ^ 53)%Z ->
  best_matching_float truth predicted allow = Ok (p, r, f) ->
  exists cs, Forall2 (best_match truth predicted) truth cs /\
    Qabs (p - average (map (fun tc => precision_of truth (fst tc) (snd tc)) (combine truth cs))) <= bound (length truth) /\
    Qabs (r - average (map (fun tc => recall_of (fst tc) (snd tc)) (combine truth cs))) <= bound (length truth) /\
    Qabs (f - average (map (fun tc => f1_of truth (fst tc) (snd tc)) (combine truth cs))) <= bound (length truth).
Proof.
  intros Hn Bt Bp BN E. destruct (float_matches _ _ _ _ _ _ E) as (zs & Hz & Hp & Hr & Hf). exists (map snd zs).
  pose proof (Forall2_len _ _ _ Hz) as Hl. rewrite Forall_forall in Hn. unfold small in Bt. rewrite Forall_forall in Bt.
  assert (Hok : forall t z, In t truth /\ matched truth predicted t (fst z) (snd z) -> in01 (fst z) /\ Qabs (fst (fst (fst z)) - precision_of truth t (snd z)) <= eps /\
    Qabs (snd (fst (fst z)) - recall_of t (snd z)) <= eps /\ Qabs (snd (fst z) - f1_of truth t (snd z)) <= eps).
  { intros t z [Hin (M1 & M2 & M3 & -> & _)]. apply scored_with_ok; auto using in_truth. }
  split.
  { apply Forall2_map_right. eapply Forall2_imp; [|exact Hz]. intros t z [Hin (M1 & M2 & M3 & M4 & M5)]. apply M5; [apply Bt; exact Hin|exact Bp]. }
  rewrite <- !bound_eq. rewrite Hl.
  assert (R : forall g : Q * Q * Q -> Q, (forall q, in01 q -> 0 <= g q <= 1) -> Forall (fun x => 0 <= x <= 1) (map (fun z : (Q * Q * Q) * list T => g (fst z)) zs)).
  { intros g Hg. apply Forall_map. apply (Forall2_zip _ _ _ _ Hz). intros t z Hm. apply Hg, (Hok t z Hm). }
  split; [|split].
  - rewrite <- (map_length (fun z => fst (fst (fst z))) zs). rewrite <- combine_snd. apply mean_near; [apply (R (fun q => fst (fst q))); intros q Hq; apply Hq| |rewrite map_length, <- Hl; exact BN|exact Hp].
    apply (Forall2_map_zip _ _ _ (fun t z => precision_of truth t (snd z)) _ _ Hz). intros t z Hm. apply (Hok t z Hm).
  - rewrite <- (map_length (fun z => snd (fst (fst z))) zs). rewrite <- combine_snd. apply mean_near; [apply (R (fun q => snd (fst q))); intros q Hq; apply Hq| |rewrite map_length, <- Hl; exact BN|exact Hr].
    apply (Forall2_map_zip _ _ _ (fun t z => recall_of t (snd z)) _ _ Hz). intros t z Hm. apply (Hok t z Hm).
  - rewrite <- (map_length (fun z => snd (fst z)) zs). rewrite <- combine_snd. apply mean_near; [apply (R snd); intros q Hq; apply Hq| |rewrite map_length, <- Hl; exact BN|exact Hf].
    apply (Forall2_map_zip _ _ _ (fun t z => f1_of truth t (snd z)) _ _ Hz). intros t z Hm. apply (Hok t z Hm).
Qed.

(** all best matches have the same F1 *)
Lemma best_f1 truth predicted : forall l cs cs', Forall2 (best_match truth predicted) l cs -> Forall2 (best_match truth predicted) l cs' ->
  average (map (fun tc => f1_of truth (fst tc) (snd tc)) (combine l cs)) == average (map (fun tc => f1_of truth (fst tc) (snd tc)) (combine l cs')).
Proof.
  intros l cs cs' F F'. unfold average. rewrite !map_length, !combine_length, <- (Forall2_len _ _ _ F), <- (Forall2_len _ _ _ F').
  apply Qdiv_comp; [|reflexivity]. revert cs' F'. induction F as [|t c l cs Hc F IH]; intros cs' F'; inversion F' as [|? c' ? cs'' Hc' F'']; subst; cbn; [reflexivity|].
  rewrite (IH _ F''). destruct Hc as (I1 & _ & B1), Hc' as (I2 & _ & B2). specialize (B1 _ I2). specialize (B2 _ I1). apply Qplus_comp; [apply Qle_antisym; assumption|reflexivity].
Qed.
Lemma float_f1 truth predicted allow p r f p' r' f' : Forall (@NoDup T) truth -> small truth -> small predicted -> (Z.of_nat (length truth) <= 2 ^ 53)%Z ->
  best_matching_float truth predicted allow = Ok (p, r, f) -> best_matching_macro_average truth predicted allow = Ok (p', r', f') ->
  Qabs (f - f') <= bound (length truth).
Proof.
  intros Hn Bt Bp BN E E'. destruct (float_value _ _ _ _ _ _ Hn Bt Bp BN E) as (cs & Hcs & _ & _ & B).
  destruct (value_spec _ _ _ _ _ _ E') as (cs' & Hcs' & _ & _ & ->). rewrite (best_f1 truth predicted _ _ _ Hcs' Hcs). exact B.
Qed.
Lemma mean_range l x : Forall (fun x => 0 <= x <= 1) l -> (Z.of_nat (length l) <= 2 ^ 53)%Z -> peeked l x -> 0 <= x <= 1.
Proof.
  intros Hl HB E. unfold peeked in E. rewrite fold_mean in E. unfold mean_peek_float in E. cbn [fst snd Nat.add] in E.
  destruct (Nat.eqb_spec (length l) 0) as [|NZ]; [discriminate E|]. injection E; intros <-. clear E.
  destruct (sum_range l 0 0 Hl) as [S0 S1]; [split; [lra|vm_compute; discriminate]|exact HB|]. cbn [Nat.add] in S1. fold (Qnat (length l)).
  pose proof (Qnat_1 (length l) ltac:(lia)) as N. unfold fdiv. split; [apply fl_nonneg; apply Qle_shift_div_l; lra|].
  apply fl_le; [apply (float53_Z 1); cbn; lia|]. apply Qle_shift_div_r; lra.
Qed.
Lemma float_range truth predicted allow p r f : Forall (@NoDup T) truth -> (Z.of_nat (length truth) <= 2 ^ 53)%Z ->
  best_matching_float truth predicted allow = Ok (p, r, f) -> 0 <= p <= 1 /\ 0 <= r <= 1 /\ 0 <= f <= 1.
Proof.
  intros Hn BN E. destruct (float_matches _ _ _ _ _ _ E) as (zs & Hz & Hp & Hr & Hf).
  pose proof (Forall2_len _ _ _ Hz) as Hl. rewrite Forall_forall in Hn.
  assert (Hok : Forall (fun z => in01 (fst z)) zs).
  { apply (Forall2_zip _ _ _ _ Hz). intros t z [Hin (M1 & M2 & M3 & -> & _)]. apply scored_with_ok; auto using in_truth. }
  split; [|split]; (eapply mean_range; [|rewrite map_length, <- Hl; exact BN|eassumption]); apply Forall_map; eapply Forall_impl; try exact Hok; intros z Hq; apply Hq.
Qed.

Lemma float_perfect truth predicted allow p r f : Forall (@NoDup T) truth -> small truth -> small predicted -> (Z.of_nat (length truth) <= 2 ^ 30)%Z ->
  best_matching_float truth predicted allow = Ok (p, r, f) -> (recovered truth predicted -> p == 1 /\ r == 1 /\ f == 1) /\ (f == 1 -> recovered truth predicted).
Proof.
  intros Hn Bt Bp BN E. pose proof (float_spec truth predicted allow) as Hs. rewrite E in Hs. destruct Hs as (Hv & _).
  destruct (float_matches _ _ _ _ _ _ E) as (zs & Hz & Hp & Hr & Hf).
  pose proof (Forall2_len _ _ _ Hz) as Hl. rewrite Forall_forall in Hn. unfold small in Bt. rewrite Forall_forall in Bt.
  destruct Hv as (_ & _ & Hne & _ & _ & Hnd & _). rewrite Forall_forall in Hne.
  assert (Hok : Forall (fun z => in01 (fst z)) zs).
  { apply (Forall2_zip _ _ _ _ Hz). intros t z [Hin (M1 & M2 & M3 & -> & _)]. apply scored_with_ok; auto using in_truth. }
  assert (Hgap : forall t z, In t truth /\ matched truth predicted t (fst z) (snd z) ->
    (f1_of truth t (snd z) == 1 /\ fst (fst (fst z)) == 1 /\ snd (fst (fst z)) == 1 /\ snd (fst z) == 1) \/ (~ f1_of truth t (snd z) == 1 /\ snd (fst z) <= 1 - gap)).
  { intros t z [Hin (M1 & M2 & M3 & -> & _)]. pose proof (hits_le_counted truth t (snd z) (Hn t Hin) (in_truth _ _ Hin)).
    pose proof (hits_le_length t (snd z)). unfold small in Bp. rewrite Forall_forall in Bp. specialize (Bp _ M1). specialize (Bt _ Hin).
    pose proof (filter_shorter (fun x => memb x (concat truth)) (snd z)) as Hfs. unfold scored_with, f1_of. apply scored_gap; try assumption. unfold counted in *. lia. }
  assert (Hcn : forall c, In c predicted -> NoDup (filter (fun x => memb x (concat truth)) c)) by (intros c; apply (kept_NoDup_one truth predicted c Hnd)).
  split.
  - intros Hrec.
    assert (Hall : Forall (fun z => fst (fst (fst z)) == 1 /\ snd (fst (fst z)) == 1 /\ snd (fst z) == 1) zs).
    { apply (Forall2_zip _ _ _ _ Hz). intros t z Hm. destruct (Hgap t z Hm) as [(_ & G)|[G _]]; [exact G|]. exfalso. apply G.
      destruct Hm as [Hin (M1 & M2 & M3 & M4 & M5)]. destruct (M5 (Bt t Hin) Bp) as (_ & _ & B). destruct (Hrec t Hin) as (c & Ic & Pc).
      specialize (B c Ic). rewrite (proj2 (f1_one truth t c (Hn t Hin) (Hne t Hin) (in_truth _ _ Hin) (Hcn c Ic)) Pc) in B.
      apply Qle_antisym; [apply (scores_bounds truth t (snd z) (Hn t Hin) (in_truth _ _ Hin))|exact B]. }
    split; [|split]; (eapply mean_one; [| |rewrite map_length, <- Hl; exact BN|eassumption|]); apply Forall_map; (eapply Forall_impl; [|exact (Forall_and Hok Hall)]); intros z [Q1 Q2]; first [left; apply Q2|apply Q1|apply Q2].
  - intros E1. assert (Hone : Forall (fun x => x == 1) (map (fun z => snd (fst z)) zs)).
    { eapply mean_one; [| |rewrite map_length, <- Hl; exact BN|exact Hf|exact E1]; apply Forall_map.
      - eapply Forall_impl; [|exact Hok]. intros z Hq. apply Hq.
      - apply (Forall2_zip _ _ _ _ Hz). intros t z Hm. destruct (Hgap t z Hm) as [(_ & _ & _ & G)|[_ G]]; [left|right]; exact G. }
    rewrite Forall_map in Hone. intros t Hin. destruct (Forall2_in_left _ _ _ _ Hz Hin) as (z & Iz & Hm).
    rewrite Forall_forall in Hone. specialize (Hone z Iz). destruct (Hgap t z Hm) as [(G & _)|[_ G]].
    + exists (snd z). destruct Hm as [_ (M1 & _)]. split; [exact M1|]. apply (f1_one truth t (snd z) (Hn t Hin) (Hne t Hin) (in_truth _ _ Hin) (Hcn _ M1)). exact G.
    + exfalso. cbn beta in Hone. rewrite Hone in G. assert (0 < gap) by reflexivity. lra.
Qed.

(** ** The order of the predicted clusters, and of the items inside *)
Lemma float_same truth predicted predicted' allow : (valid truth predicted allow <-> valid truth predicted' allow) ->
  (valid truth predicted allow -> forall t, match_cluster_float (indexed (set_of (concat truth)) 0 predicted) (sized (set_of (concat truth)) 0 predicted) t =
     match_cluster_float (indexed (set_of (concat truth)) 0 predicted') (sized (set_of (concat truth)) 0 predicted') t) ->
  best_matching_float truth predicted' allow = best_matching_float truth predicted allow.
Proof.
  intros Hv Hm. pose proof (float_spec truth predicted allow) as S1. pose proof (float_spec truth predicted' allow) as S2.
  destruct (best_matching_float truth predicted allow) as [[[p r] f]|e], (best_matching_float truth predicted' allow) as [[[p' r'] f']|e'].
  - destruct S1 as (V & qs & Q1 & P1 & R1 & F1), S2 as (V' & qs' & Q2 & P2 & R2 & F2).
    assert (E : qs = qs').
    { apply Forall2_fun in Q1, Q2. rewrite (map_ext _ _ (Hm V)) in Q1. rewrite <- Q1 in Q2. clear - Q2. revert qs' Q2. induction qs as [|q qs IH]; intros [|q' qs'] E; try discriminate; [reflexivity|].
      cbn in E. injection E; intros E1 E2. rewrite (IH _ E1). congruence. }
    subst qs'. unfold peeked in *. rewrite P1 in P2. rewrite R1 in R2. rewrite F1 in F2. congruence.
  - tauto.
  - tauto.
  - destruct S1 as [-> _], S2 as [-> _]. reflexivity.
Qed.
Lemma kept_valid truth predicted allow : valid truth predicted allow -> NoDup (kept (set_of (concat truth)) (concat predicted)).
Proof. intros Hv. unfold kept. rewrite (filter_ext _ (fun x => memb x (concat truth))) by (intros x; apply ti_memb). apply Hv. Qed.
Lemma float_clusters_order truth predicted predicted' allow : Permutation predicted predicted' ->
  best_matching_float truth predicted' allow = best_matching_float truth predicted allow.
Proof.
  intros Pp. assert (Hvv : valid truth predicted allow <-> valid truth predicted' allow).
  { split; apply valid_clusters_order; try apply Permutation_refl; [exact Pp|apply Permutation_sym, Pp]. }
  apply float_same; [exact Hvv|]. intros Hv t. assert (Hv' : valid truth predicted' allow) by (apply Hvv, Hv).
  destruct (Permutation_nth_error predicted predicted') as [Hpn _]. destruct (Hpn Pp) as (Hl & s & Hinj & Hs).
  pose proof (kept_valid _ _ _ Hv) as N1. pose proof (kept_valid _ _ _ Hv') as N2.
  apply (match_cluster_float_relabel s); [exact Hinj| |].
  - intros x _. destruct (dget (indexed (set_of (concat truth)) 0 predicted') x) as [j|] eqn:Ej; simpl.
    + apply dget_indexed_iff in Ej; [|exact N2]. destruct Ej as (c & Hc & Hx). apply dget_indexed_iff; [exact N1|]. exists c. rewrite <- Hs. split; assumption.
    + destruct (dget (indexed (set_of (concat truth)) 0 predicted) x) as [i|] eqn:Ei; [|reflexivity]. exfalso.
      apply dget_indexed_None in Ej. apply Ej. unfold kept. rewrite filter_In.
      apply dget_indexed_iff in Ei; [|exact N1]. destruct Ei as (c & Hc & Hx). unfold kept in Hx. rewrite filter_In in Hx.
      split; [|tauto]. apply (Permutation_in x (concat_perm _ _ Pp)). apply in_concat. exists c. split; [eapply nth_error_In; exact Hc|tauto].
  - intros i. rewrite !dget_sized. simpl. rewrite !Nat.sub_0_r, <- Hs. reflexivity.
Qed.
Lemma Forall2_nth_left {A B} (P : A -> B -> Prop) l l' : Forall2 P l l' -> forall k, match nth_error l k, nth_error l' k with Some a, Some b => P a b | None, None => True | _, _ => False end.
Proof. induction 1; intros [|k]; cbn; auto. apply IHForall2. Qed.
Lemma float_items_order truth predicted predicted' allow : Forall2 (@Permutation T) predicted predicted' ->
  best_matching_float truth predicted' allow = best_matching_float truth predicted allow.
Proof.
  intros Pp. assert (Pt : Forall2 (@Permutation T) truth truth) by (induction truth; constructor; auto).
  assert (Pp' : Forall2 (@Permutation T) predicted' predicted) by (clear - Pp; induction Pp; constructor; auto using Permutation_sym).
  assert (Hvv : valid truth predicted allow <-> valid truth predicted' allow) by (split; apply valid_items_order; assumption).
  apply float_same; [exact Hvv|]. intros Hv t. assert (Hv' : valid truth predicted' allow) by (apply Hvv, Hv).
  pose proof (kept_valid _ _ _ Hv) as N1. pose proof (kept_valid _ _ _ Hv') as N2.
  apply (match_cluster_float_relabel (fun i => i)); [auto| |].
  - intros x _. transitivity (dget (indexed (set_of (concat truth)) 0 predicted') x); [|destruct (dget _ x); reflexivity].
    assert (Half : forall pr pr' : list (list T), NoDup (kept (set_of (concat truth)) (concat pr)) -> NoDup (kept (set_of (concat truth)) (concat pr')) -> Forall2 (@Permutation T) pr pr' ->
      forall i, dget (indexed (set_of (concat truth)) 0 pr) x = Some i -> dget (indexed (set_of (concat truth)) 0 pr') x = Some i).
    { intros pr pr' M1 M2 F i Hi. apply dget_indexed_iff in Hi; [|exact M1]. destruct Hi as (c & Hc & Hx). apply dget_indexed_iff; [exact M2|].
      pose proof (Forall2_nth_left _ _ _ F i) as Hk. rewrite Hc in Hk. destruct (nth_error pr' i) as [c'|]; [|contradiction]. exists c'. split; [reflexivity|].
      unfold kept in *. rewrite filter_In in *. split; [apply (Permutation_in x Hk); tauto|tauto]. }
    destruct (dget (indexed (set_of (concat truth)) 0 predicted) x) as [i|] eqn:Ei.
    + symmetry. apply (Half predicted predicted'); assumption.
    + destruct (dget (indexed (set_of (concat truth)) 0 predicted') x) as [j|] eqn:Ej; [|reflexivity]. apply (Half predicted' predicted N2 N1 Pp') in Ej. congruence.
  - intros i. rewrite !dget_sized. simpl. rewrite !Nat.sub_0_r. pose proof (Forall2_nth_left _ _ _ Pp i) as Hk.
    destruct (nth_error predicted i) as [c|], (nth_error predicted' i) as [c'|]; try contradiction; [|reflexivity]. cbn. f_equal.
    unfold kept. apply Permutation_length, Permutation_filt, Hk.
Qed.
End Whole.
