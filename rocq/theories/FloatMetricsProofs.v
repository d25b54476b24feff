(** The metrics of sets, computed with floats. *)
From Coq Require Import QArith Qround Qabs ZArith Lqa Znumtheory.
From Verif Require Import Base BaseFacts BlockingSpec BlockingProofs MetricsModel MetricsSpec MetricsProofs FloatModel FloatSpec FloatProofs.
Open Scope Q_scope.

Lemma Qnat_le a b : Qnat a <= Qnat b <-> (a <= b)%nat.
Proof. unfold Qnat. rewrite <- Zle_Qle. lia. Qed.
Lemma Qnat_lt a b : Qnat a < Qnat b <-> (a < b)%nat.
Proof. unfold Qnat. rewrite <- Zlt_Qlt. lia. Qed.
Lemma Qnat_mult a b : Qnat (a * b) == Qnat a * Qnat b.
Proof. unfold Qnat. rewrite Nat2Z.inj_mul, inject_Z_mult. reflexivity. Qed.
Lemma Qnat_plus a b : Qnat (a + b) == Qnat a + Qnat b.
Proof. unfold Qnat. rewrite Nat2Z.inj_add, inject_Z_plus. reflexivity. Qed.
Lemma Qnat_0 a : 0 <= Qnat a.
Proof. change 0 with (Qnat 0). apply Qnat_le. lia. Qed.
Lemma Qnat_1 a : (1 <= a)%nat -> 1 <= Qnat a.
Proof. intros Ha. change 1 with (Qnat 1). apply Qnat_le. lia. Qed.
Lemma Qnat_float53 a : (Z.of_nat a <= 2 ^ 53)%Z -> float53 (Qnat a).
Proof. intros Ha. apply float53_Z. lia. Qed.
Lemma Qnat_pow2 a k : (0 <= k)%Z -> (Z.of_nat a <= 2 ^ k)%Z -> Qnat a <= pow2 k.
Proof. intros Hk Ha. rewrite pow2_Z by auto. unfold Qnat. rewrite <- Zle_Qle. auto. Qed.
Lemma Qnat_pow2_lt a k : (0 <= k)%Z -> (Z.of_nat a < 2 ^ k)%Z -> Qnat a < pow2 k.
Proof. intros Hk Ha. rewrite pow2_Z by auto. unfold Qnat. rewrite <- Zlt_Qlt. auto. Qed.

Lemma fmul_comm a b : fmul a b = fmul b a.
Proof. unfold fmul. apply fl_comp_eq. ring. Qed.

Section Sets.
Context {T : Type} `{EqDec T}.

Lemma jaccard_fl same (A B : list T) : jaccard_float same A B == fl (jaccard_similarity same A B).
Proof.
  unfold jaccard_float, jaccard_similarity. destruct same; [symmetry; apply fl_1|]. destruct (_ || _); [reflexivity|].
  destruct (swap_smaller _ _). reflexivity.
Qed.
Lemma dice_fl same (A B : list T) : dice_float same A B == fl (dice_coefficient same A B).
Proof.
  unfold dice_float, dice_coefficient. destruct same; [symmetry; apply fl_1|]. destruct (swap_smaller _ _) as [A' B'].
  destruct (Nat.eqb _ 0); [destruct (Nat.eqb _ 0); reflexivity|reflexivity].
Qed.
Lemma overlap_fl same (A B : list T) : overlap_float same A B == fl (overlap_coefficient same A B).
Proof.
  unfold overlap_float, overlap_coefficient. destruct same; [symmetry; apply fl_1|]. destruct (_ || _); [reflexivity|].
  destruct (swap_smaller _ _). reflexivity.
Qed.

(** the comparison with a decimal threshold is the exact one *)
Lemma threshold_exact i u c d r q : (i <= u)%nat -> (1 <= u)%nat -> (c <= d)%nat -> (1 <= d)%nat -> (Z.of_nat u * Z.of_nat d < 2 ^ 52)%Z ->
  rounds (Qnat c / Qnat d) r -> q == Qnat i / Qnat u -> (r <= fl q <-> (c * u <= i * d)%nat).
Proof.
  intros Hi Hu Hc Hd Hud Hr Eq. rewrite (rounds_fl _ _ Hr), (fl_comp _ _ Eq).
  unfold Qnat. rewrite (fl_fractions_le (Z.of_nat c) (Z.of_nat d) (Z.of_nat i) (Z.of_nat u)) by lia.
  fold (Qnat c) (Qnat d) (Qnat i) (Qnat u). pose proof (Qnat_1 d Hd). pose proof (Qnat_1 u Hu).
  assert (E1 : Qnat c / Qnat d * Qnat d == Qnat c) by (field; lra). assert (E2 : Qnat i / Qnat u * Qnat u == Qnat i) by (field; lra).
  rewrite <- Qnat_le, !Qnat_mult. set (x := Qnat c / Qnat d) in *. set (y := Qnat i / Qnat u) in *. rewrite <- E1, <- E2. split; intros L.
  - assert (x * (Qnat d * Qnat u) <= y * (Qnat d * Qnat u)) by (apply Qmult_le_compat_r; [auto|nra]). lra.
  - apply Qmult_le_r with (z := Qnat d * Qnat u); [nra|]. lra.
Qed.
Lemma card_le (P Q : T -> Prop) n m : (forall x, P x -> Q x) -> card P n -> card Q m -> (n <= m)%nat.
Proof.
  intros PQ (l & Nl & El & <-) (l' & _ & El' & <-). apply NoDup_incl_length; [auto|]. intros x Hx. apply El', PQ, El. exact Hx.
Qed.

Lemma jaccard_float_threshold same (A B : list T) i u c d r : coherent same A B ->
  card (fun x => In x A /\ In x B) i -> card (fun x => In x A \/ In x B) u -> (1 <= u)%nat ->
  (c <= d)%nat -> (1 <= d)%nat -> (Z.of_nat u * Z.of_nat d < 2 ^ 52)%Z -> rounds (Qnat c / Qnat d) r ->
  (r <= jaccard_float same A B <-> (c * u <= i * d)%nat).
Proof.
  intros Co Ci Cu Hu Hc Hd Hud Hr. rewrite jaccard_fl. apply threshold_exact; auto; [|apply jaccard_correct; auto; lia].
  eapply card_le; [|exact Ci|exact Cu]. simpl. tauto.
Qed.
Lemma dice_float_threshold same (A B : list T) i n m c d r : coherent same A B ->
  card (fun x => In x A /\ In x B) i -> card (fun x => In x A) n -> card (fun x => In x B) m -> (1 <= n + m)%nat ->
  (c <= d)%nat -> (1 <= d)%nat -> (Z.of_nat (n + m) * Z.of_nat d < 2 ^ 52)%Z -> rounds (Qnat c / Qnat d) r ->
  (r <= dice_float same A B <-> (c * (n + m) <= 2 * i * d)%nat).
Proof.
  intros Co Ci Cn Cm Hu Hc Hd Hud Hr. rewrite dice_fl. apply threshold_exact; auto; [|apply dice_correct; auto; lia].
  assert (i <= n)%nat by (eapply card_le; [|exact Ci|exact Cn]; simpl; tauto). assert (i <= m)%nat by (eapply card_le; [|exact Ci|exact Cm]; simpl; tauto). lia.
Qed.
Lemma overlap_float_threshold same (A B : list T) i n m c d r : coherent same A B ->
  card (fun x => In x A /\ In x B) i -> card (fun x => In x A) n -> card (fun x => In x B) m -> (1 <= n)%nat -> (1 <= m)%nat ->
  (c <= d)%nat -> (1 <= d)%nat -> (Z.of_nat (Nat.min n m) * Z.of_nat d < 2 ^ 52)%Z -> rounds (Qnat c / Qnat d) r ->
  (r <= overlap_float same A B <-> (c * Nat.min n m <= i * d)%nat).
Proof.
  intros Co Ci Cn Cm Hn Hm Hc Hd Hud Hr. rewrite overlap_fl. apply threshold_exact; auto; [|lia|apply overlap_correct; auto; lia].
  assert (i <= n)%nat by (eapply card_le; [|exact Ci|exact Cn]; simpl; tauto). assert (i <= m)%nat by (eapply card_le; [|exact Ci|exact Cm]; simpl; tauto). lia.
Qed.

Lemma set_metrics_float_range same (A B : list T) :
  0 <= jaccard_float same A B <= 1 /\ 0 <= dice_float same A B <= 1 /\ 0 <= overlap_float same A B <= 1.
Proof.
  destruct (metrics_range same A B) as ([J1 J2] & [D1 D2] & [O1 O2]). rewrite jaccard_fl, dice_fl, overlap_fl.
  assert (F1 : float53 1) by (apply (float53_Z 1); lia).
  repeat split; solve [apply fl_nonneg; auto|apply fl_le; auto].
Qed.
Lemma set_metrics_float_sym same (A B : list T) :
  jaccard_float same A B == jaccard_float same B A /\ dice_float same A B == dice_float same B A /\
  overlap_float same A B == overlap_float same B A.
Proof.
  rewrite !jaccard_fl, !dice_fl, !overlap_fl. rewrite (overlap_sym same A B). split; [|split; [|reflexivity]]; apply fl_comp; [apply jaccard_sym|apply dice_sym].
Qed.
Lemma rounds_1 : rounds (Qnat 1 / Qnat 1) 1.
Proof. apply (rounds_comp 1 (fl 1)); [reflexivity|reflexivity|apply fl_rounds]. Qed.
(** jaccard and dice are 1 for the same elements only *)
Lemma jaccard_float_one same (A B : list T) i u : coherent same A B ->
  card (fun x => In x A /\ In x B) i -> card (fun x => In x A \/ In x B) u -> (1 <= u)%nat -> (Z.of_nat u < 2 ^ 52)%Z ->
  (jaccard_float same A B == 1 <-> forall x, In x A <-> In x B).
Proof.
  intros Co Ci Cu Hu Hb. pose proof (jaccard_float_threshold same A B i u 1 1 1 Co Ci Cu Hu (le_n 1) (le_n 1) ltac:(lia) rounds_1) as E.
  destruct (set_metrics_float_range same A B) as ([_ J] & _). split.
  - intros E1. assert (L : (1 * u <= i * 1)%nat) by (apply E; lra). intros x. destruct Ci as (li & Ni & Ei & Li), Cu as (lu & Nu & Eu & Lu).
    assert (I : incl lu li).
    { apply NoDup_length_incl; [auto|lia|]. intros y Hy. apply Eu. apply Ei in Hy. tauto. }
    assert (Both : In x A \/ In x B -> In x A /\ In x B) by (intros Hx; apply Ei, I, Eu; exact Hx). tauto.
  - intros S. assert (u <= i)%nat; [|assert (1 <= jaccard_float same A B) by (apply E; lia); lra].
    eapply card_le; [|exact Cu|exact Ci]. simpl. intros x Hx. specialize (S x). tauto.
Qed.

(** ** Binary cosine *)
Lemma fsqrt_int_bound i N : (i * i <= N)%nat -> (1 <= N)%nat -> (Z.of_nat N <= 2 ^ 53)%Z -> Qnat i <= fsqrt (Qnat N).
Proof.
  intros Hi HN HB. apply fsqrt_ge.
  - apply Qnat_float53. nia.
  - pose proof (Qnat_1 N HN). lra.
  - rewrite <- Qnat_mult. apply Qnat_le. exact Hi.
Qed.
Lemma cosine_quotient_range i N : (i * i <= N)%nat -> (1 <= N)%nat -> (Z.of_nat N <= 2 ^ 53)%Z -> 0 <= fdiv (Qnat i) (fsqrt (Qnat N)) <= 1.
Proof.
  intros Hi HN HB. pose proof (Qnat_1 N HN) as N1. pose proof (fsqrt_pos (Qnat N) ltac:(lra)) as S0. pose proof (fsqrt_int_bound i N Hi HN HB) as S1.
  pose proof (Qnat_0 i). unfold fdiv. split.
  - apply fl_nonneg. apply Qle_shift_div_l; auto. lra.
  - apply fl_le; [apply (float53_Z 1); lia|]. apply Qle_shift_div_r; auto. lra.
Qed.
(** a square root that is a fraction is an integer *)
Lemma sqrt_fraction c N x : (0 < c)%Z -> (0 <= x)%Z -> (c * c * N = x * x)%Z -> exists s, (0 <= s)%Z /\ (c * s = x)%Z /\ (N = s * s)%Z.
Proof.
  intros Hc Hx E. pose proof (Zgcd_is_gcd c x) as G. pose proof (Z.gcd_nonneg c x) as G0. set (g := Z.gcd c x) in *.
  assert (Gp : (0 < g)%Z). { assert (g <> 0)%Z; [|lia]. unfold g. intros Z0. apply Z.gcd_eq_0 in Z0. lia. }
  destruct (Z.gcd_divide_l c x) as [c' Ec]. destruct (Z.gcd_divide_r c x) as [x' Ex]. fold g in Ec, Ex.
  assert (R : rel_prime c' x').
  { apply Zgcd_1_rel_prime. assert (Tt : (Z.gcd (c' * g) (x' * g) = Z.gcd c' x' * g)%Z) by (rewrite Z.gcd_mul_mono_r_nonneg by lia; reflexivity).
    rewrite <- Ec, <- Ex in Tt. fold g in Tt. nia. }
  assert (E' : (c' * c' * N = x' * x')%Z). { rewrite Ec, Ex in E. assert ((c' * c' * N - x' * x') * (g * g) = 0)%Z by nia. nia. }
  assert (D : (c' | x' * x')%Z) by (exists (c' * N)%Z; lia). apply Gauss in D; [|exact R].
  assert (D1 : (c' | 1)%Z). { destruct R as [_ _ R]. apply R; [apply Z.divide_refl|exact D]. }
  assert (c' = 1)%Z. { apply Z.divide_1_r in D1. nia. }
  subst c'. exists x'. nia.
Qed.
(** the comparison of a cosine with a decimal threshold is the exact one *)
Lemma cosine_threshold_exact i N c d r : (i * i <= N)%nat -> (1 <= N)%nat -> (c <= d)%nat -> (1 <= d)%nat ->
  (Z.of_nat N * (Z.of_nat d * Z.of_nat d) < 2 ^ 48)%Z -> rounds (Qnat c / Qnat d) r ->
  (r <= fdiv (Qnat i) (fsqrt (Qnat N)) <-> (c * c * N <= i * i * (d * d))%nat).
Proof.
  intros Hi HN Hc Hd HB Hr. rewrite (rounds_fl _ _ Hr). unfold fdiv.
  pose proof (Qnat_1 N HN) as N1. pose proof (fsqrt_pos (Qnat N) ltac:(lra)) as S0. pose proof (fsqrt_near (Qnat N) ltac:(lra)) as [S2 S1].
  pose proof (Qnat_1 d Hd) as D1. pose proof (Qnat_0 i) as I0. pose proof (Qnat_0 c) as C0.
  assert (BN : (Z.of_nat N < 2 ^ 48)%Z) by nia.
  assert (BK : Qnat (c * c * N) < pow2 48) by (apply Qnat_pow2_lt; [lia|nia]). rewrite !Qnat_mult in BK.
  set (s := fsqrt (Qnat N)) in *.
  assert (Ex : Qnat c / Qnat d * Qnat d == Qnat c) by (field; lra). assert (Ey : Qnat i / s * s == Qnat i) by (field; lra).
  assert (X0 : 0 <= Qnat c / Qnat d) by (apply Qle_shift_div_l; lra). assert (Y0 : 0 <= Qnat i / s) by (apply Qle_shift_div_l; lra).
  assert (K0 : 0 <= Qnat c * Qnat c * Qnat N) by nra. set (K := Qnat c * Qnat c * Qnat N) in *.
  set (u2 := pow2 (-52)) in *. set (u := pow2 (-53)) in *.
  assert (Eu : u2 == 2 * u) by reflexivity. assert (U0 : 0 < u) by reflexivity. assert (U1 : u < 1 # 1000000) by reflexivity.
  assert (UK : u * K < 1 # 32).
  { assert (Tt : u * pow2 48 == 1 # 32) by reflexivity. rewrite <- Tt. apply Qmult_lt_l; auto. }
  split.
  - intros L. destruct (Nat.le_gt_cases (c * c * N) (i * i * (d * d))) as [|G]; [auto|]. exfalso.
    assert (G1 : (i * i * (d * d) + 1 <= c * c * N)%nat) by lia. apply Qnat_le in G1. rewrite Qnat_plus, !Qnat_mult in G1. fold K in G1. change (Qnat 1) with 1 in G1.
    pose proof (fl_bounds _ X0) as [B1 _]. pose proof (fl_bounds _ Y0) as [_ B2]. fold u in B1, B2.
    set (x := Qnat c / Qnat d) in *. set (y := Qnat i / s) in *. assert (M : (1 - u) * x <= (1 + u) * y) by lra.
    assert (M2 : (1 - u) * (Qnat c * s) <= (1 + u) * (Qnat i * Qnat d)).
    { rewrite <- Ex, <- Ey. assert (Tt : (1 - u) * x * (Qnat d * s) <= (1 + u) * y * (Qnat d * s)) by (apply Qmult_le_compat_r; [auto|nra]). lra. }
    assert (Cs : 0 <= Qnat c * s) by nra.
    assert (M3 : ((1 - u) * (Qnat c * s)) * ((1 - u) * (Qnat c * s)) <= ((1 + u) * (Qnat i * Qnat d)) * ((1 + u) * (Qnat i * Qnat d))).
    { assert (0 <= (1 - u) * (Qnat c * s)) by nra. nra. }
    assert (M4 : (1 - u) * (1 - u) * ((1 - u2) * (1 - u2)) * K <= ((1 - u) * (Qnat c * s)) * ((1 - u) * (Qnat c * s))).
    { assert (Tt : Qnat c * Qnat c * ((1 - u2) * (1 - u2) * Qnat N) <= Qnat c * Qnat c * (s * s)).
      { rewrite !(Qmult_comm (Qnat c * Qnat c)). apply Qmult_le_compat_r; [auto|nra]. }
      assert (Tt2 : (1 - u) * (1 - u) * (Qnat c * Qnat c * ((1 - u2) * (1 - u2) * Qnat N)) <= (1 - u) * (1 - u) * (Qnat c * Qnat c * (s * s))).
      { rewrite !(Qmult_comm ((1 - u) * (1 - u))). apply Qmult_le_compat_r; [auto|nra]. }
      unfold K. lra. }
    assert (M5 : ((1 + u) * (Qnat i * Qnat d)) * ((1 + u) * (Qnat i * Qnat d)) <= (1 + u) * (1 + u) * (K - 1)).
    { assert (Tt : (1 + u) * (1 + u) * (Qnat i * Qnat i * (Qnat d * Qnat d)) <= (1 + u) * (1 + u) * (K - 1)).
      { rewrite !(Qmult_comm ((1 + u) * (1 + u))). apply Qmult_le_compat_r; [lra|nra]. }
      lra. }
    assert (A : 1 - 6 * u <= (1 - u) * (1 - u) * ((1 - u2) * (1 - u2))) by (vm_compute; discriminate).
    assert (A2 : (1 + u) * (1 + u) <= 1 + 3 * u) by (vm_compute; discriminate).
    assert (A3 : (1 - 6 * u) * K <= (1 - u) * (1 - u) * ((1 - u2) * (1 - u2)) * K) by (apply Qmult_le_compat_r; auto).
    assert (A4 : (1 + u) * (1 + u) * K <= (1 + 3 * u) * K) by (apply Qmult_le_compat_r; auto).
    assert (A5 : 1 <= (1 + u) * (1 + u)) by (vm_compute; discriminate). lra.
  - intros L. apply fl_mono. apply Qmult_le_r with (z := Qnat d * s); [nra|].
    assert (R1 : Qnat c / Qnat d * (Qnat d * s) == Qnat c * s) by (rewrite <- Ex at 2; ring).
    assert (R2 : Qnat i / s * (Qnat d * s) == Qnat i * Qnat d) by (rewrite <- Ey at 2; ring). rewrite R1, R2. clear R1 R2.
    destruct (Nat.eq_dec (c * c * N) (i * i * (d * d))) as [E|NE].
    + destruct (Nat.eq_dec c 0) as [->|Nc]; [change (Qnat 0) with 0; nra|].
      destruct (sqrt_fraction (Z.of_nat c) (Z.of_nat N) (Z.of_nat (i * d))) as (z & Hz & E1 & E2); [lia|lia|nia|].
      assert (Es : s == inject_Z z).
      { unfold s. assert (EN : Qnat N == inject_Z z * inject_Z z) by (unfold Qnat; rewrite E2, inject_Z_mult; reflexivity).
        rewrite EN. apply fsqrt_square; [|change 0 with (inject_Z 0); rewrite <- Zle_Qle; auto]. apply float53_Z. nia. }
      rewrite Es. rewrite <- Qnat_mult. unfold Qnat. rewrite <- inject_Z_mult, <- Zle_Qle. lia.
    + assert (G1 : (c * c * N + 1 <= i * i * (d * d))%nat) by lia. apply Qnat_le in G1. rewrite Qnat_plus, !Qnat_mult in G1. fold K in G1. change (Qnat 1) with 1 in G1.
      assert (Tt : Qnat c * Qnat c * (s * s) <= Qnat c * Qnat c * ((1 + u2) * (1 + u2) * Qnat N)).
      { rewrite !(Qmult_comm (Qnat c * Qnat c)). apply Qmult_le_compat_r; [auto|nra]. }
      assert (A : (1 + u2) * (1 + u2) <= 1 + 5 * u) by (vm_compute; discriminate).
      assert (A2 : (1 + u2) * (1 + u2) * K <= (1 + 5 * u) * K) by (apply Qmult_le_compat_r; auto).
      assert (Tt2 : (Qnat c * s) * (Qnat c * s) <= (Qnat i * Qnat d) * (Qnat i * Qnat d)) by (unfold K in *; lra).
      apply Qnot_lt_le. intros C. assert (0 <= Qnat i * Qnat d) by nra. nra.
Qed.

Lemma swap_set_sizes (A B : list T) (f : nat -> nat -> nat -> res Q) : (forall a b c, f a b c = f b a c) ->
  (let '(A', B') := swap_smaller (set_of A) (set_of B) in f (length A') (length B') (count_in A' B')) =
  f (length (set_of A)) (length (set_of B)) (count_in (set_of A) (set_of B)).
Proof.
  intros Hf. unfold swap_smaller. destruct (Nat.ltb _ _); [|reflexivity]. rewrite count_in_sym. apply Hf.
Qed.
Lemma binary_cosine_float_value (A B : list T) i n m :
  card (fun x => In x A /\ In x B) i -> card (fun x => In x A) n -> card (fun x => In x B) m -> (1 <= n)%nat -> (1 <= m)%nat ->
  (Z.of_nat (n * m) <= 2 ^ 53)%Z ->
  exists x, binary_cosine_float false (set_of A) (set_of B) = Ok x /\ x == fdiv (Qnat i) (fsqrt (Qnat (n * m))).
Proof.
  intros Ci Cn Cm Hn Hm HB. rewrite (card_unique _ _ _ Cn (set_card A)), (card_unique _ _ _ Cm (set_card B)), (card_unique _ _ _ Ci (inter_card A B)) in *.
  unfold binary_cosine_float. destruct (Nat.eqb_spec (length (set_of A)) 0); [lia|]. destruct (Nat.eqb_spec (length (set_of B)) 0); [lia|]. cbn [orb].
  rewrite (swap_set_sizes A B (fun a b c => div_sqrt_float (Qnat c) (fmul (Qnat a) (Qnat b)))).
  2: { intros a b c. unfold fmul. rewrite (fl_comp_eq (Qnat a * Qnat b) (Qnat b * Qnat a)); [reflexivity|ring]. }
  set (a := length (set_of A)) in *. set (b := length (set_of B)) in *. set (k := count_in _ _).
  assert (E : fmul (Qnat a) (Qnat b) == Qnat (a * b)) by (unfold fmul; rewrite <- Qnat_mult; apply fl_Z; lia).
  assert (P : 0 < fsqrt (Qnat (a * b))) by (apply fsqrt_pos; pose proof (Qnat_1 (a * b) ltac:(nia)); lra).
  unfold div_sqrt_float. destruct (Qeq_bool _ _) eqn:Z0; [apply Qeq_bool_iff in Z0; rewrite E in Z0; lra|].
  exists (fdiv (Qnat k) (fsqrt (fmul (Qnat a) (Qnat b)))). split; [reflexivity|]. unfold fdiv. rewrite E. reflexivity.
Qed.
Lemma card_inter_square (A B : list T) i n m :
  card (fun x => In x A /\ In x B) i -> card (fun x => In x A) n -> card (fun x => In x B) m -> (i * i <= n * m)%nat.
Proof.
  intros Ci Cn Cm. assert (i <= n)%nat by (eapply card_le; [|exact Ci|exact Cn]; simpl; tauto).
  assert (i <= m)%nat by (eapply card_le; [|exact Ci|exact Cm]; simpl; tauto). nia.
Qed.

(** ** Weighted jaccard *)
Lemma weighted_loop_float (B : dict T Q) : (forall k v, In (k, v) B -> 0 <= v) -> forall (A : dict T Q) i u done, (forall k v, In (k, v) A -> 0 <= v) ->
  0 <= i -> i <= u -> let '(i', u', done') := fold_left (weighted_step_float B) A (i, u, done) in 0 <= i' /\ i' <= u'.
Proof.
  intros HB. induction A as [|[k w] A IH]; intros i u done HA I0 IU; [simpl; auto|].
  cbn [fold_left]. assert (W0 : 0 <= w) by (eapply HA; left; reflexivity).
  assert (V0 : 0 <= match dget B k with Some w => w | None => 0 end) by (destruct (dget B k) eqn:E; [apply dget_Some_In in E; eauto|lra]).
  unfold weighted_step_float at 2. set (v := match dget B k with Some w => w | None => 0 end) in *.
  assert (HA' : forall k v, In (k, v) A -> 0 <= v) by (intros; eapply HA; right; eauto).
  destruct (Qle_bool v w) eqn:C; cbn [negb].
  - apply Qle_bool_iff in C. apply IH; auto; unfold fadd; [apply fl_nonneg; lra|apply fl_mono; lra].
  - assert (C' : w < v) by (apply Qnot_le_lt; intros X; apply Qle_bool_iff in X; congruence).
    apply IH; auto; unfold fadd; [apply fl_nonneg; lra|apply fl_mono; lra].
Qed.
Lemma weighted_rest_float (done : list T) (B : dict T Q) u : float53 u -> (forall k v, In (k, v) B -> 0 <= v) ->
  u <= fold_left (fun u kv => if memb (fst kv) done then u else fadd u (snd kv)) B u.
Proof.
  revert u. induction B as [|[k v] B IH]; intros u Fu HB; [simpl; lra|]. cbn [fold_left fst snd].
  assert (HB' : forall k v, In (k, v) B -> 0 <= v) by (intros; eapply HB; right; eauto).
  destruct (memb k done); [apply IH; auto|]. assert (V0 : 0 <= v) by (eapply HB; left; reflexivity).
  eapply Qle_trans; [|apply IH; auto; apply fl_float53]. unfold fadd. apply fl_ge; auto. lra.
Qed.
Lemma weighted_loop_float53 (B A : dict T Q) i u done : float53 i -> float53 u ->
  let '(i', u', done') := fold_left (weighted_step_float B) A (i, u, done) in float53 i' /\ float53 u'.
Proof.
  revert i u done. induction A as [|[k w] A IH]; intros i u done Fi Fu; [simpl; auto|]. cbn [fold_left].
  unfold weighted_step_float at 2. destruct (negb _); apply IH; apply fl_float53.
Qed.
Lemma weighted_jaccard_float_range same (A B : dict T Q) x : (forall k v, In (k, v) A -> 0 <= v) -> (forall k v, In (k, v) B -> 0 <= v) ->
  weighted_jaccard_float same A B = Ok x -> 0 <= x <= 1.
Proof.
  intros HA HB. unfold weighted_jaccard_float. destruct same; [intros [= <-]; lra|]. destruct (_ || _); [intros [= <-]; lra|].
  assert (Core : forall C D : dict T Q, (forall k v, In (k, v) C -> 0 <= v) -> (forall k v, In (k, v) D -> 0 <= v) ->
    (let '(i, u, done) := fold_left (weighted_step_float D) C (0, 0, []) in
     let u := fold_left (fun u kv => if memb (fst kv) done then u else fadd u (snd kv)) D u in
     if Qeq_bool u 0 then Err ZeroDivisionError else Ok (fdiv i u)) = Ok x -> 0 <= x <= 1).
  { intros C D HC HD. pose proof (weighted_loop_float D HD C 0 0 [] HC ltac:(lra) ltac:(lra)) as L1.
    pose proof (weighted_loop_float53 D C 0 0 [] float53_0 float53_0) as L2.
    destruct (fold_left (weighted_step_float D) C (0, 0, [])) as [[i u] done]. destruct L1 as [I0 IU], L2 as [_ Fu].
    pose proof (weighted_rest_float done D u Fu HD) as L3. cbv zeta. set (u' := fold_left _ D u) in *.
    destruct (Qeq_bool u' 0) eqn:Z0; [discriminate|]. apply Qeq_bool_neq in Z0. assert (U : 0 < u') by lra.
    intros [= <-]. unfold fdiv. split; [apply fl_nonneg, Qle_shift_div_l; lra|apply fl_le; [apply (float53_Z 1); lia|apply Qle_shift_div_r; lra]]. }
  destruct (Nat.ltb _ _); apply Core; auto.
Qed.

(** dictionaries listing the same keys in the same order *)
Lemma dget_combine (ks : list T) (vs : list Q) k v : NoDup ks -> length ks = length vs -> In (k, v) (combine ks vs) -> dget (combine ks vs) k = Some v.
Proof.
  intros Nd L Hin. apply In_dget; auto. unfold dkeys. replace (map fst (combine ks vs)) with ks; auto.
  clear - L. revert vs L. induction ks as [|k ks IH]; intros [|v vs] L; simpl in *; try discriminate; auto. f_equal. apply IH. lia.
Qed.
Lemma same_keys_split (A B : dict T Q) : map fst A = map fst B -> exists l : list (T * (Q * Q)),
  A = map (fun e => (fst e, fst (snd e))) l /\ B = map (fun e => (fst e, snd (snd e))) l.
Proof.
  revert B. induction A as [|[k v] A IH]; intros [|[k' v'] B] E; simpl in *; try discriminate; [exists []; auto|].
  injection E as <- E. destruct (IH B E) as (l & -> & ->). exists ((k, (v, v')) :: l). auto.
Qed.
Lemma dget_left (l : list (T * (Q * Q))) k a b : NoDup (map fst l) -> In (k, (a, b)) l -> dget (map (fun e => (fst e, fst (snd e))) l) k = Some a.
Proof. intros Nd Hin. apply In_dget; [unfold dkeys; rewrite map_map; exact Nd|]. apply in_map_iff. exists (k, (a, b)). auto. Qed.
Lemma dget_right (l : list (T * (Q * Q))) k a b : NoDup (map fst l) -> In (k, (a, b)) l -> dget (map (fun e => (fst e, snd (snd e))) l) k = Some b.
Proof. intros Nd Hin. apply In_dget; [unfold dkeys; rewrite map_map; exact Nd|]. apply in_map_iff. exists (k, (a, b)). auto. Qed.

Definition squares (l : list Q) : Q := fold_left (fun yy v => fadd yy (fmul v v)) l 0.
Lemma cosine_fold (D C : dict T Q) xx xy : fold_left (cosine_step_float D) C (xx, xy) =
  (fold_left (fun yy v => fadd yy (fmul v v)) (map snd C) xx,
   fold_left (fun xy kv => match dget D (fst kv) with Some v2 => fadd xy (fmul (snd kv) v2) | None => xy end) C xy).
Proof.
  revert xx xy. induction C as [|[k w] C IH]; intros xx xy; [reflexivity|]. cbn [fold_left map fst snd]. unfold cosine_step_float at 2. rewrite IH. reflexivity.
Qed.
Lemma cross_fold (l l0 : list (T * (Q * Q))) xy : NoDup (map fst l0) -> incl l l0 ->
  fold_left (fun xy (kv : T * Q) => match dget (map (fun e => (fst e, snd (snd e))) l0) (fst kv) with Some v2 => fadd xy (fmul (snd kv) v2) | None => xy end)
    (map (fun e => (fst e, fst (snd e))) l) xy = fold_left (fun xy e => fadd xy (fmul (fst (snd e)) (snd (snd e)))) l xy.
Proof.
  intros Nd. revert xy. induction l as [|[k [a b]] l IH]; intros xy Hi; [reflexivity|]. cbn [map fold_left fst snd].
  rewrite (dget_right l0 k a b) by (auto; apply Hi; left; reflexivity). apply IH. intros e He. apply Hi. right. exact He.
Qed.
Lemma cross_fold_sym (l l0 : list (T * (Q * Q))) xy : NoDup (map fst l0) -> incl l l0 ->
  fold_left (fun xy (kv : T * Q) => match dget (map (fun e => (fst e, fst (snd e))) l0) (fst kv) with Some v2 => fadd xy (fmul (snd kv) v2) | None => xy end)
    (map (fun e => (fst e, snd (snd e))) l) xy = fold_left (fun xy e => fadd xy (fmul (fst (snd e)) (snd (snd e)))) l xy.
Proof.
  intros Nd. revert xy. induction l as [|[k [a b]] l IH]; intros xy Hi; [reflexivity|]. cbn [map fold_left fst snd].
  rewrite (dget_left l0 k a b) by (auto; apply Hi; left; reflexivity).
  rewrite (fmul_comm b a). apply IH. intros e He. apply Hi. right. exact He.
Qed.

Lemma cosine_float_sym same (A B : dict T Q) : NoDup (map fst A) -> length A <> length B \/ map fst A = map fst B ->
  cosine_float same A B = cosine_float same B A.
Proof.
  intros Nd HC. unfold cosine_float. destruct same; [reflexivity|]. rewrite (orb_comm (Nat.eqb (length B) 0)). destruct (_ || _); [reflexivity|].
  destruct (Nat.eq_dec (length A) (length B)) as [E|NE].
  - destruct HC as [|HC]; [contradiction|]. destruct (same_keys_split A B HC) as (l & -> & ->). rewrite !map_length, Nat.ltb_irrefl.
    rewrite !cosine_fold. assert (Nl : NoDup (map fst l)) by (rewrite map_map in Nd; exact Nd).
    rewrite cross_fold, cross_fold_sym by (auto; apply incl_refl). unfold dvalues.
    rewrite (fmul_comm (fold_left _ (map snd (map (fun e => (fst e, snd (snd e))) l)) 0)). reflexivity.
  - assert (C : Nat.ltb (length B) (length A) = negb (Nat.ltb (length A) (length B))).
    { destruct (Nat.ltb_spec (length B) (length A)), (Nat.ltb_spec (length A) (length B)); auto; lia. }
    rewrite C. destruct (Nat.ltb (length A) (length B)); reflexivity.
Qed.
Lemma squares_nonneg l s : 0 <= s -> 0 <= fold_left (fun yy v => fadd yy (fmul v v)) l s.
Proof.
  revert s. induction l as [|v l IH]; intros s S0; [exact S0|]. cbn [fold_left]. apply IH. unfold fadd, fmul. apply fl_nonneg.
  assert (0 <= fl (v * v)) by (apply fl_nonneg; nra). lra.
Qed.
Lemma squares_float53 l s : float53 s -> float53 (fold_left (fun yy v => fadd yy (fmul v v)) l s).
Proof. revert s. induction l as [|v l IH]; intros s Fs; [exact Fs|]. cbn [fold_left]. apply IH. apply fl_float53. Qed.
(** two equal vectors, listed in the same order *)
Lemma cosine_float_same (A : dict T Q) x : NoDup (map fst A) -> A <> [] -> cosine_float false A A = Ok x -> x == 1.
Proof.
  intros Nd Ne. unfold cosine_float. destruct A as [|e A]; [contradiction|]. cbn [length Nat.eqb orb]. rewrite Nat.ltb_irrefl. set (A' := e :: A) in *.
  assert (Id : forall X : dict T Q, map (fun kv => (fst kv, snd kv)) X = X) by (induction X as [|[] X IH]; simpl; [|rewrite IH]; reflexivity).
  set (l := map (fun kv => (fst kv, (snd kv, snd kv))) A').
  assert (E1 : A' = map (fun e => (fst e, fst (snd e))) l) by (unfold l; rewrite map_map; symmetry; apply Id).
  assert (E2 : A' = map (fun e => (fst e, snd (snd e))) l) by (unfold l; rewrite map_map; symmetry; apply Id).
  assert (Nl : NoDup (map fst l)) by (unfold l; rewrite map_map; exact Nd).
  pose proof (cross_fold l l 0 Nl (incl_refl _)) as X. rewrite <- E1, <- E2 in X. rewrite cosine_fold, X.
  assert (E3 : forall s, fold_left (fun xy e => fadd xy (fmul (fst (snd e)) (snd (snd e)))) l s = fold_left (fun yy v => fadd yy (fmul v v)) (map snd A') s).
  { unfold l. clearbody A'. clear. induction A' as [|kv A' IH]; intros s; [reflexivity|]. cbn [map fold_left fst snd]. apply IH. }
  rewrite E3. unfold dvalues. set (n := fold_left _ (map snd A') 0). assert (N0 : 0 <= n) by (apply squares_nonneg; lra).
  assert (Fn : float53 n) by (apply squares_float53, float53_0). pose proof (fsqrt_rounded_square n Fn N0) as R. unfold div_sqrt_float. fold (fmul n n) in R.
  destruct (Qeq_bool _ 0) eqn:Z0; [discriminate|]. apply Qeq_bool_neq in Z0. rewrite R in Z0. intros [= <-]. unfold fdiv. rewrite R.
  assert (E : n / n == 1) by (field; exact Z0). rewrite E. reflexivity.
Qed.
End Sets.
