(** The table of MD5 is that of the sines: bounds on sin 1 and cos 1 from the series, then sin (n + 1) and cos (n + 1) from sin n and cos n *)
From Coq Require Import List NArith ZArith QArith Qreals Reals Lra Lia.
From Verif Require Import HashModel HashSpec.
Import ListNotations.
Open Scope R_scope.

(** ** sin 1 and cos 1 *)
Fixpoint factP (n : nat) : positive := match n with 0%nat => 1%positive | S n' => (Pos.of_nat (S n') * factP n')%positive end.
Lemma factP_ok n : INR (fact n) = IZR (Zpos (factP n)).
Proof.
  induction n as [|n IH]; [reflexivity|]. change (fact (S n)) with (S n * fact n)%nat. cbn [factP].
  rewrite mult_INR, IH, Pos2Z.inj_mul, mult_IZR. f_equal. rewrite INR_IZR_INZ. f_equal. lia.
Qed.
Fixpoint sumQ (odd : nat) (n : nat) : Q :=
  let t k := ((if Nat.even k then 1 else -1)%Z # factP (2 * k + odd))%Q in
  match n with 0%nat => t 0%nat | S n' => (sumQ odd n' + t n)%Q end.
Lemma minus_one_pow k : (-1) ^ k = IZR (if Nat.even k then 1 else -1).
Proof.
  induction k as [|k IH]; [reflexivity|]. cbn [pow]. rewrite IH, Nat.even_succ, <- Nat.negb_even. destruct (Nat.even k); cbn [negb]; lra.
Qed.
Lemma termQ k m : (-1) ^ k * (1 / INR (fact m)) = Q2R ((if Nat.even k then 1 else -1)%Z # factP m).
Proof. unfold Q2R. cbn [Qnum Qden]. rewrite minus_one_pow, factP_ok. unfold Rdiv. ring. Qed.
Lemma sin_sum n : sin_approx 1 n = Q2R (sumQ 1 n).
Proof.
  unfold sin_approx. induction n as [|n IH]; cbn [sum_f_R0 sumQ].
  - unfold sin_term. rewrite pow1. apply termQ.
  - rewrite Q2R_plus, <- IH. f_equal. unfold sin_term. rewrite pow1. apply termQ.
Qed.
Lemma cos_sum n : cos_approx 1 n = Q2R (sumQ 0 n).
Proof.
  unfold cos_approx. induction n as [|n IH]; cbn [sum_f_R0 sumQ].
  - unfold cos_term. rewrite pow1, <- (Nat.add_0_r (2 * 0)). apply termQ.
  - rewrite Q2R_plus, <- IH. f_equal. unfold cos_term. rewrite pow1, Nat.add_0_r. apply termQ.
Qed.
Lemma sin_1_bounds n : Q2R (sumQ 1 (2 * n + 1)) <= sin 1 <= Q2R (sumQ 1 (2 * (n + 1))).
Proof. rewrite <- !sin_sum. apply pre_sin_bound; lra. Qed.
Lemma cos_1_bounds n : Q2R (sumQ 0 (2 * n + 1)) <= cos 1 <= Q2R (sumQ 0 (2 * (n + 1))).
Proof. rewrite <- !cos_sum. apply pre_cos_bound; lra. Qed.

(** ** sin n and cos n, scaled by D *)
Section Scaled.
Variables (D k s1 c1 : Z).
Hypothesis HD : (0 < D)%Z.
Hypothesis Hk : (0 < k)%Z.
Hypothesis Hs : Rabs (IZR D * sin 1 - IZR s1) <= IZR k.
Hypothesis Hc : Rabs (IZR D * cos 1 - IZR c1) <= IZR k.
Hypothesis Bs : (Z.abs s1 <= D)%Z.
Hypothesis Bc : (Z.abs c1 <= D)%Z.
Definition next_turn (st : Z * Z * Z) : Z * Z * Z := let '(s, c, e) := st in ((s * c1 + c * s1) / D, (c * c1 - s * s1) / D, 4 * e)%Z.
Fixpoint turn (n : nat) : Z * Z * Z :=
  match n with
  | 0%nat => (0, D, 2 * k)%Z
  | S n' => next_turn (turn n')
  end.
Lemma product_near x s v c e : Rabs x <= IZR D -> Rabs (x - IZR s) <= e -> Rabs (v - IZR c) <= IZR k -> (Z.abs c <= D)%Z ->
  Rabs (x * v - IZR (s * c)) <= IZR D * IZR k + IZR D * e.
Proof.
  intros Hx He Hv Hb. rewrite mult_IZR. replace (x * v - IZR s * IZR c) with (x * (v - IZR c) + IZR c * (x - IZR s)) by ring.
  eapply Rle_trans; [apply Rabs_triang|]. rewrite !Rabs_mult. apply Rplus_le_compat; apply Rmult_le_compat; try apply Rabs_pos; try assumption.
  rewrite <- abs_IZR. apply IZR_le, Hb.
Qed.
Lemma floor_near x z e : Rabs (IZR D * x - IZR z) <= IZR D * e -> Rabs (x - IZR (z / D)) <= e + 1.
Proof.
  intros H. assert (D0 : 0 < IZR D) by (apply IZR_lt, HD). pose proof (Z.div_mod z D ltac:(lia)) as E. pose proof (Z.mod_pos_bound z D HD) as [B0 B1].
  apply (f_equal IZR) in E. rewrite plus_IZR, mult_IZR in E. apply IZR_le in B0. apply IZR_lt in B1. rewrite E in H.
  set (q := IZR (z / D)) in *. set (r := IZR (z mod D)) in *. clearbody q r. clear E.
  assert (H' : IZR D * Rabs (x - q) <= IZR D * (e + 1)).
  { replace (IZR D * Rabs (x - q)) with (Rabs ((IZR D * x - (IZR D * q + r)) + r)).
    - eapply Rle_trans; [apply Rabs_triang|]. rewrite (Rabs_pos_eq r) by exact B0. lra.
    - rewrite <- (Rabs_pos_eq (IZR D)) at 3 by lra. rewrite <- Rabs_mult. f_equal. ring. }
  apply Rmult_le_reg_l in H'; assumption.
Qed.
Lemma turn_ok n : let '(s, c, e) := turn n in (2 * k <= e)%Z /\ Rabs (IZR D * sin (INR n) - IZR s) <= IZR e /\ Rabs (IZR D * cos (INR n) - IZR c) <= IZR e.
Proof.
  assert (D0 : 0 < IZR D) by (apply IZR_lt, HD). assert (K1 : 1 <= IZR k) by (apply IZR_le; lia).
  induction n as [|n IH].
  - cbn [turn INR]. rewrite sin_0, cos_0, Rmult_0_r, Rmult_1_r, !Rminus_eq_0, Rabs_R0. split; [lia|]. split; apply IZR_le; lia.
  - cbn [turn]. unfold next_turn. destruct (turn n) as [[s c] e]. destruct IH as (He & Es & Ec). split; [lia|]. rewrite S_INR, sin_plus, cos_plus.
    assert (Sx : Rabs (IZR D * sin (INR n)) <= IZR D). { rewrite Rabs_mult, (Rabs_pos_eq (IZR D)) by lra. rewrite <- (Rmult_1_r (IZR D)) at 2. apply Rmult_le_compat_l; [lra|]. apply Rabs_le. apply SIN_bound. }
    assert (Cx : Rabs (IZR D * cos (INR n)) <= IZR D). { rewrite Rabs_mult, (Rabs_pos_eq (IZR D)) by lra. rewrite <- (Rmult_1_r (IZR D)) at 2. apply Rmult_le_compat_l; [lra|]. apply Rabs_le. apply COS_bound. }
    pose proof (product_near _ _ _ _ _ Sx Es Hc Bc) as P1. pose proof (product_near _ _ _ _ _ Cx Ec Hs Bs) as P2.
    pose proof (product_near _ _ _ _ _ Cx Ec Hc Bc) as P3. pose proof (product_near _ _ _ _ _ Sx Es Hs Bs) as P4.
    apply IZR_le in He. rewrite mult_IZR in He. rewrite mult_IZR.
    assert (G : forall x z, Rabs (IZR D * x - IZR z) <= IZR D * (2 * IZR k + 2 * IZR e) -> Rabs (x - IZR (z / D)) <= 4 * IZR e).
    { intros x z Hx. eapply Rle_trans; [apply floor_near, Hx|]. lra. }
    split; apply G; rewrite ?plus_IZR, ?minus_IZR.
    + replace (_ - _) with ((IZR D * sin (INR n) * (IZR D * cos 1) - IZR (s * c1)) + (IZR D * cos (INR n) * (IZR D * sin 1) - IZR (c * s1))) by ring.
      eapply Rle_trans; [apply Rabs_triang|]. lra.
    + replace (_ - _) with ((IZR D * cos (INR n) * (IZR D * cos 1) - IZR (c * c1)) + - (IZR D * sin (INR n) * (IZR D * sin 1) - IZR (s * s1))) by ring.
      eapply Rle_trans; [apply Rabs_triang|]. rewrite Rabs_Ropp. lra.
Qed.
Definition sineb (st : Z * Z * Z) (t : N) : bool :=
  let '(s, c, e) := st in ((Z.of_N t * D <=? 2 ^ 32 * (Z.abs s - e)) && (2 ^ 32 * (Z.abs s + e) <? (Z.of_N t + 1) * D))%Z.
Lemma sineb_ok n t : sineb (turn n) t = true -> is_sine n t.
Proof.
  assert (D0 : 0 < IZR D) by (apply IZR_lt, HD). unfold sineb. pose proof (turn_ok n) as H. destruct (turn n) as [[s c] e]. destruct H as (_ & H & _).
  rewrite Bool.andb_true_iff, Z.leb_le, Z.ltb_lt. intros [A B]. apply IZR_le in A. apply IZR_lt in B. rewrite !mult_IZR, minus_IZR in A. rewrite !mult_IZR, !plus_IZR in B. rewrite abs_IZR in A, B.
  change (IZR (2 ^ 32)) with (IZR (2 ^ Z.of_nat 32)) in A, B. rewrite <- pow_IZR in A, B.
  assert (T : Rabs (IZR D * Rabs (sin (INR n)) - Rabs (IZR s)) <= IZR e).
  { eapply Rle_trans; [|exact H]. rewrite <- (Rabs_pos_eq (IZR D)) at 1 by lra. rewrite <- Rabs_mult. apply Rabs_triang_inv2. }
  set (x := Rabs (sin (INR n))) in *. set (y := Rabs (IZR s)) in *. assert (T1 := Rle_trans _ _ _ (Rle_abs _) T). rewrite <- Rabs_Ropp in T. assert (T2 := Rle_trans _ _ _ (Rle_abs _) T). clear T. unfold is_sine. fold x.
  assert (P : 0 < 2 ^ 32) by (apply pow_lt; lra). set (p := 2 ^ 32) in *. clearbody x y p. clear H.
  assert (A' : p * (y - IZR e) <= p * (IZR D * x)) by (apply Rmult_le_compat_l; lra).
  assert (B' : p * (IZR D * x) <= p * (y + IZR e)) by (apply Rmult_le_compat_l; lra).
  split.
  - apply (Rmult_le_reg_l (IZR D)); [exact D0|]. lra.
  - apply (Rmult_lt_reg_l (IZR D)); [exact D0|]. lra.
Qed.
Fixpoint sines (st : Z * Z * Z) (l : list N) : bool :=
  match l with [] => true | t :: l' => let st' := next_turn st in sineb st' t && sines st' l' end.
Lemma sines_ok l : forall n, sines (turn n) l = true -> forall i, (i < length l)%nat -> is_sine (S (n + i)) (nth i l 0%N).
Proof.
  induction l as [|t l IH]; intros n H i Hi; [cbn in Hi; lia|]. cbn [sines] in H. change (next_turn (turn n)) with (turn (S n)) in H. apply Bool.andb_true_iff in H as [H1 H2].
  destruct i as [|i]; cbn [nth].
  - rewrite Nat.add_0_r. apply sineb_ok, H1.
  - rewrite Nat.add_succ_r. apply (IH (S n) H2 i). cbn in Hi. lia.
Qed.
End Scaled.

Definition scale : Z := (2 ^ 256)%Z.
Definition near_1 (odd : nat) : Z := match odd with 0%nat => 62562732816211344028933569693394091302293358579475957900908260996539377313530 | _ => 97435683363488292875031139702797626536946356753580186085281608312261259446717 end%Z.
Lemma near_sum odd (x : R) : Q2R (sumQ odd (2 * 14 + 1)) <= x <= Q2R (sumQ odd (2 * (14 + 1))) ->
  (Qle_bool ((near_1 odd - 2) # 1) (sumQ odd (2 * 14 + 1) * (scale # 1)) && Qle_bool (sumQ odd (2 * (14 + 1)) * (scale # 1)) ((near_1 odd + 2) # 1))%Q = true ->
  Rabs (IZR scale * x - IZR (near_1 odd)) <= IZR 2.
Proof.
  assert (I : forall z, Q2R (z # 1) = IZR z) by (intros z; unfold Q2R; cbn [Qnum Qden]; rewrite Rinv_1; ring).
  intros [L U] H. apply Bool.andb_true_iff in H as [H1 H2]. apply Qle_bool_iff, Qle_Rle in H1. apply Qle_bool_iff, Qle_Rle in H2.
  rewrite Q2R_mult, !I in H1, H2. rewrite minus_IZR in H1. rewrite plus_IZR in H2.
  set (a := Q2R (sumQ odd (2 * 14 + 1))) in *. set (b := Q2R (sumQ odd (2 * (14 + 1)))) in *. assert (D0 : 0 < IZR scale) by (apply IZR_lt; reflexivity).
  set (d := IZR scale) in *. set (m := IZR (near_1 odd)) in *. clearbody a b d m.
  assert (d * a <= d * x) by (apply Rmult_le_compat_l; lra). assert (d * x <= d * b) by (apply Rmult_le_compat_l; lra). apply Rabs_le. lra.
Qed.
Lemma md5_sines : forall i, (i < 64)%nat -> is_sine (S i) (nth i md5_table 0%N).
Proof.
  apply (sines_ok scale 2 (near_1 1) (near_1 0)) with (n := 0%nat) (l := md5_table).
  - reflexivity.
  - reflexivity.
  - apply near_sum; [apply sin_1_bounds|]. vm_compute. reflexivity.
  - apply near_sum; [apply cos_1_bounds|]. vm_compute. reflexivity.
  - apply Z.leb_le. vm_compute. reflexivity.
  - apply Z.leb_le. vm_compute. reflexivity.
  - vm_compute. reflexivity.
Qed.
