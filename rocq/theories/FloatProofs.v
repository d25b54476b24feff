(** Rounding to binary64. *)
From Coq Require Import QArith Qround Qabs Qpower ZArith Lqa.
From Verif Require Import Base FloatModel FloatSpec.
Open Scope Q_scope.

Lemma pow2_pos k : 0 < pow2 k.
Proof.
  unfold pow2. pose proof (Qpower_pos (2 # 1) k ltac:(discriminate)) as P.
  pose proof (Qpower_not_0 (2 # 1) k ltac:(discriminate)) as N. lra.
Qed.
Lemma pow2_nz k : ~ pow2 k == 0.
Proof. pose proof (pow2_pos k). lra. Qed.
Lemma pow2_plus a b : pow2 (a + b) == pow2 a * pow2 b.
Proof. unfold pow2. apply Qpower_plus. discriminate. Qed.
Lemma pow2_Z k : (0 <= k)%Z -> pow2 k == inject_Z (2 ^ k).
Proof. intros Hk. unfold pow2. rewrite Zpower_Qpower by auto. reflexivity. Qed.
Lemma pow2_0 : pow2 0 == 1. Proof. reflexivity. Qed.
Lemma pow2_1 : pow2 1 == 2. Proof. reflexivity. Qed.
Lemma pow2_S k : pow2 (k + 1) == 2 * pow2 k.
Proof. rewrite pow2_plus, pow2_1. ring. Qed.
Lemma pow2_opp k : pow2 k * pow2 (- k) == 1.
Proof. rewrite <- pow2_plus. rewrite Z.add_opp_diag_r. reflexivity. Qed.
Lemma pow2_ge_1 k : (0 <= k)%Z -> 1 <= pow2 k.
Proof. intros Hk. rewrite pow2_Z by auto. change 1 with (inject_Z 1). rewrite <- Zle_Qle. lia. Qed.
Lemma pow2_mono a b : (a <= b)%Z -> pow2 a <= pow2 b.
Proof.
  intros L. replace b with (a + (b - a))%Z by lia. rewrite pow2_plus. pose proof (pow2_ge_1 (b - a) ltac:(lia)).
  pose proof (pow2_pos a). nra.
Qed.
Lemma pow2_lt a b : (a < b)%Z <-> pow2 a < pow2 b.
Proof.
  split; intros L.
  - assert (L' : pow2 (a + 1) <= pow2 b) by (apply pow2_mono; lia). rewrite pow2_S in L'. pose proof (pow2_pos a). lra.
  - destruct (Z.lt_ge_cases a b) as [|G]; [auto|]. pose proof (pow2_mono b a G). lra.
Qed.

Lemma exponent_spec q : 0 < q -> pow2 (exponent q) <= q /\ q < pow2 (exponent q + 1).
Proof.
  intros H0. destruct q as [n d]. assert (Hn : (0 < n)%Z) by (unfold Qlt in H0; simpl in H0; lia).
  unfold exponent. cbn [Qnum Qden]. pose proof (Z.log2_spec n Hn) as [N1 N2]. pose proof (Z.log2_spec (Zpos d) ltac:(lia)) as [D1 D2].
  pose proof (Z.log2_nonneg n) as NA. pose proof (Z.log2_nonneg (Zpos d)) as NB.
  set (a := Z.log2 n) in *. set (b := Z.log2 (Zpos d)) in *.
  assert (E : (n # d) * inject_Z (Zpos d) == inject_Z n) by (unfold Qeq; simpl; lia).
  assert (N1' : pow2 a <= inject_Z n) by (rewrite pow2_Z by auto; rewrite <- Zle_Qle; auto).
  assert (N2' : inject_Z n < pow2 a * 2). { assert (T : inject_Z n < pow2 (a + 1)) by (rewrite pow2_Z by lia; rewrite <- Zlt_Qlt; auto). rewrite pow2_S in T. lra. }
  assert (D1' : pow2 b <= inject_Z (Zpos d)) by (rewrite pow2_Z by auto; rewrite <- Zle_Qle; auto).
  assert (D2' : inject_Z (Zpos d) < pow2 b * 2). { assert (T : inject_Z (Zpos d) < pow2 (b + 1)) by (rewrite pow2_Z by lia; rewrite <- Zlt_Qlt; auto). rewrite pow2_S in T. lra. }
  assert (P : pow2 (a - b) * pow2 b == pow2 a) by (rewrite <- pow2_plus; replace (a - b + b)%Z with a by lia; reflexivity).
  pose proof (pow2_pos (a - b)) as PP. pose proof (pow2_pos b) as PB.
  set (q := n # d) in *. set (D := inject_Z (Zpos d)) in *.
  assert (U : q < 2 * pow2 (a - b)).
  { destruct (Qlt_le_dec q (2 * pow2 (a - b))) as [|G]; [auto|]. exfalso. assert (2 * pow2 (a - b) * D <= q * D) by (apply Qmult_le_compat_r; lra).
    assert (pow2 (a - b) * pow2 b <= pow2 (a - b) * D) by (rewrite !(Qmult_comm (pow2 (a - b))); apply Qmult_le_compat_r; lra). lra. }
  assert (L : pow2 (a - b) < 2 * q).
  { destruct (Qlt_le_dec (pow2 (a - b)) (2 * q)) as [|G]; [auto|]. exfalso. assert (2 * q * D <= pow2 (a - b) * D) by (apply Qmult_le_compat_r; lra).
    assert (pow2 (a - b) * D < pow2 (a - b) * (pow2 b * 2)) by (apply Qmult_lt_l; auto). lra. }
  destruct (Qle_bool _ _) eqn:C.
  - apply Qle_bool_iff in C. split; [auto|]. rewrite pow2_S. lra.
  - assert (C' : q < pow2 (a - b)). { apply Qnot_le_lt. intros X. apply Qle_bool_iff in X. congruence. }
    replace (a - b - 1 + 1)%Z with (a - b)%Z by lia. split; [|auto].
    assert (E2 : pow2 (a - b) == 2 * pow2 (a - b - 1)) by (rewrite <- pow2_S; replace (a - b - 1 + 1)%Z with (a - b)%Z by lia; reflexivity). lra.
Qed.
Lemma exponent_unique q e : 0 < q -> pow2 e <= q -> q < pow2 (e + 1) -> exponent q = e.
Proof.
  intros H0 L U. pose proof (exponent_spec q H0) as [L' U'].
  assert (A : (exponent q < e + 1)%Z) by (apply pow2_lt; lra). assert (B : (e < exponent q + 1)%Z) by (apply pow2_lt; lra). lia.
Qed.
Lemma exponent_mono x y : 0 < x -> x <= y -> (exponent x <= exponent y)%Z.
Proof.
  intros H0 L. pose proof (exponent_spec x H0) as [A _]. pose proof (exponent_spec y ltac:(lra)) as [_ B].
  assert (exponent x < exponent y + 1)%Z by (apply pow2_lt; lra). lia.
Qed.

(** nearest integer *)
Lemma nearest_even_near q : Qabs (inject_Z (nearest_even q) - q) <= 1 # 2.
Proof.
  unfold nearest_even. pose proof (Qfloor_le q) as L. pose proof (Qlt_floor q) as U. rewrite inject_Z_plus in U.
  change (inject_Z 1) with 1 in U. apply Qabs_Qle_condition.
  destruct (q - inject_Z (Qfloor q) ?= 1 # 2)%Q eqn:E; [apply Qeq_alt in E; destruct (Z.even _)|apply Qlt_alt in E|apply Qgt_alt in E];
    rewrite ?inject_Z_plus; change (inject_Z 1) with 1; split; lra.
Qed.
Lemma nearest_even_Z z : nearest_even (inject_Z z) = z.
Proof.
  unfold nearest_even. rewrite Qfloor_Z. replace (inject_Z z - inject_Z z ?= 1 # 2)%Q with Lt; [reflexivity|].
  symmetry. apply Qlt_alt. assert (E : inject_Z z - inject_Z z == 0) by ring. rewrite E. reflexivity.
Qed.
Lemma nearest_even_comp x y : x == y -> nearest_even x = nearest_even y.
Proof.
  intros E. unfold nearest_even. assert (F : Qfloor x = Qfloor y) by (apply Qfloor_comp; auto). rewrite F.
  assert (C : (x - inject_Z (Qfloor y) ?= 1 # 2)%Q = (y - inject_Z (Qfloor y) ?= 1 # 2)%Q) by (apply Qcompare_comp; [rewrite E; reflexivity|reflexivity]).
  rewrite C. reflexivity.
Qed.
Lemma nearest_even_mono x y : x <= y -> (nearest_even x <= nearest_even y)%Z.
Proof.
  intros L. destruct (Z.le_gt_cases (nearest_even x) (nearest_even y)) as [|G]; [auto|]. exfalso.
  pose proof (nearest_even_near x) as X. pose proof (nearest_even_near y) as Y. apply Qabs_Qle_condition in X, Y.
  assert (G' : inject_Z (nearest_even y) + 1 <= inject_Z (nearest_even x)).
  { change 1 with (inject_Z 1). rewrite <- inject_Z_plus, <- Zle_Qle. lia. }
  assert (E : x == y) by lra. rewrite (nearest_even_comp x y E) in G. lia.
Qed.

Lemma fl_pos_eq q e : 0 < q -> pow2 e <= q -> q < pow2 (e + 1) ->
  fl_pos q == inject_Z (nearest_even (q * pow2 (52 - e))) * pow2 (e - 52).
Proof. intros H0 L U. unfold fl_pos. rewrite (exponent_unique q e) by auto. apply Qred_correct. Qed.

Lemma scaled q e : 0 < q -> pow2 e <= q -> q < pow2 (e + 1) -> pow2 52 <= q * pow2 (52 - e) /\ q * pow2 (52 - e) < pow2 53.
Proof.
  intros H0 L U.
  assert (E : pow2 e * pow2 (52 - e) == pow2 52) by (rewrite <- pow2_plus; replace (e + (52 - e))%Z with 52%Z by lia; reflexivity).
  assert (E' : pow2 (e + 1) * pow2 (52 - e) == pow2 53) by (rewrite <- pow2_plus; replace (e + 1 + (52 - e))%Z with 53%Z by lia; reflexivity).
  pose proof (pow2_pos (52 - e)). split.
  - rewrite <- E. apply Qmult_le_compat_r; lra.
  - rewrite <- E'. apply Qmult_lt_r; auto.
Qed.
Lemma unscale q e : q * pow2 (52 - e) * pow2 (e - 52) == q.
Proof. rewrite <- Qmult_assoc, <- pow2_plus. replace (52 - e + (e - 52))%Z with 0%Z by lia. rewrite pow2_0. ring. Qed.

(** the rounded number is between the two powers of two *)
Lemma fl_pos_between q e : 0 < q -> pow2 e <= q -> q < pow2 (e + 1) -> pow2 e <= fl_pos q /\ fl_pos q <= pow2 (e + 1).
Proof.
  intros H0 L U. rewrite (fl_pos_eq q e) by auto. pose proof (scaled q e H0 L U) as [S1 S2].
  assert (A : (2 ^ 52 <= nearest_even (q * pow2 (52 - e)))%Z).
  { rewrite <- (nearest_even_Z (2 ^ 52)). apply nearest_even_mono. rewrite <- pow2_Z by lia. exact S1. }
  assert (B : (nearest_even (q * pow2 (52 - e)) <= 2 ^ 53)%Z).
  { rewrite <- (nearest_even_Z (2 ^ 53)). apply nearest_even_mono. rewrite <- pow2_Z by lia. lra. }
  rewrite Zle_Qle in A, B. rewrite <- pow2_Z in A, B by lia. pose proof (pow2_pos (e - 52)).
  assert (E : pow2 52 * pow2 (e - 52) == pow2 e) by (rewrite <- pow2_plus; replace (52 + (e - 52))%Z with e by lia; reflexivity).
  assert (E' : pow2 53 * pow2 (e - 52) == pow2 (e + 1)) by (rewrite <- pow2_plus; replace (53 + (e - 52))%Z with (e + 1)%Z by lia; reflexivity).
  split.
  - rewrite <- E. apply Qmult_le_compat_r; lra.
  - rewrite <- E'. apply Qmult_le_compat_r; lra.
Qed.

Lemma fl_pos_near q : 0 < q -> Qabs (fl_pos q - q) <= pow2 (-53) * q.
Proof.
  intros H0. pose proof (exponent_spec q H0) as [L U]. set (e := exponent q) in *. rewrite (fl_pos_eq q e) by auto.
  pose proof (nearest_even_near (q * pow2 (52 - e))) as N. set (z := inject_Z (nearest_even (q * pow2 (52 - e)))) in *.
  apply Qabs_Qle_condition in N as [N1 N2]. pose proof (unscale q e) as E. set (x := q * pow2 (52 - e)) in *.
  pose proof (pow2_pos (e - 52)) as P.
  assert (H : (1 # 2) * pow2 (e - 52) <= pow2 (-53) * q).
  { assert (E2 : (1 # 2) * pow2 (e - 52) == pow2 (-53) * pow2 e).
    { change (1 # 2) with (pow2 (-1)). rewrite <- !pow2_plus. replace (-1 + (e - 52))%Z with (-53 + e)%Z by lia. reflexivity. }
    rewrite E2. rewrite !(Qmult_comm (pow2 (-53))). apply Qmult_le_compat_r; [auto|]. pose proof (pow2_pos (-53)); lra. }
  apply Qabs_Qle_condition. set (p := pow2 (e - 52)) in *.
  assert (B1 : -((1 # 2) * p) <= (z - x) * p) by nra. assert (B2 : (z - x) * p <= (1 # 2) * p) by nra. split; lra.
Qed.
Lemma fl_pos_pos q : 0 < q -> 0 < fl_pos q.
Proof. intros H0. pose proof (exponent_spec q H0) as [L U]. pose proof (fl_pos_between q _ H0 L U) as [A _]. pose proof (pow2_pos (exponent q)). lra. Qed.
Lemma fl_pos_mono x y : 0 < x -> x <= y -> fl_pos x <= fl_pos y.
Proof.
  intros H0 L. pose proof (exponent_spec x H0) as [A B]. pose proof (exponent_spec y ltac:(lra)) as [C D].
  pose proof (exponent_mono x y H0 L) as E. destruct (Z.eq_dec (exponent x) (exponent y)) as [F|F].
  - rewrite F in A, B. rewrite (fl_pos_eq x (exponent y)), (fl_pos_eq y (exponent y)) by (auto; lra). pose proof (pow2_pos (exponent y - 52)).
    pose proof (pow2_pos (52 - exponent y)).
    apply Qmult_le_compat_r; [|lra]. rewrite <- Zle_Qle. apply nearest_even_mono. apply Qmult_le_compat_r; lra.
  - pose proof (fl_pos_between x _ H0 A B) as [_ F1]. pose proof (fl_pos_between y _ ltac:(lra) C D) as [F2 _].
    pose proof (pow2_mono (exponent x + 1) (exponent y) ltac:(lia)). lra.
Qed.
Lemma fl_pos_float53 q : 0 < q -> float53 (fl_pos q).
Proof.
  intros H0. pose proof (exponent_spec q H0) as [L U]. set (e := exponent q) in *. pose proof (fl_pos_eq q e H0 L U) as E.
  exists (nearest_even (q * pow2 (52 - e))), (e - 52)%Z. split; [|exact E]. pose proof (scaled q e H0 L U) as [S1 S2].
  assert (A : (0 <= nearest_even (q * pow2 (52 - e)))%Z).
  { rewrite <- (nearest_even_Z 0). apply nearest_even_mono. pose proof (pow2_pos 52). change (inject_Z 0) with 0. lra. }
  assert (B : (nearest_even (q * pow2 (52 - e)) <= 2 ^ 53)%Z).
  { rewrite <- (nearest_even_Z (2 ^ 53)). apply nearest_even_mono. rewrite <- pow2_Z by lia. lra. }
  lia.
Qed.
Lemma fl_pos_id q : 0 < q -> float53 q -> fl_pos q == q.
Proof.
  intros H0 (m & k & Hm & E). fold (pow2 k) in E. pose proof (exponent_spec q H0) as [L U]. set (e := exponent q) in *.
  rewrite (fl_pos_eq q e) by auto.
  assert (I : exists z, q * pow2 (52 - e) == inject_Z z).
  { assert (M : inject_Z m <= pow2 53) by (rewrite pow2_Z by lia; rewrite <- Zle_Qle; lia).
    pose proof (pow2_pos k) as Pk.
    destruct (Z.le_gt_cases (e - 52) k) as [G|G].
    - exists (m * 2 ^ (k + (52 - e)))%Z. rewrite E, <- Qmult_assoc, <- pow2_plus, inject_Z_mult, <- pow2_Z by lia. reflexivity.
    - exists (2 ^ 52)%Z.
      assert (Q : q == pow2 e).
      { assert (X : q <= pow2 (53 + k)) by (rewrite E, pow2_plus; apply Qmult_le_compat_r; lra).
        assert (Y : pow2 (53 + k) <= pow2 e) by (apply pow2_mono; lia). lra. }
      rewrite Q, <- pow2_plus, <- pow2_Z by lia. replace (e + (52 - e))%Z with 52%Z by lia. reflexivity. }
  destruct I as [z I]. rewrite (nearest_even_comp _ _ I), nearest_even_Z, <- I. apply unscale.
Qed.

(** the general case *)
Lemma fl_case q : (0 < q /\ fl q == fl_pos q) \/ (q == 0 /\ fl q == 0) \/ (q < 0 /\ fl q == - fl_pos (- q)).
Proof.
  unfold fl. destruct (q ?= 0)%Q eqn:E.
  - apply Qeq_alt in E. right. left. split; [auto|reflexivity].
  - apply Qlt_alt in E. right. right. split; [auto|]. apply Qred_correct.
  - apply Qgt_alt in E. left. split; [auto|reflexivity].
Qed.
Lemma fl_0 : fl 0 == 0. Proof. reflexivity. Qed.
Lemma fl_mono x y : x <= y -> fl x <= fl y.
Proof.
  intros L. destruct (fl_case x) as [[X E]|[[X E]|[X E]]], (fl_case y) as [[Y F]|[[Y F]|[Y F]]]; rewrite E, F; try lra.
  - apply fl_pos_mono; auto.
  - pose proof (fl_pos_pos y Y). lra.
  - pose proof (fl_pos_pos (- x) ltac:(lra)). pose proof (fl_pos_pos y Y). lra.
  - pose proof (fl_pos_pos (- x) ltac:(lra)). lra.
  - pose proof (fl_pos_mono (- y) (- x) ltac:(lra) ltac:(lra)). lra.
Qed.
Lemma fl_comp x y : x == y -> fl x == fl y.
Proof. intros E. pose proof (fl_mono x y ltac:(lra)). pose proof (fl_mono y x ltac:(lra)). lra. Qed.
Global Instance fl_proper : Proper (Qeq ==> Qeq) fl.
Proof. intros x y. apply fl_comp. Qed.
Lemma fl_opp q : fl (- q) == - fl q.
Proof.
  destruct (fl_case q) as [[X E]|[[X E]|[X E]]], (fl_case (- q)) as [[Y F]|[[Y F]|[Y F]]]; rewrite E, F; try lra.
  - assert (Z : - - q == q) by ring. pose proof (fl_pos_mono (- - q) q ltac:(lra) ltac:(lra)). pose proof (fl_pos_mono q (- - q) ltac:(lra) ltac:(lra)). lra.
Qed.
(** the relative error *)
Lemma fl_near q : Qabs (fl q - q) <= pow2 (-53) * Qabs q.
Proof.
  destruct (fl_case q) as [[X E]|[[X E]|[X E]]]; rewrite E.
  - rewrite (Qabs_pos q) by lra. apply fl_pos_near; auto.
  - rewrite X. vm_compute. discriminate.
  - rewrite (Qabs_neg q) by lra. pose proof (fl_pos_near (- q) ltac:(lra)) as N.
    assert (E2 : - fl_pos (- q) - q == - (fl_pos (- q) - - q)) by ring. rewrite E2, Qabs_opp. exact N.
Qed.
Lemma float53_opp x : float53 x -> float53 (- x).
Proof. intros (m & k & Hm & E). exists (- m)%Z, k. split; [lia|]. rewrite E, inject_Z_opp. ring. Qed.
Lemma float53_comp x y : x == y -> float53 x -> float53 y.
Proof. intros E (m & k & Hm & F). exists m, k. split; [auto|]. rewrite <- E. exact F. Qed.
Lemma float53_0 : float53 0.
Proof. exists 0%Z, 0%Z. split; [lia|reflexivity]. Qed.
Lemma fl_float53 q : float53 (fl q).
Proof.
  destruct (fl_case q) as [[X E]|[[X E]|[X E]]]; (eapply float53_comp; [symmetry; exact E|]).
  - apply fl_pos_float53; auto.
  - apply float53_0.
  - apply float53_opp, fl_pos_float53. lra.
Qed.
Lemma fl_id q : float53 q -> fl q == q.
Proof.
  intros F. destruct (fl_case q) as [[X E]|[[X E]|[X E]]]; rewrite E.
  - apply fl_pos_id; auto.
  - symmetry. exact X.
  - rewrite fl_pos_id; [ring|lra|]. apply float53_opp; auto.
Qed.
Lemma float53_Z z : (Z.abs z <= 2 ^ 53)%Z -> float53 (inject_Z z).
Proof. intros Hz. exists z, 0%Z. split; [auto|]. change ((2 # 1) ^ 0) with 1. ring. Qed.
Lemma fl_Z z : (Z.abs z <= 2 ^ 53)%Z -> fl (inject_Z z) == inject_Z z.
Proof. intros Hz. apply fl_id, float53_Z; auto. Qed.
Lemma fl_1 : fl 1 == 1. Proof. reflexivity. Qed.
(** rounding stays on the same side of a float *)
Lemma fl_ge x q : float53 x -> x <= q -> x <= fl q.
Proof. intros F L. rewrite <- (fl_id x F). apply fl_mono; auto. Qed.
Lemma fl_le x q : float53 x -> q <= x -> fl q <= x.
Proof. intros F L. rewrite <- (fl_id x F). apply fl_mono; auto. Qed.
Lemma fl_nonneg q : 0 <= q -> 0 <= fl q.
Proof. apply fl_ge, float53_0. Qed.
(** the two bounds *)
Lemma fl_bounds q : 0 <= q -> q - pow2 (-53) * q <= fl q /\ fl q <= q + pow2 (-53) * q.
Proof. intros H0. pose proof (fl_near q) as N. rewrite (Qabs_pos q) in N by auto. apply Qabs_Qle_condition in N. split; lra. Qed.

(** a float is a multiple of the unit of any smaller power of two *)
Lemma float53_multiple x e : float53 x -> pow2 e <= x -> exists w, x == inject_Z w * pow2 (e - 52).
Proof.
  intros (m & k & Hm & E) L. fold (pow2 k) in E. pose proof (pow2_pos k) as Pk.
  assert (M : inject_Z m <= pow2 53) by (rewrite pow2_Z by lia; rewrite <- Zle_Qle; lia).
  destruct (Z.le_gt_cases (e - 52) k) as [G|G].
  - exists (m * 2 ^ (k - (e - 52)))%Z. rewrite E, inject_Z_mult, <- pow2_Z, <- Qmult_assoc, <- pow2_plus by lia.
    replace (k - (e - 52) + (e - 52))%Z with k by lia. reflexivity.
  - exists (2 ^ 52)%Z. assert (X : x <= pow2 (53 + k)) by (rewrite E, pow2_plus; apply Qmult_le_compat_r; lra).
    assert (Y : pow2 (53 + k) <= pow2 e) by (apply pow2_mono; lia). rewrite <- pow2_Z, <- pow2_plus by lia.
    replace (52 + (e - 52))%Z with e by lia. lra.
Qed.
Lemma nearest_even_best q w : Qabs (inject_Z (nearest_even q) - q) <= Qabs (inject_Z w - q).
Proof.
  pose proof (nearest_even_near q) as N. destruct (Z.eq_dec w (nearest_even q)) as [->|D]; [lra|].
  eapply Qle_trans; [exact N|]. apply Qabs_Qle_condition in N as [N1 N2].
  assert (C : (w + 1 <= nearest_even q \/ nearest_even q + 1 <= w)%Z) by lia. rewrite !Zle_Qle, !inject_Z_plus in C. change (inject_Z 1) with 1 in C.
  destruct C as [C|C].
  - rewrite Qabs_neg by lra. lra.
  - rewrite Qabs_pos by lra. lra.
Qed.
Lemma nearest_even_tie q w : w <> nearest_even q -> Qabs (inject_Z w - q) == Qabs (inject_Z (nearest_even q) - q) ->
  Z.even (nearest_even q) = true.
Proof.
  intros D E. pose proof (nearest_even_near q) as N.
  assert (C : (w + 1 <= nearest_even q \/ nearest_even q + 1 <= w)%Z) by lia. rewrite !Zle_Qle, !inject_Z_plus in C. change (inject_Z 1) with 1 in C.
  assert (H : q == inject_Z (nearest_even q) + (1 # 2) \/ q == inject_Z (nearest_even q) - (1 # 2)).
  { pose proof N as N'. apply Qabs_Qle_condition in N' as [N1 N2].
    destruct C as [C|C]; [rewrite (Qabs_neg (inject_Z w - q)) in E by lra|rewrite (Qabs_pos (inject_Z w - q)) in E by lra]; [right|left]; lra. }
  clear C E N D. revert H. unfold nearest_even. pose proof (Qfloor_le q) as L. pose proof (Qlt_floor q) as U. rewrite inject_Z_plus in U.
  change (inject_Z 1) with 1 in U. set (f := Qfloor q) in *.
  destruct (q - inject_Z f ?= 1 # 2)%Q eqn:E; [apply Qeq_alt in E|apply Qlt_alt in E|apply Qgt_alt in E].
  - intros _. destruct (Z.even f) eqn:V; [exact V|]. rewrite Z.even_add, V. reflexivity.
  - intros [H|H]; lra.
  - rewrite inject_Z_plus. change (inject_Z 1) with 1. intros [H|H]; lra.
Qed.

Lemma Qabs_scale a b p : 0 < p -> Qabs (a * p - b * p) == Qabs (a - b) * p.
Proof. intros P. assert (E : a * p - b * p == (a - b) * p) by ring. rewrite E, Qabs_Qmult, (Qabs_pos p) by lra. reflexivity. Qed.
(** the rounding is the one of the standard *)
Lemma fl_pos_rounds q : 0 < q -> rounds q (fl_pos q).
Proof.
  intros H0. pose proof (exponent_spec q H0) as [L U]. set (e := exponent q) in *. pose proof (fl_pos_eq q e H0 L U) as E.
  pose proof (unscale q e) as EX. pose proof (scaled q e H0 L U) as [S1 S2]. set (X := q * pow2 (52 - e)) in *. set (z := nearest_even X) in *.
  pose proof (pow2_pos (e - 52)) as P. set (p := pow2 (e - 52)) in *.
  assert (E52 : pow2 e == inject_Z (2 ^ 52) * p) by (unfold p; rewrite <- pow2_Z, <- pow2_plus by lia; replace (52 + (e - 52))%Z with e by lia; reflexivity).
  assert (D : Qabs (fl_pos q - q) == Qabs (inject_Z z - X) * p) by (rewrite E, <- EX at 1; apply Qabs_scale; auto).
  assert (B : forall w, Qabs (fl_pos q - q) <= Qabs (inject_Z w * p - q)).
  { intros w. rewrite D. assert (DW : Qabs (inject_Z w * p - q) == Qabs (inject_Z w - X) * p) by (rewrite <- EX at 1; apply Qabs_scale; auto).
    rewrite DW. apply Qmult_le_compat_r; [apply nearest_even_best|lra]. }
  assert (Low : forall y, y < pow2 e -> Qabs (fl_pos q - q) < Qabs (y - q)).
  { intros y Ly. eapply Qle_lt_trans; [apply (B (2 ^ 52)%Z)|]. rewrite <- E52. rewrite !Qabs_neg by lra. lra. }
  split; [apply fl_pos_float53; auto|]. split.
  - intros y Fy. destruct (Qlt_le_dec y (pow2 e)) as [Ly|Ly]; [apply Qlt_le_weak; auto|].
    destruct (float53_multiple y e Fy Ly) as [w Ew]. fold p in Ew. rewrite Ew. apply B.
  - intros y Fy Ny Ty. destruct (Qlt_le_dec y (pow2 e)) as [Ly|Ly]; [specialize (Low y Ly); lra|].
    destruct (float53_multiple y e Fy Ly) as [w Ew]. fold p in Ew.
    assert (Ev : Z.even z = true).
    { apply (nearest_even_tie X w).
      - intros ->. apply Ny. rewrite Ew, E. reflexivity.
      - fold z. rewrite D, Ew in Ty. assert (DW : Qabs (inject_Z w * p - q) == Qabs (inject_Z w - X) * p) by (rewrite <- EX at 1; apply Qabs_scale; auto).
        rewrite DW in Ty. apply Qmult_inj_r in Ty; [exact Ty|lra]. }
    assert (A : (2 ^ 52 <= z)%Z). { unfold z. rewrite <- (nearest_even_Z (2 ^ 52)). apply nearest_even_mono. rewrite <- pow2_Z by lia. exact S1. }
    assert (A' : (z <= 2 ^ 53)%Z). { unfold z. rewrite <- (nearest_even_Z (2 ^ 53)). apply nearest_even_mono. rewrite <- pow2_Z by lia. lra. }
    destruct (Z.eq_dec z (2 ^ 53)) as [Ez|Nz].
    + exists (2 ^ 52)%Z, (e - 52 + 1)%Z. split; [lia|]. split; [reflexivity|]. rewrite E, Ez. fold (pow2 (e - 52 + 1)). rewrite pow2_S. fold p.
      change (inject_Z (2 ^ 53)) with (inject_Z (2 ^ 52 * 2)). rewrite inject_Z_mult. change (inject_Z 2) with 2. ring.
    + exists z, (e - 52)%Z. split; [lia|]. split; [exact Ev|exact E].
Qed.
Lemma rounds_opp q x : rounds q x -> rounds (- q) (- x).
Proof.
  intros (F & B & T). split; [apply float53_opp; auto|].
  assert (A : forall y, Qabs (y - - q) == Qabs (- y - q)).
  { intros y. assert (E : y - - q == - (- y - q)) by ring. rewrite E, Qabs_opp. reflexivity. }
  assert (A' : Qabs (- x - - q) == Qabs (x - q)).
  { assert (E : - x - - q == - (x - q)) by ring. rewrite E, Qabs_opp. reflexivity. }
  split.
  - intros y Fy. rewrite A', A. apply B. apply float53_opp; auto.
  - intros y Fy Ny Ty. rewrite A', A in Ty. destruct (T (- y)) as (m & k & Hm & Ev & E); [apply float53_opp; auto|intros Z; apply Ny; lra|exact Ty|].
    exists (- m)%Z, k. rewrite Z.abs_opp, Z.even_opp. split; [auto|]. split; [auto|]. rewrite E, inject_Z_opp. ring.
Qed.
Lemma rounds_comp q x q' x' : q == q' -> x == x' -> rounds q x -> rounds q' x'.
Proof.
  intros Eq Ex (F & B & T). split; [eapply float53_comp; eauto|]. split.
  - intros y Fy. rewrite <- Eq, <- Ex. apply B; auto.
  - intros y Fy. rewrite <- Eq, <- Ex. intros Ny Ty. destruct (T y Fy Ny Ty) as (m & k & Hm & Ev & E). exists m, k. rewrite <- Ex. auto.
Qed.
Lemma fl_rounds q : rounds q (fl q).
Proof.
  destruct (fl_case q) as [[X E]|[[X E]|[X E]]].
  - apply (rounds_comp q (fl_pos q)); [reflexivity|symmetry; exact E|apply fl_pos_rounds; auto].
  - apply (rounds_comp 0 0); [symmetry; exact X|symmetry; exact E|]. split; [apply float53_0|]. split.
    + intros y _. change (Qabs (0 - 0)) with 0. apply Qabs_nonneg.
    + intros y _ Ny Ty. exfalso. apply Ny. change (Qabs (0 - 0)) with 0 in Ty. assert (E0 : y - 0 == y) by ring. rewrite E0 in Ty.
      destruct (Qlt_le_dec y 0); [rewrite Qabs_neg in Ty by lra|rewrite Qabs_pos in Ty by lra]; lra.
  - apply (rounds_comp (- - q) (- fl_pos (- q))); [ring|symmetry; exact E|apply rounds_opp, fl_pos_rounds; lra].
Qed.

Lemma rounds_lt q x y : rounds q x -> rounds q y -> x < y -> False.
Proof.
  intros (F & B & T) (F' & B' & T') L.
  assert (Eq : Qabs (x - q) == Qabs (y - q)) by (pose proof (B _ F'); pose proof (B' _ F); lra).
  destruct (T y F') as (m & k & Hm & Em & Ex); [lra|symmetry; exact Eq|].
  destruct (T' x F) as (n & j & Hn & En & Ey); [lra|exact Eq|]. fold (pow2 k) in Ex. fold (pow2 j) in Ey.
  (* q is in the middle: a float strictly between x and y would be nearer *)
  assert (Q2 : 2 * q == x + y).
  { destruct (Qlt_le_dec x q) as [L1|L1], (Qlt_le_dec y q) as [L2|L2];
      rewrite ?(Qabs_neg (x - q)), ?(Qabs_neg (y - q)) in Eq by lra;
      rewrite ?(Qabs_pos (x - q)), ?(Qabs_pos (y - q)) in Eq by lra; lra. }
  assert (Btw : forall w, float53 w -> x < w -> w < y -> False).
  { intros w Fw L1 L2. pose proof (B w Fw) as C. rewrite (Qabs_neg (x - q)) in C by lra.
    destruct (Qlt_le_dec w q); [rewrite Qabs_neg in C by lra|rewrite Qabs_pos in C by lra]; lra. }
  pose proof (pow2_pos k) as Pk. pose proof (pow2_pos j) as Pj. apply Z.even_spec in Em as [hm ->]. apply Z.even_spec in En as [hn ->].
  destruct (Z.le_gt_cases k j) as [G|G].
  - apply (Btw (inject_Z (2 * hm + 1) * pow2 k)).
    + exists (2 * hm + 1)%Z, k. split; [lia|reflexivity].
    + rewrite Ex. apply Qmult_lt_r; auto. rewrite <- Zlt_Qlt. lia.
    + assert (Ej : y == inject_Z (2 * (hn * 2 ^ (j - k))) * pow2 k).
      { rewrite Ey. rewrite Z.mul_assoc, (inject_Z_mult _ (2 ^ (j - k))), <- pow2_Z, <- Qmult_assoc, <- pow2_plus by lia. replace (j - k + k)%Z with j by lia. reflexivity. }
      rewrite Ej. apply Qmult_lt_r; auto. rewrite <- Zlt_Qlt. rewrite Ex, Ej in L. rewrite Qmult_lt_r, <- Zlt_Qlt in L by auto. lia.
  - apply (Btw (inject_Z (2 * hn - 1) * pow2 j)).
    + exists (2 * hn - 1)%Z, j. split; [lia|reflexivity].
    + assert (Ek : x == inject_Z (2 * (hm * 2 ^ (k - j))) * pow2 j).
      { rewrite Ex. rewrite Z.mul_assoc, (inject_Z_mult _ (2 ^ (k - j))), <- pow2_Z, <- Qmult_assoc, <- pow2_plus by lia. replace (k - j + j)%Z with k by lia. reflexivity. }
      rewrite Ek. apply Qmult_lt_r; auto. rewrite <- Zlt_Qlt. rewrite Ey, Ek in L. rewrite Qmult_lt_r, <- Zlt_Qlt in L by auto. lia.
    + rewrite Ey. apply Qmult_lt_r; auto. rewrite <- Zlt_Qlt. lia.
Qed.
Lemma rounds_fl q x : rounds q x -> x == fl q.
Proof.
  intros R. pose proof (fl_rounds q) as R'. destruct (Q_dec x (fl q)) as [[C|C]|C]; [destruct (rounds_lt _ _ _ R R' C)|destruct (rounds_lt _ _ _ R' R C)|exact C].
Qed.
(** equal numbers have the very same rounding *)
Lemma exponent_comp x y : 0 < x -> x == y -> exponent x = exponent y.
Proof. intros X E. pose proof (exponent_spec y ltac:(lra)) as [L U]. apply exponent_unique; lra. Qed.
Lemma fl_pos_comp_eq x y : 0 < x -> x == y -> fl_pos x = fl_pos y.
Proof.
  intros X E. unfold fl_pos. rewrite (exponent_comp x y X E). f_equal. f_equal. f_equal. apply nearest_even_comp. rewrite E. reflexivity.
Qed.
Lemma fl_comp_eq x y : x == y -> fl x = fl y.
Proof.
  intros E. unfold fl. rewrite (Qcompare_comp x y E 0 0 (Qeq_refl 0)). destruct (y ?= 0)%Q eqn:C; [reflexivity|apply Qlt_alt in C|apply Qgt_alt in C].
  - rewrite (fl_pos_comp_eq (- x) (- y)); [reflexivity|lra|lra].
  - apply fl_pos_comp_eq; lra.
Qed.

(** ** The square root *)

(** a number whose position among the integers is the one of the root of x *)
Definition sticky (x : Q) : Q := let s := Z.sqrt (Qfloor x) in if Qeq_bool (inject_Z (s * s)) x then inject_Z s else inject_Z s + (1 # 2).
Lemma sticky_spec x : 0 <= x -> 0 <= sticky x /\ forall w : Z, (0 <= w)%Z ->
  (inject_Z w * inject_Z w < x <-> inject_Z w < sticky x) /\ (x < inject_Z w * inject_Z w <-> sticky x < inject_Z w).
Proof.
  intros H0. pose proof (Qfloor_resp_le 0 x H0) as F0. change (Qfloor 0) with 0%Z in F0. pose proof (Z.sqrt_spec (Qfloor x) F0) as [S1 S2].
  pose proof (Z.sqrt_nonneg (Qfloor x)) as S0. unfold sticky. set (s := Z.sqrt (Qfloor x)) in *.
  pose proof (Qfloor_le x) as L. pose proof (Qlt_floor x) as U.
  assert (A : inject_Z s * inject_Z s <= x) by (rewrite <- inject_Z_mult; rewrite Zle_Qle in S1; lra).
  assert (B : x < inject_Z (s + 1) * inject_Z (s + 1)).
  { rewrite <- inject_Z_mult. assert (T : (Qfloor x + 1 <= (s + 1) * (s + 1))%Z) by lia. rewrite Zle_Qle in T. lra. }
  assert (Sq : 0 <= inject_Z s) by (change 0 with (inject_Z 0); rewrite <- Zle_Qle; auto).
  destruct (Qeq_bool _ _) eqn:E.
  - apply Qeq_bool_iff in E. rewrite inject_Z_mult in E. split; [auto|]. intros w Hw.
    assert (W : 0 <= inject_Z w) by (change 0 with (inject_Z 0); rewrite <- Zle_Qle; auto). rewrite <- E. split; split; intros; nra.
  - assert (A' : inject_Z s * inject_Z s < x).
    { apply Qle_lt_or_eq in A as [A|A]; [auto|]. rewrite <- inject_Z_mult in A. apply Qeq_bool_iff in A. congruence. }
    split; [lra|]. intros w Hw. assert (W : 0 <= inject_Z w) by (change 0 with (inject_Z 0); rewrite <- Zle_Qle; auto).
    destruct (Z.le_gt_cases w s) as [G|G].
    + rewrite Zle_Qle in G. split; split; intros; try nra.
    + assert (G' : (s + 1 <= w)%Z) by lia. rewrite Zle_Qle, inject_Z_plus in G'. rewrite inject_Z_plus in B. change (inject_Z 1) with 1 in *. split; split; intros; nra.
Qed.
Lemma sticky_le x w : 0 <= x -> (0 <= w)%Z -> (x <= inject_Z w * inject_Z w <-> sticky x <= inject_Z w).
Proof.
  intros H0 Hw. destruct (sticky_spec x H0) as [_ S]. destruct (S w Hw) as [S1 _]. split; intros H; apply Qnot_lt_le; intros C; apply S1 in C; lra.
Qed.
Lemma sticky_ge x w : 0 <= x -> (0 <= w)%Z -> (inject_Z w * inject_Z w <= x <-> inject_Z w <= sticky x).
Proof.
  intros H0 Hw. destruct (sticky_spec x H0) as [_ S]. destruct (S w Hw) as [_ S1]. split; intros H; apply Qnot_lt_le; intros C; apply S1 in C; lra.
Qed.

Lemma fsqrt_eq q : 0 < q -> exists e,
  pow2 (2 * e) <= q /\ q < pow2 (2 * e + 2) /\ fsqrt q == fl (sticky (q * pow2 (2 * (60 - e))) * pow2 (e - 60)).
Proof.
  intros H0. unfold fsqrt. pose proof (proj1 (Qgt_alt q 0) H0) as C. rewrite C. exists (exponent q / 2)%Z.
  pose proof (exponent_spec q H0) as [L U]. set (e := (exponent q / 2)%Z). pose proof (Z.div_mod (exponent q) 2 ltac:(lia)) as D.
  pose proof (Z.mod_pos_bound (exponent q) 2 ltac:(lia)) as M. fold e in D.
  assert (B1 : pow2 (2 * e) <= pow2 (exponent q)) by (apply pow2_mono; lia).
  assert (B2 : pow2 (exponent q + 1) <= pow2 (2 * e + 2)) by (apply pow2_mono; lia).
  split; [lra|]. split; [lra|]. apply fl_comp. unfold sticky. set (x := q * pow2 (2 * (60 - e))). set (s := Z.sqrt (Qfloor x)).
  assert (P : pow2 (e - 60) == 2 * pow2 (e - 61)) by (rewrite <- pow2_S; replace (e - 61 + 1)%Z with (e - 60)%Z by lia; reflexivity).
  rewrite P. destruct (Qeq_bool _ _); rewrite ?inject_Z_plus, ?inject_Z_mult; change (inject_Z 2) with 2; change (inject_Z 1) with 1; ring.
Qed.
Lemma fsqrt_0 : fsqrt 0 = 0. Proof. reflexivity. Qed.
Lemma fsqrt_float53 q : float53 (fsqrt q).
Proof. unfold fsqrt. destruct (_ ?= _)%Q; try apply float53_0. apply fl_float53. Qed.

Section Sqrt.
Variable q : Q.
Variable e : Z.
Hypothesis L : pow2 (2 * e) <= q.
Hypothesis U : q < pow2 (2 * e + 2).
Notation x := (q * pow2 (2 * (60 - e))).
Notation v := (sticky x * pow2 (e - 60)).
Lemma sqrt_x0 : 0 <= x.
Proof. pose proof (pow2_pos (2 * e)). pose proof (pow2_pos (2 * (60 - e))). nra. Qed.
Lemma sqrt_bounds : pow2 60 <= sticky x /\ sticky x < pow2 61.
Proof.
  pose proof sqrt_x0 as X0. pose proof (pow2_pos (2 * (60 - e))) as P.
  assert (A : pow2 60 * pow2 60 == pow2 (2 * e) * pow2 (2 * (60 - e))) by (rewrite <- !pow2_plus; replace (2 * e + 2 * (60 - e))%Z with (60 + 60)%Z by lia; reflexivity).
  assert (B : pow2 61 * pow2 61 == pow2 (2 * e + 2) * pow2 (2 * (60 - e))) by (rewrite <- !pow2_plus; replace (2 * e + 2 + 2 * (60 - e))%Z with (61 + 61)%Z by lia; reflexivity).
  assert (A' : pow2 60 * pow2 60 <= x) by (rewrite A; apply Qmult_le_compat_r; lra).
  assert (B' : x < pow2 61 * pow2 61) by (rewrite B; apply Qmult_lt_r; auto).
  rewrite (pow2_Z 60), (pow2_Z 61) in * by lia. split.
  - apply sticky_ge; auto; lia.
  - apply (proj2 (sticky_spec x X0) (2 ^ 61)%Z); auto; lia.
Qed.
Lemma sqrt_v : pow2 e <= v /\ v < pow2 (e + 1).
Proof.
  pose proof sqrt_bounds as [A B]. pose proof (pow2_pos (e - 60)) as P.
  assert (EA : pow2 e == pow2 60 * pow2 (e - 60)) by (rewrite <- pow2_plus; replace (60 + (e - 60))%Z with e by lia; reflexivity).
  assert (EB : pow2 (e + 1) == pow2 61 * pow2 (e - 60)) by (rewrite <- pow2_plus; replace (61 + (e - 60))%Z with (e + 1)%Z by lia; reflexivity).
  rewrite EA, EB. split; [apply Qmult_le_compat_r; lra|apply Qmult_lt_r; auto].
Qed.
(** a multiple w of the unit compares with v as its square with q *)
Lemma sqrt_scale w : inject_Z w * pow2 (e - 60) * (inject_Z w * pow2 (e - 60)) * pow2 (2 * (60 - e)) == inject_Z w * inject_Z w.
Proof.
  assert (E : pow2 (e - 60) * pow2 (e - 60) * pow2 (2 * (60 - e)) == 1).
  { rewrite <- !pow2_plus. replace (e - 60 + (e - 60) + 2 * (60 - e))%Z with 0%Z by lia. reflexivity. }
  transitivity (inject_Z w * inject_Z w * (pow2 (e - 60) * pow2 (e - 60) * pow2 (2 * (60 - e)))); [ring|]. rewrite E. ring.
Qed.
Lemma sqrt_compare w : (0 <= w)%Z -> let y := inject_Z w * pow2 (e - 60) in (y * y < q <-> y < v) /\ (q < y * y <-> v < y).
Proof.
  intros Hw y. destruct (sticky_spec x sqrt_x0) as [_ S]. destruct (S w Hw) as [S1 S2]. pose proof (sqrt_scale w) as E. fold y in E.
  pose proof (pow2_pos (e - 60)) as P. pose proof (pow2_pos (2 * (60 - e))) as P2.
  rewrite <- E in S1, S2. rewrite Qmult_lt_r in S1 by auto. rewrite Qmult_lt_r in S2 by auto. unfold y. rewrite !Qmult_lt_r by auto. tauto.
Qed.
End Sqrt.

Lemma multiple_unit y e : float53 y -> pow2 e <= y -> exists w, (0 <= w)%Z /\ y == inject_Z w * pow2 (e - 60) /\ Z.even w = true.
Proof.
  intros F L. destruct (float53_multiple y e F L) as [w E]. exists (w * 2 ^ 8)%Z. rewrite inject_Z_mult, <- pow2_Z, <- Qmult_assoc, <- pow2_plus by lia.
  replace (8 + (e - 60))%Z with (e - 52)%Z by lia. split; [|split; [exact E|rewrite Z.even_mul; apply orb_true_r]].
  pose proof (pow2_pos e). pose proof (pow2_pos (e - 52)) as P. assert (0 < inject_Z w) by (apply Qmult_lt_r with (z := pow2 (e - 52)); lra).
  change 0 with (inject_Z 0) in H0. rewrite <- Zlt_Qlt in H0. lia.
Qed.

(** the root of a float on one side of a float *)
Lemma fsqrt_ge q y : float53 y -> 0 < q -> y * y <= q -> y <= fsqrt q.
Proof.
  intros F H0 H. destruct (fsqrt_eq q H0) as (e & L & U & E). rewrite E. apply fl_ge; auto. pose proof (sqrt_v q e L U) as [V1 V2].
  destruct (Qlt_le_dec y (pow2 e)) as [G|G]; [lra|]. destruct (multiple_unit y e F G) as (w & Hw & Ew & _).
  apply Qnot_lt_le. intros C. rewrite Ew in C, H. apply (proj2 (sqrt_compare q e L w Hw)) in C. lra.
Qed.
Lemma fsqrt_le q y : float53 y -> 0 < q -> 0 <= y -> q <= y * y -> fsqrt q <= y.
Proof.
  intros F H0 Y0 H. destruct (fsqrt_eq q H0) as (e & L & U & E). rewrite E. apply fl_le; auto. pose proof (sqrt_v q e L U) as [V1 V2].
  assert (G : pow2 e <= y).
  { apply Qnot_lt_le. intros C. assert (D : pow2 (2 * e) == pow2 e * pow2 e) by (rewrite <- pow2_plus; replace (e + e)%Z with (2 * e)%Z by lia; reflexivity).
    pose proof (pow2_pos e). nra. }
  destruct (multiple_unit y e F G) as (w & Hw & Ew & _).
  apply Qnot_lt_le. intros C. rewrite Ew in C, H. apply (proj1 (sqrt_compare q e L w Hw)) in C. lra.
Qed.
Lemma fsqrt_pos q : 0 < q -> 0 < fsqrt q.
Proof.
  intros H0. destruct (fsqrt_eq q H0) as (e & L & U & E). rewrite E. pose proof (sqrt_v q e L U) as [V1 V2].
  assert (F : float53 (pow2 e)) by (exists 1%Z, e; split; [lia|]; change (inject_Z 1) with 1; unfold pow2; ring).
  pose proof (fl_ge _ _ F V1). pose proof (pow2_pos e). lra.
Qed.

Lemma float53_pow2 e : float53 (pow2 e).
Proof. exists 1%Z, e. split; [lia|]. change (inject_Z 1) with 1. unfold pow2. ring. Qed.
Lemma half_even w : Z.even w = true -> exists h, w = (2 * h)%Z.
Proof. intros E. apply Z.even_spec in E as [h E]. eauto. Qed.

Lemma fsqrt_rounds q : 0 < q -> rounds_sqrt q (fsqrt q).
Proof.
  intros H0. destruct (fsqrt_eq q H0) as (e & L & U & E). pose proof (sqrt_v q e L U) as [V1 V2].
  set (v := sticky (q * pow2 (2 * (60 - e))) * pow2 (e - 60)) in *. pose proof (fl_rounds v) as (F & N & _).
  pose proof (fl_ge _ _ (float53_pow2 e) V1) as X1. set (x := fl v) in *. pose proof (pow2_pos e) as P.
  assert (Mid : forall y, float53 y -> pow2 e <= y -> exists h, (0 <= h)%Z /\ (x + y) * (1 # 2) == inject_Z h * pow2 (e - 60)).
  { intros y Fy Ly. destruct (multiple_unit y e Fy Ly) as (w & W0 & Ew & Wv). destruct (multiple_unit x e F X1) as (w' & W0' & Ew' & Wv').
    apply half_even in Wv as [h ->]. apply half_even in Wv' as [h' ->]. exists (h + h')%Z. split; [lia|].
    rewrite Ew, Ew', !inject_Z_plus, !inject_Z_mult. change (inject_Z 2) with 2. ring. }
  assert (Low : forall y, float53 y -> pow2 e <= y -> y < x -> (x + y) * (x + y) <= 4 * q).
  { intros y Fy Ly Lx. destruct (Mid y Fy Ly) as (h & Hh & Eh). set (m := (x + y) * (1 # 2)) in *.
    assert (C : m * m <= q). { apply Qnot_lt_le. intros C. rewrite Eh in C. apply (proj2 (sqrt_compare q e L h Hh)) in C. rewrite <- Eh in C. fold v in C.
      specialize (N y Fy). rewrite (Qabs_pos (x - v)) in N by (unfold m in C; lra).
      destruct (Qlt_le_dec y v); [rewrite Qabs_neg in N by lra|rewrite Qabs_pos in N by lra]; unfold m in C; lra. }
    unfold m in C. assert (Sq : (x + y) * (1 # 2) * ((x + y) * (1 # 2)) == (1 # 4) * ((x + y) * (x + y))) by ring. rewrite Sq in C. lra. }
  apply Qeq_sym in E. split; [eapply float53_comp; eauto|]. split; [lra|]. split.
  - intros y Fy Y0 Ly. rewrite <- E in *. destruct (Qlt_le_dec y (pow2 e)) as [G|G]; [|apply Low; auto].
    destruct (Qlt_le_dec (pow2 e) x) as [Gx|Gx].
    + eapply Qle_trans; [|apply (Low (pow2 e)); auto; [apply float53_pow2|lra]]. nra.
    + assert (D : pow2 (2 * e) == pow2 e * pow2 e) by (rewrite <- pow2_plus; replace (e + e)%Z with (2 * e)%Z by lia; reflexivity). nra.
  - intros y Fy Ly. rewrite <- E in *. destruct (Mid y Fy ltac:(lra)) as (h & Hh & Eh). set (m := (x + y) * (1 # 2)) in *.
    assert (C : q <= m * m). { apply Qnot_lt_le. intros C. rewrite Eh in C. apply (proj1 (sqrt_compare q e L h Hh)) in C. rewrite <- Eh in C. fold v in C.
      specialize (N y Fy). rewrite (Qabs_neg (x - v)) in N by (unfold m in C; lra).
      destruct (Qlt_le_dec y v); [rewrite Qabs_neg in N by lra|rewrite Qabs_pos in N by lra]; unfold m in C; lra. }
    unfold m in C. assert (Sq : (x + y) * (1 # 2) * ((x + y) * (1 # 2)) == (1 # 4) * ((x + y) * (x + y))) by ring. rewrite Sq in C. lra.
Qed.

Lemma sticky_near x : pow2 120 <= x ->
  sticky x * sticky x <= (1 + pow2 (-61)) * (1 + pow2 (-61)) * x /\ (1 - pow2 (-60)) * (1 - pow2 (-60)) * x <= sticky x * sticky x.
Proof.
  intros H. pose proof (pow2_pos 120) as P120. assert (X0 : 0 <= x) by lra. destruct (sticky_spec x X0) as [S0 _].
  assert (S60 : pow2 60 <= sticky x).
  { rewrite pow2_Z by lia. apply sticky_ge; [auto|lia|]. rewrite <- pow2_Z, <- pow2_plus by lia. exact H. }
  pose proof (Qfloor_resp_le 0 x X0) as F0. change (Qfloor 0) with 0%Z in F0. pose proof (Z.sqrt_spec (Qfloor x) F0) as [S1 S2].
  revert S0 S60. unfold sticky. set (s := Z.sqrt (Qfloor x)) in *.
  pose proof (Qfloor_le x) as L. pose proof (Qlt_floor x) as U.
  assert (A : inject_Z s * inject_Z s <= x) by (rewrite <- inject_Z_mult; rewrite Zle_Qle in S1; lra).
  assert (B : x < (inject_Z s + 1) * (inject_Z s + 1)).
  { change 1 with (inject_Z 1). rewrite <- inject_Z_plus, <- inject_Z_mult. assert (T : (Qfloor x + 1 <= (s + 1) * (s + 1))%Z) by lia. rewrite Zle_Qle in T. lra. }
  assert (E61 : pow2 (-61) * pow2 60 == 1 # 2) by (rewrite <- pow2_plus; reflexivity).
  assert (E60 : pow2 (-60) * pow2 60 == 1) by (rewrite <- pow2_plus; reflexivity).
  pose proof (pow2_pos (-61)) as P61. pose proof (pow2_pos (-60)) as P60. assert (L60 : pow2 (-60) < 1) by reflexivity.
  pose proof (pow2_pos 60) as Q60.
  intros S0 S60. assert (Sz : pow2 60 <= inject_Z s).
  { destruct (Qeq_bool _ _); [exact S60|]. assert (T : (2 ^ 60 <= s)%Z).
    { destruct (Z.le_gt_cases (2 ^ 60) s) as [|G]; [auto|]. assert (G' : (s + 1 <= 2 ^ 60)%Z) by lia. rewrite Zle_Qle, inject_Z_plus, <- pow2_Z in G' by lia.
      change (inject_Z 1) with 1 in G'. lra. }
    rewrite pow2_Z by lia. rewrite <- Zle_Qle. exact T. }
  clear S1 S2 S0 S60. set (i := inject_Z s) in *. set (u := pow2 (-61)) in *. set (w := pow2 (-60)) in *.
  assert (I1 : 1 # 2 <= u * i) by nra. assert (I2 : 1 <= w * (i + 1)) by nra.
  destruct (Qeq_bool _ _) eqn:E.
  - apply Qeq_bool_iff in E. rewrite inject_Z_mult in E. fold i in E. split; rewrite <- E.
    + assert (0 <= i * i) by nra. nra.
    + assert (0 <= i * i) by nra. nra.
  - split.
    + assert (T : i + (1 # 2) <= (1 + u) * i) by lra. assert (T2 : (i + (1 # 2)) * (i + (1 # 2)) <= ((1 + u) * i) * ((1 + u) * i)) by nra.
      eapply Qle_trans; [exact T2|]. assert (R : (1 + u) * i * ((1 + u) * i) == (1 + u) * (1 + u) * (i * i)) by ring. rewrite R.
      rewrite !(Qmult_comm ((1 + u) * (1 + u))). apply Qmult_le_compat_r; [auto|nra].
    + assert (T : (1 - w) * (i + 1) <= i + (1 # 2)) by lra. assert (T0 : 0 <= (1 - w) * (i + 1)) by nra.
      assert (T2 : ((1 - w) * (i + 1)) * ((1 - w) * (i + 1)) <= (i + (1 # 2)) * (i + (1 # 2))) by nra.
      eapply Qle_trans; [|exact T2]. assert (R : (1 - w) * (i + 1) * ((1 - w) * (i + 1)) == (1 - w) * (1 - w) * ((i + 1) * (i + 1))) by ring. rewrite R.
      rewrite !(Qmult_comm ((1 - w) * (1 - w))). apply Qmult_le_compat_r; [lra|nra].
Qed.
(** the relative error of the root is at most 2^-52 *)
Lemma fsqrt_near q : 0 < q ->
  fsqrt q * fsqrt q <= (1 + pow2 (-52)) * (1 + pow2 (-52)) * q /\ (1 - pow2 (-52)) * (1 - pow2 (-52)) * q <= fsqrt q * fsqrt q.
Proof.
  intros H0. destruct (fsqrt_eq q H0) as (e & L & U & E). rewrite E. pose proof (sqrt_v q e L U) as [V1 V2].
  set (x := q * pow2 (2 * (60 - e))) in *.
  assert (X : pow2 120 <= x).
  { unfold x. assert (A : pow2 120 == pow2 (2 * e) * pow2 (2 * (60 - e))) by (rewrite <- pow2_plus; replace (2 * e + 2 * (60 - e))%Z with 120%Z by lia; reflexivity).
    rewrite A. pose proof (pow2_pos (2 * (60 - e))). apply Qmult_le_compat_r; lra. }
  destruct (sticky_near x X) as [N1 N2]. pose proof (pow2_pos (e - 60)) as P.
  assert (Q : x * (pow2 (e - 60) * pow2 (e - 60)) == q).
  { unfold x. rewrite <- pow2_plus, <- Qmult_assoc, <- pow2_plus. replace (2 * (60 - e) + (e - 60 + (e - 60)))%Z with 0%Z by lia. rewrite pow2_0. ring. }
  set (p := pow2 (e - 60)) in *. set (v := sticky x * p) in *.
  assert (W : v * v == sticky x * sticky x * (p * p)) by (unfold v; ring). assert (PP : 0 <= p * p) by nra.
  assert (M1 : v * v <= (1 + pow2 (-61)) * (1 + pow2 (-61)) * q).
  { rewrite W, <- Q, (Qmult_assoc _ x (p * p)). apply Qmult_le_compat_r; auto. }
  assert (M2 : (1 - pow2 (-60)) * (1 - pow2 (-60)) * q <= v * v).
  { rewrite W, <- Q, (Qmult_assoc _ x (p * p)). apply Qmult_le_compat_r; auto. }
  pose proof (pow2_pos e) as Pe. assert (V0 : 0 <= v) by lra. pose proof (fl_bounds v V0) as [B1 B2]. set (r := fl v) in *.
  assert (R0 : 0 <= r) by (unfold r; apply fl_nonneg; auto). clearbody r v. clear - M1 M2 B1 B2 V0 R0 H0. split.
  - assert (T : r * r <= (v + pow2 (-53) * v) * (v + pow2 (-53) * v)) by (pose proof (pow2_pos (-53)); nra).
    assert (T2 : (v + pow2 (-53) * v) * (v + pow2 (-53) * v) == (1 + pow2 (-53)) * (1 + pow2 (-53)) * (v * v)) by ring. rewrite T2 in T. clear T2.
    assert (T3 : (1 + pow2 (-53)) * (1 + pow2 (-53)) * (v * v) <= (1 + pow2 (-53)) * (1 + pow2 (-53)) * ((1 + pow2 (-61)) * (1 + pow2 (-61)) * q)).
    { rewrite !(Qmult_comm ((1 + pow2 (-53)) * (1 + pow2 (-53)))). apply Qmult_le_compat_r; [auto|vm_compute; discriminate]. }
    assert (T4 : (1 + pow2 (-53)) * (1 + pow2 (-53)) * ((1 + pow2 (-61)) * (1 + pow2 (-61))) <= (1 + pow2 (-52)) * (1 + pow2 (-52))) by (vm_compute; discriminate).
    assert (T5 : (1 + pow2 (-53)) * (1 + pow2 (-53)) * ((1 + pow2 (-61)) * (1 + pow2 (-61))) * q <= (1 + pow2 (-52)) * (1 + pow2 (-52)) * q) by (apply Qmult_le_compat_r; lra).
    rewrite <- Qmult_assoc in T5. lra.
  - assert (V : 0 <= v - pow2 (-53) * v). { assert (v - pow2 (-53) * v == (1 - pow2 (-53)) * v) by ring. rewrite H. assert (0 <= 1 - pow2 (-53)) by (vm_compute; discriminate). nra. }
    assert (T : (v - pow2 (-53) * v) * (v - pow2 (-53) * v) <= r * r) by nra.
    assert (T2 : (v - pow2 (-53) * v) * (v - pow2 (-53) * v) == (1 - pow2 (-53)) * (1 - pow2 (-53)) * (v * v)) by ring. rewrite T2 in T. clear T2.
    assert (T3 : (1 - pow2 (-53)) * (1 - pow2 (-53)) * ((1 - pow2 (-60)) * (1 - pow2 (-60)) * q) <= (1 - pow2 (-53)) * (1 - pow2 (-53)) * (v * v)).
    { rewrite !(Qmult_comm ((1 - pow2 (-53)) * (1 - pow2 (-53)))). apply Qmult_le_compat_r; [auto|vm_compute; discriminate]. }
    assert (T4 : (1 - pow2 (-52)) * (1 - pow2 (-52)) <= (1 - pow2 (-53)) * (1 - pow2 (-53)) * ((1 - pow2 (-60)) * (1 - pow2 (-60)))) by (vm_compute; discriminate).
    assert (T5 : (1 - pow2 (-52)) * (1 - pow2 (-52)) * q <= (1 - pow2 (-53)) * (1 - pow2 (-53)) * ((1 - pow2 (-60)) * (1 - pow2 (-60))) * q) by (apply Qmult_le_compat_r; lra).
    rewrite <- Qmult_assoc in T5. lra.
Qed.
Lemma fsqrt_mono a b : 0 <= a -> a <= b -> fsqrt a <= fsqrt b.
Proof.
  intros A0 AB. destruct (Qlt_le_dec 0 a) as [A|A].
  - destruct (Qlt_le_dec (fsqrt b) (fsqrt a)) as [C|C]; [|auto]. exfalso.
    pose proof (fsqrt_rounds a A) as (Fa & _ & La & _). pose proof (fsqrt_rounds b ltac:(lra)) as (Fb & B0 & _ & Ub).
    pose proof (La _ Fb B0 C) as H1. pose proof (Ub _ Fa C) as H2.
    assert (E : a == b) by (assert ((fsqrt a + fsqrt b) * (fsqrt a + fsqrt b) == (fsqrt b + fsqrt a) * (fsqrt b + fsqrt a)) by ring; lra).
    destruct (fsqrt_eq a A) as (e & L & U & Ea). destruct (fsqrt_eq b ltac:(lra)) as (e' & L' & U' & Eb).
    assert (He : e = e').
    { assert (2 * e < 2 * e' + 2)%Z by (apply pow2_lt; lra). assert (2 * e' < 2 * e + 2)%Z by (apply pow2_lt; lra). lia. }
    subst e'. rewrite Ea, Eb in C. apply (Qlt_irrefl (fl (sticky (b * pow2 (2 * (60 - e))) * pow2 (e - 60)))). eapply Qlt_le_trans; [exact C|].
    apply fl_mono. apply Qmult_le_compat_r; [|pose proof (pow2_pos (e - 60)); lra].
    assert (X : a * pow2 (2 * (60 - e)) == b * pow2 (2 * (60 - e))) by (rewrite E; reflexivity). set (y := a * pow2 (2 * (60 - e))) in *. set (z := b * pow2 (2 * (60 - e))) in *.
    unfold sticky. rewrite (Qfloor_comp _ _ X). destruct (Qeq_bool _ y) eqn:E1, (Qeq_bool _ z) eqn:E2; try lra; exfalso.
    apply Qeq_bool_iff in E2. apply (Qeq_bool_neq _ _ E1). rewrite E2. symmetry. exact X.
  - assert (E : fsqrt a = 0).
    { unfold fsqrt. assert (X : a == 0) by lra. rewrite (proj1 (Qeq_alt a 0) X). reflexivity. }
    rewrite E. destruct (Qlt_le_dec 0 b) as [B|B]; [pose proof (fsqrt_pos b B); lra|].
    unfold fsqrt. assert (X : b == 0) by lra. rewrite (proj1 (Qeq_alt b 0) X). lra.
Qed.
Lemma fsqrt_comp a b : a == b -> fsqrt a == fsqrt b.
Proof.
  intros E. destruct (Qlt_le_dec a 0) as [A|A].
  - unfold fsqrt. assert (B : b < 0) by lra. rewrite (proj1 (Qlt_alt a 0) A), (proj1 (Qlt_alt b 0) B). reflexivity.
  - pose proof (fsqrt_mono a b A ltac:(lra)). pose proof (fsqrt_mono b a ltac:(lra) ltac:(lra)). lra.
Qed.
Global Instance fsqrt_proper : Proper (Qeq ==> Qeq) fsqrt.
Proof. intros x y. apply fsqrt_comp. Qed.
(** exact squares *)
Lemma fsqrt_square y : float53 y -> 0 <= y -> fsqrt (y * y) == y.
Proof.
  intros F Y0. apply Qle_lt_or_eq in Y0 as [Y0|Y0].
  - assert (S : 0 < y * y) by nra. pose proof (fsqrt_ge (y * y) y F S ltac:(lra)). pose proof (fsqrt_le (y * y) y F S ltac:(lra) ltac:(lra)). lra.
  - rewrite <- Y0. reflexivity.
Qed.
(** the root of a rounded square *)
Lemma fsqrt_rounded_square y : float53 y -> 0 <= y -> fsqrt (fl (y * y)) == y.
Proof.
  intros F Y0. apply Qle_lt_or_eq in Y0 as [Y0|Y0]; [|rewrite <- Y0; reflexivity].
  pose proof (exponent_spec y Y0) as [L U]. set (e := exponent y) in *. destruct (float53_multiple y e F L) as [M EM].
  pose proof (pow2_pos (e - 52)) as P. set (p := pow2 (e - 52)) in *.
  assert (E52 : pow2 e == pow2 52 * p) by (unfold p; rewrite <- pow2_plus; replace (52 + (e - 52))%Z with e by lia; reflexivity).
  assert (E53 : pow2 (e + 1) == pow2 53 * p) by (unfold p; rewrite <- pow2_plus; replace (53 + (e - 52))%Z with (e + 1)%Z by lia; reflexivity).
  assert (M1 : (2 ^ 52 <= M)%Z). { rewrite Zle_Qle, <- pow2_Z by lia. apply Qmult_le_r with (z := p); auto. lra. }
  assert (M2 : (M < 2 ^ 53)%Z). { rewrite Zlt_Qlt, <- pow2_Z by lia. apply Qmult_lt_r with (z := p); auto. lra. }
  destruct (Z.eq_dec M (2 ^ 52)) as [EM2|NM].
  { assert (Ey : y == pow2 e) by (rewrite EM, EM2, <- pow2_Z, E52 by lia; reflexivity).
    assert (Fy2 : float53 (y * y)). { apply (float53_comp (pow2 (e + e))); [rewrite Ey; apply pow2_plus|apply float53_pow2]. }
    rewrite (fl_id _ Fy2). apply fsqrt_square; [auto|lra]. }
  assert (S0 : 0 < y * y) by nra. pose proof (fl_bounds (y * y) ltac:(lra)) as [Q1 Q2]. set (q := fl (y * y)) in *.
  assert (c53 : pow2 (-53) < 1) by reflexivity.
  assert (Qp : 0 < q) by (assert (pow2 (-53) * (y * y) < 1 * (y * y)) by (apply Qmult_lt_r; auto); lra).
  pose proof (fsqrt_rounds q Qp) as (Fx & X0 & R1 & R2). set (x := fsqrt q) in *.
  assert (M1' : (2 ^ 52 + 1 <= M)%Z) by lia. assert (M2' : (M + 1 <= 2 ^ 53)%Z) by lia.
  rewrite Zle_Qle, inject_Z_plus, <- pow2_Z in M1', M2' by lia. change (inject_Z 1) with 1 in *.
  set (m := inject_Z M) in *. assert (Hm : 0 < m) by (pose proof (pow2_pos 52); lra).
  assert (C1 : pow2 (-51) * (m * m) <= 4 * m - 2).
  { assert (A : pow2 (-51) * (m * m) <= pow2 (-51) * ((pow2 53 - 1) * m)).
    { rewrite !(Qmult_comm (pow2 (-51))). apply Qmult_le_compat_r; [|vm_compute; discriminate]. apply Qmult_le_compat_r; lra. }
    assert (B : pow2 (-51) * ((pow2 53 - 1) * m) == 4 * m - pow2 (-51) * m).
    { assert (T : pow2 (-51) * pow2 53 == 4) by reflexivity. transitivity (pow2 (-51) * pow2 53 * m - pow2 (-51) * m); [ring|rewrite T; ring]. }
    assert (C : 2 <= pow2 (-51) * m).
    { assert (T : pow2 (-51) * pow2 52 == 2) by reflexivity. rewrite <- T. rewrite !(Qmult_comm (pow2 (-51))). apply Qmult_le_compat_r; [lra|vm_compute; discriminate]. }
    lra. }
  assert (Y2 : y * y == m * m * (p * p)) by (rewrite EM; ring).
  assert (C51 : pow2 (-51) == 4 * pow2 (-53)) by reflexivity. assert (PP : 0 < p * p) by nra.
  destruct (Q_dec x y) as [[C|C]|C]; [exfalso|exfalso|exact C].
  - pose proof (R2 y F C) as H.
    assert (B : x <= (m - 1) * p).
    { destruct (Qlt_le_dec x (pow2 e)) as [G|G].
      - rewrite E52 in G. assert (pow2 52 * p <= (m - 1) * p) by (apply Qmult_le_compat_r; lra). lra.
      - destruct (float53_multiple x e Fx G) as [w Ew]. fold p in Ew. rewrite Ew. apply Qmult_le_compat_r; [|lra].
        assert (W : (w < M)%Z). { rewrite Zlt_Qlt. fold m. apply Qmult_lt_r with (z := p); auto. lra. }
        assert (W' : (w + 1 <= M)%Z) by lia. rewrite Zle_Qle, inject_Z_plus in W'. change (inject_Z 1) with 1 in W'. fold m in W'. lra. }
    assert (H' : (x + y) * (x + y) <= ((2 * m - 1) * p) * ((2 * m - 1) * p)).
    { assert (T : x + y <= (2 * m - 1) * p) by (rewrite EM; lra). nra. }
    assert (K : 4 * (m * m) * (p * p) - pow2 (-51) * (m * m) * (p * p) <= (4 * (m * m) - 4 * m + 1) * (p * p)) by (rewrite C51; rewrite Y2 in Q1; lra).
    assert (K' : pow2 (-51) * (m * m) * (p * p) <= (4 * m - 2) * (p * p)) by (apply Qmult_le_compat_r; lra). lra.
  - pose proof (R1 y F ltac:(lra) C) as H.
    assert (B : (m + 1) * p <= x).
    { destruct (float53_multiple x e Fx ltac:(lra)) as [w Ew]. fold p in Ew. rewrite Ew. apply Qmult_le_compat_r; [|lra].
      assert (W : (M < w)%Z). { rewrite Zlt_Qlt. fold m. apply Qmult_lt_r with (z := p); auto. lra. }
      assert (W' : (M + 1 <= w)%Z) by lia. rewrite Zle_Qle, inject_Z_plus in W'. change (inject_Z 1) with 1 in W'. fold m in W'. lra. }
    assert (H' : ((2 * m + 1) * p) * ((2 * m + 1) * p) <= (x + y) * (x + y)).
    { assert (T : (2 * m + 1) * p <= x + y) by (rewrite EM; lra). assert (T0 : 0 <= (2 * m + 1) * p) by nra. nra. }
    assert (K : (4 * (m * m) + 4 * m + 1) * (p * p) <= 4 * (m * m) * (p * p) + pow2 (-51) * (m * m) * (p * p)) by (rewrite C51; rewrite Y2 in Q2; lra).
    assert (K' : pow2 (-51) * (m * m) * (p * p) <= (4 * m - 2) * (p * p)) by (apply Qmult_le_compat_r; lra). lra.
Qed.

(** ** Comparison of fractions *)
Lemma fl_fractions a b c d : (0 <= a <= b)%Z -> (0 <= c <= d)%Z -> (0 < b)%Z -> (0 < d)%Z -> (b * d < 2 ^ 52)%Z ->
  inject_Z a / inject_Z b < inject_Z c / inject_Z d -> fl (inject_Z a / inject_Z b) < fl (inject_Z c / inject_Z d).
Proof.
  intros Ha Hc Hb Hd Hbd L.
  assert (B : 0 < inject_Z b) by (change 0 with (inject_Z 0); rewrite <- Zlt_Qlt; auto).
  assert (D : 0 < inject_Z d) by (change 0 with (inject_Z 0); rewrite <- Zlt_Qlt; auto).
  set (x := inject_Z a / inject_Z b) in *. set (y := inject_Z c / inject_Z d) in *.
  assert (Ex : x * inject_Z b == inject_Z a) by (unfold x; field; lra). assert (Ey : y * inject_Z d == inject_Z c) by (unfold y; field; lra).
  assert (A0 : 0 <= inject_Z a) by (change 0 with (inject_Z 0); rewrite <- Zle_Qle; lia). assert (A1 : inject_Z a <= inject_Z b) by (rewrite <- Zle_Qle; lia).
  assert (C1 : inject_Z c <= inject_Z d) by (rewrite <- Zle_Qle; lia).
  assert (X0 : 0 <= x) by (unfold x; apply Qle_shift_div_l; lra). assert (Y1 : y <= 1) by (unfold y; apply Qle_shift_div_r; lra).
  assert (G : inject_Z a * inject_Z d + 1 <= inject_Z c * inject_Z b).
  { assert (T : inject_Z a * inject_Z d < inject_Z c * inject_Z b).
    { rewrite <- Ex, <- Ey. assert (T1 : x * (inject_Z b * inject_Z d) < y * (inject_Z b * inject_Z d)) by (apply Qmult_lt_r; auto; nra). lra. }
    change 1 with (inject_Z 1). rewrite <- !inject_Z_mult in *. rewrite <- inject_Z_plus. rewrite <- Zlt_Qlt in T. rewrite <- Zle_Qle. lia. }
  assert (G2 : (x * (inject_Z b * inject_Z d)) + 1 <= y * (inject_Z b * inject_Z d)) by (rewrite <- Ex, <- Ey in G; lra).
  assert (BD : inject_Z b * inject_Z d < pow2 52) by (rewrite <- inject_Z_mult, pow2_Z by lia; rewrite <- Zlt_Qlt; auto).
  assert (BD0 : 0 < inject_Z b * inject_Z d) by nra. set (k := inject_Z b * inject_Z d) in *.
  assert (G3 : pow2 (-52) < y - x).
  { assert (T : pow2 (-52) * pow2 52 == 1) by reflexivity. pose proof (pow2_pos (-52)) as P52.
    apply Qnot_le_lt. intros C. assert ((y - x) * k <= pow2 (-52) * k) by (apply Qmult_le_compat_r; lra).
    assert (pow2 (-52) * k < pow2 (-52) * pow2 52) by (apply Qmult_lt_l; auto). lra. }
  pose proof (fl_bounds x X0) as [_ Bx]. pose proof (fl_bounds y ltac:(lra)) as [By _].
  assert (E53 : pow2 (-52) == 2 * pow2 (-53)) by reflexivity.
  assert (Tx : pow2 (-53) * x <= pow2 (-53)).
  { setoid_replace (pow2 (-53)) with (pow2 (-53) * 1) at 2 by ring. rewrite !(Qmult_comm (pow2 (-53))). apply Qmult_le_compat_r; [lra|vm_compute; discriminate]. }
  assert (Ty : pow2 (-53) * y <= pow2 (-53)).
  { setoid_replace (pow2 (-53)) with (pow2 (-53) * 1) at 2 by ring. rewrite !(Qmult_comm (pow2 (-53))). apply Qmult_le_compat_r; [lra|vm_compute; discriminate]. }
  lra.
Qed.
(** two fractions between 0 and 1 compare as their roundings *)
Lemma fl_fractions_le a b c d : (0 <= a <= b)%Z -> (0 <= c <= d)%Z -> (0 < b)%Z -> (0 < d)%Z -> (b * d < 2 ^ 52)%Z ->
  (fl (inject_Z a / inject_Z b) <= fl (inject_Z c / inject_Z d) <-> inject_Z a / inject_Z b <= inject_Z c / inject_Z d).
Proof.
  intros Ha Hc Hb Hd Hbd. split; [|apply fl_mono]. intros H. apply Qnot_lt_le. intros C.
  apply (fl_fractions c d a b) in C; auto; [|lia]. lra.
Qed.
