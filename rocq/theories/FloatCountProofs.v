(** Numbers of things computed with floats. *)
From Coq Require Import QArith Qround Qabs ZArith Lqa.
From Verif Require Import Base LevModel StringsModel MetricsModel FloatModel FloatSpec FloatProofs FloatMetricsProofs.
Open Scope Q_scope.

Lemma Qfloor_unique q z : inject_Z z <= q -> q < inject_Z (z + 1) -> Qfloor q = z.
Proof.
  intros L U. pose proof (Qfloor_le q) as A. pose proof (Qlt_floor q) as B.
  assert (z < Qfloor q + 1)%Z by (rewrite Zlt_Qlt; lra). assert (Qfloor q < z + 1)%Z by (rewrite Zlt_Qlt; lra). lia.
Qed.
Lemma Qceiling_unique q z : inject_Z (z - 1) < q -> q <= inject_Z z -> Qceiling q = z.
Proof.
  intros L U. pose proof (Qle_ceiling q) as A. pose proof (Qceiling_lt q) as B.
  assert (z - 1 < Qceiling q)%Z by (rewrite Zlt_Qlt; lra). assert (Qceiling q - 1 < z)%Z by (rewrite Zlt_Qlt; lra). lia.
Qed.

(** ** Sizes of keys *)
Section Keys.
Variables k c d : Z.
Hypothesis Hk : (0 <= k)%Z.
Hypothesis Hc : (0 <= c <= d)%Z.
Hypothesis Hd : (0 < d)%Z.
Hypothesis Hkd : (k * d < 2 ^ 50)%Z.
Variable r : Q.
Hypothesis Hr : rounds (inject_Z c / inject_Z d) r.
Notation t := (inject_Z c / inject_Z d).
Notation F := (k * c / d)%Z.

Lemma key_facts : 0 < inject_Z d /\ 0 <= t /\ t <= 1 /\ 0 <= inject_Z k /\ inject_Z k * inject_Z d < pow2 50 /\
  inject_Z F * inject_Z d <= inject_Z k * inject_Z c /\ inject_Z k * inject_Z c + 1 <= (inject_Z F + 1) * inject_Z d /\ t * inject_Z d == inject_Z c.
Proof.
  assert (D : 0 < inject_Z d) by (change 0 with (inject_Z 0); rewrite <- Zlt_Qlt; auto).
  assert (C0 : 0 <= inject_Z c) by (change 0 with (inject_Z 0); rewrite <- Zle_Qle; lia). assert (C1 : inject_Z c <= inject_Z d) by (rewrite <- Zle_Qle; lia).
  pose proof (Z.div_mod (k * c) d ltac:(lia)) as DM. pose proof (Z.mod_pos_bound (k * c) d Hd) as M.
  split; [auto|]. split; [apply Qle_shift_div_l; lra|]. split; [apply Qle_shift_div_r; lra|].
  split; [change 0 with (inject_Z 0); rewrite <- Zle_Qle; auto|].
  split; [rewrite <- inject_Z_mult, pow2_Z by lia; rewrite <- Zlt_Qlt; auto|].
  split; [rewrite <- !inject_Z_mult, <- Zle_Qle; nia|].
  split; [change 1 with (inject_Z 1); rewrite <- inject_Z_plus, <- !inject_Z_mult, <- inject_Z_plus, <- Zle_Qle; nia|field; lra].
Qed.
Lemma key_error : fmul (inject_Z k) r * inject_Z d < inject_Z k * inject_Z c + 1 /\ inject_Z k * inject_Z c - 1 < fmul (inject_Z k) r * inject_Z d.
Proof.
  destruct key_facts as (D & T0 & T1 & K0 & KD & _ & _ & E). unfold fmul. rewrite (rounds_fl _ _ Hr).
  pose proof (fl_bounds t T0) as [B1 B2]. pose proof (fl_nonneg t T0) as R0. assert (KR : 0 <= inject_Z k * fl t) by nra.
  pose proof (fl_bounds _ KR) as [B3 B4]. set (u := pow2 (-53)) in *. set (y := fl (inject_Z k * fl t)) in *. set (x := fl t) in *.
  assert (U : u * pow2 50 == 1 # 8) by reflexivity. assert (U0 : 0 < u) by reflexivity. assert (U1 : u < 1 # 8) by reflexivity.
  assert (W : u * (inject_Z k * inject_Z d) < 1 # 8) by (rewrite <- U; apply Qmult_lt_l; auto).
  assert (W0 : 0 <= inject_Z k * inject_Z d) by nra.
  assert (X1 : x <= 1) by (unfold x; apply fl_le; [apply (float53_Z 1); lia|auto]). clearbody x y.
  set (tv := t) in *. clearbody tv. set (K := inject_Z k) in *. set (Dd := inject_Z d) in *. rewrite <- E.
  assert (TW : 0 <= u * (K * Dd) * (1 - tv)) by (assert (0 <= u * (K * Dd)) by nra; nra).
  assert (P1 : x * (K * Dd) <= (tv + u * tv) * (K * Dd)) by (apply Qmult_le_compat_r; auto).
  assert (P2 : (tv - u * tv) * (K * Dd) <= x * (K * Dd)) by (apply Qmult_le_compat_r; auto).
  assert (P3 : y * Dd <= (K * x + u * (K * x)) * Dd) by (apply Qmult_le_compat_r; lra).
  assert (P4 : (K * x - u * (K * x)) * Dd <= y * Dd) by (apply Qmult_le_compat_r; lra).
  assert (P5 : u * (K * Dd) * x <= u * (K * Dd) * 1). { rewrite !(Qmult_comm (u * (K * Dd))). apply Qmult_le_compat_r; [auto|nra]. }
  split; lra.
Qed.
Lemma key_floor_le : (Qfloor (fmul (inject_Z k) r) <= F)%Z.
Proof.
  destruct key_facts as (D & T0 & T1 & K0 & KD & F1 & F2 & E). destruct key_error as [E1 E2].
  assert (L : fmul (inject_Z k) r < inject_Z (F + 1)).
  { rewrite inject_Z_plus. change (inject_Z 1) with 1. apply Qmult_lt_r with (z := inject_Z d); auto. lra. }
  pose proof (Qfloor_le (fmul (inject_Z k) r)). assert (Qfloor (fmul (inject_Z k) r) < F + 1)%Z by (rewrite Zlt_Qlt; lra). lia.
Qed.
Lemma key_floor_ge : (F - 1 <= Qfloor (fmul (inject_Z k) r))%Z.
Proof.
  destruct key_facts as (D & T0 & T1 & K0 & KD & F1 & F2 & E). destruct key_error as [E1 E2].
  assert (D1 : 1 <= inject_Z d) by (change 1 with (inject_Z 1); rewrite <- Zle_Qle; lia).
  assert (L : inject_Z (F - 1) <= fmul (inject_Z k) r).
  { unfold Z.sub. rewrite inject_Z_plus. rewrite inject_Z_opp. change (inject_Z 1) with 1. apply Qmult_le_r with (z := inject_Z d); auto. lra. }
  apply Qfloor_resp_le in L. rewrite Qfloor_Z in L. exact L.
Qed.
(** the size is right when the threshold is not rounded down, or when the product is not an integer *)
Lemma key_floor_exact : t <= r \/ ~ (d | k * c)%Z -> Qfloor (fmul (inject_Z k) r) = F.
Proof.
  intros HC. destruct key_facts as (D & T0 & T1 & K0 & KD & F1 & F2 & E). destruct key_error as [E1 E2].
  assert (L : inject_Z F <= fmul (inject_Z k) r).
  { destruct HC as [HC|HC].
    - unfold fmul. apply fl_ge.
      + apply float53_Z. pose proof (Z.div_pos (k * c) d ltac:(nia) Hd). assert (F <= k)%Z by (apply Z.div_le_upper_bound; nia). nia.
      + apply Qle_trans with (inject_Z k * t); [|nra]. apply Qmult_le_r with (z := inject_Z d); auto.
        assert (T2 : inject_Z k * t * inject_Z d == inject_Z k * inject_Z c) by (transitivity (inject_Z k * (t * inject_Z d)); [ring|rewrite E; reflexivity]). lra.
    - apply Qmult_le_r with (z := inject_Z d); auto.
      assert (G : inject_Z F * inject_Z d + 1 <= inject_Z k * inject_Z c); [|lra].
      change 1 with (inject_Z 1). rewrite <- !inject_Z_mult, <- inject_Z_plus, <- Zle_Qle.
      pose proof (Z.div_mod (k * c) d ltac:(lia)) as DM. pose proof (Z.mod_pos_bound (k * c) d Hd) as M.
      assert ((k * c) mod d <> 0)%Z; [|nia]. intros Z0. apply HC. apply Z.mod_divide; auto. lia. }
  apply Qfloor_resp_le in L. rewrite Qfloor_Z in L. pose proof key_floor_le. lia.
Qed.
End Keys.

(** ** Numbers of chunks and of leaders *)
Lemma chunks_exact n s : (1 <= s)%nat -> (Z.of_nat n < 2 ^ 53)%Z -> chunks_float n s = Z.of_nat ((n + s - 1) / s).
Proof.
  intros Hs Hn. unfold chunks_float, fdiv. set (m := ((n + s - 1) / s)%nat).
  pose proof (Nat.div_mod (n + s - 1) s ltac:(lia)) as DM. pose proof (Nat.mod_upper_bound (n + s - 1) s ltac:(lia)) as M. fold m in DM.
  assert (U : (n <= m * s)%nat) by nia. assert (L : (m * s <= n + s - 1)%nat) by nia.
  pose proof (Qnat_1 s Hs) as S1. assert (E : Qnat n / Qnat s * Qnat s == Qnat n) by (field; lra). pose proof (Qnat_0 n) as N0.
  assert (X0 : 0 <= Qnat n / Qnat s) by (apply Qle_shift_div_l; lra).
  apply Qceiling_unique.
  - pose proof (fl_bounds _ X0) as [B _]. set (x := Qnat n / Qnat s) in *.
    assert (L' : ((Z.of_nat m - 1) * Z.of_nat s + 1 <= Z.of_nat n)%Z) by nia. rewrite Zle_Qle, inject_Z_plus, inject_Z_mult in L'.
    fold (Qnat n) (Qnat s) in L'. change (inject_Z 1) with 1 in L'. rewrite <- E in L'.
    assert (V : pow2 (-53) * Qnat n < 1).
    { assert (T : pow2 (-53) * pow2 53 == 1) by reflexivity. rewrite <- T. apply Qmult_lt_l; [reflexivity|]. apply Qnat_pow2_lt; lia. }
    rewrite <- E in V. apply Qmult_lt_r with (z := Qnat s); [lra|].
    assert (B' : (x - pow2 (-53) * x) * Qnat s <= fl x * Qnat s) by (apply Qmult_le_compat_r; lra). lra.
  - apply fl_le; [apply float53_Z; nia|]. apply Qle_shift_div_r; [lra|]. fold (Qnat m). rewrite <- Qnat_mult. apply Qnat_le. exact U.
Qed.
Lemma leaders_exact n : (Z.of_nat n < 2 ^ 50)%Z -> leaders_float n = Z.of_nat (Nat.sqrt n).
Proof.
  intros Hn. unfold leaders_float. destruct (Nat.eq_dec n 0) as [->|Nz]; [reflexivity|].
  pose proof (Nat.sqrt_spec n ltac:(lia)) as [S1 S2]. set (s := Nat.sqrt n) in *.
  assert (N0 : 0 < Qnat n) by (pose proof (Qnat_1 n ltac:(lia)); lra). apply Qfloor_unique.
  - fold (Qnat s). apply fsqrt_ge; [apply Qnat_float53; nia|auto|]. rewrite <- Qnat_mult. apply Qnat_le. exact S1.
  - pose proof (fsqrt_near (Qnat n) N0) as [B _]. pose proof (fsqrt_pos (Qnat n) N0) as P. apply Qnot_le_lt. intros C.
    assert (G : (n + 1 <= (s + 1) * (s + 1))%nat) by lia. apply Qnat_le in G. rewrite Qnat_plus, Qnat_mult in G. change (Qnat 1) with 1 in G.
    replace (Z.of_nat s + 1)%Z with (Z.of_nat (s + 1)) in C by lia. fold (Qnat (s + 1)) in C. pose proof (Qnat_0 (s + 1)) as Q0.
    assert (C2 : Qnat (s + 1) * Qnat (s + 1) <= fsqrt (Qnat n) * fsqrt (Qnat n)) by nra.
    assert (A : (1 + pow2 (-52)) * (1 + pow2 (-52)) <= 1 + 3 * pow2 (-52)) by (vm_compute; discriminate).
    assert (A2 : (1 + pow2 (-52)) * (1 + pow2 (-52)) * Qnat n <= (1 + 3 * pow2 (-52)) * Qnat n) by (apply Qmult_le_compat_r; lra).
    assert (V : pow2 (-52) * Qnat n < 1 # 4).
    { assert (T : pow2 (-52) * pow2 50 == 1 # 4) by reflexivity. rewrite <- T. apply Qmult_lt_l; [reflexivity|]. apply Qnat_pow2_lt; lia. }
    lra.
Qed.

(** ** Means *)
Lemma mean_float_range l : Forall (fun x => 0 <= x <= 1) l -> l <> [] -> (Z.of_nat (length l) <= 2 ^ 53)%Z ->
  exists x, mean_peek_float (fold_left mean_add_float l (0, 0%nat)) = Ok x /\ 0 <= x <= 1.
Proof.
  intros Hl Ne HB.
  assert (G : forall l m, Forall (fun x => 0 <= x <= 1) l -> (Z.of_nat (snd m + length l) <= 2 ^ 53)%Z -> 0 <= fst m <= Qnat (snd m) ->
    let m' := fold_left mean_add_float l m in snd m' = (snd m + length l)%nat /\ 0 <= fst m' <= Qnat (snd m')).
  { clear. induction l as [|x l IH]; intros [s n] Hl HB [S0 S1]; cbn [fold_left]; [simpl; split; [lia|auto]|].
    apply Forall_cons_iff in Hl as [[X0 X1] Hl]. specialize (IH (mean_add_float (s, n) x) Hl). cbn [mean_add_float fst snd length] in *.
    destruct IH as [I1 I2]; [lia| |split; [rewrite I1; lia|exact I2]]. unfold fadd. split; [apply fl_nonneg; lra|].
    apply fl_le; [apply Qnat_float53; lia|]. rewrite Qnat_plus. change (Qnat 1) with 1. lra. }
  destruct (G l (0, 0%nat) Hl HB) as [E [M0 M1]]; [simpl; change (Qnat 0) with 0; lra|]. set (m := fold_left _ _ _) in *. cbn [snd] in E.
  unfold mean_peek_float. destruct (Nat.eqb_spec (snd m) 0) as [Z0|Z0]; [destruct l; [contradiction|simpl in E; lia]|].
  eexists. split; [reflexivity|]. pose proof (Qnat_1 (snd m) ltac:(lia)). unfold fdiv. split.
  - apply fl_nonneg, Qle_shift_div_l; lra.
  - apply fl_le; [apply (float53_Z 1); lia|]. apply Qle_shift_div_r; lra.
Qed.

(** ** Keys *)
Lemma floor_fraction k c d : (0 < d)%Z -> Qfloor (inject_Z k * (inject_Z c / inject_Z d)) = (k * c / d)%Z.
Proof.
  intros Hd. assert (D : 0 < inject_Z d) by (change 0 with (inject_Z 0); rewrite <- Zlt_Qlt; auto).
  pose proof (Z.div_mod (k * c) d ltac:(lia)) as DM. pose proof (Z.mod_pos_bound (k * c) d Hd) as M.
  assert (E : inject_Z k * (inject_Z c / inject_Z d) * inject_Z d == inject_Z (k * c)) by (rewrite inject_Z_mult; field; lra).
  apply Qfloor_unique.
  - apply Qmult_le_r with (z := inject_Z d); auto. rewrite E, <- inject_Z_mult, <- Zle_Qle. nia.
  - apply Qmult_lt_r with (z := inject_Z d); auto. rewrite E, <- inject_Z_mult, <- Zlt_Qlt. nia.
Qed.
Lemma ngram_keys_float_super n s c d r : (1 <= n)%nat -> (0 <= c <= d)%Z -> (0 < d)%Z -> (Z.of_nat (length s) * d < 2 ^ 50)%Z ->
  rounds (inject_Z c / inject_Z d) r ->
  exists extra, ngram_keys_float n s r = ngram_keys n s (inject_Z c / inject_Z d) ++ extra /\
    (inject_Z c / inject_Z d <= r -> extra = []).
Proof.
  intros Hn Hc Hd HB Hr. unfold ngram_keys_float, ngram_keys, key_size_float. set (k := (Z.of_nat (length s) - (Z.of_nat n - 1))%Z).
  rewrite floor_fraction by auto. set (F := (k * c / d)%Z). set (f := Qfloor (fmul (inject_Z k) r)).
  destruct (Z.le_gt_cases k 0) as [Hk|Hk].
  { exists []. rewrite app_nil_r. split; [|auto]. replace (Z.to_nat (k - Z.max 1 f)) with 0%nat by lia. replace (Z.to_nat (k - Z.max 1 F)) with 0%nat by lia. reflexivity. }
  assert (Hkd : (k * d < 2 ^ 50)%Z) by nia.
  pose proof (key_floor_le k c d ltac:(lia) Hc Hd Hkd r Hr) as L. fold f in L. fold F in L.
  assert (EX : exists m, Z.to_nat (k - Z.max 1 f) = (Z.to_nat (k - Z.max 1 F) + m)%nat) by (exists (Z.to_nat (k - Z.max 1 f) - Z.to_nat (k - Z.max 1 F))%nat; lia).
  destruct EX as [m Em]. rewrite Em, seq_app, flat_map_app, map_app.
  eexists. split; [rewrite app_comm_cons; reflexivity|]. intros Ht.
  pose proof (key_floor_exact k c d ltac:(lia) Hc Hd Hkd r Hr (or_introl Ht)) as E. fold f in E. fold F in E. rewrite E in Em.
  assert (m = 0)%nat by lia. subst m. reflexivity.
Qed.
