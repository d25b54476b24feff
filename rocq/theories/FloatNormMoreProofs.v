(** Powers of two, dot products and int weights. *)
From Coq Require Import QArith Qabs Qround Qpower ZArith Lia Lqa Psatz List Permutation Setoid Morphisms.
From Verif Require Import Base BaseFacts MetricsModel FloatModel FloatSpec FloatProofs FloatMetricsProofs FloatNormModel FloatNormSpec FloatNormProofs.
Import ListNotations.
Open Scope Q_scope.

Section More.
Context {T : Type}.
Implicit Types A : dict T Q.

(** ** Multiplying the weights by a power of two *)
Lemma sumsq_comp l : forall a b, a == b -> fold_left (fun s w => fadd s (fmul w w)) l a == fold_left (fun s w => fadd s (fmul w w)) l b.
Proof. induction l as [|w l IH]; intros a b E; cbn [fold_left]; [exact E|]. apply IH. apply fl_comp. rewrite E. reflexivity. Qed.
Lemma sumsq_scale k ws : forall s, fold_left (fun s w => fadd s (fmul w w)) (map (fun w => pow2 k * w) ws) (s * pow2 (2 * k)) ==
  fold_left (fun s w => fadd s (fmul w w)) ws s * pow2 (2 * k).
Proof.
  induction ws as [|w ws IH]; intros s; cbn [map fold_left]; [reflexivity|]. rewrite <- IH. apply sumsq_comp. unfold fadd. rewrite <- fl_scale. apply fl_comp.
  assert (E : fmul (pow2 k * w) (pow2 k * w) == fmul w w * pow2 (2 * k)).
  { unfold fmul. rewrite <- fl_scale. apply fl_comp. replace (2 * k)%Z with (k + k)%Z by lia. rewrite pow2_plus. ring. }
  rewrite E. ring.
Qed.
Lemma dvalues_scaled c A : dvalues (scaled_by c A) = map (fun w => c * w) (dvalues A).
Proof. unfold dvalues, scaled_by. rewrite !map_map. reflexivity. Qed.
Lemma norm_scale k A : norm_float (scaled_by (pow2 k) A) == pow2 k * norm_float A.
Proof.
  unfold norm_float. rewrite dvalues_scaled. pose proof (sumsq_scale k (dvalues A) 0) as E.
  rewrite (sumsq_comp _ _ 0 (Qmult_0_l _)) in E. rewrite E, fsqrt_scale by (apply squares_nonneg; lra). ring.
Qed.
Lemma normalize_scale k A : pointwise Qeq (normalize_float (scaled_by (pow2 k) A)) (normalize_float A).
Proof.
  pose proof (norm_scale k A) as E. pose proof (pow2_pos k) as P. destruct (Qeq_dec (norm_float A) 0) as [Z|Z].
  - rewrite (normalize_none A Z), normalize_none by (rewrite E, Z; ring). constructor.
  - pose proof (norm_positive A Z) as L. rewrite (normalize_some A Z), normalize_some by nra. unfold scaled_by at 2. rewrite map_map.
    revert E L. generalize (norm_float (scaled_by (pow2 k) A)), (norm_float A). clear Z. intros M L E LP. unfold pointwise. induction A as [|[x w] A IH]; constructor; cbn [fst snd]; auto.
    split; [reflexivity|]. unfold fdiv. apply fl_comp. rewrite E. field. split; lra.
Qed.

(** ** Dot products *)
Context `{EqDec T}.
Fixpoint cross (D A : dict T Q) : Q :=
  match A with
  | [] => 0
  | (k, w) :: A => match dget D k with Some x => Qabs (w * x) | None => 0 end + cross D A
  end.
Lemma cross_nonneg D A : 0 <= cross D A.
Proof. induction A as [|[k w] A IH]; cbn [cross]; [lra|]. destruct (dget D k); [pose proof (Qabs_nonneg (w * q))|]; lra. Qed.
Lemma fl_abs q : Qabs (fl q) <= (1 + u) * Qabs q.
Proof.
  pose proof (fl_near q) as N. fold u in N. assert (E : fl q == q + (fl q - q)) by ring. rewrite E at 1.
  pose proof (Qabs_triangle q (fl q - q)). lra.
Qed.
Lemma dot_fold D A : forall p, Qabs (fold_left (fun p kv => match dget D (fst kv) with Some w2 => fadd p (fmul (snd kv) w2) | None => p end) A p) <=
  qpow (1 + u) (length A) * Qabs p + qpow (1 + u) (S (length A)) * cross D A.
Proof.
  pose proof u_pos as U0. induction A as [|[k w] A IH]; intros p; cbn [fold_left cross length fst snd]; [cbn [qpow]; lra|].
  pose proof (cross_nonneg D A) as C0. pose proof (qpow_high (length A)) as P1. destruct (dget D k) as [x|].
  - eapply Qle_trans; [apply IH|]. unfold fadd, fmul. set (m := fl (w * x)). pose proof (fl_abs (w * x)) as M. fold m in M. pose proof (fl_abs (p + m)) as S. pose proof (Qabs_triangle p m) as Tr.
    pose proof (Qabs_nonneg p) as p0. pose proof (Qabs_nonneg (w * x)) as wx0. set (s := Qabs (fl (p + m))) in *. set (t := Qabs (p + m)) in *. set (ap := Qabs p) in *. set (am := Qabs m) in *. set (y := Qabs (w * x)) in *.
    cbn [qpow]. set (h := qpow (1 + u) (length A)) in *. set (c := cross D A) in *. clearbody s t ap am y h c.
    assert (B : s <= (1 + u) * (ap + (1 + u) * y)) by nra. assert (X : h * s <= h * ((1 + u) * (ap + (1 + u) * y))) by (rewrite !(Qmult_comm h); apply Qmult_le_compat_r; lra).
    assert (Y : (1 + u) * h * c <= (1 + u) * ((1 + u) * h) * c) by (apply Qmult_le_compat_r; nra). lra.
  - eapply Qle_trans; [apply IH|]. pose proof (Qabs_nonneg p) as p0. cbn [qpow]. set (h := qpow (1 + u) (length A)) in *. set (c := cross D A) in *. set (ap := Qabs p) in *. clearbody ap h c.
    assert (X : h * ap <= (1 + u) * h * ap) by (apply Qmult_le_compat_r; nra). assert (Y : (1 + u) * h * c <= (1 + u) * ((1 + u) * h) * c) by (apply Qmult_le_compat_r; nra). lra.
Qed.
Definition found (D : dict T Q) (k : T) : Q := match dget D k with Some x => x * x | None => 0 end.
Fixpoint found_all (D : dict T Q) (ks : list T) : Q := match ks with [] => 0 | k :: ks => found D k + found_all D ks end.
Lemma found_nonneg D k : 0 <= found D k.
Proof. unfold found. destruct (dget D k); nra. Qed.
Lemma found_all_nonneg D ks : 0 <= found_all D ks.
Proof. induction ks as [|k ks IH]; cbn [found_all]; [lra|]. pose proof (found_nonneg D k). lra. Qed.
Lemma dget_cons (D : dict T Q) k0 x k : dget ((k0, x) :: D) k = if eq_dec k k0 then Some x else dget D k.
Proof. cbn [dget]. unfold eqb. destruct (eq_dec k k0), (eq_dec k0 k); congruence. Qed.
Lemma found_cons_other D k0 x ks : ~ In k0 ks -> found_all ((k0, x) :: D) ks == found_all D ks.
Proof.
  induction ks as [|k ks IH]; cbn [found_all In]; intros N; [reflexivity|]. rewrite IH by tauto. unfold found. rewrite dget_cons. destruct (eq_dec k k0); [subst; tauto|reflexivity].
Qed.
Lemma found_cons D k0 x ks : NoDup ks -> found_all ((k0, x) :: D) ks <= x * x + found_all D ks.
Proof.
  induction ks as [|k ks IH]; cbn [found_all]; intros N; [nra|]. inversion N as [|? ? N1 N2]; subst. unfold found at 1. rewrite dget_cons. destruct (eq_dec k k0) as [->|].
  - rewrite found_cons_other by auto. pose proof (found_nonneg D k0). lra.
  - specialize (IH N2). fold (found D k). lra.
Qed.
Lemma found_squares D ks : NoDup ks -> found_all D ks <= squares (map snd D).
Proof.
  intros N. induction D as [|[k0 x] D IH]; cbn [map squares snd].
  - clear N. induction ks as [|k ks IH]; cbn [found_all]; [lra|]. unfold found. cbn [dget]. lra.
  - pose proof (found_cons D k0 x ks N). lra.
Qed.
Lemma Qsquare x : 0 <= x * x.
Proof. destruct (Qlt_le_dec x 0); nra. Qed.
Lemma cross_squares D A : 2 * cross D A <= squares (map snd A) + found_all D (map fst A).
Proof.
  induction A as [|[k w] A IH]; cbn [cross map squares found_all fst snd]; [lra|]. unfold found. destruct (dget D k) as [x|]; [|nra].
  pose proof (Qsquare (w - x)) as B1. pose proof (Qsquare (w + x)) as B2.
  assert (B : 2 * Qabs (w * x) <= w * w + x * x) by (apply (Qabs_case (w * x)); intros _; lra). lra.
Qed.
(** the dot product of two vectors is at most the mean of their squared norms, but for rounding *)
Lemma dot_bound A B : NoDup (map fst A) -> NoDup (map fst B) ->
  2 * Qabs (dot_float A B) <= qpow (1 + u) (S (Nat.min (length A) (length B))) * (squares (map snd A) + squares (map snd B)).
Proof.
  assert (G : forall A B : dict T Q, NoDup (map fst A) -> 2 * Qabs (fold_left (fun p kv => match dget B (fst kv) with Some w2 => fadd p (fmul (snd kv) w2) | None => p end) A 0) <=
    qpow (1 + u) (S (length A)) * (squares (map snd A) + squares (map snd B))).
  { intros A' B' N. pose proof (dot_fold B' A' 0) as D. change (Qabs 0) with 0 in D. pose proof (cross_squares B' A') as C. pose proof (found_squares B' _ N) as F.
    pose proof (qpow_pos (1 + u) (S (length A')) ltac:(pose proof u_pos; lra)) as P. set (h := qpow (1 + u) (S (length A'))) in *. nra. }
  intros NA NB. unfold dot_float. destruct (Nat.ltb_spec (length B) (length A)).
  - rewrite Nat.min_r by lia. rewrite (Qplus_comm (squares (map snd A))). apply G; auto.
  - rewrite Nat.min_l by lia. apply G; auto.
Qed.
Lemma normalize_keys_of A : ~ norm_float A == 0 -> map fst (normalize_float A) = map fst A.
Proof. intros N. rewrite normalize_some by auto. rewrite map_map. reflexivity. Qed.
Lemma normalize_dot A B n : NoDup (map fst A) -> NoDup (map fst B) -> ~ norm_float A == 0 -> ~ norm_float B == 0 ->
  (length A <= n)%nat -> (length B <= n)%nat -> (Z.of_nat n <= 2 ^ 50)%Z ->
  Qabs (dot_float (normalize_float A) (normalize_float B)) <= 1 + (Qnat n + 12) * pow2 (-51).
Proof.
  intros NA NB ZA ZB LA LB Hn. pose proof (normalize_unit A ZA ltac:(lia)) as UA. pose proof (normalize_unit B ZB ltac:(lia)) as UB.
  pose proof (dot_bound (normalize_float A) (normalize_float B)) as D. rewrite !normalize_keys_of, !normalize_length in D by auto. specialize (D NA NB).
  apply Qabs_Qle_condition in UA as [_ UA], UB as [_ UB]. set (x := squares (map snd (normalize_float A))) in *. set (y := squares (map snd (normalize_float B))) in *.
  set (z := Qabs (dot_float (normalize_float A) (normalize_float B))) in *.
  pose proof (proj2 (Qnat_le _ _) LA) as QA. pose proof (proj2 (Qnat_le _ _) LB) as QB. pose proof (small_error n Hn) as Sm. set (k := S (Nat.min (length A) (length B))) in *.
  assert (K : (k <= n + 1)%nat) by (unfold k; lia). apply (proj2 (Qnat_le _ _)) in K. rewrite Qnat_plus in K. change (Qnat 1) with 1 in K.
  pose proof (bernoulli k) as Be. pose proof (qpow_inverse k) as Iv. pose proof u_pos as U0. assert (H0 : 0 < qpow (1 + u) k) by (apply qpow_pos; lra). assert (L0 : 0 < qpow (1 - u) k) by (apply qpow_pos; reflexivity).
  assert (U52 : pow2 (-52) == 2 * u) by reflexivity. assert (U51 : pow2 (-51) == 4 * u) by reflexivity. rewrite U52 in UA, UB. rewrite U51. clear U52 U51.
  assert (US : u * 1000000 < 1) by reflexivity. pose proof (Qnat_0 n) as n0.
  set (h := qpow (1 + u) k) in *. set (l := qpow (1 - u) k) in *. clearbody h l k x y z. set (m := Qnat n) in *. set (d := (m + 12) * (2 * u)).
  assert (D0 : 0 <= d) by (unfold d; nra). assert (D1 : d <= 1 # 2) by (unfold d; lra).
  assert (A1 : x <= 1 + d). { assert ((Qnat (length A) + 12) * (2 * u) <= d) by (apply Qmult_le_compat_r; lra). lra. }
  assert (B1 : y <= 1 + d). { assert ((Qnat (length B) + 12) * (2 * u) <= d) by (apply Qmult_le_compat_r; lra). lra. }
  assert (E : Qnat k * u <= d * (1 # 2)). { assert (Qnat k * u <= (m + 1) * u) by (apply Qmult_le_compat_r; lra). unfold d. lra. }
  assert (E1 : (m + 12) * (4 * u) == 2 * d) by (unfold d; ring). rewrite E1. clearbody d. clear Sm QA QB LA LB K UA UB.
  assert (Lb : 1 - d * (1 # 2) <= l) by lra. assert (Z : z <= h * (1 + d)). { assert (h * (x + y) <= h * (2 * (1 + d))) by (rewrite !(Qmult_comm h); apply Qmult_le_compat_r; lra). lra. }
  assert (Z2 : z * l <= 1 + d). { assert (z * l <= h * (1 + d) * l) by (apply Qmult_le_compat_r; lra). assert ((1 + d) * (l * h) <= (1 + d) * 1) by (rewrite !(Qmult_comm (1 + d)); apply Qmult_le_compat_r; lra). lra. }
  apply Qnot_lt_le. intros C. assert (C2 : (1 + 2 * d) * (1 - d * (1 # 2)) < z * l).
  { assert ((1 + 2 * d) * (1 - d * (1 # 2)) <= (1 + 2 * d) * l) by (rewrite !(Qmult_comm (1 + 2 * d)); apply Qmult_le_compat_r; lra). nra. }
  nra.
Qed.

(** ** Int weights *)
Lemma zsum_from ws : forall s, fold_left (fun s w => s + w * w)%Z ws s = (s + zsquares ws)%Z.
Proof. induction ws as [|w ws IH]; intros s; cbn [fold_left zsquares]; [lia|]. rewrite IH. lia. Qed.
Lemma zsquares_nonneg ws : (0 <= zsquares ws)%Z.
Proof. induction ws as [|w ws IH]; cbn [zsquares]; nia. Qed.
Lemma zsquares_perm l l' : Permutation l l' -> zsquares l = zsquares l'.
Proof. induction 1; cbn [zsquares]; lia. Qed.
Lemma norm_int_value (A : dict T Z) : norm_int A = fsqrt (fl (inject_Z (zsquares (map snd A)))).
Proof. unfold norm_int. rewrite zsum_from. reflexivity. Qed.
Lemma norm_int_rounds (A : dict T Z) : (zsquares (map snd A) <= 2 ^ 53)%Z -> (0 < zsquares (map snd A))%Z -> rounds_sqrt (inject_Z (zsquares (map snd A))) (norm_int A).
Proof.
  intros B P. rewrite norm_int_value. assert (E : fl (inject_Z (zsquares (map snd A))) == inject_Z (zsquares (map snd A))) by (apply fl_Z; lia).
  assert (Q : 0 < fl (inject_Z (zsquares (map snd A)))) by (rewrite E; change 0 with (inject_Z 0); rewrite <- Zlt_Qlt; exact P).
  pose proof (fsqrt_rounds _ Q) as R. revert R. generalize (fsqrt (fl (inject_Z (zsquares (map snd A))))). intros r (R1 & R2 & R3 & R4). split; [auto|]. split; [auto|]. split.
  - intros y F Y0 Y. rewrite <- E. auto.
  - intros y F Y. rewrite <- E. auto.
Qed.
Lemma norm_int_perm (A B : dict T Z) : Permutation A B -> norm_int A = norm_int B.
Proof. intros P. rewrite !norm_int_value, (zsquares_perm (map snd A) (map snd B)); [reflexivity|]. apply Permutation_map. exact P. Qed.
Lemma normalize_int_perm (A B : dict T Z) : Permutation A B -> Permutation (normalize_int A) (normalize_int B).
Proof. intros P. unfold normalize_int. rewrite (norm_int_perm A B P). destruct (Qeq_bool _ 0); [constructor|]. apply Permutation_map. exact P. Qed.
(** with small ints nothing is rounded in the sum: ints and floats of the same values give the same *)
Lemma sumsq_int ws : forall s, (0 <= s)%Z -> (s + zsquares ws <= 2 ^ 53)%Z ->
  fold_left (fun s w => fadd s (fmul w w)) (map inject_Z ws) (inject_Z s) == inject_Z (s + zsquares ws).
Proof.
  induction ws as [|w ws IH]; intros s S0 B; cbn [map fold_left zsquares] in *; [rewrite Z.add_0_r; reflexivity|]. pose proof (zsquares_nonneg ws) as Z0.
  assert (E : fadd (inject_Z s) (fmul (inject_Z w) (inject_Z w)) == inject_Z (s + w * w)).
  { unfold fadd, fmul. rewrite <- inject_Z_mult, fl_Z, <- inject_Z_plus, fl_Z by nia. reflexivity. }
  rewrite (sumsq_comp _ _ _ E), IH by nia. rewrite Z.add_assoc. reflexivity.
Qed.
Lemma norm_int_float (A : dict T Z) : (zsquares (map snd A) <= 2 ^ 53)%Z -> norm_int A == norm_float (as_floats A).
Proof.
  intros B. rewrite norm_int_value. unfold norm_float, as_floats, dvalues. rewrite map_map. cbn [snd]. rewrite <- (map_map snd inject_Z).
  change 0 with (inject_Z 0). rewrite (sumsq_int (map snd A) 0) by lia. pose proof (zsquares_nonneg (map snd A)). rewrite fl_Z by lia. reflexivity.
Qed.
Lemma zsquares_each ws w : In w ws -> (w * w <= zsquares ws)%Z.
Proof. induction ws as [|x ws IH]; cbn [In zsquares]; [intros []|]. pose proof (zsquares_nonneg ws). intros [<-|Hin]; [lia|]. specialize (IH Hin). nia. Qed.
Lemma normalize_int_float (A : dict T Z) : (zsquares (map snd A) <= 2 ^ 53)%Z -> pointwise Qeq (normalize_int A) (normalize_float (as_floats A)).
Proof.
  intros B. pose proof (norm_int_float A B) as E. assert (S : forall k w, In (k, w) A -> (Z.abs w <= 2 ^ 53)%Z).
  { intros k w Hin. pose proof (zsquares_each (map snd A) w (in_map snd _ _ Hin)). nia. }
  unfold normalize_int. destruct (Qeq_bool _ 0) eqn:Z.
  - apply Qeq_bool_iff in Z. rewrite normalize_none by (rewrite <- E; exact Z). constructor.
  - apply Qeq_bool_neq in Z. rewrite normalize_some by (rewrite <- E; exact Z). 
    revert E. generalize (norm_int A), (norm_float (as_floats A)). clear B Z. intros L M E. unfold as_floats. rewrite map_map. cbn [fst snd]. unfold fdiv. unfold pointwise. induction A as [|[k w] A IH]; constructor; cbn [fst snd].
    + split; [reflexivity|]. apply fl_comp. rewrite E, fl_Z by (apply (S k); left; reflexivity). reflexivity.
    + apply IH. intros k' w' Hin. apply (S k'). right. exact Hin.
Qed.
End More.
