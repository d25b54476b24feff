From Coq Require Import String QArith Qround Qpower Qreals Reals Lqa Lra DecimalString DecimalN DecimalFacts Relations.
From Verif Require Import Base BaseFacts LevModel LevProofs PairwiseModel PairwiseProofs MetricsModel MetricsSpec MetricsProofs ClustersModel ClustersSpec ClustersProofs
  BlockingSpec BlockingProofs StringsModel MinHashModel MinHashSpec MinHashProofs.
Open Scope nat_scope.
Open Scope list_scope.
Notation length := List.length.
Notation concat := List.concat.

(** ** the keys of bands *)
Lemma codes_inj s : forall s', codes s = codes s' -> s = s'.
Proof.
  induction s as [|a s IH]; intros [|a' s'] E; cbn in E; try discriminate E; [reflexivity|]. injection E as E1 E2. f_equal; [|apply IH, E2].
  rewrite <- (Ascii.ascii_N_embedding a), <- (Ascii.ascii_N_embedding a'). f_equal. exact E1.
Qed.
Lemma decimal_inj n n' : decimal n = decimal n' -> n = n'.
Proof.
  unfold decimal. intros E. apply codes_inj in E. apply (f_equal NilEmpty.uint_of_string) in E. rewrite !NilEmpty.usu in E. injection E as E.
  apply DecimalN.Unsigned.to_uint_inj. exact E.
Qed.
Lemma decimal_percent n : ~ In 37%N (decimal n).
Proof.
  unfold decimal. induction (N.to_uint n); cbn; [intros []|..]; intros [E|I]; try discriminate E; apply IHu, I.
Qed.

Lemma join_concat l x : fold_left (fun acc y => acc ++ 37%N :: y) l x = x ++ concat (map (cons 37%N) l).
Proof. revert x. induction l as [|y l IH]; intros x; cbn; [symmetry; apply app_nil_r|]. rewrite IH, <- app_assoc. reflexivity. Qed.
Lemma split_at (c : N) x : forall x' r r', ~ In c x -> ~ In c x' -> (r = [] \/ exists z, r = c :: z) -> (r' = [] \/ exists z, r' = c :: z) ->
  x ++ r = x' ++ r' -> x = x' /\ r = r'.
Proof.
  induction x as [|a x IH]; intros [|a' x'] r r' N N' R R' E; cbn in *.
  - auto.
  - exfalso. subst r. destruct R as [R0|[z R0]]; [discriminate R0|]. injection R0 as -> _. apply N'. left. reflexivity.
  - exfalso. subst r'. destruct R' as [R0|[z R0]]; [discriminate R0|]. injection R0 as -> _. apply N. left. reflexivity.
  - injection E as -> E. destruct (IH x' r r') as [-> ->]; auto.
Qed.
Lemma joins_nil_or l : concat (map (cons 37%N) l) = [] \/ exists z, concat (map (cons 37%N) l) = 37%N :: z.
Proof. destruct l; cbn; [left; reflexivity|right; eexists; reflexivity]. Qed.
Lemma percent_join_inj (l l' : list str) : (forall x, In x l \/ In x l' -> ~ In 37%N x) -> l <> [] -> l' <> [] -> percent_join l = percent_join l' -> l = l'.
Proof.
  intros F. destruct l as [|x l], l' as [|x' l']; try contradiction. intros _ _. unfold percent_join. rewrite !join_concat.
  revert x x' l' F. induction l as [|y l IH]; intros x x' l' F E.
  - apply (split_at 37%N) in E; [|apply F; left; left; reflexivity|apply F; right; left; reflexivity|apply joins_nil_or|apply joins_nil_or].
    destruct E as [-> E]. destruct l'; [reflexivity|discriminate E].
  - apply (split_at 37%N) in E; [|apply F; left; left; reflexivity|apply F; right; left; reflexivity|apply joins_nil_or|apply joins_nil_or].
    destruct E as [-> E]. f_equal. destruct l' as [|y' l']; [discriminate E|]. cbn in E. injection E as E. apply IH; [|exact E].
    intros z [Z|Z]; apply F; [left|right]; right; exact Z.
Qed.

Lemma firstn_eq_iff {X} n (l l' : list X) : firstn n l = firstn n l' <-> forall j, j < n -> nth_error l j = nth_error l' j.
Proof.
  revert l l'. induction n as [|n IH]; intros l l'; [cbn; split; [intros _ j Hj; lia|reflexivity]|]. destruct l as [|a l], l' as [|a' l']; cbn [firstn].
  - split; [intros _ j Hj; reflexivity|reflexivity].
  - split; [discriminate|]. intros E. specialize (E 0 ltac:(lia)). discriminate E.
  - split; [discriminate|]. intros E. specialize (E 0 ltac:(lia)). discriminate E.
  - split.
    + intros E. injection E as -> E. intros [|j] Hj; [reflexivity|]. apply (proj1 (IH l l') E). lia.
    + intros E. pose proof (E 0 ltac:(lia)) as E0. injection E0 as ->. f_equal. apply IH. intros j Hj. apply (E (S j)). lia.
Qed.
Lemma nth_error_skipn {X} k : forall (l : list X) j, nth_error (skipn k l) j = nth_error l (k + j).
Proof. induction k as [|k IH]; intros l j; [reflexivity|]. destruct l; cbn; [destruct j; reflexivity|apply IH]. Qed.
Lemma slice_eq_iff {X} i n (l l' : list X) : slice i (i + n) l = slice i (i + n) l' <-> forall j, i <= j < i + n -> nth_error l j = nth_error l' j.
Proof.
  unfold slice. replace (i + n - i) with n by lia. rewrite firstn_eq_iff. split; intros E j Hj.
  - specialize (E (j - i) ltac:(lia)). rewrite !nth_error_skipn in E. replace (i + (j - i)) with j in E by lia. exact E.
  - rewrite !nth_error_skipn. apply E. lia.
Qed.

Lemma map_inj {X Y} (f : X -> Y) : (forall a b, f a = f b -> a = b) -> forall l l', map f l = map f l' -> l = l'.
Proof. intros F. induction l as [|a l IH]; intros [|b l'] E; cbn in E; try discriminate E; [reflexivity|]. injection E as E1 E2. f_equal; [apply F, E1|apply IH, E2]. Qed.

Lemma slice_len {X} i n (l : list X) : i + n <= length l -> length (slice i (i + n) l) = n.
Proof. intros L. unfold slice. rewrite firstn_length, skipn_length. lia. Qed.

Lemma band_key_eq s s' rows band : 0 < rows -> band + rows <= length s -> band + rows <= length s' ->
  (band_key s rows band = band_key s' rows band <-> forall j, band <= j < band + rows -> nth_error s j = nth_error s' j).
Proof.
  intros R L L'. rewrite <- slice_eq_iff. unfold band_key. split; [|intros ->; reflexivity]. intros E. injection E as E.
  assert (NE : forall t, band + rows <= length t -> map decimal (slice band (band + rows) t) <> []).
  { intros t Lt Z. apply (f_equal (@length _)) in Z. rewrite map_length, slice_len in Z by exact Lt. cbn in Z. lia. }
  apply percent_join_inj in E; [|intros x [I|I]; apply in_map_iff in I; destruct I as [n [<- _]]; apply decimal_percent|apply NE, L|apply NE, L'].
  apply map_inj in E; [exact E|apply decimal_inj].
Qed.

Section Clustering.
Context {A T : Type} `{EqDec A} `{EqDec T}.
Variable crc32 : T -> N.
Variable letter : N -> T.
Variable token_order : list N -> list N.
Hypothesis token_order_perm : forall l, Permutation (token_order l) l.
Variable set_order : list A -> list A.
Hypothesis set_order_perm : forall l, Permutation (set_order l) l.
Variable key : A -> sequence T.
Variable same : A -> A -> bool.
Variable params : list (N * N).
Variable h : nat.
Hypothesis params_len : h <= length params.

Definition sig (x : A) : list N := map (slot crc32 token_order params (key x)) (seq 0 h).
Lemma sig_eq x : create_signature crc32 token_order params h (key x) = Ok (sig x).
Proof. apply create_signature_eq; [exact token_order_perm|exact params_len]. Qed.
Lemma sig_len x : length (sig x) = h.
Proof. unfold sig. rewrite map_length, seq_length. reflexivity. Qed.

Definition item_keys (bands rows : nat) (x : A) : list (nat * str) := map (band_key (sig x) rows) (band_starts bands rows).
Lemma fill_buckets_eq bands rows data d : 0 < rows -> fill_buckets crc32 token_order key params h bands rows data d = Ok (collect (item_keys bands rows) data d).
Proof.
  intros R. revert d. induction data as [|x data IH]; intros d; cbn [fill_buckets]; [reflexivity|]. rewrite sig_eq. cbn [bind].
  destruct (Nat.eqb_spec rows 0); [lia|]. rewrite IH. unfold collect at 2. cbn [fold_left].
  f_equal. unfold collect. f_equal. clear. unfold item_keys. generalize (band_starts bands rows). intros l. revert d. induction l as [|b l IH]; intros d; cbn; [reflexivity|apply IH].
Qed.
Lemma item_keys_NoDup bands rows x : 0 < rows -> NoDup (item_keys bands rows x).
Proof.
  intros R. unfold item_keys, band_starts. rewrite map_map. apply FinFun.Injective_map_NoDup; [|apply seq_NoDup].
  intros a b E. injection E as E _. nia.
Qed.
Lemma shared_key bands rows x y : 0 < rows -> bands * rows <= h ->
  (exists k, In k (item_keys bands rows x) /\ In k (item_keys bands rows y)) <-> share_band bands rows (sig x) (sig y).
Proof.
  intros R L. unfold item_keys, band_starts, share_band. rewrite !map_map. split.
  - intros [k [Hx Hy]]. apply in_map_iff in Hx, Hy. destruct Hx as [i [<- Hi]], Hy as [i' [E Hi']]. apply in_seq in Hi, Hi'.
    assert (i' = i) as -> by (injection E as E _; nia). exists i. split; [lia|]. symmetry in E. rewrite band_key_eq in E; [|exact R|rewrite sig_len; nia|rewrite sig_len; nia].
    intros j Hj. apply E. lia.
  - intros [i [Hi E]]. exists (band_key (sig x) rows (i * rows)). split; apply in_map_iff; exists i; (split; [|apply in_seq; lia]).
    + reflexivity.
    + symmetry. apply band_key_eq; [exact R|rewrite sig_len; nia|rewrite sig_len; nia|]. intros j Hj. apply E. lia.
Qed.

Definition minhash_link (bands rows : nat) (radius : Q) (data : list A) (x y : A) : Prop :=
  precedes data x y /\ share_band bands rows (sig x) (sig y) /\ double_check letter key same radius x y = true.

Lemma buckets_link bands rows radius data x y : 0 < rows -> bands * rows <= h ->
  bucket_link (dvalues (collect (item_keys bands rows) data [])) (Some (double_check letter key same radius)) x y <-> minhash_link bands rows radius data x y.
Proof.
  intros R L. unfold bucket_link, minhash_link. rewrite collect_values, <- shared_key by assumption.
  assert (ND : forall x, NoDup (item_keys bands rows x)) by (intros z; apply item_keys_NoDup, R).
  split.
  - intros [[b [l1 [l2 [l3 [Hb E]]]]] D]. apply in_map_iff in Hb. destruct Hb as [k [<- Hk]]. rewrite bucket_NoDup in E by exact ND.
    assert (P : precedes (filter (fun x => memb k (item_keys bands rows x)) data) x y) by (exists l1, l2, l3; exact E).
    apply before_filter in P. destruct P as [P [P1 P2]]. rewrite memb_true in P1, P2. eauto.
  - intros [P [[k [K1 K2]] D]]. split; [|exact D].
    assert (P' : precedes (bucket (item_keys bands rows) data k) x y) by (rewrite bucket_NoDup by exact ND; apply before_filter; rewrite !memb_true; auto).
    destruct P' as [l1 [l2 [l3 E]]]. exists (bucket (item_keys bands rows) data k), l1, l2, l3. split; [|exact E].
    apply in_map. rewrite set_of_In, in_flat_map. exists x. split; [|exact K1]. destruct P as [m1 [m2 [m3 ->]]]. apply in_or_app. right. left. reflexivity.
Qed.

Lemma minhash_components data radius bands : let b := match bands with Some b => b | None => guess_bands h radius end in
  0 < b <= h ->
  exists out, minhash crc32 letter token_order set_order key same params data h radius bands = Ok out /\
    is_components (fun x => exists y, minhash_link b (h / b) radius data x y \/ minhash_link b (h / b) radius data y x)
      (minhash_link b (h / b) radius data) 2 None out.
Proof.
  intros b Hb. unfold minhash. fold b. destruct (Nat.eqb_spec b 0); [lia|].
  assert (R : 0 < h / b) by (apply Nat.div_str_pos; lia).
  assert (L : b * (h / b) <= h) by (apply Nat.mul_div_le; lia).
  rewrite fill_buckets_eq by exact R. cbn [bind].
  destruct (clusters_from_buckets_components set_order set_order_perm (dvalues (collect (item_keys b (h / b)) data [])) 2 None (Some (double_check letter key same radius)) false) as [out [E C]].
  exists out. split; [exact E|]. eapply is_components_ext; [| |exact C].
  - intros x. split; intros [y Y]; exists y; rewrite !buckets_link in * by assumption; exact Y.
  - intros x y. split; apply conn_mono; intros u v U; apply rst_step; apply (buckets_link b (h / b) radius data u v R L); exact U.
Qed.

Lemma minhash_fails x data radius bands : let b := match bands with Some b => b | None => guess_bands h radius end in
  h < b -> minhash crc32 letter token_order set_order key same params (x :: data) h radius bands = Err ValueError.
Proof.
  intros b Hb. unfold minhash. fold b. destruct (Nat.eqb_spec b 0); [lia|]. rewrite (Nat.div_small h b) by exact Hb.
  cbn [fill_buckets]. rewrite sig_eq. reflexivity.
Qed.
Lemma minhash_no_bands data radius : minhash crc32 letter token_order set_order key same params data h radius (Some 0) = Err ZeroDivisionError.
Proof. reflexivity. Qed.
End Clustering.

(** ** the number of bands *)
Lemma guess_loop_spec h t : forall turns b, turns + b = S h -> let g := guess_loop turns h b t in
  b <= g <= S h /\ (g <= h -> threshold_met h g t = true) /\ forall c, b <= c < g -> threshold_met h c t = false.
Proof.
  induction turns as [|turns IH]; intros b E; cbn [guess_loop].
  - cbn zeta. split; [lia|]. split; [lia|]. intros c Hc. lia.
  - destruct (threshold_met h b t) eqn:M; cbn zeta.
    + split; [lia|]. split; [intros _; exact M|]. intros c Hc. lia.
    + destruct (IH (S b) ltac:(lia)) as [B [M1 F]]. cbn zeta in *. split; [lia|]. split; [exact M1|]. intros c Hc.
      destruct (Nat.eq_dec c b) as [->|]; [exact M|]. apply F. lia.
Qed.

Lemma Qpow_S q n : ~ (q == 0)%Q -> (q ^ Z.of_nat (S n) == q * q ^ Z.of_nat n)%Q.
Proof.
  intros N. rewrite Nat2Z.inj_succ. unfold Z.succ. rewrite Qpower_plus by exact N. rewrite Qmult_comm. reflexivity.
Qed.
Lemma Q2R_pow q n : ~ (q == 0)%Q -> Q2R (q ^ Z.of_nat n) = (Q2R q ^ n)%R.
Proof.
  intros N. induction n as [|n IH]; [cbn; unfold Q2R; cbn; lra|]. rewrite (Qeq_eqR _ _ (Qpow_S q n N)), Q2R_mult, IH. reflexivity.
Qed.
Lemma Q2R_Qnat n : Q2R (Qnat n) = INR n.
Proof. unfold Qnat, Q2R, inject_Z. cbn [Qnum Qden]. rewrite <- INR_IZR_INZ. lra. Qed.
Lemma Qnat_pos n : 0 < n -> (0 < Qnat n)%Q.
Proof. intros L. unfold Qnat. change 0%Q with (inject_Z 0). rewrite <- Zlt_Qlt. lia. Qed.

Lemma threshold_met_pow h b t : 0 < b -> threshold_met h b t = true <-> (0 < t)%Q /\ (1 <= Q2R t ^ h * INR b ^ b)%R.
Proof.
  intros Hb. unfold threshold_met. rewrite andb_true_iff, negb_true_iff. pose proof (Qnat_pos b Hb) as Pb.
  assert (E : Qle_bool t 0 = false <-> (0 < t)%Q).
  { split; intros E; [apply Qnot_le_lt; intros L; apply Qle_bool_iff in L; congruence|]. apply not_true_is_false. intros L. apply Qle_bool_iff in L. Lqa.lra. }
  assert (Nb : ~ (Qnat b == 0)%Q) by (intros Z; Lqa.lra).
  rewrite E, Qle_bool_iff. split; intros [P L]; (split; [exact P|]); assert (Nt : ~ (t == 0)%Q) by (intros Z; Lqa.lra).
  - apply Qle_Rle in L. rewrite Q2R_mult, !Q2R_pow, Q2R_Qnat in L by assumption. replace (Q2R 1) with 1%R in L by (unfold Q2R; cbn; lra). exact L.
  - apply Rle_Qle. rewrite Q2R_mult, !Q2R_pow, Q2R_Qnat by assumption. replace (Q2R 1) with 1%R by (unfold Q2R; cbn; lra). exact L.
Qed.

Lemma threshold_met_real h b t : 0 < h -> 0 < b -> threshold_met h b t = true <-> (real_threshold h b <= Q2R t)%R.
Proof.
  intros Hh Hb. rewrite threshold_met_pow by exact Hb. unfold real_threshold.
  assert (PH : (0 < INR h)%R) by (apply lt_0_INR; exact Hh). assert (PB : (0 < INR b)%R) by (apply lt_0_INR; exact Hb).
  set (H := INR h) in *. set (B := INR b) in *.
  assert (EX : Rpower (1 / B) (1 / (H / B)) = exp (- (B * ln B) / H)).
  { unfold Rpower. f_equal. replace (ln (1 / B)) with (- ln B)%R by (unfold Rdiv; rewrite Rmult_1_l; symmetry; apply ln_Rinv; exact PB). field. split; lra. }
  rewrite EX.
  assert (K : (0 < Q2R t)%R -> ((1 <= Q2R t ^ h * B ^ b)%R <-> (exp (- (B * ln B) / H) <= Q2R t)%R)).
  { intros P. set (x := Q2R t) in *.
    assert (L1 : (x ^ h * B ^ b)%R = exp (H * ln x + B * ln B)).
    { rewrite exp_plus. f_equal.
      - rewrite <- (Rpower_pow h x P). reflexivity.
      - rewrite <- (Rpower_pow b B PB). reflexivity. }
    rewrite L1. rewrite <- exp_0 at 1. rewrite <- (exp_ln x P) at 2. split; intros L.
    - assert (L2 : (0 <= H * ln x + B * ln B)%R) by (apply Rnot_lt_le; intros F; apply exp_increasing in F; lra).
      assert (L3 : (- (B * ln B) / H <= ln x)%R).
      { apply (Rmult_le_reg_l H); [exact PH|]. replace (H * (- (B * ln B) / H))%R with (- (B * ln B))%R by (field; lra). lra. }
      destruct L3 as [L3|L3]; [left; apply exp_increasing; exact L3|right; rewrite L3; reflexivity].
    - assert (L3 : (- (B * ln B) / H <= ln x)%R) by (apply Rnot_lt_le; intros F; apply exp_increasing in F; lra).
      assert (L2 : (0 <= H * ln x + B * ln B)%R).
      { apply (Rmult_le_compat_l H) in L3; [|lra]. replace (H * (- (B * ln B) / H))%R with (- (B * ln B))%R in L3 by (field; lra). lra. }
      destruct L2 as [L2|L2]; [left; apply exp_increasing; exact L2|right; rewrite <- L2; reflexivity]. }
  split.
  - intros [P L]. apply K; [|exact L]. replace 0%R with (Q2R 0) by (unfold Q2R; cbn; lra). apply Qlt_Rlt, P.
  - intros L. assert (P : (0 < Q2R t)%R) by (pose proof (exp_pos (- (B * ln B) / H)); lra).
    split; [|apply K; assumption]. apply Rlt_Qlt. replace (Q2R 0) with 0%R by (unfold Q2R; cbn; lra). exact P.
Qed.

Lemma pow_self_mono b h : 0 < b <= h -> (INR b ^ b <= INR h ^ h)%R.
Proof.
  intros [P L]. assert (B1 : (1 <= INR b)%R) by (change 1%R with (INR 1); apply le_INR; exact P).
  assert (BH : (INR b <= INR h)%R) by (apply le_INR; exact L).
  apply Rle_trans with (INR b ^ h)%R; [apply Rle_pow; assumption|]. apply pow_incr. lra.
Qed.
Lemma threshold_last h t : 0 < h -> threshold_met h h t = true <-> (1 <= t * Qnat h)%Q.
Proof.
  intros Hh. rewrite threshold_met_pow by exact Hh. rewrite <- Rpow_mult_distr. pose proof (Qnat_pos h Hh) as Ph.
  assert (E : (Q2R t * INR h)%R = Q2R (t * Qnat h)) by (rewrite Q2R_mult, Q2R_Qnat; reflexivity). rewrite E.
  assert (O : Q2R 1 = 1%R) by (unfold Q2R; cbn; lra). split.
  - intros [P L]. apply Rle_Qle. rewrite O. apply Rnot_lt_le. intros F.
    assert (G : (0 <= Q2R (t * Qnat h))%R) by (replace 0%R with (Q2R 0) by (unfold Q2R; cbn; lra); apply Qle_Rle; apply Qmult_le_0_compat; Lqa.lra).
    assert (Q2R (t * Qnat h) ^ h < 1)%R; [|lra]. destruct h as [|h]; [lia|]. apply pow_lt_1_compat; [split; lra|lia].
  - intros L. split.
    + destruct (Qlt_le_dec 0 t) as [P|P]; [exact P|]. exfalso. assert (t * Qnat h <= 0)%Q; [|Lqa.lra].
      setoid_replace (t * Qnat h)%Q with (- (- t * Qnat h))%Q by ring. assert (0 <= - t * Qnat h)%Q by (apply Qmult_le_0_compat; Lqa.lra). Lqa.lra.
    + apply Qle_Rle in L. rewrite O in L. apply pow_R1_Rle. exact L.
Qed.
Lemma guess_bands_last h t : 0 < h -> guess_bands h t <= h <-> (1 <= t * Qnat h)%Q.
Proof.
  intros Hh. destruct (guess_loop_spec h t h 1 ltac:(lia)) as [B [M F]]. fold (guess_bands h t) in *. rewrite <- threshold_last by exact Hh. split.
  - intros L. specialize (M L). rewrite threshold_met_pow in * by lia. destruct M as [P M]. split; [exact P|].
    eapply Rle_trans; [exact M|]. apply Rmult_le_compat_l; [apply pow_le; replace 0%R with (Q2R 0) by (unfold Q2R; cbn; lra); apply Qle_Rle; Lqa.lra|]. apply pow_self_mono. lia.
  - intros L. destruct (Nat.le_gt_cases (guess_bands h t) h) as [G|G]; [exact G|]. rewrite F in L by lia. discriminate L.
Qed.

(** ** the double check *)
Lemma double_check_spec {A T} `{EqDec T} (letter : N -> T) (key : A -> sequence T) (same : A -> A -> bool) radius x y : (0 < radius)%Q ->
  coherent (same x y) (elements letter (key x)) (elements letter (key y)) ->
  double_check letter key same radius x y = true <->
  (exists q, jaccard_is (elements letter (key x)) (elements letter (key y)) q /\ (radius <= q)%Q) \/
  (elements letter (key x) = [] /\ elements letter (key y) = [] /\ same x y = true /\ (radius <= 1)%Q).
Proof.
  intros P C. unfold double_check. set (a := elements letter (key x)) in *. set (b := elements letter (key y)) in *. rewrite Qle_bool_iff.
  pose proof (union_card a b) as U. set (u := _ - _) in U. destruct (Nat.eq_dec u 0) as [Z|NZ].
  - assert (E : forall z, ~ (In z a \/ In z b)).
    { destruct U as [l [_ [L1 L2]]]. rewrite Z in L2. destruct l; [|discriminate L2]. intros z Hz. apply L1 in Hz. exact Hz. }
    assert (Ea : a = []) by (destruct a as [|z a']; [reflexivity|exfalso; apply (E z); left; left; reflexivity]).
    assert (Eb : b = []) by (destruct b as [|z b']; [reflexivity|exfalso; apply (E z); right; left; reflexivity]).
    split.
    + intros L. right. repeat split; auto; destruct (same x y); [reflexivity| |exact L|]; exfalso; rewrite Ea, Eb in L; cbn in L; Lqa.lra.
    + intros [[q [[i [u' [_ [Cu [Nu _]]]]] _]]|[_ [_ [-> L]]]]; [|exact L]. exfalso. apply Nu. eapply card_unique; [exact Cu|]. rewrite <- Z. exact U.
  - pose proof (inter_card a b) as I. set (i := count_in _ _) in I. rewrite (jaccard_correct _ a b i u C I U NZ). split.
    + intros L. left. exists (Qnat i / Qnat u)%Q. split; [|exact L]. exists i, u. auto.
    + intros [[q [[i' [u' [Ci [Cu [Nu ->]]]]] L]]|[Ea [Eb _]]].
      * rewrite (card_unique _ _ _ I Ci), (card_unique _ _ _ U Cu). exact L.
      * exfalso. apply NZ. eapply card_unique; [exact U|]. exists []. split; [constructor|]. split; [|reflexivity]. rewrite Ea, Eb. intros z. cbn. tauto.
Qed.

Lemma same_tokens_shared {A T} (crc32 : T -> N) (token_order : list N -> list N) (key : A -> sequence T) params h bands rows x y :
  (forall l, Permutation (token_order l) l) -> (forall t, In t (numbers crc32 (key x)) <-> In t (numbers crc32 (key y))) -> 0 < bands ->
  sig crc32 token_order key params h x = sig crc32 token_order key params h y /\
  share_band bands rows (sig crc32 token_order key params h x) (sig crc32 token_order key params h y).
Proof.
  intros P E B. assert (S : sig crc32 token_order key params h x = sig crc32 token_order key params h y).
  { unfold sig. apply map_ext. intros s. apply slot_set; assumption. }
  split; [exact S|]. rewrite S. exists 0. split; [exact B|reflexivity].
Qed.
