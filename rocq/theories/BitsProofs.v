From Coq Require Import NArith Nnat QArith Lqa.
From Verif Require Import Base BaseFacts LevModel LevProofs BitsModel BitsSpec.
Open Scope N_scope.
Open Scope list_scope.

(** ** Counting bits *)
Lemma popcount_double x : popcount (2 * x) = popcount x.
Proof. destruct x; reflexivity. Qed.
Lemma popcount_succ_double x : popcount (2 * x + 1) = 1 + popcount x.
Proof. destruct x; reflexivity. Qed.
Lemma popcount_div2 x : popcount x = N.land x 1 + popcount (N.div2 x).
Proof. destruct x as [|[p|p|]]; reflexivity. Qed.

Lemma bits_set_S w x : bits_set (S w) x = (Nat.b2n (N.odd x) + bits_set w (N.div2 x))%nat.
Proof.
  unfold bits_set. cbn [seq filter]. rewrite <- seq_shift.
  assert (E : forall l, length (filter (N.testbit_nat x) (map S l)) = length (filter (N.testbit_nat (N.div2 x)) l)).
  { induction l as [|i l IH]; [reflexivity|]. cbn [map filter].
    assert (T : N.testbit_nat x (S i) = N.testbit_nat (N.div2 x) i) by (destruct x as [|[p|p|]]; reflexivity). rewrite T.
    destruct (N.testbit_nat (N.div2 x) i); cbn [length]; rewrite IH; reflexivity. }
  assert (T : N.testbit_nat x 0 = N.odd x) by (destruct x as [|[p|p|]]; reflexivity). rewrite T.
  destruct (N.odd x); cbn [length Nat.b2n]; rewrite E; reflexivity.
Qed.

Lemma popcount_bits w : forall x, x < 2 ^ N.of_nat w -> popcount x = N.of_nat (bits_set w x).
Proof.
  induction w as [|w IH]; intros x Hx.
  - change (2 ^ N.of_nat 0) with 1 in Hx. assert (x = 0) by lia. subst. reflexivity.
  - rewrite bits_set_S, Nat2N.inj_add, <- IH.
    + rewrite popcount_div2. f_equal. destruct x as [|[p|p|]]; reflexivity.
    + rewrite N.div2_div. apply N.div_lt_upper_bound; [lia|]. rewrite Nat2N.inj_succ, N.pow_succ_r' in Hx. exact Hx.
Qed.

(** ** The table *)
Lemma table_ok size : forall m, (m <= size)%nat ->
  let t := fold_left (fun table i => upd table i (N.land (N.of_nat i) 1 + nth (Nat.div2 i) table 0)) (seq 0 m) (repeat 0 size) in
  length t = size /\ forall i, (i < m)%nat -> nth i t 0 = popcount (N.of_nat i).
Proof.
  induction m as [|m IH]; intros Hm; cbn zeta in *.
  - cbn [seq fold_left]. rewrite repeat_length. split; [reflexivity|]. intros. lia.
  - rewrite seq_S, fold_left_app. cbn [fold_left plus]. destruct IH as [L K]; [lia|].
    set (t := fold_left _ (seq 0 m) (repeat 0 size)) in *. split; [rewrite upd_length; exact L|]. intros i Hi. rewrite nth_upd.
    destruct (Nat.eqb_spec i m) as [->|Hne]; cbn [andb]; [|apply K; lia]. destruct (Nat.ltb_spec m (length t)); [|lia].
    rewrite (popcount_div2 (N.of_nat m)). f_equal. rewrite <- Nat2N.inj_div2. destruct m as [|m].
    + assert (E : nth 0 (repeat 0 size) 0 = 0) by (destruct size; reflexivity). exact E.
    + apply K. apply Nat.lt_div2. lia.
Qed.
Lemma table16_ok x : x < 2 ^ 16 -> nth (N.to_nat x) POPCOUNT_TABLE16 0 = popcount x.
Proof.
  intros Hx. destruct (table_ok (Nat.pow 2 16) (Nat.pow 2 16) (Nat.le_refl _)) as [_ K]. rewrite <- (N2Nat.id x) at 2. apply K.
  assert (E : N.of_nat (Nat.pow 2 16) = 2 ^ 16) by (rewrite Nat2N.inj_pow; reflexivity). rewrite <- E in Hx.
  apply Nat.compare_lt_iff. rewrite Nat2N.inj_compare, N2Nat.id. exact Hx.
Qed.

(** ** Digits *)
Definition num (b : N) (ds : list N) : N := fold_right (fun d acc => d + b * acc) 0 ds.
Definition sum (ds : list N) : N := fold_right N.add 0 ds.
Definition small (m : N) (ds : list N) : Prop := Forall (fun d => d <= m) ds.

Lemma testbit_split w a b n : a < 2 ^ w -> N.testbit (a + 2 ^ w * b) n = if n <? w then N.testbit a n else N.testbit b (n - w).
Proof.
  intros Ha. assert (P : 2 ^ w <> 0) by (apply N.pow_nonzero; lia). destruct (N.ltb_spec n w) as [Hn|Hn].
  - rewrite <- (N.mod_pow2_bits_low (a + 2 ^ w * b) w n Hn). f_equal. rewrite N.mul_comm, N.mod_add by assumption. apply N.mod_small. assumption.
  - replace n with (n - w + w) at 1 by lia. rewrite <- N.div_pow2_bits. f_equal. rewrite N.mul_comm, N.div_add by assumption. rewrite N.div_small by assumption. reflexivity.
Qed.
Lemma land_split w a b c d : a < 2 ^ w -> c < 2 ^ w -> N.land (a + 2 ^ w * b) (c + 2 ^ w * d) = N.land a c + 2 ^ w * N.land b d.
Proof.
  intros Ha Hc. apply N.bits_inj. intros n. rewrite N.land_spec, !testbit_split by assumption.
  assert (L : N.land a c < 2 ^ w).
  { assert (E : N.land a c = N.land a c mod 2 ^ w). { rewrite <- N.land_ones, <- N.land_assoc, (N.land_ones c w), (N.mod_small c) by assumption. reflexivity. }
    rewrite E. apply N.mod_lt. apply N.pow_nonzero. lia. }
  rewrite testbit_split by assumption. destruct (n <? w); rewrite N.land_spec; reflexivity.
Qed.

Lemma digits_exist b n : 0 < b -> forall x, x < b ^ N.of_nat n -> exists ds, length ds = n /\ Forall (fun d => d < b) ds /\ x = num b ds.
Proof.
  intros Hb. induction n as [|n IH]; intros x Hx.
  - change (b ^ N.of_nat 0) with 1 in Hx. exists []. repeat split; auto. cbn. lia.
  - rewrite Nat2N.inj_succ, N.pow_succ_r' in Hx. destruct (IH (x / b)) as (ds & L & F & E); [apply N.div_lt_upper_bound; lia|].
    exists (x mod b :: ds). split; [cbn; lia|]. split; [constructor; [apply N.mod_lt; lia|assumption]|]. cbn. fold (num b ds). rewrite <- E.
    rewrite N.add_comm. apply N.div_mod. lia.
Qed.

Definition flat (ps : list (N * N)) : list N := flat_map (fun p => [fst p; snd p]) ps.
Lemma pairs_exist n : forall ds, length ds = (2 * n)%nat -> exists ps, length ps = n /\ ds = flat ps.
Proof.
  induction n as [|n IH]; intros ds L.
  - destruct ds; [|discriminate]. exists []. auto.
  - destruct ds as [|a [|b ds]]; try (cbn in L; lia). destruct (IH ds) as (ps & Lp & E); [cbn in L; lia|]. exists ((a, b) :: ps). split; [cbn; lia|]. rewrite E. reflexivity.
Qed.
Lemma num_flat b ps : num b (flat ps) = num (b * b) (map (fun p => fst p + b * snd p) ps).
Proof.
  induction ps as [|[x y] ps IH]; [reflexivity|]. change (num b (flat ((x, y) :: ps))) with (x + b * (y + b * num b (flat ps))). rewrite IH.
  change (num (b * b) (map (fun p => fst p + b * snd p) ((x, y) :: ps))) with (x + b * y + b * b * num (b * b) (map (fun p => fst p + b * snd p) ps)). ring.
Qed.
Lemma sum_flat ps : sum (flat ps) = sum (map (fun p => fst p + snd p) ps).
Proof.
  induction ps as [|[x y] ps IH]; [reflexivity|]. change (sum (flat ((x, y) :: ps))) with (x + (y + sum (flat ps))). rewrite IH.
  change (sum (map (fun p => fst p + snd p) ((x, y) :: ps))) with (x + y + sum (map (fun p => fst p + snd p) ps)). ring.
Qed.
Lemma Forall_flat (P : N -> Prop) ps : Forall P (flat ps) <-> Forall (fun p => P (fst p) /\ P (snd p)) ps.
Proof.
  induction ps as [|[x y] ps IH]; cbn; split; intros F; try constructor; inversion F as [|? ? F1 F2]; subst; try tauto.
  - inversion F2; subst. cbn. tauto.
  - apply IH. inversion F2; assumption.
  - constructor; [tauto|]. apply IH. assumption.
Qed.

Lemma popcount_num ds : Forall (fun d => d < 4) ds -> popcount (num 4 ds) = sum (map (fun d => d - d / 2) ds).
Proof.
  induction 1 as [|d ds Hd F IH]; [reflexivity|]. change (num 4 (d :: ds)) with (d + 4 * num 4 ds).
  change (sum (map (fun d => d - d / 2) (d :: ds))) with (d - d / 2 + sum (map (fun d => d - d / 2) ds)). rewrite <- IH.
  assert (D : d = 0 \/ d = 1 \/ d = 2 \/ d = 3) by lia. destruct D as [->|[->|[->| ->]]].
  - replace (0 + 4 * num 4 ds) with (2 * (2 * num 4 ds)) by lia. rewrite !popcount_double. reflexivity.
  - replace (1 + 4 * num 4 ds) with (2 * (2 * num 4 ds) + 1) by lia. rewrite popcount_succ_double, popcount_double. reflexivity.
  - replace (2 + 4 * num 4 ds) with (2 * (2 * num 4 ds + 1)) by lia. rewrite popcount_double, popcount_succ_double. reflexivity.
  - replace (3 + 4 * num 4 ds) with (2 * (2 * num 4 ds + 1) + 1) by lia. rewrite !popcount_succ_double. change (3 - 3 / 2) with 2. lia.
Qed.

Lemma step1 ds : Forall (fun d => d < 4) ds ->
  N.land (N.shiftr (num 4 ds) 1) (num 4 (repeat 1 (length ds))) = num 4 (map (fun d => d / 2) ds).
Proof.
  induction 1 as [|d ds Hd F IH]; [reflexivity|]. cbn [length repeat num fold_right map]. fold (num 4 ds) (num 4 (repeat 1 (length ds))) (num 4 (map (fun d => d / 2) ds)).
  rewrite <- IH, !N.shiftr_div_pow2. change (2 ^ 1) with 2. set (y := num 4 ds). set (m := num 4 (repeat 1 (length ds))).
  replace ((d + 4 * y) / 2) with ((d / 2 + 2 * (y mod 2)) + 2 ^ 2 * (y / 2)) by (change (2 ^ 2) with 4; lia). change (1 + 4 * m) with (1 + 2 ^ 2 * m).
  rewrite land_split by (change (2 ^ 2) with 4; lia). change (2 ^ 2) with 4. f_equal. change 1 with (N.ones 1). rewrite N.land_ones. change (2 ^ 1) with 2. lia.
Qed.
Lemma num_sub b ds : num b ds - num b (map (fun d => d / 2) ds) = num b (map (fun d => d - d / 2) ds) /\ num b (map (fun d => d / 2) ds) <= num b ds.
Proof.
  induction ds as [|d ds [IH1 IH2]]; cbn; [lia|]. fold (num b ds) (num b (map (fun d => d / 2) ds)) (num b (map (fun d => d - d / 2) ds)).
  rewrite <- IH1. set (y := num b ds) in *. set (z := num b (map (fun d => d / 2) ds)) in *. rewrite N.mul_sub_distr_l. assert (b * z <= b * y) by (apply N.mul_le_mono_l; assumption).
  assert (d / 2 <= d) by lia. lia.
Qed.

Lemma step2a ps : Forall (fun p => fst p < 4 /\ snd p < 4) ps ->
  N.land (num 16 (map (fun p => fst p + 4 * snd p) ps)) (num 16 (repeat 3 (length ps))) = num 16 (map fst ps).
Proof.
  induction 1 as [|[x y] ps [Hx Hy] F IH]; [reflexivity|]. cbn [length repeat num fold_right map fst snd] in *.
  fold (num 16 (map (fun p => fst p + 4 * snd p) ps)) (num 16 (repeat 3 (length ps))) (num 16 (map fst ps)). rewrite <- IH. change 16 with (2 ^ 4) at 1 2 5.
  rewrite land_split by (change (2 ^ 4) with 16; lia). f_equal. change 3 with (N.ones 2). rewrite N.land_ones. change (2 ^ 2) with 4. lia.
Qed.
Lemma step2b ps : Forall (fun p => fst p < 4 /\ snd p < 4) ps ->
  N.land (N.shiftr (num 16 (map (fun p => fst p + 4 * snd p) ps)) 2) (num 16 (repeat 3 (length ps))) = num 16 (map snd ps).
Proof.
  induction 1 as [|[x y] ps [Hx Hy] F IH]; [reflexivity|]. cbn [length repeat num fold_right map fst snd] in *.
  fold (num 16 (map (fun p => fst p + 4 * snd p) ps)) (num 16 (repeat 3 (length ps))) (num 16 (map snd ps)). rewrite <- IH.
  rewrite !N.shiftr_div_pow2. change (2 ^ 2) with 4. set (z := num 16 (map (fun p => fst p + 4 * snd p) ps)). set (m := num 16 (repeat 3 (length ps))).
  replace ((x + 4 * y + 16 * z) / 4) with ((y + 4 * (z mod 4)) + 2 ^ 4 * (z / 4)) by (change (2 ^ 4) with 16; lia). change (3 + 16 * m) with (3 + 2 ^ 4 * m).
  rewrite land_split by (change (2 ^ 4) with 16; lia). change (2 ^ 4) with 16. f_equal. change 3 with (N.ones 2). rewrite N.land_ones. change (2 ^ 2) with 4. lia.
Qed.
Lemma num_add b ps : num b (map fst ps) + num b (map snd ps) = num b (map (fun p => fst p + snd p) ps).
Proof. induction ps as [|[x y] ps IH]; cbn; [lia|]. unfold num in IH. rewrite <- IH. lia. Qed.

Lemma step3 ps : Forall (fun p => fst p <= 4 /\ snd p <= 4) ps ->
  let y := num 256 (map (fun p => fst p + 16 * snd p) ps) in
  N.land (y + N.shiftr y 4) (num 256 (repeat 15 (length ps))) = num 256 (map (fun p => fst p + snd p) ps).
Proof.
  cbn zeta. induction 1 as [|[a b] ps [Ha Hb] F IH]; [reflexivity|]. cbn [length repeat num fold_right map fst snd] in *.
  fold (num 256 (map (fun p => fst p + 16 * snd p) ps)) (num 256 (repeat 15 (length ps))) (num 256 (map (fun p => fst p + snd p) ps)). rewrite <- IH.
  rewrite !N.shiftr_div_pow2. change (2 ^ 4) with 16. set (z := num 256 (map (fun p => fst p + 16 * snd p) ps)). set (m := num 256 (repeat 15 (length ps))).
  assert (Z : z mod 16 <= 4). { subst z. destruct ps as [|[c d] ps]; [cbn; lia|]. inversion F as [|? ? [Hc Hd] ?]; subst. cbn [map num fold_right fst snd] in *. lia. }
  replace (a + 16 * b + 256 * z + (a + 16 * b + 256 * z) / 16) with ((a + b + 16 * (b + z mod 16)) + 2 ^ 8 * (z + z / 16)) by (change (2 ^ 8) with 256; lia).
  change (15 + 256 * m) with (15 + 2 ^ 8 * m). rewrite land_split by (change (2 ^ 8) with 256; lia). change (2 ^ 8) with 256. f_equal.
  change 15 with (N.ones 4). rewrite N.land_ones. change (2 ^ 4) with 16. lia.
Qed.

Lemma step4 a b c d e f g h : a <= 8 -> b <= 8 -> c <= 8 -> d <= 8 -> e <= 8 -> f <= 8 -> g <= 8 -> h <= 8 ->
  N.shiftr (N.land (num 256 [a; b; c; d; e; f; g; h] * 0x0101010101010101) 0xffffffffffffffff) 56 = a + b + c + d + e + f + g + h.
Proof.
  intros. change 0xffffffffffffffff with (N.ones 64). rewrite N.land_ones, N.shiftr_div_pow2. unfold num. cbn [fold_right].
  set (q := (b + c + d + e + f + g + h) + 256 * ((c + d + e + f + g + h) + 256 * ((d + e + f + g + h) + 256 * ((e + f + g + h) + 256 * ((f + g + h) + 256 * ((g + h) + 256 * h)))))).
  set (r := a + 256 * ((a + b) + 256 * ((a + b + c) + 256 * ((a + b + c + d) + 256 * ((a + b + c + d + e) + 256 * ((a + b + c + d + e + f) + 256 * (a + b + c + d + e + f + g))))))).
  set (X := _ * _). assert (E : X = 2 ^ 64 * q + (2 ^ 56 * (a + b + c + d + e + f + g + h) + r)).
  { subst X q r. change (2 ^ 64) with 0x10000000000000000. change (2 ^ 56) with 0x100000000000000. lia. }
  assert (R : r < 2 ^ 56). { subst r. change (2 ^ 56) with 0x100000000000000. lia. }
  rewrite <- (N.mod_unique X (2 ^ 64) q (2 ^ 56 * (a + b + c + d + e + f + g + h) + r)); [|change (2 ^ 64) with (2 ^ 56 * 256); lia|exact E].
  symmetry. apply (N.div_unique _ _ _ r R). reflexivity.
Qed.

Lemma popcount64_ok x : x < 2 ^ 64 -> popcount64 x = popcount x.
Proof.
  intros Hx. destruct (digits_exist 4 32 eq_refl x) as (ds & L & F & ->); [exact Hx|]. rewrite popcount_num by assumption. unfold popcount64.
  change 0x5555555555555555 with (num 4 (repeat 1 32)). rewrite <- L, step1 by assumption. rewrite (proj1 (num_sub 4 ds)).
  set (ds1 := map (fun d => d - d / 2) ds). assert (L1 : length ds1 = (2 * 16)%nat) by (unfold ds1; rewrite map_length; exact L).
  assert (F1 : Forall (fun d => d <= 2) ds1). { unfold ds1. rewrite Forall_map. eapply Forall_impl; [|exact F]. cbn. intros d Hd. lia. }
  clearbody ds1. clear ds L F Hx. destruct (pairs_exist 16 ds1 L1) as (ps & Lp & ->). clear L1. rewrite Forall_flat in F1. rewrite num_flat, sum_flat.
  change 0x3333333333333333 with (num 16 (repeat 3 16)). change (4 * 4) with 16. rewrite <- Lp.
  assert (F2 : Forall (fun p => fst p < 4 /\ snd p < 4) ps). { eapply Forall_impl; [|exact F1]. cbn. intros; lia. }
  rewrite step2a, step2b, num_add by assumption. set (ds2 := map (fun p => fst p + snd p) ps). assert (L2 : length ds2 = (2 * 8)%nat) by (unfold ds2; rewrite map_length; exact Lp).
  assert (F3 : Forall (fun d => d <= 4) ds2). { unfold ds2. rewrite Forall_map. eapply Forall_impl; [|exact F1]. cbn. intros; lia. }
  clearbody ds2. clear ps Lp F1 F2. destruct (pairs_exist 8 ds2 L2) as (ps & Lp & ->). clear L2. rewrite Forall_flat in F3. rewrite num_flat, sum_flat. change (16 * 16) with 256.
  change 0x0f0f0f0f0f0f0f0f with (num 256 (repeat 15 8)). rewrite <- Lp, step3 by assumption.
  do 8 (destruct ps as [|? ps]; [discriminate|]). destruct ps; [|discriminate]. cbn [map].
  repeat match goal with H : Forall _ (_ :: _) |- _ => inversion H; clear H; subst end. rewrite step4 by lia. unfold sum. cbn [fold_right]. lia.
Qed.

Lemma popcount_add w a b : a < 2 ^ w -> popcount (a + 2 ^ w * b) = popcount a + popcount b.
Proof.
  revert a. induction w as [|w IH] using N.peano_ind; intros a Ha.
  - change (2 ^ 0) with 1 in *. assert (a = 0) by lia. subst. replace (0 + 1 * b) with b by lia. reflexivity.
  - rewrite N.pow_succ_r' in *. rewrite (popcount_div2 (a + _)), (popcount_div2 a). rewrite !N.div2_div. change 1 with (N.ones 1) at 1 2. rewrite !N.land_ones. change (2 ^ 1) with 2.
    replace ((a + 2 * 2 ^ w * b) / 2) with (a / 2 + 2 ^ w * b) by (replace (a + 2 * 2 ^ w * b) with (a + (2 ^ w * b) * 2) by ring; rewrite N.div_add by lia; reflexivity).
    replace ((a + 2 * 2 ^ w * b) mod 2) with (a mod 2) by (replace (a + 2 * 2 ^ w * b) with (a + (2 ^ w * b) * 2) by ring; rewrite N.mod_add by lia; reflexivity).
    rewrite IH by (apply N.div_lt_upper_bound; lia). lia.
Qed.
Lemma popcount16_ok x : x < 2 ^ 16 -> popcount16 x = popcount x.
Proof. intros Hx. unfold popcount16. change 0xFFFF with (N.ones 16). rewrite N.land_ones, N.mod_small by assumption. apply table16_ok. assumption. Qed.
Lemma popcount32_ok x : x < 2 ^ 32 -> popcount32 x = popcount x.
Proof.
  intros Hx. unfold popcount32. change 0xFFFF with (N.ones 16). rewrite !N.land_ones, N.shiftr_div_pow2.
  assert (H1 : x mod 2 ^ 16 < 2 ^ 16) by (apply N.mod_lt; discriminate).
  assert (H2 : x / 2 ^ 16 < 2 ^ 16) by (apply N.div_lt_upper_bound; [discriminate|exact Hx]).
  rewrite (N.mod_small (x / 2 ^ 16)) by assumption. rewrite !table16_ok by assumption.
  rewrite (N.div_mod x (2 ^ 16)) at 3 by discriminate. rewrite (N.add_comm (2 ^ 16 * _)), popcount_add by assumption. reflexivity.
Qed.

(** ** Distances *)
Lemma size_bound x : x < 2 ^ N.of_nat (N.size_nat x).
Proof. assert (E : N.of_nat (N.size_nat x) = N.size x). { destruct x as [|p]; [reflexivity|]. cbn. induction p; cbn; rewrite ?Nat2N.inj_succ, ?IHp; cbn; lia. } rewrite E. apply N.size_gt. Qed.
Lemma common_bound x y z : exists w, x < 2 ^ N.of_nat w /\ y < 2 ^ N.of_nat w /\ z < 2 ^ N.of_nat w.
Proof.
  exists (N.size_nat x + N.size_nat y + N.size_nat z)%nat. repeat split; (eapply N.lt_le_trans; [apply size_bound|]); apply N.pow_le_mono_r; lia.
Qed.
Lemma high_bits w x : (forall i, (w <= i)%nat -> N.testbit_nat x i = false) -> x < 2 ^ N.of_nat w.
Proof.
  intros K. assert (E : x = x mod 2 ^ N.of_nat w).
  { apply N.bits_inj. intros n. destruct (N.ltb_spec n (N.of_nat w)) as [Hn|Hn].
    - rewrite N.mod_pow2_bits_low by assumption. reflexivity.
    - rewrite N.mod_pow2_bits_high by assumption. rewrite <- Nbit_Ntestbit. apply K. lia. }
  rewrite E. apply N.mod_lt. apply N.pow_nonzero. lia.
Qed.
Lemma bits_high w x i : x < 2 ^ N.of_nat w -> (w <= i)%nat -> N.testbit_nat x i = false.
Proof.
  intros Hx Hi. rewrite <- Ntestbit_Nbit, <- (N.mod_small x (2 ^ N.of_nat w)) by assumption. apply N.mod_pow2_bits_high. lia.
Qed.
Lemma lxor_bound w x y : x < 2 ^ N.of_nat w -> y < 2 ^ N.of_nat w -> N.lxor x y < 2 ^ N.of_nat w.
Proof. intros Hx Hy. apply high_bits. intros i Hi. rewrite Nxor_semantics, !(bits_high w) by assumption. reflexivity. Qed.

Lemma popcount_xor w x y : x < 2 ^ N.of_nat w -> y < 2 ^ N.of_nat w -> popcount (N.lxor x y) = N.of_nat (bits_apart w x y).
Proof.
  intros Hx Hy. rewrite (popcount_bits w) by (apply lxor_bound; assumption). f_equal. unfold bits_set, bits_apart. f_equal. apply filter_ext. intros i. apply Nxor_semantics.
Qed.
Lemma apart_triangle w x y z : (bits_apart w x z <= bits_apart w x y + bits_apart w y z)%nat.
Proof.
  unfold bits_apart. induction (seq 0 w) as [|i l IH]; cbn [filter length]; [lia|].
  destruct (N.testbit_nat x i), (N.testbit_nat y i), (N.testbit_nat z i); cbn [xorb length]; lia.
Qed.
Lemma popcount_triangle x y z : popcount (N.lxor x z) <= popcount (N.lxor x y) + popcount (N.lxor y z).
Proof.
  destruct (common_bound x y z) as (w & Hx & Hy & Hz). rewrite !(popcount_xor w) by assumption. pose proof (apart_triangle w x y z). lia.
Qed.
Lemma popcount_zero x : popcount x = 0 <-> x = 0.
Proof. split; [|intros ->; reflexivity]. destruct x as [|p]; [reflexivity|]. cbn [popcount]. intros E. exfalso. induction p as [p IH|p IH|]; [cbn [ones] in E; lia|exact (IH E)|discriminate]. Qed.
Lemma popcount_le w x : x < 2 ^ N.of_nat w -> popcount x <= N.of_nat w.
Proof.
  intros Hx. rewrite (popcount_bits w) by assumption. unfold bits_set. assert (L : forall (f : nat -> bool) l, (length (filter f l) <= length l)%nat) by (intros f l; induction l as [|a l IH]; cbn; [lia|]; destruct (f a); cbn; lia).
  specialize (L (N.testbit_nat x) (seq 0 w)). rewrite seq_length in L. lia.
Qed.

(** ** simhash *)
Lemma int16_ok digits : digits <> [] -> (forall d, In d digits -> d < 16) -> exists h, int16 digits = Ok h /\ h < 16 ^ N.of_nat (length digits).
Proof.
  intros Hne Hd. unfold int16. destruct digits as [|d ds]; [congruence|]. eexists. split; [reflexivity|]. clear Hne. revert Hd. generalize (d :: ds) as l. clear.
  assert (K : forall l acc n, acc < 16 ^ N.of_nat n -> (forall d, In d l -> d < 16) -> fold_left (fun acc d => 16 * acc + d) l acc < 16 ^ N.of_nat (length l + n)).
  { induction l as [|d l IH]; intros acc n Ha Hd; [exact Ha|]. cbn [fold_left length]. replace (S (length l) + n)%nat with (length l + S n)%nat by lia. apply IH.
    - rewrite Nat2N.inj_succ, N.pow_succ_r'. specialize (Hd d (or_introl eq_refl)). lia.
    - intros; apply Hd; right; assumption. }
  intros l Hd. replace (length l) with (length l + 0)%nat by lia. apply K; [reflexivity|assumption].
Qed.
Lemma int16_value digits x : int16 digits = Ok x -> (forall d, In d digits -> d < 16) -> hex_value digits x.
Proof.
  intros E Hd. split; [assumption|]. assert (E' : x = fold_left (fun acc d => 16 * acc + d) digits 0) by (destruct digits; [discriminate|]; injection E as <-; reflexivity).
  subst x. clear E Hd.
  assert (K : forall l acc, fold_left (fun acc d => 16 * acc + d) l acc = acc * 16 ^ N.of_nat (length l) + fold_right N.add 0 (map (fun '(k, d) => d * 16 ^ N.of_nat k) (combine (rev (seq 0 (length l))) l))).
  { induction l as [|d l IH]; intros acc; [cbn; lia|]. cbn [fold_left length]. rewrite IH, seq_S, rev_app_distr. cbn [rev app combine map fold_right plus].
    rewrite Nat2N.inj_succ, N.pow_succ_r'. lia. }
  rewrite K. lia.
Qed.

Fixpoint histogram_of (hashes : list N) (histogram : list Z) : list Z :=
  match hashes with [] => histogram | h :: hashes => histogram_of hashes (add_token h histogram) end.

Lemma add_token_length h hist : length (add_token h hist) = length hist.
Proof. unfold add_token. rewrite map_length, combine_length, seq_length. lia. Qed.
Lemma add_token_nth h hist i : (i < length hist)%nat -> nth i (add_token h hist) 0%Z = (nth i hist 0 + (if N.testbit_nat h i then 1 else -1))%Z.
Proof.
  intros Hi. unfold add_token.
  assert (K : forall l n i, (i < length l)%nat -> nth i (map (fun '(j, c) => let r := Z.b2z (N.testbit_nat h j) in (c + (r - Z.lxor r 1))%Z) (combine (seq n (length l)) l)) 0%Z =
    (nth i l 0 + (if N.testbit_nat h (n + i) then 1 else -1))%Z).
  { induction l as [|c l IH]; intros n j Hj; cbn [length] in *; [lia|]. cbn [seq combine map]. destruct j as [|j]; cbn [nth].
    - rewrite Nat.add_0_r. destruct (N.testbit_nat h n); reflexivity.
    - rewrite IH by lia. replace (S n + j)%nat with (n + S j)%nat by lia. reflexivity. }
  exact (K hist 0%nat i Hi).
Qed.
Lemma histogram_nth i : forall hashes hist, (i < length hist)%nat ->
  length (histogram_of hashes hist) = length hist /\
  nth i (histogram_of hashes hist) 0%Z = (nth i hist 0 + 2 * Z.of_nat (length (filter (fun h => N.testbit_nat h i) hashes)) - Z.of_nat (length hashes))%Z.
Proof.
  induction hashes as [|h hashes IH]; intros hist Hi; [cbn [histogram_of filter length]; split; [reflexivity|lia]|]. cbn [histogram_of].
  destruct (IH (add_token h hist)) as [L E]; [rewrite add_token_length; assumption|]. rewrite add_token_length in L. split; [assumption|]. rewrite E, add_token_nth by assumption.
  cbn [filter length]. destruct (N.testbit_nat h i); cbn [length]; lia.
Qed.
Lemma histogram_length : forall hashes hist, length (histogram_of hashes hist) = length hist.
Proof. induction hashes as [|h hashes IH]; intros hist; [reflexivity|]. cbn [histogram_of]. rewrite IH. apply add_token_length. Qed.

Lemma shiftl_bit j i : N.testbit_nat (N.shiftl 1 (N.of_nat j)) i = Nat.eqb j i.
Proof.
  rewrite <- Ntestbit_Nbit, N.shiftl_1_l, N.pow2_bits_eqb. destruct (Nat.eqb_spec j i) as [->|Hn]; [apply N.eqb_refl|]. apply N.eqb_neq. lia.
Qed.
Lemma signature_bit hist i : N.testbit_nat (signature_of hist) i = Z.ltb 0 (nth i hist 0%Z).
Proof.
  unfold signature_of.
  assert (K : forall l n acc, N.testbit_nat (fold_left (fun signature '(i, c) => if Z.ltb 0 c then N.lor signature (N.shiftl 1 (N.of_nat i)) else signature) (combine (seq n (length l)) l) acc) i =
    orb (N.testbit_nat acc i) (andb (Nat.leb n i) (Z.ltb 0 (nth (i - n) l 0%Z)))).
  { induction l as [|c l IH]; intros n acc; cbn [length seq combine fold_left].
    - destruct (i - n)%nat; rewrite Bool.andb_comm; cbn; rewrite Bool.orb_false_r; reflexivity.
    - rewrite IH. destruct (Z.ltb_spec 0 c) as [Hc|Hc].
      + rewrite Nor_semantics, shiftl_bit. destruct (Nat.eqb_spec n i) as [->|Hn].
        * rewrite Nat.sub_diag. cbn [nth]. destruct (Z.ltb_spec 0 c); [|lia]. destruct (Nat.leb_spec i i); [|lia]. cbn. rewrite !Bool.orb_true_r. reflexivity.
        * rewrite Bool.orb_false_r. f_equal. destruct (Nat.leb_spec n i), (Nat.leb_spec (S n) i); try lia; cbn [andb]; try reflexivity.
          replace (i - n)%nat with (S (i - S n)) by lia. reflexivity.
      + f_equal. destruct (Nat.eq_dec n i) as [->|Hn].
        * rewrite Nat.sub_diag. cbn [nth]. destruct (Z.ltb_spec 0 c); [lia|]. destruct (Nat.leb_spec (S i) i); [lia|]. rewrite Bool.andb_false_r. reflexivity.
        * destruct (Nat.leb_spec n i), (Nat.leb_spec (S n) i); try lia; cbn [andb]; try reflexivity.
          replace (i - n)%nat with (S (i - S n)) by lia. reflexivity. }
  rewrite K. cbn [Nat.leb andb N.testbit_nat orb]. rewrite Nat.sub_0_r. reflexivity.
Qed.

Section Simhash.
Context {T : Type}.
Variable hash_func : T -> list N.

Lemma add_tokens_ok l : forall tokens hashes hist, Forall2 (fun t h => int16 (firstn l (hash_func t)) = Ok h) tokens hashes ->
  add_tokens hash_func l tokens hist = Ok (histogram_of hashes hist).
Proof.
  induction tokens as [|t tokens IH]; intros hashes hist F; inversion F as [|? h ? hashes' E F']; subst; [reflexivity|]. cbn [add_tokens histogram_of]. rewrite E. cbn [bind]. auto.
Qed.
End Simhash.

Lemma signature_spec hashes f : let s := signature_of (histogram_of hashes (repeat 0%Z f)) in
  s < 2 ^ N.of_nat f /\ forall i, (i < f)%nat -> N.testbit_nat s i = true <-> majority hashes i.
Proof.
  cbn zeta. split.
  - apply high_bits. intros i Hi. rewrite signature_bit, nth_overflow; [reflexivity|]. rewrite histogram_length, repeat_length. assumption.
  - intros i Hi. rewrite signature_bit. destruct (histogram_nth i hashes (repeat 0%Z f)) as [_ E]; [rewrite repeat_length; assumption|]. rewrite E.
    rewrite nth_repeat. unfold majority. rewrite Z.ltb_lt. lia.
Qed.
Lemma majority_perm hashes hashes' i : Permutation hashes hashes' -> majority hashes i -> majority hashes' i.
Proof.
  intros P. unfold majority. rewrite (Permutation_length P).
  assert (E : length (filter (fun h => N.testbit_nat h i) hashes) = length (filter (fun h => N.testbit_nat h i) hashes')).
  { induction P; cbn; auto; try congruence.
    - destruct (N.testbit_nat x i); cbn; lia.
    - destruct (N.testbit_nat x i), (N.testbit_nat y i); cbn; lia. }
  rewrite E. auto.
Qed.
