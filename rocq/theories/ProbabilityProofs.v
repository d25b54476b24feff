(** Proofs about the probability of a shared band. *)
From Coq Require Import List NArith Arith Lia Reals Lra Bool.
From Verif Require Import Base ProbabilityModel ProbabilitySpec MinHashSpec.
Import ListNotations.
Open Scope R_scope.

(** ** sums and products *)
Lemma Rsum_app l l' : Rsum (l ++ l') = Rsum l + Rsum l'.
Proof. induction l as [|x l IH]; cbn; [lra|]. rewrite IH. lra. Qed.

Lemma Rsum_scale {X} c (f : X -> R) l : Rsum (map (fun x => c * f x) l) = c * Rsum (map f l).
Proof. induction l as [|x l IH]; cbn; [lra|]. rewrite IH. lra. Qed.

Lemma Rsum_ext {X} (f g : X -> R) l : (forall x, f x = g x) -> Rsum (map f l) = Rsum (map g l).
Proof. intros E. induction l as [|x l IH]; cbn; [reflexivity|]. rewrite IH, E. reflexivity. Qed.

Lemma Rsum_filter {X} (f : X -> R) p l : Rsum (map f (filter p l)) = Rsum (map (fun x => if p x then f x else 0) l).
Proof. induction l as [|x l IH]; cbn; [reflexivity|]. destruct (p x); cbn; rewrite IH; lra. Qed.

Lemma Rsum_split {X} (f : X -> R) p l :
  Rsum (map f (filter p l)) + Rsum (map f (filter (fun x => negb (p x)) l)) = Rsum (map f l).
Proof. induction l as [|x l IH]; cbn; [lra|]. destruct (p x); cbn; lra. Qed.

Lemma Rprod_if {X} (f : X -> R) p l :
  (if forallb p l then Rprod (map f l) else 0) = Rprod (map (fun x => if p x then f x else 0) l).
Proof.
  induction l as [|x l IH]; cbn; [reflexivity|]. rewrite <- IH. destruct (p x); cbn; [|lra].
  destruct (forallb p l); lra.
Qed.

(** ** independent draws *)
Lemma draws_total {X} (f : X -> R) outcomes n :
  Rsum (map (fun t => Rprod (map f t)) (draws outcomes n)) = Rsum (map f outcomes) ^ n.
Proof.
  induction n as [|n IH]; [cbn; lra|]. cbn [draws pow]. rewrite <- IH. set (d := draws outcomes n).
  clearbody d. clear IH. induction outcomes as [|x l IH]; cbn; [lra|].
  rewrite map_app, Rsum_app, IH, map_map. cbn. rewrite Rsum_scale. lra.
Qed.

Lemma draws_all {X} (f : X -> R) p outcomes n :
  Rsum (map (fun t => Rprod (map f t)) (filter (forallb p) (draws outcomes n))) = Rsum (map f (filter p outcomes)) ^ n.
Proof.
  rewrite Rsum_filter. erewrite Rsum_ext by (intros t; apply Rprod_if). rewrite draws_total, Rsum_filter. reflexivity.
Qed.

Lemma draws_In {X} (outcomes : list X) n t : In t (draws outcomes n) <-> length t = n /\ Forall (fun x => In x outcomes) t.
Proof.
  revert t. induction n as [|n IH]; intros t; cbn.
  - split; [intros [<-|[]]; split; [reflexivity|constructor]|]. intros [L _]. left. destruct t; [reflexivity|discriminate].
  - rewrite in_flat_map. split.
    + intros (x & Hx & Ht). apply in_map_iff in Ht. destruct Ht as (t' & <- & Ht). apply IH in Ht. destruct Ht as [L F].
      cbn. split; [now rewrite L|constructor; assumption].
    + intros [L F]. destruct t as [|x t]; [discriminate|]. inversion F; subst. exists x. split; [assumption|].
      apply in_map, IH. cbn in L. split; [now injection L|assumption].
Qed.

(** ** bands *)
Lemma band_total s rows : Rsum (map (band_weight s) (draws [true; false] rows)) = 1.
Proof. unfold band_weight. rewrite draws_total. cbn. replace (s + (1 - s + 0)) with 1 by lra. apply pow1. Qed.

Lemma band_full s rows : Rsum (map (band_weight s) (filter (forallb (fun b => b)) (draws [true; false] rows))) = s ^ rows.
Proof. unfold band_weight. rewrite (draws_all (agrees s) (fun b => b)). cbn. f_equal. lra. Qed.

Lemma table_total s bands rows : probability s bands rows (fun _ => true) = 1.
Proof.
  unfold probability, tables, table_weight. rewrite Rsum_filter. cbn beta iota.
  rewrite draws_total, band_total. apply pow1.
Qed.

Lemma matching_negb table : negb (matching table) = forallb (fun band => negb (forallb (fun b => b) band)) table.
Proof. unfold matching. induction table as [|x l IH]; cbn; [reflexivity|]. rewrite negb_orb, IH. reflexivity. Qed.

Lemma probability_matching s bands rows : probability s bands rows matching = 1 - (1 - s ^ rows) ^ bands.
Proof.
  pose proof (table_total s bands rows) as T. unfold probability in *.
  replace (filter (fun _ => true) (tables bands rows)) with (tables bands rows) in T
    by (generalize (tables bands rows); intros l; induction l as [|x l IH]; cbn; congruence).
  rewrite <- (Rsum_split (table_weight s) matching) in T.
  assert (E : Rsum (map (table_weight s) (filter (fun t => negb (matching t)) (tables bands rows))) = (1 - s ^ rows) ^ bands).
  { rewrite (filter_ext _ _ matching_negb). unfold table_weight, tables.
    rewrite (draws_all (band_weight s) (fun band => negb (forallb (fun b => b) band))).
    pose proof (Rsum_split (band_weight s) (forallb (fun b => b)) (draws [true; false] rows)) as S.
    rewrite band_full, band_total in S. f_equal. lra. }
  lra.
Qed.

Lemma matching_agreement bands rows s s' : matching (agreement bands rows s s') = true <-> share_band bands rows s s'.
Proof.
  unfold matching, agreement, share_band. rewrite existsb_exists. split.
  - intros (band & Hb & F). apply in_map_iff in Hb. destruct Hb as (i & <- & Hi). apply in_seq in Hi.
    exists i. split; [lia|]. intros j Hj. rewrite forallb_forall in F.
    specialize (F _ (in_map _ _ _ (proj2 (in_seq rows 0 (j - i * rows)) ltac:(cbn in *; lia)))). cbn beta in F.
    replace (i * rows + (j - i * rows))%nat with j in F by lia.
    destruct (nth_error s j), (nth_error s' j); try discriminate F; [|reflexivity]. apply N.eqb_eq in F. now subst.
  - intros (i & Hi & F). eexists. split; [apply in_map, in_seq; split; [|exact Hi]; lia|].
    apply forallb_forall. intros b Hb. apply in_map_iff in Hb. destruct Hb as (j & <- & Hj). apply in_seq in Hj.
    rewrite F by (cbn; lia). destruct (nth_error s' (i * rows + j)); [apply N.eqb_refl|reflexivity].
Qed.

Lemma agreement_table bands rows s s' : In (agreement bands rows s s') (tables bands rows).
Proof.
  apply draws_In. unfold agreement. rewrite map_length, seq_length. split; [reflexivity|].
  apply Forall_forall. intros band Hb. apply in_map_iff in Hb. destruct Hb as (i & <- & _).
  apply draws_In. rewrite map_length, seq_length. split; [reflexivity|]. apply Forall_forall.
  intros b _. destruct b; [left|right; left]; reflexivity.
Qed.

(** ** powers *)
Lemma py_pow_0 x : py_pow x 0 = 1.
Proof. unfold py_pow. destruct (Req_EM_T 0 0); [reflexivity|congruence]. Qed.

Lemma py_pow_of_0 y : 0 < y -> py_pow 0 y = 0.
Proof. intros Y. unfold py_pow. destruct (Req_EM_T y 0); [lra|]. destruct (Req_EM_T 0 0); [reflexivity|congruence]. Qed.

Lemma py_pow_of_1 y : py_pow 1 y = 1.
Proof.
  unfold py_pow. destruct (Req_EM_T y 0); [reflexivity|]. destruct (Req_EM_T 1 0); [lra|].
  unfold Rpower. rewrite ln_1, Rmult_0_r. apply exp_0.
Qed.

Lemma py_pow_pos x y : 0 < x -> py_pow x y = Rpower x y.
Proof.
  intros X. unfold py_pow. destruct (Req_EM_T y 0) as [->|]; [now rewrite Rpower_O|]. destruct (Req_EM_T x 0); [lra|reflexivity].
Qed.

Lemma py_pow_INR x n : 0 <= x -> py_pow x (INR n) = x ^ n.
Proof.
  intros X. destruct (Req_EM_T x 0) as [->|N].
  - destruct n as [|n]; [apply py_pow_0|]. rewrite py_pow_of_0 by (apply lt_0_INR; lia). cbn. lra.
  - rewrite py_pow_pos by lra. apply Rpower_pow. lra.
Qed.

Lemma py_pow_nonneg x y : 0 <= py_pow x y.
Proof.
  unfold py_pow. destruct (Req_EM_T y 0); [lra|]. destruct (Req_EM_T x 0); [lra|]. unfold Rpower. left. apply exp_pos.
Qed.

Lemma py_pow_lt x x' y : 0 <= x < x' -> 0 < y -> py_pow x y < py_pow x' y.
Proof.
  intros [X L] Y. rewrite (py_pow_pos x') by lra. destruct (Req_EM_T x 0) as [->|N].
  - rewrite py_pow_of_0 by exact Y. apply exp_pos.
  - rewrite py_pow_pos by lra. unfold Rpower. apply exp_increasing, Rmult_lt_compat_l; [exact Y|]. apply ln_increasing; lra.
Qed.

Lemma py_pow_le x x' y : 0 <= x <= x' -> 0 <= y -> py_pow x y <= py_pow x' y.
Proof.
  intros [X L] Y. destruct (Req_EM_T y 0) as [->|N]; [rewrite !py_pow_0; lra|].
  destruct (Req_EM_T x x') as [->|M]; [lra|]. left. apply py_pow_lt; lra.
Qed.

Lemma py_pow_unit x y : 0 <= x <= 1 -> 0 <= y -> 0 <= py_pow x y <= 1.
Proof. intros X Y. split; [apply py_pow_nonneg|]. rewrite <- (py_pow_of_1 y). apply py_pow_le; lra. Qed.

(** below 1, the larger the exponent the smaller the power *)
Lemma py_pow_anti x y y' : 0 < x < 1 -> y < y' -> py_pow x y' < py_pow x y.
Proof.
  intros X L. rewrite !py_pow_pos by lra. unfold Rpower. apply exp_increasing.
  assert (N : ln x < 0) by (rewrite <- ln_1; apply ln_increasing; lra). nra.
Qed.

Lemma pow_anti x n m : 0 <= x <= 1 -> (n <= m)%nat -> x ^ m <= x ^ n.
Proof.
  intros X L. induction L as [|m L IH]; [lra|]. cbn. pose proof (pow_le x m ltac:(lra)). nra.
Qed.

Lemma pow_lt_l x y n : 0 <= x < y -> (0 < n)%nat -> x ^ n < y ^ n.
Proof.
  intros X L. destruct n as [|n]; [lia|]. clear L. induction n as [|n IH]; [cbn; lra|].
  change (x * x ^ S n < y * y ^ S n). pose proof (pow_le x (S n) ltac:(lra)).
  apply Rle_lt_trans with (y * x ^ S n); [apply Rmult_le_compat_r; lra|]. apply Rmult_lt_compat_l; lra.
Qed.

(** ** the formula *)
Lemma Ok_inj {X} (x y : X) : Ok x = Ok y -> x = y.
Proof. now injection 1. Qed.

Lemma match_probability_pow h bands s : (0 < bands)%nat -> 0 <= s <= 1 ->
  match_probability h bands s = Ok (1 - (1 - py_pow s (INR h / INR bands)) ^ bands).
Proof.
  intros B S. destruct bands as [|b]; [lia|]. unfold match_probability. rewrite py_pow_INR; [reflexivity|].
  pose proof (py_pow_unit s (INR h / INR (Datatypes.S b)) S). assert (0 <= INR h / INR (Datatypes.S b)).
  { apply Rmult_le_pos; [apply pos_INR|]. left. apply Rinv_0_lt_compat, lt_0_INR. lia. }
  lra.
Qed.

Lemma ratio_nonneg h bands : (0 < bands)%nat -> 0 <= INR h / INR bands.
Proof. intros B. apply Rmult_le_pos; [apply pos_INR|]. left. apply Rinv_0_lt_compat, lt_0_INR. exact B. Qed.
Lemma ratio_pos h bands : (0 < bands)%nat -> (0 < h)%nat -> 0 < INR h / INR bands.
Proof. intros B P. apply Rmult_lt_0_compat; [now apply lt_0_INR|]. apply Rinv_0_lt_compat, lt_0_INR. exact B. Qed.

Lemma ratio_divides rows bands : (0 < bands)%nat -> INR (rows * bands) / INR bands = INR rows.
Proof. intros B. rewrite mult_INR. field. apply not_0_INR. lia. Qed.

(** the rows are rounded down *)
Lemma ratio_rows h bands : (0 < bands)%nat -> (h mod bands <> 0)%nat -> INR (h / bands) < INR h / INR bands.
Proof.
  intros B M. pose proof (Nat.div_mod h bands ltac:(lia)) as E.
  rewrite <- (ratio_divides (h / bands) bands B). unfold Rdiv. apply Rmult_lt_compat_r.
  - apply Rinv_0_lt_compat, lt_0_INR. exact B.
  - apply lt_INR. lia.
Qed.

Lemma threshold_pow h bands : (0 < bands)%nat -> (0 < h)%nat -> py_pow (real_threshold h bands) (INR h / INR bands) = / INR bands.
Proof.
  intros B P. pose proof (lt_0_INR bands B) as Ib. pose proof (ratio_pos h bands B P) as Q.
  unfold real_threshold. rewrite py_pow_pos by (apply exp_pos). rewrite Rpower_mult.
  replace (1 / (INR h / INR bands) * (INR h / INR bands)) with 1
    by (unfold Rdiv at 1; rewrite Rmult_1_l; symmetry; apply Rinv_l; lra).
  rewrite Rpower_1; [field; lra|]. apply Rmult_lt_0_compat; [lra|]. now apply Rinv_0_lt_compat.
Qed.

(** (1 - 1/n)^n <= 1/e *)
Lemma exp_bound n : (0 < n)%nat -> (1 - / INR n) ^ n <= exp (- 1).
Proof.
  intros P. pose proof (lt_0_INR n P) as I. assert (J : / INR n <= 1).
  { rewrite <- Rinv_1. apply Rinv_le_contravar; [lra|]. change 1 with (INR 1). apply le_INR. lia. }
  apply Rle_trans with (exp (- / INR n) ^ n).
  - apply pow_incr. split; [lra|]. pose proof (exp_ineq1_le (- / INR n)). lra.
  - rewrite <- Rpower_pow by apply exp_pos. unfold Rpower. rewrite ln_exp. right. f_equal. field. lra.
Qed.
