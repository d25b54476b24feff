(** C107..C110: the probability that minhash brings two items together (fog/clustering/minhash.py). *)
From Coq Require Import List NArith Arith Lia Reals Lra Bool QArith Qreals.
From Verif Require Import Base ProbabilityModel ProbabilitySpec ProbabilityProofs MinHashSpec MinHashModel MinHashProps.
Import ListNotations.
Open Scope nat_scope.
Open Scope R_scope.

(** ** C107: match_probability *)

(** it raises without bands, and only then *)
Theorem C107_raises h s : match_probability h 0 s = Err ZeroDivisionError /\
  forall b, (0 < b)%nat -> exists p, match_probability h b s = Ok p.
Proof. split; [reflexivity|]. intros [|b] B; [lia|]. eexists. reflexivity. Qed.

Theorem C107_range h bands s p : 0 <= s <= 1 -> match_probability h bands s = Ok p -> 0 <= p <= 1.
Proof.
  intros S E. destruct bands as [|b]; [discriminate E|]. rewrite match_probability_pow in E by (exact S || lia).
  apply Ok_inj in E. rewrite <- E. clear E. pose proof (py_pow_unit s (INR h / INR (Datatypes.S b)) S (ratio_nonneg h (Datatypes.S b) ltac:(lia))) as U.
  set (x := py_pow s _) in *. clearbody x. pose proof (pow_le (1 - x) (Datatypes.S b) ltac:(lra)).
  pose proof (pow_incr (1 - x) 1 (Datatypes.S b) ltac:(lra)). rewrite pow1 in *. lra.
Qed.

Theorem C107_ends h bands : (0 < bands)%nat -> (0 < h)%nat -> match_probability h bands 0 = Ok 0 /\ match_probability h bands 1 = Ok 1.
Proof.
  intros B P. rewrite !match_probability_pow by (lra || exact B). rewrite py_pow_of_0 by (now apply ratio_pos).
  rewrite py_pow_of_1, Rminus_0_r, pow1. replace (1 - 1) with 0 by lra. rewrite pow_i by exact B. split; f_equal; lra.
Qed.

(** the more similar, the more probable *)
Theorem C107_increasing h bands s s' p p' : (0 < h)%nat -> 0 <= s < s' -> s' <= 1 ->
  match_probability h bands s = Ok p -> match_probability h bands s' = Ok p' -> p < p'.
Proof.
  intros P S S' E E'. destruct bands as [|b]; [discriminate E|].
  rewrite match_probability_pow in E, E' by (lra || lia). apply Ok_inj in E. rewrite <- E. clear E. apply Ok_inj in E'. rewrite <- E'. clear E'.
  pose proof (ratio_pos h (Datatypes.S b) ltac:(lia) P) as Q.
  pose proof (py_pow_lt s s' _ S Q) as L. pose proof (py_pow_unit s' _ (conj (Rle_trans _ _ _ (proj1 S) (Rlt_le _ _ (proj2 S))) S') (Rlt_le _ _ Q)) as U.
  pose proof (pow_lt_l (1 - py_pow s' (INR h / INR (Datatypes.S b))) (1 - py_pow s (INR h / INR (Datatypes.S b))) (Datatypes.S b) ltac:(lra) ltac:(lia)). lra.
Qed.

(** the more bands, the more probable *)
Theorem C107_bands h b b' s p p' : (0 < h)%nat -> 0 < s < 1 -> (b < b')%nat ->
  match_probability h b s = Ok p -> match_probability h b' s = Ok p' -> p < p'.
Proof.
  intros P S L E E'. destruct b as [|b]; [discriminate E|]. destruct b' as [|b']; [lia|].
  rewrite match_probability_pow in E, E' by (lra || lia). apply Ok_inj in E. rewrite <- E. clear E. apply Ok_inj in E'. rewrite <- E'. clear E'.
  set (n := Datatypes.S b) in *. set (m := Datatypes.S b') in *.
  assert (R : INR h / INR m < INR h / INR n).
  { unfold Rdiv. apply Rmult_lt_compat_l; [now apply lt_0_INR|]. apply Rinv_lt_contravar; [|now apply lt_INR].
    apply Rmult_lt_0_compat; apply lt_0_INR; unfold n, m; lia. }
  pose proof (py_pow_anti s _ _ S R) as X. pose proof (py_pow_unit s _ ltac:(lra) (ratio_nonneg h m ltac:(unfold m; lia))) as U.
  pose proof (pow_lt_l (1 - py_pow s (INR h / INR m)) (1 - py_pow s (INR h / INR n)) n) as Y.
  pose proof (pow_anti (1 - py_pow s (INR h / INR m)) n m ltac:(lra) ltac:(lia)) as Z.
  specialize (Y ltac:(lra) ltac:(unfold n; lia)). lra.
Qed.

(** the threshold is the similarity where a band has one chance out of [bands] to agree; a match is then
    more probable than not: at least 1 - 1/e *)
Theorem C107_threshold h bands t p : similarity_threshold h bands = Ok t -> match_probability h bands t = Ok p ->
  t = real_threshold h bands /\ 0 < t <= 1 /\ p = 1 - (1 - / INR bands) ^ bands /\ 1 - exp (- 1) <= p.
Proof.
  intros Et Ep. destruct bands as [|b]; [discriminate Ep|]. destruct h as [|h]; [discriminate Et|].
  set (n := Datatypes.S b) in *. set (m := Datatypes.S h) in *. assert (Bn : (0 < n)%nat) by (unfold n; lia). assert (Bm : (0 < m)%nat) by (unfold m; lia).
  assert (T : t = real_threshold m n).
  { unfold similarity_threshold, n, m in Et. fold n m in Et. apply Ok_inj in Et. rewrite <- Et. apply py_pow_pos.
    apply Rmult_lt_0_compat; [lra|]. apply Rinv_0_lt_compat. now apply lt_0_INR. }
  assert (U : 0 < t <= 1).
  { subst t. split; [apply exp_pos|]. unfold real_threshold.
    assert (J : 0 < 1 / INR n <= 1).
    { unfold Rdiv. rewrite Rmult_1_l. split; [apply Rinv_0_lt_compat; now apply lt_0_INR|].
      rewrite <- Rinv_1. apply Rinv_le_contravar; [lra|]. change 1 with (INR 1). apply le_INR. lia. }
    pose proof (ratio_pos m n Bn Bm) as Q. assert (K : 0 <= 1 / (INR m / INR n)).
    { left. unfold Rdiv at 1. rewrite Rmult_1_l. now apply Rinv_0_lt_compat. }
    rewrite <- (py_pow_pos _ _ (proj1 J)). apply py_pow_unit; [lra|exact K]. }
  rewrite match_probability_pow in Ep by (lra || exact Bn). apply Ok_inj in Ep. subst p. rewrite T, threshold_pow by assumption.
  split; [reflexivity|]. split; [rewrite <- T; exact U|]. split; [reflexivity|]. pose proof (exp_bound n Bn). lra.
Qed.

(** ** C108: what it is the probability of *)

(** two signatures of h values, cut into bands of [rows] values, share a band exactly when their table of agreement is
    matching; when the values agree independently with probability s, this has probability 1 - (1 - s^rows)^bands *)
Theorem C108_event bands rows s s' :
  In (agreement bands rows s s') (tables bands rows) /\ (matching (agreement bands rows s s') = true <-> share_band bands rows s s').
Proof. split; [apply agreement_table|apply matching_agreement]. Qed.

Theorem C108_probability bands rows s :
  probability s bands rows (fun _ => true) = 1 /\ probability s bands rows matching = 1 - (1 - s ^ rows) ^ bands.
Proof. split; [apply table_total|apply probability_matching]. Qed.

(** match_probability is that probability when the bands divide the signature *)
Theorem C108_exact h bands s : (0 < bands)%nat -> (h mod bands = 0)%nat -> 0 <= s <= 1 ->
  match_probability h bands s = Ok (probability s bands (h / bands) matching).
Proof.
  intros B M S. rewrite match_probability_pow by assumption. rewrite probability_matching.
  pose proof (Nat.div_mod h bands ltac:(lia)) as E. rewrite M, Nat.add_0_r, Nat.mul_comm in E.
  rewrite E at 1. rewrite ratio_divides, py_pow_INR by (lra || exact B). reflexivity.
Qed.

(** minhash rounds the number of rows down: in the other cases match_probability is too low *)
Theorem C108_lower h bands s p : (h mod bands <> 0)%nat -> 0 < s < 1 ->
  match_probability h bands s = Ok p -> p < probability s bands (h / bands) matching.
Proof.
  intros M S E. destruct bands as [|b]; [discriminate E|]. set (n := Datatypes.S b) in *. assert (B : (0 < n)%nat) by (unfold n; lia).
  rewrite match_probability_pow in E by (lra || exact B). apply Ok_inj in E. rewrite <- E. clear E. rewrite probability_matching.
  pose proof (ratio_rows h n B M) as R. apply (py_pow_anti s _ _ S) in R. rewrite (py_pow_INR s (h / n)) in R by lra.
  pose proof (py_pow_unit s (INR h / INR n) ltac:(lra) (ratio_nonneg h n B)).
  assert (U : s ^ (h / n) <= 1) by (pose proof (pow_incr s 1 (h / n) ltac:(lra)) as I; now rewrite pow1 in I).
  pose proof (pow_lt_l (1 - s ^ (h / n)) (1 - py_pow s (INR h / INR n)) n ltac:(lra) B). lra.
Qed.

(** ** C109 asks for match_probability to be the probability of sharing a band for any number of bands *)
Theorem C109_uneven_refuted : ~ (forall h bands s, (0 < bands <= h)%nat -> 0 <= s <= 1 ->
  match_probability h bands s = Ok (probability s bands (h / bands) matching)).
Proof.
  intros F. pose proof (F 3%nat 2%nat (1 / 2) ltac:(lia) ltac:(lra)) as E.
  pose proof (C108_lower 3 2 (1 / 2) _ ltac:(cbn; lia) ltac:(lra) E). lra.
Qed.

(** ** C110: with the number of bands that minhash guesses, two items whose similarity reaches the radius
    share a band with probability at least 1 - 1/e *)
Theorem C110_guessed h (t : Q) s : (0 < h)%nat -> (guess_bands h t <= h)%nat -> Q2R t <= s <= 1 ->
  1 - exp (- 1) <= probability s (guess_bands h t) (h / guess_bands h t) matching.
Proof.
  intros P G S. set (b := guess_bands h t) in *.
  destruct (C83_guess h t P) as (B & M & _). fold b in B, M. specialize (M G). assert (Bp : (0 < b)%nat) by lia.
  assert (T0 : 0 < real_threshold h b) by apply exp_pos.
  rewrite probability_matching. pose proof (exp_bound b Bp) as X.
  assert (Y : / INR b <= s ^ (h / b)).
  { rewrite <- (threshold_pow h b Bp P). rewrite <- py_pow_INR by lra.
    apply Rle_trans with (py_pow s (INR h / INR b)); [apply py_pow_le; [lra|now apply ratio_nonneg]|].
    destruct (Req_EM_T s 1) as [->|N]; [rewrite !py_pow_of_1; lra|].
    destruct (Nat.eq_dec (h mod b) 0) as [E|E].
    - right. f_equal. pose proof (Nat.div_mod h b ltac:(lia)) as D. rewrite E, Nat.add_0_r, Nat.mul_comm in D.
      rewrite D at 1. now apply ratio_divides.
    - left. apply py_pow_anti; [lra|]. now apply ratio_rows. }
  assert (U : s ^ (h / b) <= 1) by (pose proof (pow_incr s 1 (h / b) ltac:(lra)) as I; now rewrite pow1 in I).
  pose proof (pow_incr (1 - s ^ (h / b)) (1 - / INR b) b ltac:(lra)). lra.
Qed.

(** ** examples *)
(** two bands of one row: 1 - (1/2)^2 *)
Example two_bands : match_probability 2 2 (1 / 2) = Ok (3 / 4).
Proof. rewrite C108_exact by (reflexivity || lia || lra). rewrite probability_matching. cbn. f_equal. lra. Qed.
(** two bands of two rows *)
Example two_rows : match_probability 4 2 (1 / 2) = Ok (7 / 16).
Proof. rewrite C108_exact by (reflexivity || lia || lra). rewrite probability_matching. cbn. f_equal. lra. Qed.
Example four_tables : tables 2 1 = [[[true]; [true]]; [[true]; [false]]; [[false]; [true]]; [[false]; [false]]].
Proof. reflexivity. Qed.
Example agreement_of : agreement 2 2 [1; 2; 3; 4]%N [1; 2; 3; 5]%N = [[true; true]; [true; false]] /\ matching (agreement 2 2 [1; 2; 3; 4]%N [1; 2; 3; 5]%N) = true.
Proof. split; reflexivity. Qed.
(** the number of bands of the default arguments does not divide the 256 values *)
Example default_uneven : guess_bands 256 (8 # 10) = 20%nat /\ (256 mod 20 = 16)%nat.
Proof. split; vm_compute; reflexivity. Qed.
Example one_band : similarity_threshold 4 1 = Ok 1.
Proof. unfold similarity_threshold. f_equal. replace (1 / INR 1) with 1 by (cbn; field). apply py_pow_of_1. Qed.
Example threshold_raises : similarity_threshold 0 1 = Err ZeroDivisionError /\ similarity_threshold 1 0 = Err ZeroDivisionError.
Proof. split; reflexivity. Qed.

Print Assumptions C107_raises.
Print Assumptions C107_range.
Print Assumptions C107_ends.
Print Assumptions C107_increasing.
Print Assumptions C107_bands.
Print Assumptions C107_threshold.
Print Assumptions C108_event.
Print Assumptions C108_probability.
Print Assumptions C108_exact.
Print Assumptions C108_lower.
Print Assumptions C109_uneven_refuted.
Print Assumptions C110_guessed.
