(** C201, C202: the C code of the [_lte1] functions. *)
From Coq Require Import Lia.
From Verif Require Import Base BaseFacts EditSpec EditFacts LevModel LevProofs LevCModel LevCSpec LevC1Model LevC1Spec LevC1Proofs.
Open Scope nat_scope.
Open Scope list_scope.

(** C201: a position outside of a string would raise IndexError *)
Theorem C201_checked (s : str) (i : N) : (exists x, nth_error s (N.to_nat i) = Some x /\ item s i = Ok x) \/ ((N.of_nat (length s) <= i)%N /\ item s i = Err IndexError).
Proof.
  unfold item. destruct (nth_error s (N.to_nat i)) as [x|] eqn:E; [left; eauto|]. right. split; [|reflexivity]. apply nth_error_None in E. lia.
Qed.
(** C201: nothing is raised on any string, whatever its length; what is answered is right for the parts of the strings that their
    lengths counted on 32 bits tell, except for two empty parts *)
Theorem C201_cut (same : bool) (A B : str) : exists r, levenshtein_lte1_c same A B = Ok r /\
  (r = true <-> same = true \/ (lev_le 1 (cut A) (cut B) /\ ~ (cut A = [] /\ cut B = []))).
Proof.
  rewrite levenshtein_lte1_cut. destruct same; [exists true; split; [reflexivity | tauto]|].
  destruct (list_eq_dec N.eq_dec (cut A) []) as [EA|EA]; [destruct (list_eq_dec N.eq_dec (cut B) []) as [EB|EB]|].
  - rewrite EA, EB. exists false. split; [reflexivity|]. split; [discriminate | intros [K|[_ K]]; [discriminate | tauto]].
  - destruct (lte1_exact false (cut A) (cut B) ltac:(discriminate) ltac:(tauto)) as (r & E & K). exists r. split; [exact E|]. rewrite K. intuition discriminate.
  - destruct (lte1_exact false (cut A) (cut B) ltac:(discriminate) ltac:(tauto)) as (r & E & K). exists r. split; [exact E|]. rewrite K. intuition discriminate.
Qed.
Theorem C201_damerau_cut (same : bool) (A B : str) : exists r, damerau_lte1_c same A B = Ok r /\
  (r = true <-> same = true \/ (damerau_le 1 (cut A) (cut B) /\ ~ (cut A = [] /\ cut B = []))).
Proof.
  rewrite damerau_lte1_cut. destruct same; [exists true; split; [reflexivity | tauto]|].
  destruct (list_eq_dec N.eq_dec (cut A) []) as [EA|EA]; [destruct (list_eq_dec N.eq_dec (cut B) []) as [EB|EB]|].
  - rewrite EA, EB. exists false. split; [reflexivity|]. split; [discriminate | intros [K|[_ K]]; [discriminate | tauto]].
  - destruct (damerau_exact false (cut A) (cut B) ltac:(discriminate) ltac:(tauto)) as (r & E & K). exists r. split; [exact E|]. rewrite K. intuition discriminate.
  - destruct (damerau_exact false (cut A) (cut B) ltac:(discriminate) ltac:(tauto)) as (r & E & K). exists r. split; [exact E|]. rewrite K. intuition discriminate.
Qed.
(** with lengths below 2^32 no number wraps around: the answers are those over natural numbers *)
Theorem C201_fits (same : bool) (A B : str) : fits A -> fits B ->
  levenshtein_lte1_c same A B = levenshtein_distance_lte1 same A B /\ damerau_lte1_c same A B = damerau_levenshtein_distance_lte1 same A B.
Proof. intros FA FB. rewrite levenshtein_lte1_cut, damerau_lte1_cut, !cut_fits by assumption. auto. Qed.
(** hence they are right; [same] is [A is B], and CPython keeps the empty string unique *)
Theorem C201_exact (same : bool) (A B : str) : fits A -> fits B -> (same = true -> A = B) -> (A = [] -> B = [] -> same = true) ->
  (exists r, levenshtein_lte1_c same A B = Ok r /\ (r = true <-> lev_le 1 A B)) /\
  (exists r, damerau_lte1_c same A B = Ok r /\ (r = true <-> damerau_le 1 A B)).
Proof.
  intros FA FB Hs He. destruct (C201_fits same A B FA FB) as [-> ->]. split; [exact (lte1_exact same A B Hs He) | exact (damerau_exact same A B Hs He)].
Qed.

(** C202: not for all strings: 2^32 + 1 characters are taken for one, and 2^32 for none *)
Theorem C202_long_refuted : exists A B, ~ damerau_le 1 A B /\ levenshtein_lte1_c false A B = Ok true /\ damerau_lte1_c false A B = Ok true.
Proof.
  set (B := repeat 97%N (N.to_nat 4294967297)). assert (L : N.of_nat (length B) = 4294967297%N) by (unfold B; rewrite repeat_length, Nnat.N2Nat.id; reflexivity). clearbody B.
  exists [], B. split.
  - intros (m & Lm & K). assert (G : forall m (a b : list N), steps (fun x y => edit1 x y \/ swap1 x y) m a b -> length b <= length a + m).
    { clear. intros m a b K. induction K as [|n a b c K1 K2 IH]; [lia|].
      assert (length b <= S (length a)); [|lia]. destruct K1 as [K1|K1].
      - inversion K1; subst; rewrite ?app_length; cbn [length]; lia.
      - inversion K1; subst; rewrite ?app_length; cbn [length]; lia. }
    apply G in K. cbn [length] in K. lia.
  - unfold levenshtein_lte1_c, damerau_lte1_c, lte1_c. unfold length32. rewrite L. split; reflexivity.
Qed.
Theorem C202_equal_refuted : exists A, levenshtein_lte1_c false A A = Ok false /\ damerau_lte1_c false A A = Ok false /\ A <> [].
Proof.
  set (B := repeat 97%N (N.to_nat 4294967296)). assert (L : N.of_nat (length B) = 4294967296%N) by (unfold B; rewrite repeat_length, Nnat.N2Nat.id; reflexivity). clearbody B.
  exists B. unfold levenshtein_lte1_c, damerau_lte1_c, lte1_c. unfold length32. rewrite L. split; [reflexivity|]. split; [reflexivity|]. intros ->. discriminate.
Qed.

(** ** examples *)
Example C201_ex :
  levenshtein_lte1_c false [97; 98; 99]%N [97; 99]%N = Ok true /\ levenshtein_lte1_c false [97; 98; 99]%N [97; 100; 99]%N = Ok true /\
  levenshtein_lte1_c false [97; 98]%N [98; 97]%N = Ok false /\ damerau_lte1_c false [97; 98]%N [98; 97]%N = Ok true /\
  damerau_lte1_c false [97; 98; 99]%N [98; 97; 100]%N = Ok false /\ levenshtein_lte1_c false [] [97]%N = Ok true /\ levenshtein_lte1_c false [97; 98]%N [] = Ok false.
Proof. vm_compute. repeat split. Qed.
Example C201_fits_ex : fits [97; 98]%N.
Proof. reflexivity. Qed.

Print Assumptions C201_checked.
Print Assumptions C201_cut.
Print Assumptions C201_damerau_cut.
Print Assumptions C201_fits.
Print Assumptions C201_exact.
Print Assumptions C202_long_refuted.
Print Assumptions C202_equal_refuted.
