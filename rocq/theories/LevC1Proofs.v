(** Lemmas behind C201 and C202 *)
From Coq Require Import Lia.
From Verif Require Import Base BaseFacts LevModel LevProofs LevCModel LevCSpec LevC1Model LevC1Spec.
Open Scope nat_scope.
Open Scope list_scope.

Notation top := 4294967296%N.

Lemma u32_small x : (x < top)%N -> u32 x = x.
Proof. intros L. unfold u32. apply N.mod_small. exact L. Qed.
Lemma length32_lt s : (length32 s < top)%N.
Proof. unfold length32, u32. apply N.mod_lt. discriminate. Qed.
Lemma length32_le s : N.to_nat (length32 s) <= length s.
Proof. unfold length32, u32. pose proof (N.mod_le (N.of_nat (length s)) top ltac:(discriminate)). lia. Qed.
Lemma cut_eq s : cut s = firstn (N.to_nat (length32 s)) s.
Proof. reflexivity. Qed.
Lemma cut_length s : length (cut s) = N.to_nat (length32 s).
Proof. rewrite cut_eq. apply firstn_length_le, length32_le. Qed.
Lemma cut_fits s : fits s -> cut s = s.
Proof.
  intros F. rewrite cut_eq. apply firstn_all2. unfold length32. rewrite u32_small; [lia|]. exact F.
Qed.

(** the character at a position of the part that is left *)
Lemma item_cut s i : i < length (cut s) -> exists x, item s (N.of_nat i) = Ok x /\ skipn i (cut s) = x :: skipn (S i) (cut s).
Proof.
  intros L. destruct (nth_error (cut s) i) as [x|] eqn:E; [|apply nth_error_None in E; lia]. exists x. split.
  - unfold item. rewrite Nnat.Nat2N.id. rewrite <- (firstn_skipn (N.to_nat (length32 s)) s), <- cut_eq, nth_error_app1 by exact L. rewrite E. reflexivity.
  - revert E. generalize (cut s). clear. induction i as [|i IH]; intros [|y l] E; try discriminate; cbn [nth_error skipn] in *; [congruence|]. rewrite (IH l E). reflexivity.
Qed.

Definition bit (cost : bool) : N := if cost then 1%N else 0%N.

Lemma addition_cut A B : length (cut B) = S (length (cut A)) -> forall fuel i j cost, i <= length (cut A) -> j = i + N.to_nat (bit cost) ->
  length (cut A) + 2 <= fuel + j ->
  addition_c fuel A B (length32 A) (N.of_nat i) (N.of_nat j) (bit cost) = addition_loop (skipn i (cut A)) (skipn j (cut B)) cost.
Proof.
  intros EL. pose proof (length32_lt A) as TA. pose proof (length32_lt B) as TB. pose proof (cut_length A) as CA. pose proof (cut_length B) as CB.
  induction fuel as [|fuel IH]; intros i j cost Hi Hj Hf; [destruct cost; cbn [bit N.to_nat] in *; lia|]. cbn [addition_c].
  destruct (N.ltb_spec (N.of_nat i) (length32 A)) as [L|L].
  2: { rewrite (skipn_all2 (cut A)) by lia. destruct (skipn j (cut B)); reflexivity. }
  assert (Lj : j < length (cut B)) by (destruct cost; cbn [bit] in *; lia).
  destruct (item_cut A i ltac:(lia)) as (a & -> & Sa). destruct (item_cut B j Lj) as (b & -> & Sb). rewrite Sa, Sb. cbn [bind addition_loop].
  rewrite !u32_small by lia. replace (N.of_nat i + 1)%N with (N.of_nat (S i)) by lia. replace (N.of_nat j + 1)%N with (N.of_nat (S j)) by lia.
  destruct (N.eqb a b); [apply IH; lia|]. destruct cost; [reflexivity|]. cbn [bit N.eqb]. change 1%N with (bit true). rewrite <- Sa. apply IH; cbn [bit N.to_nat] in *; lia.
Qed.

Lemma substitution_cut A B : length (cut B) = length (cut A) -> forall fuel i j cost, i <= length (cut A) -> length (cut A) < fuel + i ->
  substitution_c fuel A B (length32 A) (N.of_nat i) j (bit cost) = Ok (substitution_loop (skipn i (cut A)) (skipn i (cut B)) cost).
Proof.
  intros EL. pose proof (length32_lt A) as TA. pose proof (cut_length A) as CA.
  induction fuel as [|fuel IH]; intros i j cost Hi Hf; [lia|]. cbn [substitution_c].
  destruct (N.ltb_spec (N.of_nat i) (length32 A)) as [L|L].
  2: { rewrite (skipn_all2 (cut A)) by lia. reflexivity. }
  destruct (item_cut A i ltac:(lia)) as (a & -> & Sa). destruct (item_cut B i ltac:(lia)) as (b & -> & Sb). rewrite Sa, Sb. cbn [bind substitution_loop].
  rewrite (u32_small (N.of_nat i + 1)) by lia. replace (N.of_nat i + 1)%N with (N.of_nat (S i)) by lia.
  destruct (N.eqb a b); cbn [negb]; [apply IH; lia|]. destruct cost; [reflexivity|]. cbn [bit N.eqb]. change 1%N with (bit true). apply IH; lia.
Qed.

Lemma transposition_cut A B : length (cut B) = length (cut A) -> forall fuel i j cost, i <= length (cut A) -> length (cut A) < fuel + i ->
  transposition_c fuel A B (length32 A) (N.of_nat i) j (bit cost) = Ok (transposition_loop (skipn i (cut A)) (skipn i (cut B)) cost).
Proof.
  intros EL. pose proof (length32_lt A) as TA. pose proof (cut_length A) as CA.
  induction fuel as [|fuel IH]; intros i j cost Hi Hf; [lia|]. cbn [transposition_c].
  destruct (N.ltb_spec (N.of_nat i) (length32 A)) as [L|L].
  2: { rewrite (skipn_all2 (cut A)) by lia. reflexivity. }
  destruct (item_cut A i ltac:(lia)) as (a & -> & Sa). destruct (item_cut B i ltac:(lia)) as (b & -> & Sb). rewrite Sa, Sb. cbn [bind].
  rewrite (u32_small (N.of_nat i + 1)) by lia. replace (N.of_nat i + 1)%N with (N.of_nat (S i)) by lia.
  cbn [transposition_loop]. destruct (N.eqb a b); cbn [negb]; [apply IH; lia|]. destruct cost; [reflexivity|]. cbn [bit N.eqb]. change 1%N with (bit true).
  unfold transposed. rewrite (u32_small (N.of_nat i + 1)) by lia. replace (N.of_nat i + 1)%N with (N.of_nat (S i)) by lia.
  destruct (N.ltb_spec (N.of_nat (S i)) (length32 A)) as [L1|L1].
  - destruct (item_cut A (S i) ltac:(lia)) as (a' & -> & Sa'). destruct (item_cut B (S i) ltac:(lia)) as (b' & -> & Sb').
    cbn [bind]. destruct (N.eqb a' b) eqn:E1; cbn [bind andb].
    + rewrite Sa', Sb', E1. cbn [andb]. destruct (N.eqb b' a) eqn:E2.
      * rewrite (u32_small (N.of_nat i + 2)) by lia. replace (N.of_nat i + 2)%N with (N.of_nat (S (S i))) by lia. apply IH; lia.
      * rewrite <- Sa', <- Sb'. apply IH; lia.
    + rewrite (IH (S i) j true ltac:(lia) ltac:(lia)), Sa', Sb', E1. reflexivity.
  - cbn [bind]. rewrite (IH (S i) j true ltac:(lia) ltac:(lia)), (skipn_all2 (cut A)) by lia. reflexivity.
Qed.

Lemma lte1_cut loop_c loop : (forall A B, length (cut B) = length (cut A) ->
    loop_c (S (N.to_nat (length32 A))) A B (length32 A) 0%N 0%N 0%N = Ok (loop (cut A) (cut B) false)) ->
  forall same A B, lte1_c loop_c same A B = lte1 loop same (cut A) (cut B).
Proof.
  intros HL [|] A B; [reflexivity|]. unfold lte1_c, lte1.
  assert (G : forall A B, (length32 A <= length32 B)%N ->
    (if N.eqb (length32 A) 0 then Ok (N.eqb (length32 B) 1)
     else if N.ltb 1 (sub32 (length32 B) (length32 A)) then Ok false
     else if N.eqb (sub32 (length32 B) (length32 A)) 1 then addition_c (S (S (N.to_nat (length32 A)))) A B (length32 A) 0 0 0
     else loop_c (S (N.to_nat (length32 A))) A B (length32 A) 0%N 0%N 0%N) =
    (if Nat.eqb (length (cut A)) 0 then Ok (Nat.eqb (length (cut B)) 1)
     else if Nat.ltb 1 (length (cut B) - length (cut A)) then Ok false
     else if Nat.eqb (length (cut B) - length (cut A)) 1 then addition_loop (cut A) (cut B) false
     else Ok (loop (cut A) (cut B) false))).
  { clear A B. intros A B L. pose proof (length32_lt A) as TA. pose proof (length32_lt B) as TB. pose proof (cut_length A) as CA. pose proof (cut_length B) as CB.
    assert (Es : sub32 (length32 B) (length32 A) = (length32 B - length32 A)%N).
    { unfold sub32, u32. replace (length32 B + top - length32 A)%N with ((length32 B - length32 A) + 1 * top)%N by lia. rewrite N.mod_add by discriminate. apply N.mod_small. lia. }
    rewrite Es. destruct (N.eqb_spec (length32 A) 0) as [Z|Z], (Nat.eqb_spec (length (cut A)) 0) as [Z'|Z']; try lia.
    { f_equal. destruct (N.eqb_spec (length32 B) 1), (Nat.eqb_spec (length (cut B)) 1); try reflexivity; lia. }
    destruct (N.ltb_spec 1 (length32 B - length32 A)), (Nat.ltb_spec 1 (length (cut B) - length (cut A))); try reflexivity; try lia.
    destruct (N.eqb_spec (length32 B - length32 A) 1), (Nat.eqb_spec (length (cut B) - length (cut A)) 1); try lia.
    - pose proof (addition_cut A B ltac:(lia) (S (S (N.to_nat (length32 A)))) 0 0 false ltac:(lia) eq_refl ltac:(lia)) as E. exact E.
    - apply HL. lia. }
  pose proof (cut_length A) as CA. pose proof (cut_length B) as CB.
  destruct (N.ltb_spec (length32 B) (length32 A)) as [L|L], (Nat.ltb_spec (length (cut B)) (length (cut A))) as [L'|L']; try lia; apply G; lia.
Qed.

Lemma levenshtein_lte1_cut same A B : levenshtein_lte1_c same A B = levenshtein_distance_lte1 same (cut A) (cut B).
Proof.
  apply lte1_cut. clear. intros A B E. pose proof (cut_length A) as CA. exact (substitution_cut A B E (S (N.to_nat (length32 A))) 0 0%N false ltac:(lia) ltac:(lia)).
Qed.
Lemma damerau_lte1_cut same A B : damerau_lte1_c same A B = damerau_levenshtein_distance_lte1 same (cut A) (cut B).
Proof.
  apply lte1_cut. clear. intros A B E. pose proof (cut_length A) as CA. exact (transposition_cut A B E (S (N.to_nat (length32 A))) 0 0%N false ltac:(lia) ltac:(lia)).
Qed.
