(** Lemmas behind C203 *)
From Coq Require Import QArith Qround Lqa.
From Verif Require Import Base BaseFacts LevModel StringsModel NgramsAnyModel.
Open Scope nat_scope.

Lemma map_same {X Y} (y : Y) (l : list X) : map (fun _ => y) l = repeat y (length l).
Proof. induction l as [|x l IH]; [reflexivity|]. cbn. rewrite IH. reflexivity. Qed.

Section Ngrams.
Context {A : Type}.
Implicit Types s : list A.

Lemma slice_to_end i e s : i <= e -> slice_to i (Z.of_nat e) s = slice i e s.
Proof.
  intros L. unfold slice_to, slice. destruct (Z.ltb_spec (Z.of_nat e) 0); [lia|].
  destruct (Nat.le_gt_cases e (length s)) as [K|K].
  - f_equal. lia.
  - rewrite !firstn_all2; [reflexivity | rewrite skipn_length; lia | rewrite skipn_length; lia].
Qed.

Lemma ngrams_any_nat n s : ngrams_any (Z.of_nat n) s = ngrams n s.
Proof.
  unfold ngrams_any, ngrams. f_equal.
  - destruct (Z.ltb_spec (Z.of_nat (length s)) (Z.of_nat n)), (Nat.ltb_spec (length s) n); try reflexivity; lia.
  - replace (Z.to_nat (Z.of_nat (length s) - Z.of_nat n + 1)) with (length s + 1 - n) by lia. apply map_ext_in. intros i _.
    rewrite <- Nat2Z.inj_add. apply slice_to_end. lia.
Qed.

Lemma ngrams_zero s : ngrams_any 0 s = repeat [] (length s + 1).
Proof.
  unfold ngrams_any. destruct (Z.ltb_spec (Z.of_nat (length s)) 0); [lia|]. cbn [app].
  replace (Z.to_nat (Z.of_nat (length s) - 0 + 1)) with (length s + 1) by lia.
  transitivity (map (fun _ => [] : list A) (seq 0 (length s + 1))); [|rewrite map_same, seq_length; reflexivity].
  apply map_ext_in. intros i Hi. rewrite in_seq in Hi. unfold slice_to. destruct (Z.ltb_spec (Z.of_nat i + 0) 0); [lia|].
  replace (Z.to_nat _) with 0 by lia. reflexivity.
Qed.

Lemma ngrams_negative m s : 0 < m -> ngrams_any (- Z.of_nat m) s =
  map (fun i => slice i (i + (length s - m)) s) (seq 0 m) ++ repeat [] (length s + 1).
Proof.
  intros Hm. unfold ngrams_any. destruct (Z.ltb_spec (Z.of_nat (length s)) (- Z.of_nat m)); [lia|]. cbn [app].
  replace (Z.to_nat (Z.of_nat (length s) - - Z.of_nat m + 1)) with (m + (length s + 1)) by lia. rewrite seq_app, map_app. f_equal.
  - apply map_ext_in. intros i Hi. rewrite in_seq in Hi. unfold slice_to, slice. destruct (Z.ltb_spec (Z.of_nat i + - Z.of_nat m) 0); [|lia]. f_equal. lia.
  - transitivity (map (fun _ => [] : list A) (seq m (length s + 1))); [|rewrite map_same, seq_length; reflexivity].
    apply map_ext_in. intros i Hi. rewrite in_seq in Hi. unfold slice_to. destruct (Z.ltb_spec (Z.of_nat i + - Z.of_nat m) 0); [lia|].
    replace (Z.to_nat _) with 0 by lia. reflexivity.
Qed.

Lemma last_letters_empty (grams : list (list A)) : In [] grams -> last_letters grams = Err IndexError.
Proof.
  induction grams as [|g grams IH]; intros K; [destruct K|]. cbn [last_letters]. destruct (rev g) as [|c r] eqn:E; [reflexivity|].
  destruct K as [-> |K]; [discriminate|]. rewrite (IH K). reflexivity.
Qed.

Lemma join_empty (g : list A) grams : In [] grams -> join_ngrams (g :: grams) = Err IndexError.
Proof. intros K. unfold join_ngrams. rewrite (last_letters_empty grams K). reflexivity. Qed.

Lemma join_zero s : s <> [] -> join_ngrams (ngrams_any 0 s) = Err IndexError.
Proof.
  intros Hs. rewrite ngrams_zero. destruct s as [|x s]; [contradiction|]. cbn [length Nat.add repeat]. apply join_empty. rewrite Nat.add_1_r. left. reflexivity.
Qed.

Lemma join_negative m s : 0 < m -> join_ngrams (ngrams_any (- Z.of_nat m) s) = Err IndexError.
Proof.
  intros Hm. rewrite (ngrams_negative m s Hm). destruct m as [|m]; [lia|]. cbn [seq map app]. apply join_empty. apply in_or_app. right.
  rewrite Nat.add_1_r. left. reflexivity.
Qed.
End Ngrams.

Lemma keys_any_nat n (s : str) t : ngram_keys_any (Z.of_nat n) s t = ngram_keys n s t.
Proof. unfold ngram_keys_any, ngram_keys. rewrite ngrams_any_nat. reflexivity. Qed.

Lemma Qfloor_ge (z : Z) q : (inject_Z z <= q)%Q -> (z <= Qfloor q)%Z.
Proof. intros L. rewrite <- (Qfloor_Z z). apply Qfloor_resp_le. exact L. Qed.

Lemma keys_above n (s : str) t : (1 <= t)%Q -> ngram_keys_any n s t = [concat (ngrams_any n s)].
Proof.
  intros Ht. unfold ngram_keys_any. set (k := (Z.of_nat (length s) - (n - 1))%Z). f_equal.
  replace (Z.to_nat (k - Z.max 1 (Qfloor (inject_Z k * t)))) with 0; [reflexivity|].
  destruct (Z.le_gt_cases k 1) as [L|L]; [lia|]. assert (K : (k <= Qfloor (inject_Z k * t))%Z); [|lia]. apply Qfloor_ge.
  assert (P : (0 <= inject_Z k)%Q) by (change 0%Q with (inject_Z 0); rewrite <- Zle_Qle; lia). nra.
Qed.

Lemma keys_below n (s : str) t : (t <= 0)%Q -> ngram_keys_any n s t = ngram_keys_any n s 0.
Proof.
  intros Ht. unfold ngram_keys_any. set (k := (Z.of_nat (length s) - (n - 1))%Z). f_equal. f_equal. f_equal.
  destruct (Z.le_gt_cases k 0) as [L|L]; [replace (Z.to_nat (k - _)) with 0 by lia; replace (Z.to_nat (k - _)) with 0 by lia; reflexivity|].
  assert (G : forall u, (u <= 0)%Q -> (Qfloor (inject_Z k * u) <= 0)%Z).
  { intros u Hu. rewrite <- (Qfloor_Z 0). apply Qfloor_resp_le. change (inject_Z 0) with 0%Q.
    assert (P : (0 <= inject_Z k)%Q) by (change 0%Q with (inject_Z 0); rewrite <- Zle_Qle; lia). nra. }
  pose proof (G t Ht). pose proof (G 0%Q (Qle_refl 0)). f_equal. lia.
Qed.

Lemma combinations_In {B} (l : list B) : forall s c, In c (combinations l s) -> incl c l.
Proof.
  induction l as [|x l IH]; intros [|s] c K; cbn [combinations] in K.
  - destruct K as [<-|[]]. intros y [].
  - destruct K.
  - destruct K as [<-|[]]. intros y [].
  - apply in_app_or in K. destruct K as [K|K].
    + apply in_map_iff in K. destruct K as (c' & <- & K). intros y [<-|Hy]; [left; reflexivity | right; exact (IH s c' K y Hy)].
    + intros y Hy. right. exact (IH (S s) c K y Hy).
Qed.

Lemma concat_empty {B} (l : list (list B)) : (forall x, In x l -> x = []) -> concat l = [].
Proof. induction l as [|x l IH]; intros K; [reflexivity|]. cbn. rewrite (K x (or_introl eq_refl)), IH; [reflexivity|]. intros y Hy. apply K. right. exact Hy. Qed.

Lemma keys_zero (s : str) t key : In key (ngram_keys_any 0 s t) -> key = [].
Proof.
  unfold ngram_keys_any. rewrite ngrams_zero. intros [<-|K].
  - apply concat_empty. intros x Hx. exact (repeat_spec _ _ _ Hx).
  - apply in_map_iff in K. destruct K as (c & <- & K). apply in_flat_map in K. destruct K as (u & _ & K). apply combinations_In in K.
    apply concat_empty. intros x Hx. exact (repeat_spec _ _ _ (K x Hx)).
Qed.
