(** Facts about edit distances: alignments, the recursive distance, its recurrences. *)
From Verif Require Import Base BaseFacts EditSpec.

Section Align.
Context {A : Type}.

(** alignments: an inductive view of chains of edits *)
Inductive al : nat -> list A -> list A -> Prop :=
| al_nil : al 0 [] []
| al_match n x a b : al n a b -> al n (x :: a) (x :: b)
| al_sub n x y a b : al n a b -> al (S n) (x :: a) (y :: b)
| al_ins n y a b : al n a b -> al (S n) a (y :: b)
| al_del n x a b : al n a b -> al (S n) (x :: a) b.

Definition ale (n : nat) (a b : list A) : Prop := exists m, m <= n /\ al m a b.

Lemma al_ale n a b : al n a b -> ale n a b.
Proof. exists n. auto. Qed.

Lemma ale_mono n m a b : ale n a b -> n <= m -> ale m a b.
Proof. intros (k & ? & ?) ?. exists k. split; [lia|auto]. Qed.

Lemma al_refl a : al 0 a a.
Proof. induction a; constructor; auto. Qed.

Lemma al_0_eq a b : al 0 a b -> a = b.
Proof.
  remember 0 as n. intros Ha. induction Ha; try discriminate; [reflexivity|].
  f_equal; auto.
Qed.

Lemma al_nil_l b : al (length b) [] b.
Proof. induction b; simpl; constructor; auto. Qed.
Lemma al_nil_r a : al (length a) a [].
Proof. induction a; simpl; constructor; auto. Qed.

Lemma al_sym n a b : al n a b -> al n b a.
Proof. induction 1; constructor; auto. Qed.

Lemma ale_sym n a b : ale n a b -> ale n b a.
Proof. intros (m & ? & ?). exists m. split; [auto|apply al_sym; auto]. Qed.

Lemma al_length n a b : al n a b -> length a <= length b + n /\ length b <= length a + n.
Proof. induction 1; simpl; lia. Qed.

Lemma al_app n m a b c d : al n a b -> al m c d -> al (n + m) (a ++ c) (b ++ d).
Proof. induction 1; simpl; intros; auto; constructor; auto. Qed.

Lemma al_app_same_l n p a b : al n a b -> al n (p ++ a) (p ++ b).
Proof. induction p; simpl; intros; auto. constructor; auto. Qed.

Lemma al_app_same_r n p a b : al n a b -> al n (a ++ p) (b ++ p).
Proof. intros Ha. replace n with (n + 0) by lia. apply al_app; [exact Ha|apply al_refl]. Qed.

Lemma al_rev n a b : al n a b -> al n (rev a) (rev b).
Proof.
  induction 1; simpl.
  - constructor.
  - replace n with (n + 0) by lia. apply al_app; [auto|]. apply al_refl.
  - replace (S n) with (n + 1) by lia. apply al_app; [auto|]. apply al_sub. constructor.
  - rewrite <- (app_nil_r (rev a)). replace (S n) with (n + 1) by lia. apply al_app; [auto|].
    constructor. constructor.
  - rewrite <- (app_nil_r (rev b)). replace (S n) with (n + 1) by lia. apply al_app; [auto|].
    constructor. constructor.
Qed.

Lemma al_rev_iff n a b : al n (rev a) (rev b) <-> al n a b.
Proof. split; [|apply al_rev]. intros H. apply al_rev in H. rewrite !rev_involutive in H. exact H. Qed.

(** triangle inequality *)
Lemma al_trans n a b : al n a b -> forall m c, al m b c -> ale (n + m) a c.
Proof.
  induction 1 as [|n x a b H IH|n x y a b H IH|n y a b H IH|n x a b H IH]; intros m c Hc.
  - apply al_ale. exact Hc.
  - remember (x :: b) as xb eqn:E. revert b H IH E.
    induction Hc as [|m z b' c Hc IHc|m z y b' c Hc IHc|m y b' c Hc IHc|m z b' c Hc IHc];
      intros b H IH E; try discriminate; try (inversion E; subst).
    + destruct (IH _ _ Hc) as (k & ? & ?). exists k. split; [lia|]. constructor; auto.
    + destruct (IH _ _ Hc) as (k & ? & ?). exists (S k). split; [lia|]. constructor; auto.
    + destruct (IHc b H IH eq_refl) as (k & ? & ?). exists (S k). split; [lia|]. apply al_ins; auto.
    + destruct (IH _ _ Hc) as (k & ? & ?). exists (S k). split; [lia|]. apply al_del; auto.
  - remember (y :: b) as yb eqn:E. revert b H IH E.
    induction Hc as [|m z b' c Hc IHc|m z y' b' c Hc IHc|m y' b' c Hc IHc|m z b' c Hc IHc];
      intros b H IH E; try discriminate; try (inversion E; subst).
    + destruct (IH _ _ Hc) as (k & ? & ?). exists (S k). split; [lia|]. constructor; auto.
    + destruct (IH _ _ Hc) as (k & ? & ?). exists (S k). split; [lia|]. constructor; auto.
    + destruct (IHc b H IH eq_refl) as (k & ? & ?). exists (S k). split; [lia|]. apply al_ins; auto.
    + destruct (IH _ _ Hc) as (k & ? & ?). exists (S k). split; [lia|]. apply al_del; auto.
  - remember (y :: b) as yb eqn:E. revert b H IH E.
    induction Hc as [|m z b' c Hc IHc|m z y' b' c Hc IHc|m y' b' c Hc IHc|m z b' c Hc IHc];
      intros b H IH E; try discriminate; try (inversion E; subst).
    + destruct (IH _ _ Hc) as (k & ? & ?). exists (S k). split; [lia|]. constructor; auto.
    + destruct (IH _ _ Hc) as (k & ? & ?). exists (S k). split; [lia|]. constructor; auto.
    + destruct (IHc b H IH eq_refl) as (k & ? & ?). exists (S k). split; [lia|]. apply al_ins; auto.
    + destruct (IH _ _ Hc) as (k & ? & ?). exists k. split; [lia|]. auto.
  - destruct (IH _ _ Hc) as (k & ? & ?). exists (S k). split; [lia|]. apply al_del; auto.
Qed.

Lemma ale_trans n m a b c : ale n a b -> ale m b c -> ale (n + m) a c.
Proof.
  intros (n' & ? & H1) (m' & ? & H2). eapply ale_mono; [eapply al_trans; eassumption|lia].
Qed.

Lemma edit1_al a b : edit1 a b -> al 1 a b.
Proof.
  intros [l x r|l x r|l x y r]; apply al_app_same_l; constructor; apply al_refl.
Qed.

Lemma edit1_cons (x : A) (a b : list A) : edit1 a b -> edit1 (x :: a) (x :: b).
Proof.
  intros [l y r|l y r|l y z r].
  - exact (edit_ins (x :: l) y r).
  - exact (edit_del (x :: l) y r).
  - exact (edit_sub (x :: l) y z r).
Qed.

Lemma steps_cons (x : A) n (a b : list A) : steps edit1 n a b -> steps edit1 n (x :: a) (x :: b).
Proof. induction 1; [constructor|]. econstructor; [apply edit1_cons; eassumption|auto]. Qed.

Lemma al_steps n a b : al n a b -> steps edit1 n a b.
Proof.
  induction 1 as [|n x a b H IH|n x y a b H IH|n y a b H IH|n x a b H IH].
  - constructor.
  - apply steps_cons; auto.
  - econstructor; [exact (edit_sub [] x y a)|]. apply steps_cons. exact IH.
  - econstructor; [exact (edit_ins [] y a)|]. apply steps_cons. exact IH.
  - econstructor; [exact (edit_del [] x a)|]. exact IH.
Qed.

Lemma steps_ale n a b : steps edit1 n a b -> ale n a b.
Proof.
  induction 1 as [a|n a b c H H' IH].
  - apply al_ale, al_refl.
  - change (S n) with (1 + n). eapply ale_trans; [apply al_ale, edit1_al; eassumption|exact IH].
Qed.

Lemma lev_le_ale n a b : lev_le n a b <-> ale n a b.
Proof.
  split.
  - intros (m & Hm & Hs). eapply ale_mono; [apply steps_ale; exact Hs|exact Hm].
  - intros (m & Hm & Hs). exists m. split; [exact Hm|apply al_steps; exact Hs].
Qed.
End Align.

Section Lev.
Context {A : Type} `{EqDec A}.

Fixpoint lev (a : list A) : list A -> nat :=
  fix aux b :=
    match a, b with
    | [], _ => length b
    | _, [] => length a
    | x :: a', y :: b' =>
      Nat.min (S (lev a' b)) (Nat.min (S (aux b')) (lev a' b' + if eq_dec x y then 0 else 1))
    end.

Lemma lev_nil_l b : lev [] b = length b.
Proof. destruct b; reflexivity. Qed.
Lemma lev_nil_r a : lev a [] = length a.
Proof. destruct a; reflexivity. Qed.
Lemma lev_cons x a y b : lev (x :: a) (y :: b) =
  Nat.min (S (lev a (y :: b))) (Nat.min (S (lev (x :: a) b)) (lev a b + if eq_dec x y then 0 else 1)).
Proof. reflexivity. Qed.

Lemma lev_al a b : al (lev a b) a b.
Proof.
  revert b. induction a as [|x a IHa]; intros b.
  - rewrite lev_nil_l. apply al_nil_l.
  - induction b as [|y b IHb].
    + rewrite lev_nil_r. apply al_nil_r.
    + rewrite lev_cons.
      destruct (Nat.min_dec (S (lev a (y :: b)))
        (Nat.min (S (lev (x :: a) b)) (lev a b + if eq_dec x y then 0 else 1))) as [->| ->].
      { apply al_del, IHa. }
      destruct (Nat.min_dec (S (lev (x :: a) b)) (lev a b + if eq_dec x y then 0 else 1)) as [->| ->].
      { apply al_ins, IHb. }
      destruct (eq_dec x y) as [->|Hn].
      * rewrite Nat.add_0_r. apply al_match, IHa.
      * rewrite Nat.add_1_r. apply al_sub, IHa.
Qed.

Lemma lev_le_al n a b : al n a b -> lev a b <= n.
Proof.
  induction 1 as [|n x a b H1 IH|n x y a b H1 IH|n y a b H1 IH|n x a b H1 IH].
  - reflexivity.
  - rewrite lev_cons. destruct (eq_dec x x); [lia|contradiction].
  - rewrite lev_cons. destruct (eq_dec x y); lia.
  - destruct a as [|x a]; [rewrite lev_nil_l in *; simpl; lia|]. rewrite lev_cons. lia.
  - destruct b as [|y b]; [rewrite lev_nil_r in *; simpl; lia|]. rewrite lev_cons. lia.
Qed.

Lemma ale_lev n a b : ale n a b <-> lev a b <= n.
Proof.
  split.
  - intros (m & ? & Hm). apply lev_le_al in Hm. lia.
  - intros Hn. exists (lev a b). split; [exact Hn|apply lev_al].
Qed.

Lemma lev_le_lev n (a b : list A) : lev_le n a b <-> lev a b <= n.
Proof. rewrite lev_le_ale. apply ale_lev. Qed.

Lemma lev_is_lev a b : is_lev a b (lev a b).
Proof.
  split; [apply al_steps, lev_al|]. intros m Hm. apply ale_lev, steps_ale; exact Hm.
Qed.

Lemma is_lev_lev (a b : list A) n : is_lev a b n <-> n = lev a b.
Proof.
  split.
  - intros [H1 H2]. destruct (lev_is_lev a b) as [H3 H4]. apply Nat.le_antisymm; auto.
  - intros ->. apply lev_is_lev.
Qed.

Lemma lev_refl a : lev a a = 0.
Proof. pose proof (lev_le_al _ _ _ (al_refl a)). lia. Qed.

Lemma lev_0_eq a b : lev a b = 0 -> a = b.
Proof. intros E. apply al_0_eq. rewrite <- E. apply lev_al. Qed.

Lemma lev_sym a b : lev a b = lev b a.
Proof. apply Nat.le_antisymm; apply lev_le_al, al_sym, lev_al. Qed.

Lemma lev_triangle a b c : lev a c <= lev a b + lev b c.
Proof. apply ale_lev. eapply al_trans; apply lev_al. Qed.

Lemma lev_rev a b : lev (rev a) (rev b) = lev a b.
Proof.
  apply Nat.le_antisymm; apply lev_le_al.
  - apply al_rev, lev_al.
  - apply al_rev_iff, lev_al.
Qed.

Lemma lev_length a b : length a - length b <= lev a b /\ length b - length a <= lev a b.
Proof. pose proof (al_length _ _ _ (lev_al a b)). lia. Qed.

Lemma lev_del_l x a b : lev a b <= S (lev (x :: a) b) /\ lev (x :: a) b <= S (lev a b).
Proof.
  split.
  - pose proof (lev_triangle a (x :: a) b).
    assert (lev a (x :: a) <= 1) by (apply lev_le_al, al_ins, al_refl). lia.
  - apply lev_le_al, al_del, lev_al.
Qed.

Lemma lev_del_r a y b : lev a b <= S (lev a (y :: b)) /\ lev a (y :: b) <= S (lev a b).
Proof. rewrite (lev_sym a b), (lev_sym a (y :: b)). apply lev_del_l. Qed.

Lemma lev_match x a b : lev (x :: a) (x :: b) = lev a b.
Proof.
  rewrite lev_cons. destruct (eq_dec x x); [|contradiction].
  pose proof (lev_del_r a x b). pose proof (lev_del_l x a b). lia.
Qed.

Lemma lev_mismatch x a y b : x <> y ->
  lev (x :: a) (y :: b) = S (Nat.min (lev a (y :: b)) (Nat.min (lev (x :: a) b) (lev a b))).
Proof. intros Hn. rewrite lev_cons. destruct (eq_dec x y); [contradiction|]. lia. Qed.

Lemma lev_diag x a y b : lev a b <= lev (x :: a) (y :: b).
Proof.
  destruct (eq_dec x y) as [->|Hn]; [rewrite lev_match; lia|].
  rewrite lev_mismatch by exact Hn.
  pose proof (lev_del_r a y b). pose proof (lev_del_l x a b). lia.
Qed.

Lemma lev_app_l p a b : lev (p ++ a) (p ++ b) = lev a b.
Proof. induction p as [|x p IH]; simpl app; [reflexivity|]. rewrite lev_match. exact IH. Qed.

Lemma lev_app_r a b s : lev (a ++ s) (b ++ s) = lev a b.
Proof. rewrite <- lev_rev, !rev_app_distr, lev_app_l, lev_rev. reflexivity. Qed.

Lemma lev_le_max a b : lev a b <= Nat.max (length a) (length b).
Proof.
  revert b. induction a as [|x a IH]; intros b; [rewrite lev_nil_l; simpl; lia|].
  destruct b as [|y b]; [rewrite lev_nil_r; simpl; lia|].
  rewrite lev_cons. specialize (IH b). cbn [length]. destruct (eq_dec x y); lia.
Qed.

Lemma lev_single_in x b : In x b -> lev [x] b = length b - 1.
Proof.
  intros Hin. apply in_split in Hin as (l & r & ->).
  apply Nat.le_antisymm.
  - apply lev_le_al. rewrite app_length. simpl.
    replace (length l + S (length r) - 1) with (length l + length r) by lia.
    apply (al_app (length l) (length r) [] l [x] (x :: r)); [apply al_nil_l|].
    constructor. apply al_nil_l.
  - pose proof (lev_length [x] (l ++ x :: r)) as [_ Hl]. cbn [length] in Hl. lia.
Qed.

Lemma lev_single_notin x b : ~ In x b -> 1 <= length b -> lev [x] b = length b.
Proof.
  induction b as [|y b IH]; intros Hn Hl; [simpl in Hl; lia|]. simpl in Hn.
  rewrite lev_mismatch by intuition. rewrite !lev_nil_l. cbn [length].
  destruct b as [|z b]; [reflexivity|].
  rewrite IH; [|tauto|cbn [length]; lia]. cbn [length]. lia.
Qed.

(** ** Prefixes: the table of the dynamic programme *)
Definition D (a b : list A) (i j : nat) : nat := lev (firstn i a) (firstn j b).

Lemma firstn_S_snoc (l : list A) i x : nth_error l i = Some x -> firstn (S i) l = firstn i l ++ [x].
Proof.
  revert l. induction i as [|i IH]; intros [|y l] E; simpl in E; try discriminate.
  - inversion E; subst. reflexivity.
  - cbn [firstn app]. f_equal. rewrite <- IH by exact E. reflexivity.
Qed.

Lemma D_0_l a b j : j <= length b -> D a b 0 j = j.
Proof. intros. unfold D. simpl firstn. rewrite lev_nil_l, firstn_length. lia. Qed.
Lemma D_0_r a b i : i <= length a -> D a b i 0 = i.
Proof. intros. unfold D. simpl (firstn 0 b). rewrite lev_nil_r, firstn_length. lia. Qed.

Lemma D_match a b i j x : nth_error a i = Some x -> nth_error b j = Some x ->
  D a b (S i) (S j) = D a b i j.
Proof.
  intros Ha Hb. unfold D. rewrite (firstn_S_snoc _ _ _ Ha), (firstn_S_snoc _ _ _ Hb). apply lev_app_r.
Qed.

Lemma D_mismatch a b i j x y : nth_error a i = Some x -> nth_error b j = Some y -> x <> y ->
  D a b (S i) (S j) = S (Nat.min (D a b i (S j)) (Nat.min (D a b (S i) j) (D a b i j))).
Proof.
  intros Ha Hb Hn. unfold D. rewrite (firstn_S_snoc _ _ _ Ha), (firstn_S_snoc _ _ _ Hb).
  rewrite <- (lev_rev (firstn i a ++ [x])), <- (lev_rev (firstn i a) (firstn j b ++ [y])),
    <- (lev_rev (firstn i a ++ [x]) (firstn j b)), <- (lev_rev (firstn i a) (firstn j b)).
  rewrite !rev_app_distr. simpl app. apply lev_mismatch. exact Hn.
Qed.

Lemma D_diag a b i j : i < length a -> j < length b -> D a b i j <= D a b (S i) (S j).
Proof.
  intros Hi Hj. apply nth_error_Some in Hi, Hj.
  destruct (nth_error a i) as [x|] eqn:Ea; [|contradiction].
  destruct (nth_error b j) as [y|] eqn:Eb; [|contradiction].
  unfold D. rewrite (firstn_S_snoc _ _ _ Ea), (firstn_S_snoc _ _ _ Eb).
  rewrite <- (lev_rev (firstn i a ++ [x])), <- (lev_rev (firstn i a) (firstn j b)).
  rewrite !rev_app_distr. apply lev_diag.
Qed.

Lemma D_bounds a b i j : i <= length a -> j <= length b ->
  i - j <= D a b i j /\ j - i <= D a b i j /\ D a b i j <= Nat.max i j.
Proof.
  intros Hi Hj. unfold D.
  pose proof (lev_length (firstn i a) (firstn j b)). pose proof (lev_le_max (firstn i a) (firstn j b)).
  rewrite !firstn_length in *. rewrite !Nat.min_l in * by lia. lia.
Qed.

Lemma D_full a b : D a b (length a) (length b) = lev a b.
Proof. unfold D. rewrite !firstn_all. reflexivity. Qed.

Lemma D_first_differ a b i x y : nth_error a 0 = Some x -> nth_error b 0 = Some y -> x <> y ->
  1 <= i -> D a b i i <> 0.
Proof.
  intros Ha Hb Hn Hi E. unfold D in E. apply lev_0_eq in E.
  destruct a as [|x' a]; [discriminate|]. destruct b as [|y' b]; [discriminate|].
  destruct i as [|i]; [lia|]. simpl in *. congruence.
Qed.
End Lev.
