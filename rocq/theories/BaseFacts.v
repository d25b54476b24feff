(** Facts about the shared vocabulary. *)
From Verif Require Import Base.

Lemma memb_true {A} `{EqDec A} (x : A) l : memb x l = true <-> In x l.
Proof. unfold memb. destruct (in_dec eq_dec x l); split; intros; auto; try discriminate; contradiction. Qed.

Lemma memb_false {A} `{EqDec A} (x : A) l : memb x l = false <-> ~ In x l.
Proof. unfold memb. destruct (in_dec eq_dec x l); split; intros; auto; try discriminate; contradiction. Qed.

Lemma memb_In {A} `{EqDec A} (x : A) l : reflect (In x l) (memb x l).
Proof. unfold memb. destruct (in_dec eq_dec x l); constructor; auto. Qed.

Lemma eqb_true {A} `{EqDec A} (x y : A) : eqb x y = true <-> x = y.
Proof. unfold eqb. destruct (eq_dec x y); split; intros; auto; discriminate. Qed.

Lemma eqb_false {A} `{EqDec A} (x y : A) : eqb x y = false <-> x <> y.
Proof. unfold eqb. destruct (eq_dec x y); split; intros; auto; try discriminate; contradiction. Qed.

Lemma eqb_refl {A} `{EqDec A} (x : A) : eqb x x = true.
Proof. apply eqb_true; reflexivity. Qed.

Lemma dget_dmodify_same {K V} `{EqDec K} (d : dict K V) k dflt f :
  dget (dmodify d k dflt f) k = Some (f (match dget d k with Some v => v | None => dflt end)).
Proof.
  induction d as [|[k' v] d IH]; simpl.
  - destruct (eq_dec k k); [reflexivity|contradiction].
  - destruct (eq_dec k k') as [->|Hn]; simpl.
    + destruct (eq_dec k' k'); [reflexivity|contradiction].
    + destruct (eq_dec k k'); [contradiction|exact IH].
Qed.

Lemma dget_dmodify_other {K V} `{EqDec K} (d : dict K V) k k' dflt f :
  k <> k' -> dget (dmodify d k dflt f) k' = dget d k'.
Proof.
  intros Hn. induction d as [|[k0 v] d IH]; simpl.
  - destruct (eq_dec k' k) as [->|]; [contradiction|reflexivity].
  - destruct (eq_dec k k0) as [->|Hk]; simpl.
    + destruct (eq_dec k' k0) as [->|]; [contradiction|reflexivity].
    + destruct (eq_dec k' k0); [reflexivity|exact IH].
Qed.

Lemma dkeys_dmodify {K V} `{EqDec K} (d : dict K V) k dflt f :
  dkeys (dmodify d k dflt f) = sadd (dkeys d) k.
Proof.
  unfold sadd. induction d as [|[k' v] d IH]; simpl.
  - reflexivity.
  - destruct (eq_dec k k') as [->|Hn]; simpl.
    + fold (dkeys d). match goal with |- context [if ?c then _ else _] => destruct c as [e|n] end;
        [reflexivity|]. exfalso. apply n. simpl. auto.
    + rewrite IH. fold (dkeys d).
      destruct (in_dec eq_dec k (dkeys d)) as [i|n];
      match goal with |- context [if ?c then _ else _] => destruct c as [e|n'] end;
      try reflexivity; exfalso; simpl in *; intuition congruence.
Qed.

Lemma dget_In_keys {K V} `{EqDec K} (d : dict K V) k :
  In k (dkeys d) <-> exists v, dget d k = Some v.
Proof.
  induction d as [|[k' v] d IH]; simpl.
  - split; [tauto|intros [v Hv]; discriminate].
  - destruct (eq_dec k k') as [->|Hn].
    + split; [intros _; eexists; reflexivity|auto].
    + rewrite <- IH. split; [intros [E|E]; [congruence|exact E]|auto].
Qed.

Lemma dget_Some_In {K V} `{EqDec K} (d : dict K V) k v :
  dget d k = Some v -> In (k, v) d.
Proof.
  induction d as [|[k' v'] d IH]; simpl; [discriminate|].
  destruct (eq_dec k k') as [->|]; intros E.
  - left; congruence.
  - right; auto.
Qed.

Lemma In_dget {K V} `{EqDec K} (d : dict K V) k v :
  NoDup (dkeys d) -> In (k, v) d -> dget d k = Some v.
Proof.
  induction d as [|[k' v'] d IH]; simpl; [tauto|].
  intros Hnd [E|Hin]; inversion Hnd; subst.
  - inversion E; subst. destruct (eq_dec k k); [reflexivity|contradiction].
  - destruct (eq_dec k k') as [->|]; [|auto].
    exfalso. apply H2. change k' with (fst (k', v)). apply in_map. exact Hin.
Qed.

Lemma sadd_In {A} `{EqDec A} (s : list A) x y : In y (sadd s x) <-> In y s \/ y = x.
Proof.
  unfold sadd. destruct (in_dec eq_dec x s).
  - split; [auto|]. intros [?| ->]; auto.
  - rewrite in_app_iff. simpl. intuition.
Qed.

Lemma sadd_NoDup {A} `{EqDec A} (s : list A) x : NoDup s -> NoDup (sadd s x).
Proof.
  intros Hs. unfold sadd. destruct (in_dec eq_dec x s); [exact Hs|].
  apply Permutation_NoDup with (x :: s).
  - apply Permutation_cons_append.
  - constructor; assumption.
Qed.

Lemma fold_sadd_In {A} `{EqDec A} (l s : list A) y :
  In y (fold_left sadd l s) <-> In y s \/ In y l.
Proof.
  revert s. induction l as [|x l IH]; simpl; intros s; [tauto|].
  rewrite IH, sadd_In. intuition.
Qed.

Lemma fold_sadd_NoDup {A} `{EqDec A} (l s : list A) :
  NoDup s -> NoDup (fold_left sadd l s).
Proof. revert s. induction l; simpl; intros; auto using sadd_NoDup. Qed.

Lemma set_of_In {A} `{EqDec A} (l : list A) y : In y (set_of l) <-> In y l.
Proof. unfold set_of. rewrite fold_sadd_In. simpl. tauto. Qed.

Lemma set_of_NoDup {A} `{EqDec A} (l : list A) : NoDup (set_of l).
Proof. apply fold_sadd_NoDup. constructor. Qed.

Lemma fold_sadd_NoDup_id {A} `{EqDec A} (l s : list A) :
  NoDup (s ++ l) -> fold_left sadd l s = s ++ l.
Proof.
  revert s. induction l as [|x l IH]; simpl; intros s Hnd; [rewrite app_nil_r; reflexivity|].
  unfold sadd at 2. destruct (in_dec eq_dec x s) as [Hin|_].
  - apply NoDup_remove_2 in Hnd. exfalso. apply Hnd. apply in_or_app; auto.
  - rewrite IH; rewrite <- app_assoc; [reflexivity|exact Hnd].
Qed.

Lemma set_of_NoDup_id {A} `{EqDec A} (l : list A) : NoDup l -> set_of l = l.
Proof. intros Hl. unfold set_of. rewrite fold_sadd_NoDup_id; auto. Qed.

Lemma NoDup_app_iff {A} (l1 l2 : list A) :
  NoDup (l1 ++ l2) <-> NoDup l1 /\ NoDup l2 /\ (forall x, In x l1 -> ~ In x l2).
Proof.
  induction l1 as [|a l1 IH]; simpl.
  - split; [intros Hn; repeat split; auto; constructor|tauto].
  - split.
    + intros Hn. inversion Hn; subst. apply IH in H2 as (H3 & H4 & H5).
      rewrite in_app_iff in H1. repeat split; auto.
      * constructor; tauto.
      * intros x [->|Hx]; [tauto|auto].
    + intros (H1 & H2 & H3). inversion H1; subst. constructor.
      * rewrite in_app_iff. intros [?|?]; [tauto|]. eapply H3; eauto.
      * apply IH. repeat split; auto.
Qed.

Lemma NoDup_same_length {A} (l1 l2 : list A) :
  NoDup l1 -> NoDup l2 -> (forall x, In x l1 <-> In x l2) -> length l1 = length l2.
Proof. intros. apply Permutation_length. apply NoDup_Permutation; auto. Qed.

Lemma le_max_true n hi : le_max n hi = true <-> match hi with None => True | Some h => n <= h end.
Proof. destruct hi; simpl; [apply Nat.leb_le|tauto]. Qed.

Lemma slice_length {A} i j (l : list A) : length (slice i j l) = Nat.min (j - i) (length l - i).
Proof. unfold slice. rewrite firstn_length, skipn_length. reflexivity. Qed.

Lemma nth_error_slice {A} i j (l : list A) k :
  k < j - i -> nth_error (slice i j l) k = nth_error l (i + k).
Proof.
  unfold slice. revert i. intros i Hk.
  assert (Hf : forall n (l : list A) k, k < n -> nth_error (firstn n l) k = nth_error l k).
  { clear. induction n; intros l k Hk; [lia|]. destruct l; simpl; [destruct k; reflexivity|].
    destruct k; simpl; [reflexivity|]. apply IHn. lia. }
  rewrite Hf by exact Hk. clear.
  revert l. induction i; intros l; simpl; [reflexivity|].
  destruct l; simpl; [destruct (k); reflexivity|]. apply IHi.
Qed.

Lemma filter_none {A} (p : A -> bool) l : (forall x, In x l -> p x = false) -> filter p l = [].
Proof.
  induction l as [|x l IH]; simpl; intros Hl; [reflexivity|].
  rewrite Hl by auto. apply IH. intros; apply Hl; auto.
Qed.

Lemma filter_all {A} (p : A -> bool) l : (forall x, In x l -> p x = true) -> filter p l = l.
Proof.
  induction l as [|x l IH]; simpl; intros Hl; [reflexivity|].
  rewrite Hl by auto. f_equal. apply IH. intros; apply Hl; auto.
Qed.
