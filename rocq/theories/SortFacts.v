(** Facts about the stable sort. *)
From Coq Require Import Sorted.
From Verif Require Import Base BaseFacts SortModel SortSpec.

Section Sort.
Context {A : Type}.
Variable leb : A -> A -> bool.

Lemma insert_by_perm x l : Permutation (insert_by leb x l) (x :: l).
Proof.
  induction l as [|y l IH]; simpl; [reflexivity|]. destruct (leb x y); [reflexivity|].
  rewrite IH. apply perm_swap.
Qed.

Lemma sort_by_perm l : Permutation (sort_by leb l) l.
Proof.
  induction l as [|x l IH]; simpl; [reflexivity|]. rewrite insert_by_perm. auto.
Qed.

Lemma sort_by_In x l : In x (sort_by leb l) <-> In x l.
Proof.
  split; apply Permutation_in; [|apply Permutation_sym]; apply sort_by_perm.
Qed.

Lemma sort_by_length l : length (sort_by leb l) = length l.
Proof. apply Permutation_length, sort_by_perm. Qed.

Hypothesis Hpre : total_preorder leb.

Lemma insert_by_sorted x l : StronglySorted (fun a b => leb a b = true) l ->
  StronglySorted (fun a b => leb a b = true) (insert_by leb x l).
Proof.
  induction l as [|y l IH]; simpl; intros Hs; [repeat constructor|].
  inversion Hs as [|? ? Hs' Hf]; subst.
  destruct (leb x y) eqn:E.
  - constructor; [exact Hs|]. constructor; [exact E|].
    rewrite Forall_forall in *. intros z Hz. eapply (leb_trans _ Hpre); [exact E|auto].
  - constructor; [auto|]. rewrite Forall_forall in *. intros z Hz.
    apply (Permutation_in z (insert_by_perm x l)) in Hz. destruct Hz as [<-|Hz]; [|auto].
    destruct (leb_total _ Hpre x y) as [E'|E']; [congruence|exact E'].
Qed.

Lemma sort_by_sorted l : StronglySorted (fun a b => leb a b = true) (sort_by leb l).
Proof. induction l as [|x l IH]; simpl; [constructor|apply insert_by_sorted; exact IH]. Qed.

Lemma insert_by_filter x z l :
  filter (fun y => leb z y && leb y z) (insert_by leb x l) = filter (fun y => leb z y && leb y z) (x :: l).
Proof.
  induction l as [|y l IH]; [reflexivity|]. cbn [insert_by].
  destruct (leb x y) eqn:E; [reflexivity|].
  change (filter (fun y => leb z y && leb y z) (y :: insert_by leb x l)) with
    (if leb z y && leb y z then y :: filter (fun y => leb z y && leb y z) (insert_by leb x l)
     else filter (fun y => leb z y && leb y z) (insert_by leb x l)).
  rewrite IH. simpl.
  destruct (leb z y && leb y z) eqn:E1, (leb z x && leb x z) eqn:E2; try reflexivity.
  exfalso. apply andb_true_iff in E1 as [E1 E1'], E2 as [E2 E2'].
  rewrite (leb_trans _ Hpre x z y E2' E1) in E. discriminate.
Qed.

Lemma sort_by_stable l : stably_sorted leb l (sort_by leb l).
Proof.
  split; [apply sort_by_perm|apply sort_by_sorted|].
  intros z. induction l as [|x l IH]; [reflexivity|].
  cbn [sort_by fold_right]. rewrite insert_by_filter. simpl. rewrite <- IH. reflexivity.
Qed.

(** there is only one stable sort *)
Lemma stably_sorted_unique l s1 s2 : stably_sorted leb l s1 -> stably_sorted leb l s2 -> s1 = s2.
Proof.
  intros [P1 O1 F1] [P2 O2 F2].
  assert (HF : forall x, filter (fun y => leb x y && leb y x) s1 = filter (fun y => leb x y && leb y x) s2)
    by (intros x; rewrite F1, F2; reflexivity).
  assert (HP : Permutation s1 s2) by (rewrite P1, P2; reflexivity).
  assert (Hrefl : forall x, leb x x = true) by (intros x; destruct (leb_total _ Hpre x x); auto).
  clear P1 P2 F1 F2. revert s2 O2 HF HP.
  induction s1 as [|x s1 IH]; intros s2 O2 HF HP.
  - apply Permutation_nil in HP. auto.
  - destruct s2 as [|y s2]; [apply Permutation_sym, Permutation_nil in HP; discriminate|].
    inversion O1 as [|? ? O1' G1]; subst. inversion O2 as [|? ? O2' G2]; subst.
    rewrite Forall_forall in G1, G2.
    assert (Exy : leb x y = true).
    { assert (Hy : In y (x :: s1)) by (eapply Permutation_in; [apply Permutation_sym; exact HP|left; reflexivity]).
      destruct Hy as [->|Hy]; auto. }
    assert (Eyx : leb y x = true).
    { assert (Hx : In x (y :: s2)) by (eapply Permutation_in; [exact HP|left; reflexivity]).
      destruct Hx as [->|Hx]; auto. }
    assert (x = y).
    { pose proof (HF x) as E. simpl in E. rewrite Hrefl, Exy, Eyx in E. simpl in E. congruence. }
    subst y. f_equal. apply IH; [exact O1'|exact O2'| |eapply Permutation_cons_inv; exact HP].
    intros z. pose proof (HF z) as E. simpl in E. destruct (leb z x && leb x z); congruence.
Qed.
End Sort.
