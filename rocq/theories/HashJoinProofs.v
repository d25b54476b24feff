(** Proofs about hashjoin. *)
From Verif Require Import Base BaseFacts HashJoinModel HashJoinSpec.

Section HashJoin.
Context {T K : Type} `{EqDec K}.
Variable key : T -> K.
Variable keys : T -> list K.

Definition same_key (a b : T) : bool := eqb (key a) (key b).
Definition common_key (a b : T) : bool := existsb (fun k => memb k (keys b)) (keys a).

Lemma same_key_sym a b : same_key a b = same_key b a.
Proof.
  unfold same_key. destruct (eqb (key a) (key b)) eqn:E1, (eqb (key b) (key a)) eqn:E2; try reflexivity;
    [rewrite eqb_true in E1; rewrite E1 in E2; assert (eqb (key b) (key b) = true) by (rewrite eqb_true; reflexivity)|
     rewrite eqb_true in E2; rewrite E2 in E1; assert (eqb (key a) (key a) = true) by (rewrite eqb_true; reflexivity)]; congruence.
Qed.

Lemma common_key_true a b : common_key a b = true <-> shares_key keys a b.
Proof.
  unfold common_key, shares_key. rewrite existsb_exists. split; intros (k & H1 & H2); exists k; (split; [exact H1|]); [rewrite memb_true in H2|rewrite memb_true]; exact H2.
Qed.

Lemma common_key_sym a b : common_key a b = common_key b a.
Proof.
  destruct (common_key a b) eqn:E1, (common_key b a) eqn:E2; try reflexivity; exfalso.
  - apply common_key_true in E1. assert (shares_key keys b a) as Hs by (destruct E1 as (k & ? & ?); exists k; auto). apply common_key_true in Hs. congruence.
  - apply common_key_true in E2. assert (shares_key keys a b) as Hs by (destruct E2 as (k & ? & ?); exists k; auto). apply common_key_true in Hs. congruence.
Qed.

Lemma model_common a b : Nat.ltb 0 (length (filter (fun k => memb k (set_of (keys b))) (set_of (keys a)))) = common_key a b.
Proof. clear key.
  destruct (common_key a b) eqn:E.
  - apply common_key_true in E. destruct E as (k & H1 & H2). apply Nat.ltb_lt.
    assert (Hin : In k (filter (fun k => memb k (set_of (keys b))) (set_of (keys a)))) by (rewrite filter_In, memb_true, !set_of_In; auto).
    destruct (filter _ _); [contradiction|simpl; lia].
  - rewrite filter_none; [reflexivity|]. intros k Hk. rewrite set_of_In in Hk. rewrite memb_false, set_of_In. intros Hk'.
    assert (common_key a b = true) by (apply common_key_true; exists k; auto). congruence.
Qed.

Definition reiterable {A} (it : iterable A) : bool := match it with Iterator _ => false | _ => true end.

Lemma consume_reiterable (it : iterable T) : reiterable it = true -> consume it = (items it, it).
Proof. destruct it; simpl; congruence. Qed.

Definition row_pairs (m : T -> T -> bool) (invert : bool) (a : T) (bs : list T) : list (T * T) :=
  flat_map (fun b => if m a b then [if invert then (b, a) else (a, b)] else []) bs.

Lemma join_loop_list m invert (As : list T) B : reiterable B = true ->
  join_loop m invert As B = (flat_map (fun a => row_pairs m invert a (items B)) As, B).
Proof.
  intros HB. induction As as [|a As IH]; simpl; [reflexivity|]. rewrite (consume_reiterable B HB), IH. reflexivity.
Qed.

Lemma join_loop_iterator m invert (As : list T) bs :
  join_loop m invert As (Iterator bs) =
  match As with [] => ([], Iterator bs) | a :: _ => (row_pairs m invert a bs, Iterator []) end.
Proof.
  assert (G : forall As, fst (join_loop m invert As (Iterator [])) = [] /\ snd (join_loop m invert As (Iterator [])) = Iterator []).
  { clear As. induction As as [|a As [IH1 IH2]]; simpl; [auto|]. destruct (join_loop m invert As (Iterator [])) as [r B]. simpl in *. subst. auto. }
  destruct As as [|a As]; simpl; [reflexivity|]. destruct (G As) as [G1 G2]. destruct (join_loop m invert As (Iterator [])) as [r B]. simpl in *. subst.
  rewrite app_nil_r. reflexivity.
Qed.

Lemma ext_loop m m' invert (As : list T) : (forall a b, m a b = m' a b) -> forall B, join_loop m invert As B = join_loop m' invert As B.
Proof.
  intros Hm. induction As as [|a As IH]; intros B; simpl; [reflexivity|]. destruct (consume B) as [bs B']. rewrite IH.
  rewrite (flat_map_ext _ (fun b => if m' a b then [if invert then (b, a) else (a, b)] else [])); [reflexivity|]. intros b. rewrite Hm. reflexivity.
Qed.

(* ---- order of the loops ---- *)
Lemma flat_map_nil' {A B} (l : list A) : flat_map (fun _ => @nil B) l = [].
Proof. induction l; simpl; auto. Qed.

Lemma flat_map_split {A B} (f g : A -> list B) l : Permutation (flat_map (fun x => f x ++ g x) l) (flat_map f l ++ flat_map g l).
Proof.
  induction l as [|x l IH]; simpl; [constructor|]. rewrite <- !app_assoc. apply Permutation_app_head.
  apply Permutation_trans with (g x ++ flat_map f l ++ flat_map g l); [apply Permutation_app_head; exact IH|].
  rewrite !app_assoc. apply Permutation_app_tail, Permutation_app_comm.
Qed.

Lemma flat_map_swap {A B C} (f : A -> B -> list C) l1 l2 :
  Permutation (flat_map (fun a => flat_map (f a) l2) l1) (flat_map (fun b => flat_map (fun a => f a b) l1) l2).
Proof.
  induction l1 as [|a l1 IH]; simpl; [rewrite flat_map_nil'; constructor|].
  apply Permutation_sym. eapply Permutation_trans; [apply flat_map_split|]. apply Permutation_app_head. apply Permutation_sym. exact IH.
Qed.

Lemma straight_pairs m (l r : list T) : flat_map (fun a => row_pairs m false a r) l = matching_pairs m l r.
Proof.
  unfold matching_pairs. induction l as [|a l IH]; simpl; [reflexivity|]. rewrite filter_app, IH. f_equal. clear.
  unfold row_pairs. induction r as [|b r IH]; simpl; [reflexivity|]. destruct (m a b); simpl; rewrite IH; reflexivity.
Qed.

Lemma inverted_pairs m (l r : list T) : (forall a b, m a b = m b a) ->
  Permutation (flat_map (fun a => row_pairs m true a l) r) (matching_pairs m l r).
Proof.
  intros Hm. rewrite <- straight_pairs. unfold row_pairs. eapply Permutation_trans; [apply flat_map_swap|].
  rewrite (flat_map_ext _ (fun a => flat_map (fun b => if m a b then [(a, b)] else []) r)); [apply Permutation_refl|].
  intros a. apply flat_map_ext. intros b. rewrite (Hm b a). reflexivity.
Qed.

Lemma orient (left right : iterable T) : exists A B invert,
  match len left, len right with
    | Some n, Some m => if Nat.ltb m n then (right, left, true) else (left, right, false)
    | _, _ => (left, right, false)
    end = (A, B, invert) /\
  ((invert = false /\ A = left /\ B = right) \/ (invert = true /\ A = right /\ B = left /\ reiterable A = true /\ reiterable B = true)).
Proof.
  destruct left as [l|l|l], right as [r|r|r]; simpl; try (eexists _, _, _; split; [reflexivity|]; left; auto; fail).
  destruct (Nat.ltb (length r) (length l)); eexists _, _, _; (split; [reflexivity|]); [right|left]; simpl; auto.
Qed.

Lemma consume_items (it : iterable T) : fst (consume it) = items it.
Proof. destruct it; reflexivity. Qed.

Lemma hashjoin_key (left right : iterable T) : reiterable right = true ->
  Permutation (hashjoin left right (Some key) None) (matching_pairs same_key (items left) (items right)).
Proof.
  intros Hr. unfold hashjoin. destruct (orient left right) as (A & B & invert & -> & Ho).
  pose proof (consume_items A) as Ec. destruct (consume A) as [As A'] eqn:E. simpl in Ec. subst As. fold same_key.
  change (fun a b => eqb (key a) (key b)) with same_key.
  destruct Ho as [(-> & -> & ->)|(-> & -> & -> & Ha & Hb)].
  - rewrite join_loop_list by exact Hr. rewrite straight_pairs. apply Permutation_refl.
  - rewrite join_loop_list by exact Hb. apply inverted_pairs. apply same_key_sym.
Qed.

Lemma hashjoin_keys (left right : iterable T) : reiterable right = true ->
  Permutation (hashjoin left right None (Some keys)) (matching_pairs common_key (items left) (items right)).
Proof. clear key.
  intros Hr. unfold hashjoin. destruct (orient left right) as (A & B & invert & -> & Ho).
  pose proof (consume_items A) as Ec. destruct (consume A) as [As A'] eqn:E. simpl in Ec. subst As.
  rewrite (ext_loop _ common_key invert (items A) model_common B).
  destruct Ho as [(-> & -> & ->)|(-> & -> & -> & Ha & Hb)].
  - rewrite join_loop_list by exact Hr. rewrite straight_pairs. apply Permutation_refl.
  - rewrite join_loop_list by exact Hb. simpl. apply inverted_pairs. apply common_key_sym.
Qed.

(** the right side is an iterator: only the first item on the left is joined *)
Lemma hashjoin_iterator (left : iterable T) right :
  hashjoin left (Iterator right) (Some key) None = matching_pairs same_key (firstn 1 (items left)) right /\
  hashjoin left (Iterator right) None (Some keys) = matching_pairs common_key (firstn 1 (items left)) right.
Proof.
  assert (Ho : match len left, len (Iterator right) with
    | Some n, Some m => if Nat.ltb m n then (Iterator right, left, true) else (left, Iterator right, false)
    | _, _ => (left, Iterator right, false)
    end = (left, Iterator right, false)) by (destruct left; reflexivity).
  unfold hashjoin. rewrite Ho. pose proof (consume_items left) as Ec. destruct (consume left) as [As A'] eqn:E. simpl in Ec. subst As.
  change (fun a b => eqb (key a) (key b)) with same_key.
  rewrite (ext_loop _ common_key false (items left) model_common (Iterator right)). rewrite !join_loop_iterator.
  destruct (items left) as [|a l]; simpl; [auto|]. rewrite <- !straight_pairs. simpl. rewrite !app_nil_r. auto.
Qed.

(** both functions: the two joins one after the other *)
Lemma hashjoin_both (left right : iterable T) : reiterable left = true -> reiterable right = true ->
  hashjoin left right (Some key) (Some keys) = hashjoin left right (Some key) None ++ hashjoin left right None (Some keys).
Proof.
  intros Hl Hr. unfold hashjoin. destruct (orient left right) as (A & B & invert & -> & Ho).
  assert (HA : reiterable A = true) by (destruct Ho as [(_ & -> & _)|(_ & -> & _ & ? & _)]; assumption).
  assert (HB : reiterable B = true) by (destruct Ho as [(_ & _ & ->)|(_ & _ & -> & _ & ?)]; assumption).
  rewrite (consume_reiterable A HA). rewrite !join_loop_list by exact HB. rewrite (consume_reiterable A HA). rewrite !join_loop_list by exact HB. reflexivity.
Qed.

Lemma matching_In (m : T -> T -> bool) l r a b : In (a, b) (matching_pairs m l r) <-> In a l /\ In b r /\ m a b = true.
Proof. clear key keys. unfold matching_pairs. rewrite filter_In, in_prod_iff. simpl. tauto. Qed.
End HashJoin.
