(** Proofs about heapq. *)
From Coq Require Import QArith ZArith Lia Sorted.
From Verif Require Import Base BaseFacts LevModel LevProofs SortModel SortSpec SortFacts GraphModel GraphProofs NNDescentSpec NNDescentFullProofs HeapModel HeapSpec.
Open Scope nat_scope.
Open Scope list_scope.
Notation length := List.length.

(** ** Positions *)
Lemma child_parent p : 0 < p -> child ((p - 1) / 2) p.
Proof.
  intros Hp. unfold child. pose proof (Nat.div_mod (p - 1) 2 ltac:(lia)) as E. pose proof (Nat.mod_upper_bound (p - 1) 2 ltac:(lia)). lia.
Qed.
Lemma child_inj p q c : child p c -> child q c -> p = q.
Proof. unfold child. lia. Qed.
Lemma child_lt p c : child p c -> p < c.
Proof. unfold child. lia. Qed.

Inductive below (s : nat) : nat -> Prop :=
| below_here : below s s
| below_child p c : below s p -> child p c -> below s c.
Lemma below_le s p : below s p -> s <= p.
Proof. induction 1 as [|p c _ IH C]; [lia|]. apply child_lt in C. lia. Qed.
Lemma below_parent s p : below s p -> s < p -> below s ((p - 1) / 2).
Proof.
  intros B L. destruct B as [|q c B C]; [lia|]. pose proof (child_parent c ltac:(lia)) as C'. rewrite (child_inj _ _ _ C' C). exact B.
Qed.

(** ** Moving one element *)
Section Moves.
Context {X : Type}.
Implicit Types (l : list X).

Lemma perm_upd l p x a : nth_error l p = Some a -> Permutation (a :: upd l p x) (x :: l).
Proof.
  revert p. induction l as [|y l IH]; intros [|p] E; cbn in *; try discriminate.
  - injection E as ->. apply perm_swap.
  - rewrite perm_swap. rewrite (IH p E). apply perm_swap.
Qed.
Lemma upd_nth l p x : nth_error l p = Some x -> upd l p x = l.
Proof. revert p. induction l as [|y l IH]; intros [|p] E; cbn in *; try discriminate; [congruence|]. rewrite IH by assumption. reflexivity. Qed.
Lemma upd_upd l p x y : upd (upd l p x) p y = upd l p y.
Proof. revert p. induction l as [|z l IH]; intros [|p]; cbn; [reflexivity..|]. rewrite IH. reflexivity. Qed.
Lemma get l p : p < length l -> exists a, nth_error l p = Some a.
Proof. intros L. destruct (nth_error l p) eqn:E; eauto. apply nth_error_None in E. lia. Qed.
Lemma nth_get l p d a : nth_error l p = Some a -> nth p l d = a.
Proof. intros E. apply nth_error_nth. exact E. Qed.

Lemma perm_move l p q x b : p <> q -> p < length l -> nth_error l q = Some b -> Permutation (upd (upd l p b) q x) (upd l p x).
Proof.
  intros Hne Hp Eb. destruct (get l p Hp) as [a Ea].
  pose proof (perm_upd l p b a Ea) as P1. pose proof (perm_upd l p x a Ea) as P2.
  assert (P3 : Permutation (b :: upd (upd l p b) q x) (x :: upd l p b)) by (apply perm_upd; rewrite upd_other by auto; exact Eb).
  apply (Permutation_cons_inv (a := b)), (Permutation_cons_inv (a := a)).
  rewrite P3, perm_swap, P1, perm_swap. rewrite <- P2. apply perm_swap.
Qed.
End Moves.

Section Heap.
Context {X : Type}.
Variable lt : X -> X -> bool.
Variable le : X -> X -> Prop.
Hypothesis C : compares lt le.

(** everything is in order but position [h], which is to be filled *)
Definition holed (s h : nat) (l : list X) : Prop :=
  (forall p c x y, s <= p -> child p c -> p <> h -> c <> h -> nth_error l p = Some x -> nth_error l c = Some y -> le x y) /\
  (forall p c x y, s <= p -> child p h -> child h c -> nth_error l p = Some x -> nth_error l c = Some y -> le x y).

Lemma fill s h l x : holed s h l -> (forall p y, s <= p -> child p h -> nth_error l p = Some y -> le y x) ->
  (forall c y, child h c -> nth_error l c = Some y -> le x y) -> heap_from le s (upd l h x).
Proof.
  intros [H1 H2] Up Down p c a b Sp Ch Ea Eb. pose proof (child_lt _ _ Ch) as L.
  destruct (Nat.eq_dec p h) as [->|Np].
  - rewrite upd_other in Eb by lia. rewrite upd_same in Ea by (rewrite <- (upd_length l h x); apply nth_error_Some; congruence).
    injection Ea as <-. eauto.
  - rewrite upd_other in Ea by assumption. destruct (Nat.eq_dec c h) as [->|Nc].
    + rewrite upd_same in Eb by (rewrite <- (upd_length l h x); apply nth_error_Some; congruence). injection Eb as <-. eauto.
    + rewrite upd_other in Eb by assumption. eauto.
Qed.

Lemma sift_down_heap fuel : forall s h x l, h <= fuel -> h < length l -> below s h -> holed s h l ->
  (forall c y, child h c -> nth_error l c = Some y -> le x y) -> heap_from le s (sift_down lt fuel s h x l).
Proof.
  induction fuel as [|fuel IH]; intros s h x l F L B Hl Down; cbn [sift_down].
  - apply fill; auto. intros p y Sp Ch. apply child_lt in Ch. lia.
  - destruct (Nat.ltb s h) eqn:E.
    2:{ apply fill; auto. intros p y Sp Ch. apply child_lt in Ch. apply Nat.ltb_ge in E. lia. }
    apply Nat.ltb_lt in E. pose proof (child_parent h ltac:(lia)) as Ch. pose proof (child_lt _ _ Ch) as Lt. pose proof (below_parent s h B E) as B'.
    pose proof (below_le _ _ B') as Sp. set (q := (h - 1) / 2) in *. destruct (get l q ltac:(lia)) as [a Ea]. rewrite (nth_get _ _ x _ Ea).
    destruct (lt x a) eqn:Ex.
    + destruct Hl as [H1 H2]. assert (Len : length (upd l h a) = length l) by apply upd_length. apply IH; try lia; auto.
      * split.
        -- intros p c u v Sp' Ch' N1 N2 Eu Ev. destruct (Nat.eq_dec p h) as [->|Np].
           ++ rewrite upd_same in Eu by assumption. injection Eu as <-. pose proof (child_lt _ _ Ch'). rewrite upd_other in Ev by lia. eauto.
           ++ rewrite upd_other in Eu by assumption. destruct (Nat.eq_dec c h) as [->|Nc]; [exfalso; apply N1; eapply child_inj; eauto|].
              rewrite upd_other in Ev by assumption. eauto.
        -- intros p c u v Sp' Ch1 Ch2 Eu Ev. pose proof (child_lt _ _ Ch1). rewrite upd_other in Eu by lia.
           assert (U : le u a) by (apply (H1 p q u a); auto; lia).
           destruct (Nat.eq_dec c h) as [->|Nc]; [rewrite upd_same in Ev by assumption; congruence|].
           rewrite upd_other in Ev by assumption. apply (le_trans _ _ C _ a); [exact U|]. apply (H1 q c a v); auto. lia.
      * intros c v Ch2 Ev. pose proof (lt_le _ _ C _ _ Ex) as Le. destruct (Nat.eq_dec c h) as [->|Nc].
        -- rewrite upd_same in Ev by assumption. congruence.
        -- rewrite upd_other in Ev by assumption. apply (le_trans _ _ C _ a); [exact Le|]. apply (H1 q c a v); auto. lia.
    + apply fill; auto. intros p y Sp' Ch' Ey. rewrite (child_inj _ _ _ Ch' Ch) in Ey. rewrite Ea in Ey. injection Ey as <-. apply (nlt_le _ _ C). exact Ex.
Qed.

Lemma sift_down_perm fuel : forall s h x l, h < length l -> Permutation (sift_down lt fuel s h x l) (upd l h x).
Proof.
  induction fuel as [|fuel IH]; intros s h x l L; cbn [sift_down]; [reflexivity|].
  destruct (Nat.ltb s h) eqn:E; [|reflexivity]. apply Nat.ltb_lt in E. pose proof (child_lt _ _ (child_parent h ltac:(lia))) as Lt.
  destruct (get l ((h - 1) / 2) ltac:(lia)) as [a Ea]. rewrite (nth_get _ _ x _ Ea). destruct (lt x a); [|reflexivity].
  rewrite IH by (rewrite upd_length; lia). apply perm_move; auto. lia.
Qed.

Lemma chosen_child l h x (endpos := length l) : 2 * h + 1 < endpos ->
  let c := if Nat.ltb (2 * h + 1 + 1) endpos && negb (lt (nth (2 * h + 1) l x) (nth (2 * h + 1 + 1) l x)) then 2 * h + 1 + 1 else 2 * h + 1 in
  child h c /\ c < endpos /\ forall a, nth_error l c = Some a -> forall c' b, child h c' -> nth_error l c' = Some b -> le a b.
Proof.
  intros L. cbn zeta. destruct (get l (2 * h + 1) L) as [u Eu]. rewrite (nth_get _ _ x _ Eu).
  destruct (Nat.ltb (2 * h + 1 + 1) endpos) eqn:E; cbn [andb].
  - apply Nat.ltb_lt in E. destruct (get l (2 * h + 1 + 1) E) as [v Ev]. rewrite (nth_get _ _ x _ Ev).
    destruct (lt u v) eqn:Euv; cbn [negb]; (split; [unfold child; lia|]); (split; [assumption|]); intros a Ea c' b [->| ->] Eb;
      try replace (2 * h + 2) with (2 * h + 1 + 1) in Eb by lia.
    + replace b with a by congruence. apply (le_refl _ _ C).
    + replace a with u by congruence. replace b with v by congruence. apply (lt_le _ _ C). exact Euv.
    + replace a with v by congruence. replace b with u by congruence. apply (nlt_le _ _ C). exact Euv.
    + replace b with a by congruence. apply (le_refl _ _ C).
  - apply Nat.ltb_ge in E. split; [unfold child; lia|]. split; [assumption|]. intros a Ea c' b [->| ->] Eb.
    + replace b with a by congruence. apply (le_refl _ _ C).
    + assert (2 * h + 2 < length l) by (apply nth_error_Some; congruence). unfold endpos in *. lia.
Qed.

Lemma sift_up_spec fuel : forall s h x l, length l <= h + fuel -> h < length l -> below s h -> holed s h l ->
  let '(l', h') := sift_up lt fuel h x l in
  length l' = length l /\ h' < length l' /\ below s h' /\ holed s h' l' /\ (forall c, child h' c -> nth_error l' c = None) /\
  Permutation (upd l' h' x) (upd l h x).
Proof.
  induction fuel as [|fuel IH]; intros s h x l F L B Hl; cbn [sift_up]; [lia|]. destruct (Nat.ltb (2 * h + 1) (length l)) eqn:E.
  2:{ apply Nat.ltb_ge in E. repeat split; auto; try apply Hl. intros c Ch. apply nth_error_None. unfold child in Ch. lia. }
  apply Nat.ltb_lt in E. destruct (chosen_child l h x E) as (Ch & Lc & Min). cbn zeta in *.
  set (c := if _ && _ then _ else _) in *. clearbody c. destruct (get l c Lc) as [a Ea]. rewrite (nth_get _ _ x _ Ea).
  specialize (Min a Ea). pose proof (child_lt _ _ Ch) as Lt. pose proof (below_le _ _ B) as Sh.
  specialize (IH s c x (upd l h a)). destruct (sift_up lt fuel c x (upd l h a)) as [l' h'] eqn:Er. rewrite upd_length in IH.
  destruct IH as (R1 & R2 & R3 & R4 & R5 & R6); try lia.
  - eapply below_child; eauto.
  - destruct Hl as [H1 H2]. split.
    + intros p k u v Sp Ck N1 N2 Eu Ev. pose proof (child_lt _ _ Ck). destruct (Nat.eq_dec p h) as [->|Np].
      * rewrite upd_same in Eu by assumption. injection Eu as <-. rewrite upd_other in Ev by lia. eauto.
      * rewrite upd_other in Eu by assumption. destruct (Nat.eq_dec k h) as [->|Nk].
        -- rewrite upd_same in Ev by assumption. injection Ev as <-. eauto.
        -- rewrite upd_other in Ev by assumption. eauto.
    + intros p k u v Sp C1 C2 Eu Ev. rewrite (child_inj _ _ _ C1 Ch) in *. pose proof (child_lt _ _ C2).
      rewrite upd_same in Eu by assumption. injection Eu as <-. rewrite upd_other in Ev by lia. apply (H1 c k a v); auto; lia.
  - repeat split; auto; try apply R4. rewrite R6. apply perm_move; auto. lia.
Qed.

Lemma siftup_perm l s : Permutation (siftup lt l s) l.
Proof.
  unfold siftup. destruct (nth_error l s) as [x|] eqn:E; [|reflexivity]. assert (L : s < length l) by (apply nth_error_Some; congruence).
  assert (G : forall fuel h m, h < length m -> let '(m', h') := sift_up lt fuel h x m in h' < length m' /\ Permutation (upd m' h' x) (upd m h x)).
  { clear - C. induction fuel as [|fuel IH]; intros h m L; cbn [sift_up]; [auto|]. destruct (Nat.ltb (2 * h + 1) (length m)) eqn:E; [|auto].
    apply Nat.ltb_lt in E. destruct (chosen_child m h x E) as (Ch & Lc & _). cbn zeta in *. set (c := if _ && _ then _ else _) in *. clearbody c.
    destruct (get m c Lc) as [a Ea]. rewrite (nth_get _ _ x _ Ea). specialize (IH c (upd m h a)). rewrite upd_length in IH. specialize (IH Lc).
    destruct (sift_up lt fuel c x (upd m h a)) as [m' h']. destruct IH as [L' P]. split; [assumption|]. rewrite P. apply child_lt in Ch. apply perm_move; auto. lia. }
  specialize (G (length l) s l L). destruct (sift_up lt (length l) s x l) as [l' h']. destruct G as [L' P].
  rewrite sift_down_perm by (rewrite upd_length; assumption). rewrite upd_upd, P, upd_nth by assumption. reflexivity.
Qed.

Lemma siftup_heap l s : heap_from le (S s) l -> s < length l -> heap_from le s (siftup lt l s).
Proof.
  intros Hs L. unfold siftup. destruct (get l s L) as [x E]. rewrite E.
  assert (Hl : holed s s l).
  { split.
    - intros p c u v Sp Ch N1 N2. apply Hs; auto. lia.
    - intros p c u v Sp Ch. apply child_lt in Ch. lia. }
  pose proof (sift_up_spec (length l) s s x l ltac:(lia) L (below_here s) Hl) as G. destruct (sift_up lt (length l) s x l) as [l' h'].
  destruct G as (_ & L' & B & [H1 H2] & Leaf & _). apply sift_down_heap; auto.
  - rewrite upd_length. assumption.
  - split.
    + intros p c u v Sp Ch N1 N2 Eu Ev. rewrite upd_other in Eu, Ev by assumption. eauto.
    + intros p c u v Sp C1 C2 Eu Ev. pose proof (child_lt _ _ C1). pose proof (child_lt _ _ C2). rewrite upd_other in Eu, Ev by lia. eauto.
  - intros c y Ch Ey. pose proof (child_lt _ _ Ch). rewrite upd_other in Ey by lia. rewrite (Leaf c Ch) in Ey. discriminate.
Qed.

Lemma heapify_perm l : Permutation (heapify lt l) l.
Proof.
  unfold heapify. generalize (rev (seq 0 (length l / 2))). intros ps. revert l. induction ps as [|p ps IH]; intros l; cbn [fold_left]; [reflexivity|].
  rewrite IH. apply siftup_perm.
Qed.

Lemma heapify_heap l : heap le (heapify lt l).
Proof.
  unfold heapify. assert (Hn : length l / 2 <= length l) by (apply Nat.div_le_upper_bound; lia).
  assert (Hs : heap_from le (length l / 2) l).
  { intros p c x y Sp Ch _ Ec. exfalso. assert (c < length l) by (apply nth_error_Some; congruence).
    pose proof (Nat.div_mod (length l) 2 ltac:(lia)). pose proof (Nat.mod_upper_bound (length l) 2 ltac:(lia)). unfold child in Ch. lia. }
  revert Hn Hs. generalize (length l / 2). intros n. revert l. induction n as [|n IH]; intros l Hn Hs; [exact Hs|].
  rewrite seq_S, rev_app_distr. cbn [rev app fold_left Nat.add].
  apply IH; [rewrite (Permutation_length (siftup_perm l n)); lia|]. apply siftup_heap; [exact Hs|lia].
Qed.

Lemma heapreplace_perm e l x : Permutation (heapreplace lt (e :: l) x) (x :: l).
Proof. apply siftup_perm. Qed.
Lemma heapreplace_heap e l x : heap le (e :: l) -> heap le (heapreplace lt (e :: l) x).
Proof.
  intros Hh. apply siftup_heap; [|cbn; lia]. intros p c u v Sp Ch Eu Ev. pose proof (child_lt _ _ Ch). destruct p as [|p]; [lia|]. destruct c as [|c]; [lia|].
  apply (Hh (S p) (S c) u v); auto. lia.
Qed.

Lemma heap_least e l : heap le (e :: l) -> forall x, In x l -> le e x.
Proof.
  intros Hh x Hx. assert (Hx' : In x (e :: l)) by (right; exact Hx). apply In_nth_error in Hx' as [i Ei]. clear Hx. revert x Ei.
  induction i as [i IH] using (well_founded_induction Wf_nat.lt_wf). intros x Ei. destruct (Nat.eq_dec i 0) as [->|Ni].
  - injection Ei as <-. apply (le_refl _ _ C).
  - pose proof (child_parent i ltac:(lia)) as Ch. pose proof (child_lt _ _ Ch) as L. assert (Li : i < length (e :: l)) by (apply nth_error_Some; congruence).
    destruct (get (e :: l) ((i - 1) / 2) ltac:(lia)) as [y Ey]. apply (le_trans _ _ C _ y); [eapply IH; eauto|]. apply (Hh ((i - 1) / 2) i y x); auto. lia.
Qed.
End Heap.

(** ** The orders used by fog *)
Definition first_le {X} (x y : Q * X) : Prop := (fst x <= fst y)%Q.
Lemma first_compares {X} (lt : Q * X -> Q * X -> bool) tie :
  (forall x y, lt x y = if Qeq_bool (fst x) (fst y) then tie x y else Qle_bool (fst x) (fst y)) -> compares lt first_le.
Proof.
  intros L. split; unfold first_le.
  - intros x. apply Qle_refl.
  - intros x y z. apply Qle_trans.
  - intros x y. rewrite L. destruct (Qeq_bool (fst x) (fst y)) eqn:E; intros T.
    + apply Qeq_bool_iff in E. rewrite E. apply Qle_refl.
    + apply Qle_bool_iff. exact T.
  - intros x y. rewrite L. destruct (Qeq_bool (fst x) (fst y)) eqn:E; intros T.
    + apply Qeq_bool_iff in E. rewrite E. apply Qle_refl.
    + apply Qlt_le_weak, Qnot_le_lt. intros G. apply Qle_bool_iff in G. congruence.
Qed.
Lemma entry_compares : compares entry_lt first_le.
Proof. apply (first_compares _ (fun x y => Nat.ltb (snd x) (snd y))). reflexivity. Qed.
Lemma full_compares : compares full_lt first_le.
Proof.
  apply (first_compares _ (fun x y => if Nat.eqb (fst (snd x)) (fst (snd y)) then negb (snd (snd x)) && snd (snd y) else Nat.ltb (fst (snd x)) (fst (snd y)))).
  reflexivity.
Qed.

Lemma heap_module_ok {X} (lt : Q * X -> Q * X -> bool) : compares lt first_le -> heap_module (heap first_le) (heapify lt) (heapreplace lt).
Proof.
  intros C. split.
  - intros e h Hh e' He. exact (heap_least lt first_le C e h Hh e' He).
  - intros h h' E Hh p c x y Sp Ch Ex Ey.
    assert (G : forall i z, nth_error h' i = Some z -> exists z', nth_error h i = Some z' /\ fst z' = fst z).
    { intros i z Ez. apply (map_nth_error fst) in Ez. rewrite <- E in Ez. rewrite nth_error_map in Ez. destruct (nth_error h i) as [z'|]; [|discriminate].
      exists z'. split; [reflexivity|]. cbn in Ez. congruence. }
    destruct (G p x Ex) as (x' & Ex' & Fx). destruct (G c y Ey) as (y' & Ey' & Fy). unfold first_le. rewrite <- Fx, <- Fy. exact (Hh p c x' y' Sp Ch Ex' Ey').
  - intros l. apply (heapify_heap lt first_le C).
  - intros l. apply (heapify_perm lt first_le C).
  - intros e h x. apply (heapreplace_heap lt first_le C).
  - intros e h x. apply (heapreplace_perm lt first_le C).
Qed.

(** ** nlargest *)
Definition size_le (x y : nat * Z) : Prop := fst x <= fst y.
Lemma pair_compares : compares pair_lt size_le.
Proof.
  split; unfold size_le, pair_lt; try (intros; lia).
  - intros x y. destruct (Nat.eqb (fst x) (fst y)) eqn:E; [apply Nat.eqb_eq in E|rewrite Nat.ltb_lt]; lia.
  - intros x y. destruct (Nat.eqb (fst x) (fst y)) eqn:E; [apply Nat.eqb_eq in E|rewrite Nat.ltb_ge]; lia.
Qed.

(** the heap of the elements kept, and those dropped *)
Lemma nlargest_loop_spec l : forall order h, heap size_le h -> h <> [] ->
  exists dropped, Permutation (map fst (nlargest_loop l order h) ++ dropped) (map fst h ++ l) /\ length (nlargest_loop l order h) = length h /\
    (forall x y, In x (nlargest_loop l order h) -> In y dropped -> y <= fst x).
Proof.
  intros order h. revert order h.
  assert (M : forall l order h, heap size_le h -> h <> [] ->
    exists dropped, Permutation (map fst (nlargest_loop l order h) ++ dropped) (map fst h ++ l) /\ length (nlargest_loop l order h) = length h /\
    (forall x y, In x (nlargest_loop l order h) -> In y dropped -> y <= fst x) /\
    (forall x m, In x (nlargest_loop l order h) -> (forall z, In z h -> m <= fst z) -> m <= fst x)).
  { clear l. induction l as [|e l IH]; intros order h Hh Hne; destruct h as [|[top o] h]; try congruence; cbn [nlargest_loop].
    - exists []. repeat split; auto; try (rewrite !app_nil_r; reflexivity). intros x y _ [].
    - destruct (Nat.ltb top e) eqn:E.
      + apply Nat.ltb_lt in E. pose proof (heapreplace_perm pair_lt size_le pair_compares (top, o) h (e, order)) as P.
        pose proof (heapreplace_heap pair_lt size_le pair_compares (top, o) h (e, order) Hh) as Hh'.
        pose proof (heap_least pair_lt size_le pair_compares _ _ Hh) as Least.
        set (h' := heapreplace pair_lt ((top, o) :: h) (e, order)) in *.
        destruct (IH (order - 1)%Z h' Hh') as (d & Pd & Ld & Md & Bd).
        { intros G. rewrite G in P. apply Permutation_nil in P. discriminate. }
        assert (Top : forall z, In z h' -> top <= fst z).
        { intros z Hz. apply (Permutation_in _ P) in Hz. destruct Hz as [<-|Hz]; [cbn; lia|]. apply (Least z Hz). }
        exists (top :: d). repeat split.
        * rewrite <- Permutation_middle, Pd. rewrite (Permutation_map fst P). cbn [map fst app]. constructor. rewrite Permutation_middle. reflexivity.
        * rewrite Ld. rewrite (Permutation_length P). reflexivity.
        * intros x y Hx [<-|Hy]; [|auto]. apply Bd; auto.
        * intros x m Hx Hm. apply Bd; [assumption|]. intros z Hz. apply (Permutation_in _ P) in Hz. destruct Hz as [<-|Hz]; [|apply Hm; right; assumption].
          specialize (Hm _ (or_introl eq_refl)). cbn in *. lia.
      + apply Nat.ltb_ge in E. destruct (IH order ((top, o) :: h) Hh Hne) as (d & Pd & Ld & Md & Bd).
        pose proof (heap_least pair_lt size_le pair_compares _ _ Hh) as Least.
        exists (e :: d). repeat split; auto.
        * rewrite <- Permutation_middle, Pd. apply Permutation_middle.
        * intros x y Hx [<-|Hy]; [|auto]. apply Bd; auto. intros z [<-|Hz]; [exact E|]. specialize (Least z Hz). unfold size_le in Least. cbn in Least. lia. }
  intros order h Hh Hne. destruct (M l order h Hh Hne) as (d & P & L & D & _). exists d. auto.
Qed.

Lemma sorted_app (R : nat -> nat -> Prop) l l' : StronglySorted R l -> StronglySorted R l' -> (forall x y, In x l -> In y l' -> R x y) -> StronglySorted R (l ++ l').
Proof.
  induction 1 as [|x l Hs IH Hf]; intros S' D; [assumption|]. cbn. constructor.
  - apply IH; [assumption|]. intros; apply D; [right|]; assumption.
  - rewrite Forall_forall in *. intros y Hy. apply in_app_iff in Hy as [Hy|Hy]; [auto|]. apply D; [left; reflexivity|assumption].
Qed.
Lemma sorted_unique l l' : Permutation l l' -> StronglySorted (fun a b => Nat.leb b a = true) l -> StronglySorted (fun a b => Nat.leb b a = true) l' -> l = l'.
Proof.
  revert l'. induction l as [|x l IH]; intros l' P S1 S2; [apply Permutation_nil in P; auto|].
  destruct l' as [|y l']; [apply Permutation_sym, Permutation_nil in P; discriminate|].
  inversion S1 as [|? ? S1' F1]; subst. inversion S2 as [|? ? S2' F2]; subst. rewrite Forall_forall in *.
  assert (x = y).
  { assert (X1 : In x (y :: l')) by (eapply Permutation_in; [exact P|left; reflexivity]).
    assert (Y1 : In y (x :: l)) by (eapply Permutation_in; [apply Permutation_sym; exact P|left; reflexivity]).
    destruct X1 as [<-|X1]; [reflexivity|]. destruct Y1 as [<-|Y1]; [reflexivity|].
    specialize (F1 y Y1). specialize (F2 x X1). rewrite Nat.leb_le in *. lia. }
  subst y. f_equal. apply IH; auto. eapply Permutation_cons_inv; eauto.
Qed.

Lemma firsts_sorted (l : list (nat * Z)) : StronglySorted (fun a b => Nat.leb b a = true) (map fst (sort_by (fun x y => negb (pair_lt x y)) l)).
Proof.
  assert (Hp : total_preorder (fun x y => negb (pair_lt x y))).
  { constructor.
    - intros [a1 a2] [b1 b2]. unfold pair_lt. cbn [fst snd]. rewrite (Nat.eqb_sym b1 a1). destruct (Nat.eqb a1 b1) eqn:E; rewrite !negb_true_iff.
      + rewrite !Z.ltb_ge. lia.
      + rewrite !Nat.ltb_ge. lia.
    - intros [a1 a2] [b1 b2] [c1 c2]. unfold pair_lt. cbn [fst snd].
      destruct (Nat.eqb a1 b1) eqn:E1, (Nat.eqb b1 c1) eqn:E2, (Nat.eqb a1 c1) eqn:E3; rewrite !negb_true_iff, ?Z.ltb_ge, ?Nat.ltb_ge;
        rewrite ?Nat.eqb_eq, ?Nat.eqb_neq in *; lia. }
  pose proof (sort_by_sorted _ Hp l) as G. induction G as [|x m _ IH F]; [constructor|]. cbn [map]. constructor; [exact IH|].
  rewrite Forall_forall in *. intros y Hy. apply in_map_iff in Hy as (z & <- & Hz). specialize (F z Hz). rewrite negb_true_iff in F.
  apply Nat.leb_le. exact (nlt_le _ _ pair_compares _ _ F).
Qed.

Lemma max_sorted l x : firstn 1 (sort_by (fun a b => Nat.leb b a) (x :: l)) = [fold_left Nat.max l x].
Proof.
  pose proof (sort_by_perm (fun a b => Nat.leb b a) (x :: l)) as P. pose proof (sort_by_sorted _ leb_rev_preorder (x :: l)) as G.
  destruct (sort_by _ (x :: l)) as [|m s]; [apply Permutation_nil in P; discriminate|]. cbn [firstn]. f_equal.
  inversion G as [|? ? _ F]; subst. rewrite Forall_forall in F.
  assert (M : forall l x, (forall y, In y (x :: l) -> y <= fold_left Nat.max l x) /\ In (fold_left Nat.max l x) (x :: l)).
  { clear. induction l as [|y l IH]; intros x; cbn [fold_left]; [split; [intros y [<-|[]]; lia|left; reflexivity]|].
    destruct (IH (Nat.max x y)) as [A B]. split.
    - intros z [<-|[<-|Hz]]; [specialize (A _ (or_introl eq_refl)); lia..|]. apply A. right. assumption.
    - destruct B as [B|B]; [|right; right; assumption]. rewrite <- B. destruct (Nat.max_spec x y) as [[_ ->]|[_ ->]]; [right; left|left]; reflexivity. }
  destruct (M l x) as [A B].
  assert (In m (x :: l)) by (eapply Permutation_in; [exact P|left; reflexivity]).
  apply Nat.le_antisymm; [auto|]. apply (Permutation_in _ (Permutation_sym P)) in B. destruct B as [B|B]; [lia|]. apply Nat.leb_le, F. exact B.
Qed.

Lemma map_fst_combine (l : list nat) (l' : list Z) : length l <= length l' -> map fst (combine l l') = l.
Proof. revert l'. induction l as [|x l IH]; intros [|y l'] L; cbn in *; try lia; [reflexivity..|]. f_equal. apply IH. lia. Qed.

Lemma nlargest_heap_spec n l : nlargest_heap n l = nlargest n l.
Proof.
  unfold nlargest_heap, nlargest. destruct (Nat.eqb n 1) eqn:E1.
  { apply Nat.eqb_eq in E1. subst n. destruct l as [|x l]; [reflexivity|]. symmetry. apply max_sorted. }
  set (result := combine (firstn n l) (map (fun i => (- Z.of_nat i)%Z) (seq 0 n))).
  assert (Fr : map fst result = firstn n l) by (apply map_fst_combine; rewrite map_length, seq_length, firstn_length; lia).
  destruct result as [|r rs] eqn:Er.
  - cbn in Fr. destruct n as [|n]; [reflexivity|]. destruct l; [reflexivity|discriminate].
  - rewrite <- Er in *. assert (Hne : heapify pair_lt result <> []).
    { intros G. pose proof (heapify_perm pair_lt size_le pair_compares result) as P. rewrite G in P. apply Permutation_nil in P. congruence. }
    destruct (nlargest_loop_spec (skipn n l) (- Z.of_nat n)%Z _ (heapify_heap pair_lt size_le pair_compares result) Hne) as (d & P & L & D).
    set (K := nlargest_loop _ _ _) in *.
    assert (P' : Permutation (map fst (sort_by (fun x y => negb (pair_lt x y)) K) ++ sort_by (fun a b => Nat.leb b a) d) (sort_by (fun a b => Nat.leb b a) l)).
    { rewrite (sort_by_perm _ l), (sort_by_perm _ d), (Permutation_map fst (sort_by_perm _ K)), P.
      rewrite (Permutation_map fst (heapify_perm pair_lt size_le pair_compares result)), Fr, firstn_skipn. reflexivity. }
    rewrite <- (sorted_unique _ _ P').
    + rewrite firstn_app. assert (Lk : length (map fst (sort_by (fun x y => negb (pair_lt x y)) K)) = length (firstn n l)).
      { rewrite map_length, sort_by_length, L, (Permutation_length (heapify_perm pair_lt size_le pair_compares result)), <- Fr, map_length. reflexivity. }
      rewrite firstn_all2 by (rewrite Lk, firstn_length; lia). rewrite Lk, firstn_length.
      destruct (Nat.le_gt_cases n (length l)) as [Hn|Hn].
      * replace (n - Nat.min n (length l)) with 0 by lia. rewrite firstn_O, app_nil_r. reflexivity.
      * assert (Ld : d = []).
        { apply Permutation_length in P. rewrite app_length, map_length, L, app_length, map_length in P. rewrite (skipn_all2 l) in P by lia. cbn in P.
          apply length_zero_iff_nil. lia. }
        rewrite Ld. cbn. rewrite firstn_nil, app_nil_r. reflexivity.
    + apply sorted_app; [apply firsts_sorted|apply sort_by_sorted, leb_rev_preorder|]. intros x y Hx Hy. apply in_map_iff in Hx as (z & <- & Hz).
      apply sort_by_In in Hz. apply sort_by_In in Hy. apply Nat.leb_le. eauto.
    + apply sort_by_sorted, leb_rev_preorder.
Qed.
