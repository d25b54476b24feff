(** From clusters of positions to clusters of items; components of larger relations. *)
From Coq Require Import Arith Lia.
From Verif Require Import Base BaseFacts ClustersModel ClustersSpec ClustersProofs PairwiseModel PairwiseSpec
  PairwiseProofs BlockingSpec AgreementSpec.
Open Scope nat_scope.
Open Scope list_scope.
Notation length := List.length.
Notation concat := List.concat.

Section Items.
Context {A : Type}.
Variable data : list A.
Hypothesis distinct : NoDup data.

Definition at_position (i : nat) (x : A) : Prop := nth_error data i = Some x.

Lemma at_inj i j x : at_position i x -> at_position j x -> i = j.
Proof.
  unfold at_position. intros Hi Hj. pose proof (proj1 (NoDup_nth_error data) distinct) as N. apply N; [|congruence].
  apply nth_error_Some. congruence.
Qed.

Lemma at_fun i x y : at_position i x -> at_position i y -> x = y.
Proof. unfold at_position. congruence. Qed.

Variable L : nat -> nat -> Prop.
Hypothesis bound : forall i j, L i j -> i < length data /\ j < length data.

(** the relation between items *)
Definition item_link (x y : A) : Prop := exists i j, at_position i x /\ at_position j y /\ L i j.

Lemma conn_bound i j : connected L i j -> i < length data <-> j < length data.
Proof.
  intros C. induction C as [i j H|i|i j C IH|i j k C IH C' IH']; [|tauto|tauto|tauto].
  apply bound in H. tauto.
Qed.

Lemma conn_items i j : connected L i j -> forall x y, at_position i x -> at_position j y -> connected item_link x y.
Proof.
  intros C. induction C as [i j H|i|i j C IH|i j k C IH C' IH']; intros x y Hx Hy.
  - apply Relation_Operators.rst_step. exists i, j. auto.
  - rewrite (at_fun _ _ _ Hx Hy). apply conn_refl.
  - apply conn_sym. apply IH; assumption.
  - pose proof (conn_bound _ _ C) as B.
    assert (Hi : i < length data) by (apply nth_error_Some; unfold at_position in Hx; congruence).
    destruct (nth_error data j) as [z|] eqn:E; [|apply nth_error_None in E; lia].
    apply conn_trans with z; auto.
Qed.

Lemma conn_positions x y : connected item_link x y -> x = y \/ exists i j, at_position i x /\ at_position j y /\ connected L i j.
Proof.
  intros C. induction C as [x y (i & j & Hi & Hj & H)|x|x y C IH|x y z C IH C' IH'].
  - right. exists i, j. split; [exact Hi|]. split; [exact Hj|]. apply Relation_Operators.rst_step. exact H.
  - left. reflexivity.
  - destruct IH as [->|(i & j & Hi & Hj & H)]; [left; reflexivity|right]. exists j, i. split; [exact Hj|]. split; [exact Hi|]. apply conn_sym. exact H.
  - destruct IH as [->|(i & j & Hi & Hj & H)]; [exact IH'|].
    destruct IH' as [<-|(j' & k & Hj' & Hk & H')]; [right; exists i, j; auto|].
    rewrite <- (at_inj _ _ _ Hj Hj') in H'. right. exists i, k. split; [exact Hi|]. split; [exact Hk|]. apply conn_trans with j; assumption.
Qed.

Lemma Forall2_In_l (c : list nat) xs : Forall2 at_position c xs -> forall i, In i c -> exists x, at_position i x /\ In x xs.
Proof.
  induction 1 as [|i x c xs Hx F IH]; intros j; [intros []|]. intros [->|Hj]; [exists x; split; [exact Hx|left; reflexivity]|].
  destruct (IH j Hj) as (y & Hy & I). exists y. split; [exact Hy|right; exact I].
Qed.
Lemma Forall2_In_r (c : list nat) xs : Forall2 at_position c xs -> forall x, In x xs -> exists i, at_position i x /\ In i c.
Proof.
  induction 1 as [|i x c xs Hx F IH]; intros z; [intros []|]. intros [->|Hz]; [exists i; split; [exact Hx|left; reflexivity]|].
  destruct (IH z Hz) as (j & Hj & I). exists j. split; [exact Hj|right; exact I].
Qed.
Lemma Forall2_len (c : list nat) xs : Forall2 at_position c xs -> length c = length xs.
Proof. induction 1; cbn; congruence. Qed.
Lemma Forall2_NoDup (c : list nat) xs : Forall2 at_position c xs -> (NoDup c <-> NoDup xs).
Proof.
  induction 1 as [|i x c xs Hx F IH]; [split; constructor|]. split; intros N; inversion N as [|? ? N1 N2]; subst; constructor; try tauto.
  - intros K. apply N1. destruct (Forall2_In_r _ _ F x K) as (j & Hj & I). rewrite (at_inj _ _ _ Hx Hj). exact I.
  - intros K. apply N1. destruct (Forall2_In_l _ _ F i K) as (y & Hy & I). rewrite (at_fun _ _ _ Hx Hy). exact I.
Qed.
Lemma Forall2_concat idx out : reads data idx out -> Forall2 at_position (concat idx) (concat out).
Proof. induction 1 as [|c xs idx out F R IH]; [constructor|]. cbn. apply Forall2_app; assumption. Qed.

Lemma positions_of xs : (forall x, In x xs -> In x data) -> exists c, Forall2 at_position c xs.
Proof.
  induction xs as [|x xs IH]; intros Hx; [exists []; constructor|].
  destruct IH as (c & F); [intros; apply Hx; right; assumption|].
  destruct (In_nth_error data x) as (i & Hi); [apply Hx; left; reflexivity|]. exists (i :: c). constructor; assumption.
Qed.

Lemma component_items (c : list nat) xs : Forall2 at_position c xs -> (component L c <-> component item_link xs).
Proof.
  intros F. unfold component. rewrite (Forall2_NoDup c xs F). split; intros (N & z & Hz & K); split; try exact N.
  - destruct (Forall2_In_l _ _ F z Hz) as (x & Hx & I). exists x. split; [exact I|]. intros y. split.
    + intros Hy. destruct (Forall2_In_r _ _ F y Hy) as (j & Hj & J). apply (conn_items z j); [apply K; exact J|exact Hx|exact Hj].
    + intros C. destruct (conn_positions x y C) as [->|(i & j & Hi & Hj & C')]; [exact I|].
      rewrite (at_inj _ _ _ Hi Hx) in C'. apply K in C'. destruct (Forall2_In_l _ _ F j C') as (y' & Hy' & J).
      rewrite (at_fun _ _ _ Hj Hy'). exact J.
  - destruct (Forall2_In_r _ _ F z Hz) as (i & Hi & I). exists i. split; [exact I|]. intros j. split.
    + intros Hj. destruct (Forall2_In_l _ _ F j Hj) as (y & Hy & J). apply K in J.
      destruct (conn_positions z y J) as [->|(i' & j' & Hi' & Hj' & C)].
      * rewrite (at_inj _ _ _ Hi Hy). apply conn_refl.
      * rewrite (at_inj _ _ _ Hi Hi'), (at_inj _ _ _ Hy Hj'). exact C.
    + intros C. assert (Bi : i < length data) by (apply nth_error_Some; unfold at_position in Hi; congruence).
      apply (conn_bound i j C) in Bi. destruct (nth_error data j) as [y|] eqn:E; [|apply nth_error_None in E; lia].
      pose proof (conn_items i j C z y Hi E) as C'. apply K in C'. destruct (Forall2_In_r _ _ F y C') as (j' & Hj' & J).
      rewrite (at_inj _ _ _ E Hj'). exact J.
Qed.

(** clusters of positions, read as clusters of items *)
Lemma components_items lo hi idx out : reads data idx out ->
  is_components (fun i => i < length data) L lo hi idx ->
  is_components (fun x => In x data) item_link lo hi out.
Proof.
  intros R [K1 K2 K3]. split.
  - intros xs Hxs. assert (E : exists c, In c idx /\ Forall2 at_position c xs).
    { clear - R Hxs. induction R as [|c ys idx out F R IH]; [destruct Hxs|]. destruct Hxs as [<-|Hxs]; [exists c; split; [left; reflexivity|exact F]|].
      destruct (IH Hxs) as (c' & I & F'). exists c'. split; [right; exact I|exact F']. }
    destruct E as (c & Hc & F). destruct (K1 c Hc) as (C & (i & Hi & Bi) & S). split; [apply (component_items c xs F); exact C|]. split.
    + destruct (Forall2_In_l _ _ F i Hi) as (x & Hx & I). exists x. split; [exact I|]. apply nth_error_In in Hx. exact Hx.
    + rewrite <- (Forall2_len _ _ F). exact S.
  - intros xs C (x & Hx & Ix) S.
    assert (Hd : forall y, In y xs -> In y data).
    { destruct C as (_ & z & Hz & K). intros y Hy.
      assert (C : connected item_link x y) by (apply conn_trans with z; [apply conn_sym|]; apply K; assumption).
      destruct (conn_positions x y C) as [<-|(i & j & _ & Hj & _)]; [exact Ix|]. eapply nth_error_In. exact Hj. }
    destruct (positions_of xs Hd) as (c & F). destruct (K2 c) as (c' & Hc' & P).
    + apply (component_items c xs F). exact C.
    + destruct (Forall2_In_r _ _ F x Hx) as (i & Hi & I). exists i. split; [exact I|]. apply nth_error_Some. unfold at_position in Hi. congruence.
    + rewrite (Forall2_len _ _ F). exact S.
    + assert (E : exists xs', In xs' out /\ Forall2 at_position c' xs').
      { clear - R Hc'. induction R as [|c ys idx out F R IH]; [destruct Hc'|]. destruct Hc' as [->|Hc']; [exists ys; split; [left; reflexivity|exact F]|].
        destruct (IH Hc') as (ys' & I & F'). exists ys'. split; [right; exact I|exact F']. }
      destruct E as (xs' & I & F'). exists xs'. split; [exact I|]. exact (reads_Permutation_cluster data c c' xs xs' P F F').
  - apply (Forall2_NoDup _ _ (Forall2_concat _ _ R)). exact K3.
Qed.
End Items.

(** positions i < j of x and y, in other words *)
Lemma precedes_at {A} (data : list A) x y :
  precedes data x y <-> exists i j, i < j /\ nth_error data i = Some x /\ nth_error data j = Some y.
Proof.
  split.
  - intros (l1 & l2 & l3 & ->). exists (length l1), (length l1 + S (length l2)). split; [lia|].
    rewrite !nth_error_app2 by lia. replace (length l1 - length l1) with 0 by lia. replace (length l1 + S (length l2) - length l1) with (S (length l2)) by lia.
    split; [reflexivity|]. cbn. rewrite nth_error_app2 by lia. rewrite Nat.sub_diag. reflexivity.
  - intros (i & j & Hij & Hi & Hj). apply nth_error_split in Hi as (l1 & r & -> & <-).
    rewrite nth_error_app2 in Hj by lia. replace (j - length l1) with (S (j - length l1 - 1)) in Hj by lia. cbn in Hj.
    apply nth_error_split in Hj as (l2 & l3 & -> & _). exists l1, l2, l3. reflexivity.
Qed.

Definition pair_of_data {A K} (similarity : K -> K -> bool) (key : A -> K) (data : list A) (x y : A) : Prop :=
  precedes data x y /\ similarity (key x) (key y) = true.

Lemma pairwise_items {A K} (similarity : K -> K -> bool) (key : A -> K) (data : list A) lo hi : NoDup data ->
  exists out, pairwise_connected_components similarity key data lo hi = Ok out /\
    is_components (fun x => In x data) (pair_of_data similarity key data) lo hi out.
Proof.
  intros N. destruct (pairwise_cc_correct similarity key data lo hi) as (idx & out & E & R & C).
  exists out. split; [exact E|].
  assert (B : forall i j, similar_at similarity (map key data) i j -> i < length data /\ j < length data).
  { intros i j Hs. apply similar_at_bound in Hs. rewrite map_length in Hs. exact Hs. }
  pose proof (components_items data N _ B lo hi idx out R C) as Kc.
  apply (is_components_ext (fun x => In x data) (fun x => In x data) (item_link data (similar_at similarity (map key data)))); [intros; tauto| |exact Kc].
  assert (T : forall x y, item_link data (similar_at similarity (map key data)) x y <-> pair_of_data similarity key data x y).
  { intros x y. unfold item_link, pair_of_data, similar_at, at_position. rewrite precedes_at. split.
    - intros (i & j & Hi & Hj & Hij & a & b & Ha & Hb & S). rewrite nth_error_map in Ha, Hb. rewrite Hi in Ha. rewrite Hj in Hb. injection Ha as <-. injection Hb as <-.
      split; [exists i, j; auto|exact S].
    - intros ((i & j & Hij & Hi & Hj) & S). exists i, j. split; [exact Hi|]. split; [exact Hj|]. split; [exact Hij|]. exists (key x), (key y).
      rewrite !nth_error_map, Hi, Hj. auto. }
  intros x y. split; apply conn_mono; intros a b Hab; apply Relation_Operators.rst_step; apply T; exact Hab.
Qed.

Lemma precedes_In {A} (data : list A) x y : precedes data x y -> In x data /\ In y data.
Proof. intros (l1 & l2 & l3 & ->). split; apply in_or_app; right; [left; reflexivity|right]. apply in_or_app. right. left. reflexivity. Qed.

Lemma precedes_either {A} (data : list A) x y : In x data -> In y data -> x <> y -> precedes data x y \/ precedes data y x.
Proof.
  intros Hx Hy N. apply In_nth_error in Hx as (i & Hi). apply In_nth_error in Hy as (j & Hj).
  rewrite !precedes_at. destruct (Nat.lt_trichotomy i j) as [L|[->|L]]; [left; exists i, j; auto|congruence|right; exists j, i; auto].
Qed.

(** with min_size >= 2: a relation between items that connects the same items *)
Lemma agree_items {A K} (similarity : K -> K -> bool) (key : A -> K) (data : list A) lo hi (v : A -> Prop) (link : A -> A -> Prop) out run :
  NoDup data -> 2 <= lo -> run = Ok out -> is_components v link lo hi out ->
  (forall x y, link x y -> v x /\ v y) ->
  (forall x y, link x y -> connected (pair_of_data similarity key data) x y /\ In x data /\ In y data) ->
  (forall x y, pair_of_data similarity key data x y -> connected link x y) ->
  agree run (pairwise_connected_components similarity key data lo hi).
Proof.
  intros N Lo -> C V L1 L2. destruct (pairwise_items similarity key data lo hi N) as (out2 & E & C2).
  exists out, out2. split; [reflexivity|]. split; [exact E|].
  apply (is_components_unique (fun x => In x data) (pair_of_data similarity key data) lo hi); [|exact C2].
  apply (is_components_vertex v (fun x => In x data)) in C; [|exact Lo|exact V|intros x y Hxy; apply L1 in Hxy; tauto].
  apply (is_components_ext (fun x => In x data) (fun x => In x data) link); [intros; tauto| |exact C].
  intros x y. split; apply conn_mono; [intros a b Hab; apply L1; exact Hab|exact L2].
Qed.

(** every item has a component *)
Lemma component_exists {A} `{EqDec A} (pairs : list (A * A)) x : exists c, component (pair_link pairs) c /\ In x c.
Proof.
  revert x. induction pairs as [|(a, b) pairs IH] using rev_ind; intros x.
  - exists [x]. split; [|left; reflexivity]. split; [repeat constructor; intros []|]. exists x. split; [left; reflexivity|].
    intros y. split.
    + intros [->|[]]. apply conn_refl.
    + intros C. left. induction C as [u v []|u|u v C IH|u v w C IH C' IH']; congruence.
  - destruct (IH x) as (c & C & I). destruct (IH a) as (ca & Ca & Ia). destruct (IH b) as (cb & Cb & Ib).
    assert (M : forall d z, component (pair_link pairs) d -> In z d -> forall y, In y d <-> connected (pair_link pairs) z y) by (intros d z D Hz y; apply component_conn; assumption).
    pose proof (M c x C I) as Mx. pose proof (M ca a Ca Ia) as Ma. pose proof (M cb b Cb Ib) as Mb.
    exists (set_of (c ++ (if memb a c then cb else []) ++ (if memb b c then ca else []))).
    assert (S : forall y, In y (set_of (c ++ (if memb a c then cb else []) ++ (if memb b c then ca else []))) <-> connected (pair_link (pairs ++ [(a, b)])) x y).
    { intros y. rewrite conn_add_edge. rewrite set_of_In. rewrite !in_app_iff. rewrite <- !Mx, <- Ma, <- Mb.
      destruct (memb_In a c); destruct (memb_In b c); cbn; tauto. }
    split; [|apply S; apply conn_refl]. split; [apply set_of_NoDup|]. exists x. split; [apply S; apply conn_refl|exact S].
Qed.

Definition data_pairs {A K} (similarity : K -> K -> bool) (key : A -> K) (data : list A) : list (A * A) :=
  filter (fun p => similarity (key (fst p)) (key (snd p))) (bucket_pairs data).
Lemma data_pairs_In {A K} (similarity : K -> K -> bool) (key : A -> K) (data : list A) x y :
  In (x, y) (data_pairs similarity key data) <-> pair_of_data similarity key data x y.
Proof. unfold data_pairs, pair_of_data, precedes. rewrite filter_In, In_bucket_pairs. reflexivity. Qed.

(** clusters of connected items lie inside the clusters of pairwise *)
Lemma refines_connected {A K} `{EqDec A} (similarity : K -> K -> bool) (key : A -> K) (data : list A) lo out run :
  NoDup data -> run = Ok out ->
  (forall c, In c out -> NoDup c /\ lo <= length c /\ exists x, In x data /\ forall y, In y c -> connected (pair_of_data similarity key data) x y) ->
  refines run (pairwise_connected_components similarity key data lo None).
Proof.
  intros N -> C. destruct (pairwise_items similarity key data lo None N) as (out2 & E & C2).
  exists out, out2. split; [reflexivity|]. split; [exact E|]. intros c Hc.
  destruct (C c Hc) as (Nc & Lc & x & Vx & Cx).
  assert (T : forall y z, connected (pair_link (data_pairs similarity key data)) y z <-> connected (pair_of_data similarity key data) y z).
  { intros y z. split; apply conn_mono; intros a b Hab; apply Relation_Operators.rst_step; apply data_pairs_In; exact Hab. }
  destruct (component_exists (data_pairs similarity key data) x) as (c2 & D & I).
  assert (Incl : incl c c2).
  { intros y Hy. apply (component_conn _ c2 x y D I). apply T. apply Cx. exact Hy. }
  destruct (each_component_listed _ _ _ _ _ C2 c2) as (c3 & I3 & P).
  - eapply component_ext; [|exact D]. intros; apply T.
  - exists x. split; [exact I|exact Vx].
  - split; [|exact Logic.I]. pose proof (NoDup_incl_length Nc Incl). lia.
  - exists c3. split; [exact I3|]. intros y Hy. eapply Permutation_in; [exact P|]. apply Incl. exact Hy.
Qed.

(** so does a smaller relation *)
Lemma refines_items {A K} `{EqDec A} (similarity : K -> K -> bool) (key : A -> K) (data : list A) lo hi (v : A -> Prop) (link : A -> A -> Prop) out run :
  NoDup data -> run = Ok out -> is_components v link lo hi out -> (forall x, v x -> In x data) ->
  (forall x y, link x y -> connected (pair_of_data similarity key data) x y) ->
  refines run (pairwise_connected_components similarity key data lo None).
Proof.
  intros N R C V L. apply (refines_connected similarity key data lo out run N R). intros c Hc.
  destruct (each_is_component _ _ _ _ _ C c Hc) as (K1 & (x & Hx & Vx) & S).
  split; [exact (proj1 K1)|]. split; [exact (proj1 S)|]. exists x. split; [apply V; exact Vx|]. intros y Hy.
  apply (component_conn _ c x y K1 Hx) in Hy. revert Hy. apply conn_mono. exact L.
Qed.
