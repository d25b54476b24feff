(** Proofs about clusters_from_pairs. *)
From Coq Require Import String Relations.
From Verif Require Import Base BaseFacts ClustersModel ClustersSpec.
Open Scope nat_scope.
Open Scope list_scope.
Notation length := List.length.
Notation concat := List.concat.

Section GenericComponents.
Context {A : Type}.

Lemma conn_refl (link : A -> A -> Prop) x : connected link x x.
Proof. apply rst_refl. Qed.
Lemma conn_sym (link : A -> A -> Prop) x y : connected link x y -> connected link y x.
Proof. apply rst_sym. Qed.
Lemma conn_trans (link : A -> A -> Prop) x y z :
  connected link x y -> connected link y z -> connected link x z.
Proof. apply rst_trans. Qed.

Lemma conn_mono (l1 l2 : A -> A -> Prop) :
  (forall x y, l1 x y -> connected l2 x y) -> forall x y, connected l1 x y -> connected l2 x y.
Proof.
  intros Hm x y Hc. induction Hc.
  - auto.
  - apply rst_refl.
  - apply rst_sym; auto.
  - eapply rst_trans; eauto.
Qed.

Lemma component_ext (l1 l2 : A -> A -> Prop) c :
  (forall x y, connected l1 x y <-> connected l2 x y) -> component l1 c -> component l2 c.
Proof.
  intros He [Hn (x & Hx & Hy)]. split; [exact Hn|]. exists x. split; [exact Hx|].
  intros y. rewrite Hy. apply He.
Qed.

Lemma component_conn (link : A -> A -> Prop) c x y :
  component link c -> In x c -> (In y c <-> connected link x y).
Proof.
  intros [Hn (r & Hr & Hc)] Hx. rewrite Hc. apply Hc in Hx.
  split; intros Hy.
  - eapply conn_trans; [apply conn_sym; exact Hx|exact Hy].
  - eapply conn_trans; [exact Hx|exact Hy].
Qed.

Lemma component_Permutation (link : A -> A -> Prop) c1 c2 x :
  component link c1 -> component link c2 -> In x c1 -> In x c2 -> Permutation c1 c2.
Proof.
  intros H1 H2 Hx1 Hx2. apply NoDup_Permutation; [apply H1|apply H2|].
  intros y. rewrite (component_conn _ _ x y H1 Hx1), (component_conn _ _ x y H2 Hx2). tauto.
Qed.

Lemma is_components_ext (v1 v2 : A -> Prop) (l1 l2 : A -> A -> Prop) lo hi out :
  (forall x, v1 x <-> v2 x) ->
  (forall x y, connected l1 x y <-> connected l2 x y) ->
  is_components v1 l1 lo hi out -> is_components v2 l2 lo hi out.
Proof.
  intros Hv Hl [H1 H2 H3]. split; [| |exact H3].
  - intros c Hc. destruct (H1 c Hc) as (Hcomp & (x & Hx & Hvx) & Hs).
    split; [eapply component_ext; eauto|]. split; [|exact Hs].
    exists x. split; [exact Hx|]. apply Hv; exact Hvx.
  - intros c Hc (x & Hx & Hvx) Hs. apply H2; [| |exact Hs].
    + eapply component_ext; [|exact Hc]. intros; symmetry; apply Hl.
    + exists x. split; [exact Hx|]. apply Hv; exact Hvx.
Qed.

(** with min_size >= 2 isolated vertices do not matter *)
Lemma is_components_vertex (v1 v2 : A -> Prop) (link : A -> A -> Prop) lo hi out :
  2 <= lo ->
  (forall x y, link x y -> v1 x /\ v1 y) -> (forall x y, link x y -> v2 x /\ v2 y) ->
  is_components v1 link lo hi out -> is_components v2 link lo hi out.
Proof.
  intros Hlo Hv1 Hv2 [H1 H2 H3].
  assert (Hl : forall (v : A -> Prop) c, (forall x y, link x y -> v x /\ v y) ->
     component link c -> size_within lo hi (length c) -> exists x, In x c /\ v x).
  { intros v c Hv [Hnd (x & Hx & Hy)] [Hs _].
    assert (Hex : exists y, In y c /\ y <> x).
    { destruct c as [|a [|b c']]; simpl in Hs; [lia|lia|].
      inversion Hnd as [|? ? Hna Hnd']; subst.
      destruct Hx as [->|Hx].
      - exists b. split; [simpl; auto|]. intros ->. apply Hna; simpl; auto.
      - exists a. split; [simpl; auto|]. intros ->. contradiction. }
    destruct Hex as (y & Hyc & Hne). apply Hy in Hyc.
    exists x. split; [exact Hx|].
    assert (G : forall a b, connected link a b -> a = b \/ (v a /\ v b)).
    { clear - Hv. intros a b Hc. induction Hc.
      - right; auto.
      - left; auto.
      - destruct IHHc as [->|[]]; auto.
      - destruct IHHc1 as [->|[]], IHHc2 as [->|[]]; auto. }
    destruct (G _ _ Hyc) as [->|[? ?]]; [congruence|auto]. }
  split; [| |exact H3].
  - intros c Hc. destruct (H1 c Hc) as (Hcomp & _ & Hs). split; [exact Hcomp|].
    split; [|exact Hs]. apply Hl; auto.
  - intros c Hc _ Hs. apply H2; auto.
Qed.

Lemma concat_NoDup_disjoint (out : list (list A)) : NoDup (concat out) ->
  forall l1 c1 l2 c2 l3, out = l1 ++ c1 :: l2 ++ c2 :: l3 -> forall x, In x c1 -> ~ In x c2.
Proof.
  intros Hn l1 c1 l2 c2 l3 -> x H1 H2.
  rewrite concat_app in Hn. simpl in Hn. rewrite concat_app in Hn. simpl in Hn.
  apply NoDup_app_iff in Hn as (_ & Hn & _).
  apply NoDup_app_iff in Hn as (_ & _ & Hn).
  apply (Hn x H1). rewrite !in_app_iff. auto.
Qed.

Lemma concat_NoDup_tail (c : list A) out : NoDup (concat (c :: out)) -> NoDup (concat out).
Proof. simpl. intros Hn. apply NoDup_app_iff in Hn. tauto. Qed.

(** two lists of the same components are the same clusters *)
Lemma is_components_unique (v : A -> Prop) (link : A -> A -> Prop) lo hi out1 out2 :
  is_components v link lo hi out1 -> is_components v link lo hi out2 -> same_clusters out1 out2.
Proof.
  intros [A1 A2 A3] [B1 B2 B3].
  assert (Hsub : forall c2, In c2 out2 -> exists c1, In c1 out1 /\ Permutation c1 c2).
  { intros c2 Hc2. destruct (B1 c2 Hc2) as (? & ? & ?).
    destruct (A2 c2) as (c1 & ? & ?); auto. exists c1. split; [auto|symmetry; auto]. }
  assert (Hsup : forall c1, In c1 out1 -> exists c2, In c2 out2 /\ Permutation c1 c2).
  { intros c1 Hc1. destruct (A1 c1 Hc1) as (? & ? & ?). apply B2; auto. }
  assert (N1 : forall c, In c out1 -> c <> []).
  { intros c Hc. destruct (A1 c Hc) as (_ & (x & Hx & _) & _). intros ->; exact Hx. }
  assert (N2 : forall c, In c out2 -> c <> []).
  { intros c Hc. destruct (B1 c Hc) as (_ & (x & Hx & _) & _). intros ->; exact Hx. }
  clear A1 A2 B1 B2. unfold same_clusters.
  revert out1 A3 Hsub Hsup N1 B3 N2.
  induction out2 as [|c2 out2 IH]; intros out1 A3 Hsub Hsup N1 B3 N2.
  - destruct out1 as [|c1 out1].
    + exists []. split; constructor.
    + destruct (Hsup c1) as (? & [] & _). simpl; auto.
  - destruct (Hsub c2) as (c1 & Hc1 & Hp); [simpl; auto|].
    apply in_split in Hc1 as (l1 & l2 & ->).
    assert (Hne2 : exists x, In x c2).
    { destruct c2 as [|x c2']; [|exists x; simpl; auto]. exfalso. apply (N2 []); simpl; auto. }
    destruct Hne2 as (x & Hx2).
    assert (Hx1 : In x c1) by (eapply Permutation_in; [symmetry; exact Hp|exact Hx2]).
    assert (A3' : NoDup (concat (c1 :: l1 ++ l2))).
    { eapply Permutation_NoDup; [|exact A3]. rewrite !concat_app. simpl. rewrite concat_app.
      rewrite !app_assoc. apply Permutation_app_tail. apply Permutation_app_comm. }
    simpl in A3'. apply NoDup_app_iff in A3' as (_ & A4 & A5).
    simpl in B3. apply NoDup_app_iff in B3 as (_ & B4 & B5).
    destruct (IH (l1 ++ l2)) as (out & Ho1 & Ho2).
    + exact A4.
    + intros d Hd. destruct (Hsub d) as (d1 & Hd1 & Hpd); [simpl; auto|].
      exists d1. split; [|exact Hpd].
      apply in_app_iff in Hd1. apply in_app_iff. simpl in Hd1.
      destruct Hd1 as [?|[<-|?]]; [auto| |auto].
      exfalso. assert (Hxd : In x d) by (eapply Permutation_in; [exact Hpd|exact Hx1]).
      apply (B5 x Hx2). apply in_concat. eauto.
    + intros d Hd. destruct (Hsup d) as (d2 & Hd2 & Hpd).
      { apply in_app_iff in Hd. apply in_app_iff. simpl. tauto. }
      exists d2. split; [|exact Hpd]. destruct Hd2 as [<-|?]; [|assumption].
      exfalso. assert (Hxd : In x d) by (eapply Permutation_in; [symmetry; exact Hpd|exact Hx2]).
      apply (A5 x Hx1). apply in_concat. eauto.
    + intros d Hd. apply N1. apply in_app_iff in Hd. apply in_app_iff. simpl. tauto.
    + exact B4.
    + intros d Hd. apply N2. simpl; auto.
    + exists (c1 :: out). split.
      * transitivity (c1 :: l1 ++ l2); [symmetry; apply Permutation_middle|]. constructor. exact Ho1.
      * constructor; assumption.
Qed.
End GenericComponents.

Section Proofs.
Context {A : Type} `{EqDec A}.
Variable set_order : list A -> list A.
Hypothesis set_order_perm : forall l, Permutation (set_order l) l.

Definition adj (g : dict A (list A)) (x : A) : list A :=
  match dget g x with Some l => l | None => [] end.

Lemma container_iter_perm fz l : Permutation (container_iter set_order fz l) l.
Proof. unfold container_iter. destruct fz; [apply set_order_perm|reflexivity]. Qed.

Lemma container_add_In fz c x y : In y (container_add fz c x) <-> In y c \/ y = x.
Proof.
  unfold container_add. destruct fz; [apply sadd_In|]. rewrite in_app_iff. simpl. intuition.
Qed.

Lemma adj_dmodify fz g k z x y :
  In y (adj (dmodify g k [] (fun c => container_add fz c z)) x) <->
  In y (adj g x) \/ (x = k /\ y = z).
Proof.
  unfold adj. destruct (eq_dec k x) as [->|Hn].
  - rewrite dget_dmodify_same, container_add_In. destruct (dget g x); simpl; intuition.
  - rewrite dget_dmodify_other by exact Hn. intuition congruence.
Qed.

Lemma add_pair_adj fz g p x y :
  In y (adj (add_pair fz g p) x) <->
  In y (adj g x) \/ (x = fst p /\ y = snd p) \/ (x = snd p /\ y = fst p).
Proof. unfold add_pair. rewrite !adj_dmodify. tauto. Qed.

Lemma build_graph_adj_aux fz pairs g x y :
  In y (adj (fold_left (add_pair fz) pairs g) x) <-> In y (adj g x) \/ neighbour pairs x y.
Proof.
  revert g. induction pairs as [|[a b] pairs IH]; simpl; intros g.
  - unfold neighbour; simpl. tauto.
  - rewrite IH, add_pair_adj. unfold neighbour; simpl. intuition congruence.
Qed.

Lemma build_graph_adj fz pairs x y :
  In y (adj (build_graph fz pairs) x) <-> neighbour pairs x y.
Proof. unfold build_graph. rewrite build_graph_adj_aux. unfold adj; simpl. tauto. Qed.

Lemma add_pair_keys fz g p : dkeys (add_pair fz g p) = sadd (sadd (dkeys g) (fst p)) (snd p).
Proof. unfold add_pair. rewrite !dkeys_dmodify. reflexivity. Qed.

Lemma build_graph_keys_aux fz pairs g x :
  In x (dkeys (fold_left (add_pair fz) pairs g)) <-> In x (dkeys g) \/ pair_vertex pairs x.
Proof.
  revert g. induction pairs as [|[a b] pairs IH]; simpl; intros g.
  - unfold pair_vertex; simpl. split; [tauto|]. intros [?|[y [[]|[]]]]; auto.
  - rewrite IH, add_pair_keys, !sadd_In. unfold pair_vertex; simpl. split.
    + intros [[[?| ->]| ->]|[y [?|?]]]; eauto.
    + intros [?|[y [[E|?]|[E|?]]]]; eauto; inversion E; subst; auto.
Qed.

Lemma build_graph_keys fz pairs x :
  In x (dkeys (build_graph fz pairs)) <-> pair_vertex pairs x.
Proof. unfold build_graph. rewrite build_graph_keys_aux. simpl. tauto. Qed.

Lemma build_graph_keys_NoDup_aux fz pairs g :
  NoDup (dkeys g) -> NoDup (dkeys (fold_left (add_pair fz) pairs g)).
Proof.
  revert g. induction pairs as [|p pairs IH]; simpl; intros g Hg; [exact Hg|].
  apply IH. rewrite add_pair_keys. auto using sadd_NoDup.
Qed.

Lemma build_graph_keys_NoDup fz pairs : NoDup (dkeys (build_graph fz pairs)).
Proof. apply build_graph_keys_NoDup_aux. constructor. Qed.

Lemma neighbour_sym (pairs : list (A * A)) x y : neighbour pairs x y -> neighbour pairs y x.
Proof. unfold neighbour. tauto. Qed.

Lemma neighbour_vertex (pairs : list (A * A)) x y : neighbour pairs x y -> pair_vertex pairs y.
Proof. unfold neighbour, pair_vertex. intros [?|?]; exists x; auto. Qed.

Lemma neighbour_conn (pairs : list (A * A)) x y :
  neighbour pairs x y -> connected (pair_link pairs) x y.
Proof.
  unfold neighbour, pair_link. intros [?|?].
  - apply rst_step; auto.
  - apply rst_sym, rst_step; auto.
Qed.

(** remaining work: degrees of the keys not visited yet *)
Definition work (g : dict A (list A)) (visited : list A) : nat :=
  list_sum (map (fun kv => if memb (fst kv) visited then 0 else length (snd kv)) g).

Lemma work_mono g visited k : work g (k :: visited) <= work g visited.
Proof.
  unfold work. induction g as [|[k' ns] g IH]; simpl; [lia|].
  destruct (memb_In k' (k :: visited)), (memb_In k' visited); simpl in *; try lia.
  exfalso; tauto.
Qed.

Lemma work_visit g visited k ns :
  NoDup (dkeys g) -> dget g k = Some ns -> ~ In k visited ->
  work g (k :: visited) + length ns <= work g visited.
Proof.
  unfold work. induction g as [|[k' ns'] g IH]; simpl; intros Hnd Hg Hv; [discriminate|].
  inversion Hnd as [|? ? Hni Hnd']; subst.
  destruct (eq_dec k k') as [->|Hne].
  - inversion Hg; subst. destruct (memb_In k' (k' :: visited)) as [_|n]; [|exfalso; apply n; simpl; auto].
    destruct (memb_In k' visited); [contradiction|].
    pose proof (work_mono g visited k'). unfold work in H0. lia.
  - specialize (IH Hnd' Hg Hv).
    destruct (memb_In k' (k :: visited)) as [i|n], (memb_In k' visited) as [i'|n']; try lia.
    exfalso. apply n; simpl; auto.
Qed.

Section Dfs.
Variable fz : bool.
Variable pairs : list (A * A).
Let g := build_graph fz pairs.

Definition closed (v0 : list A) : Prop :=
  forall x y, In x v0 -> neighbour pairs x y -> In y v0.

Record dfs_inv (r : A) (v0 stack visited cluster : list A) : Prop := {
  inv_nodup : NoDup cluster;
  inv_visited : forall x, In x visited <-> In x v0 \/ In x cluster;
  inv_fresh : forall x, In x cluster -> ~ In x v0;
  inv_conn : forall x, In x cluster \/ In x stack -> connected (pair_link pairs) r x;
  inv_root : In r cluster;
  inv_frontier : forall x y, In x cluster -> neighbour pairs x y -> In y visited \/ In y stack;
  inv_stack : forall x, In x stack -> pair_vertex pairs x
}.

Lemma dfs_correct fuel r v0 stack visited cluster :
  closed v0 ->
  dfs_inv r v0 stack visited cluster ->
  length stack + work g visited < fuel ->
  exists visited' cluster',
    dfs set_order fuel fz g stack visited cluster = Ok (visited', cluster') /\
    dfs_inv r v0 [] visited' cluster'.
Proof.
  intros Hv0. revert stack visited cluster.
  induction fuel as [|fuel IH]; intros stack visited cluster Hinv Hfuel; [lia|].
  destruct stack as [|n stack].
  - exists visited, cluster. split; [reflexivity|exact Hinv].
  - cbn [dfs]. destruct (memb_In n visited) as [Hin|Hnin].
    + apply IH; [|simpl in Hfuel; lia].
      destruct Hinv as [I1 I2 I3 I4 I5 I6 I7]. split; auto.
      * intros x [?|?]; apply I4; simpl; auto.
      * intros x y Hx Hy. destruct (I6 x y Hx Hy) as [?|[->|?]]; auto.
      * intros x Hx; apply I7; simpl; auto.
    + destruct Hinv as [I1 I2 I3 I4 I5 I6 I7].
      assert (Hkey : In n (dkeys g)).
      { apply build_graph_keys. apply I7; simpl; auto. }
      apply dget_In_keys in Hkey as [ns Hns]. rewrite Hns.
      assert (Hadj : forall y, In y ns <-> neighbour pairs n y).
      { intros y. rewrite <- (build_graph_adj fz). unfold adj. fold g. rewrite Hns. tauto. }
      pose proof (container_iter_perm fz ns) as Hperm.
      apply IH.
      * split.
        -- apply Permutation_NoDup with (n :: cluster); [apply Permutation_cons_append|].
           constructor; [|exact I1]. intros Hc. apply Hnin, I2. auto.
        -- intros x. simpl. rewrite I2, in_app_iff. simpl. intuition.
        -- intros x. rewrite in_app_iff. simpl. intros [Hx|[->|[]]]; [auto|].
           intros Hx. apply Hnin, I2. auto.
        -- intros x. rewrite !in_app_iff. simpl. rewrite <- in_rev.
           intros [[Hx|[->|[]]]|[Hx|Hx]].
           ++ apply I4; auto.
           ++ apply I4; simpl; auto.
           ++ eapply conn_trans; [apply (I4 n); simpl; auto|].
              apply neighbour_conn. apply Hadj. eapply Permutation_in; eauto.
           ++ apply I4; simpl; auto.
        -- apply in_app_iff; auto.
        -- intros x y. rewrite in_app_iff. simpl. rewrite in_app_iff, <- in_rev.
           intros [Hx|[->|[]]] Hy.
           ++ destruct (I6 x y Hx Hy) as [?|[->|?]]; auto.
           ++ right; left. eapply Permutation_in; [symmetry; exact Hperm|]. apply Hadj; exact Hy.
        -- intros x. rewrite in_app_iff, <- in_rev. intros [Hx|Hx].
           ++ eapply neighbour_vertex. apply Hadj. eapply Permutation_in; eauto.
           ++ apply I7; simpl; auto.
      * rewrite app_length, rev_length, (Permutation_length Hperm).
        pose proof (work_visit g visited n ns (build_graph_keys_NoDup fz pairs) Hns Hnin).
        simpl in Hfuel. lia.
Qed.

Lemma dfs_inv_final r v0 visited cluster :
  closed v0 -> dfs_inv r v0 [] visited cluster ->
  component (pair_link pairs) cluster /\ closed visited.
Proof.
  intros Hv0 [I1 I2 I3 I4 I5 I6 I7].
  assert (Hcl : forall x y, In x cluster -> neighbour pairs x y -> In y cluster).
  { intros x y Hx Hy. destruct (I6 x y Hx Hy) as [Hv|[]].
    apply I2 in Hv as [Hv|Hv]; [|exact Hv].
    exfalso. apply (I3 x Hx). apply (Hv0 y x Hv). apply neighbour_sym; exact Hy. }
  split.
  - split; [exact I1|]. exists r. split; [exact I5|]. intros y. split.
    + intros Hy. apply I4; auto.
    + intros Hc.
      assert (G : forall a b, connected (pair_link pairs) a b -> (In a cluster <-> In b cluster)).
      { clear - Hcl. intros a b Hc. induction Hc as [a b Hl|a|a b Hc IH|a b c Hc1 IH1 Hc2 IH2].
        - split; intros Hi; eapply Hcl; eauto; unfold neighbour, pair_link in *; auto.
        - tauto.
        - tauto.
        - tauto. }
      apply (G r y Hc). exact I5.
  - intros x y Hx Hy. apply I2 in Hx. apply I2. destruct Hx as [Hx|Hx].
    + left. eapply Hv0; eauto.
    + right. eapply Hcl; eauto.
Qed.

Lemma dfs_fuel_enough item ns visited :
  dget g item = Some ns -> ~ In item visited ->
  length (rev (container_iter set_order fz ns)) + work g (item :: visited) < dfs_fuel g.
Proof.
  intros Hns Hni. rewrite rev_length, (Permutation_length (container_iter_perm fz ns)).
  pose proof (work_visit g visited item ns (build_graph_keys_NoDup fz pairs) Hns Hni).
  assert (work g visited <= list_sum (map (fun kv => length (snd kv)) g)).
  { unfold work. clear. induction g as [|[k l] d IH]; simpl; [lia|]. destruct (memb k visited); lia. }
  unfold dfs_fuel. lia.
Qed.

Lemma components_loop_correct lo hi items visited :
  (forall k ns, In (k, ns) items -> dget g k = Some ns) ->
  closed visited ->
  exists out, components_loop set_order fz g lo hi items visited = Ok out /\
    (forall c, In c out -> component (pair_link pairs) c /\
        (exists x, In x c /\ pair_vertex pairs x) /\ size_within lo hi (length c)) /\
    (forall c, component (pair_link pairs) c -> (exists k, In k c /\ In k (dkeys items) /\ ~ In k visited) ->
        size_within lo hi (length c) -> exists c', In c' out /\ Permutation c c') /\
    NoDup (concat out) /\ (forall x, In x (concat out) -> ~ In x visited).
Proof.
  revert visited. induction items as [|[item ns] rest IH]; intros visited Hitems Hcl.
  - exists []. simpl. repeat split; try tauto; try constructor.
    + intros c _ (k & _ & [] & _).
  - cbn [components_loop]. destruct (memb_In item visited) as [Hin|Hnin].
    + destruct (IH visited) as (out & E & O1 & O2 & O3 & O4); [intros; apply Hitems; simpl; auto|exact Hcl|].
      exists out. split; [exact E|]. split; [exact O1|]. split; [|split; assumption].
      intros c Hc (k & Hk & [<-|Hki] & Hkv) Hs; [contradiction|].
      apply O2; auto. exists k; auto.
    + assert (Hns : dget g item = Some ns) by (apply Hitems; simpl; auto).
      assert (Hvx : pair_vertex pairs item).
      { apply (build_graph_keys fz). apply dget_In_keys. exists ns; exact Hns. }
      assert (Hadj : forall y, In y ns <-> neighbour pairs item y).
      { intros y. rewrite <- (build_graph_adj fz). unfold adj. fold g. rewrite Hns. tauto. }
      pose proof (container_iter_perm fz ns) as Hperm.
      destruct (dfs_correct (dfs_fuel g) item visited
                  (rev (container_iter set_order fz ns)) (item :: visited) [item])
        as (visited' & cluster & Ed & Hinv).
      * exact Hcl.
      * split.
        -- repeat constructor. simpl; tauto.
        -- intros x. simpl. tauto.
        -- intros x [<-|[]]. exact Hnin.
        -- intros x [[<-|[]]|Hx]; [apply conn_refl|]. rewrite <- in_rev in Hx.
           apply neighbour_conn, Hadj. eapply Permutation_in; eauto.
        -- simpl; auto.
        -- intros x y [<-|[]] Hy. right. rewrite <- in_rev.
           eapply Permutation_in; [symmetry; exact Hperm|]. apply Hadj; exact Hy.
        -- intros x Hx. rewrite <- in_rev in Hx. eapply neighbour_vertex, Hadj.
           eapply Permutation_in; eauto.
      * apply dfs_fuel_enough; assumption.
      * rewrite Ed. cbn [bind].
        destruct (dfs_inv_final _ _ _ _ Hcl Hinv) as [Hcomp Hcl'].
        destruct Hinv as [I1 I2 I3 I4 I5 I6 I7].
        destruct (IH visited') as (out & E & O1 & O2 & O3 & O4);
          [intros; apply Hitems; simpl; auto|exact Hcl'|].
        rewrite E. cbn [bind].
        assert (Hbool : (lo <=? length cluster) && le_max (length cluster) hi = true
                        <-> size_within lo hi (length cluster)).
        { rewrite andb_true_iff, Nat.leb_le, le_max_true. unfold size_within. tauto. }
        assert (Hlist : forall c, component (pair_link pairs) c ->
          (exists k, In k c /\ In k (dkeys ((item, ns) :: rest)) /\ ~ In k visited) ->
          size_within lo hi (length c) ->
          Permutation c cluster \/ exists c', In c' out /\ Permutation c c').
        { intros c Hc (k & Hk & Hki & Hkv) Hs.
          destruct (in_dec eq_dec k cluster) as [Hkc|Hkc].
          - left. eapply component_Permutation; eauto.
          - right. apply O2; auto. exists k. split; [exact Hk|]. split.
            + destruct Hki as [<-|?]; [contradiction|assumption].
            + intros Hv. apply I2 in Hv. tauto. }
        destruct ((lo <=? length cluster) && le_max (length cluster) hi) eqn:Eb.
        -- exists (cluster :: out). split; [reflexivity|]. split; [|split; [|split]].
           ++ intros c [<-|Hc]; [|auto]. split; [exact Hcomp|]. split; [|apply Hbool; reflexivity].
              exists item. auto.
           ++ intros c Hc Hk Hs. destruct (Hlist c Hc Hk Hs) as [Hp|(c' & ? & ?)].
              ** exists cluster. simpl; auto.
              ** exists c'. simpl; auto.
           ++ simpl. apply NoDup_app_iff. split; [exact I1|]. split; [exact O3|].
              intros x Hx Ho. apply (O4 x Ho). apply I2. auto.
           ++ simpl. intros x. rewrite in_app_iff. intros [Hx|Hx]; [auto|].
              intros Hv. apply (O4 x Hx). apply I2. auto.
        -- exists out. split; [reflexivity|]. split; [exact O1|]. split; [|split; [exact O3|]].
           ++ intros c Hc Hk Hs. destruct (Hlist c Hc Hk Hs) as [Hp|Hr]; [|exact Hr].
              exfalso. rewrite (Permutation_length Hp) in Hs. apply Hbool in Hs. discriminate.
           ++ intros x Hx Hv. apply (O4 x Hx). apply I2. auto.
Qed.
End Dfs.

Lemma clusters_from_pairs_components pairs lo hi fz :
  exists out, clusters_from_pairs set_order pairs lo hi "connected_components" fz = Ok out /\
    is_components (pair_vertex pairs) (pair_link pairs) lo hi out.
Proof.
  unfold clusters_from_pairs.
  destruct (string_dec "connected_components" "fuzzy_clusters") as [E|_]; [discriminate|].
  destruct (string_dec "connected_components" "connected_components") as [_|n]; [|contradiction].
  destruct (components_loop_correct fz pairs lo hi (build_graph fz pairs) [])
    as (out & E & O1 & O2 & O3 & O4).
  - intros k ns Hin. apply In_dget; [apply build_graph_keys_NoDup|exact Hin].
  - intros x y [].
  - exists out. split; [exact E|]. split; [exact O1| |exact O3].
    intros c Hc (x & Hx & Hv) Hs. apply O2; [exact Hc| |exact Hs].
    exists x. split; [exact Hx|]. split; [|simpl; tauto].
    apply build_graph_keys. exact Hv.
Qed.

Lemma clusters_from_pairs_unknown pairs lo hi mode fz :
  mode <> "fuzzy_clusters"%string -> mode <> "connected_components"%string ->
  clusters_from_pairs set_order pairs lo hi mode fz = Err TypeError.
Proof.
  intros H1 H2. unfold clusters_from_pairs.
  destruct (string_dec mode "fuzzy_clusters"); [contradiction|].
  destruct (string_dec mode "connected_components"); [contradiction|reflexivity].
Qed.

(** ** Fuzzy clusters *)

Lemma fuzzy_loop_facts fz lo hi (gg : dict A (list A)) items visited :
  (forall k ns, In (k, ns) items -> In (k, ns) gg) -> NoDup (dkeys items) ->
  (* every cluster is an item with the content of its container *)
  (forall c, In c (fuzzy_loop set_order fz lo hi items visited) ->
     exists k ns, In (k, ns) items /\ ~ In k visited /\ c = k :: container_iter set_order fz ns /\
       size_within lo hi (length c)) /\
  (* a later head is in no earlier cluster *)
  ForallOrdPairs (fun c1 c2 => forall h t, c2 = h :: t -> ~ In h c1)
    (fuzzy_loop set_order fz lo hi items visited) /\
  (* an item that is not skipped for its size is in a cluster or visited *)
  (forall k ns, In (k, ns) items -> size_within lo hi (S (length ns)) ->
     In k visited \/ In k (concat (fuzzy_loop set_order fz lo hi items visited))).
Proof.
  intros Hgg. revert visited.
  induction items as [|[item ns] rest IH]; intros visited Hnd.
  - simpl. repeat split; [tauto|constructor|tauto].
  - simpl in Hnd. inversion Hnd as [|? ? Hni Hnd']; subst.
    assert (Hgg' : forall k ns0, In (k, ns0) rest -> In (k, ns0) gg) by (intros; apply Hgg; simpl; auto).
    specialize (IH Hgg').
    cbn [fuzzy_loop].
    assert (Hskip : forall v,
      (In item v \/ ~ size_within lo hi (S (length ns))) ->
       (forall c, In c (fuzzy_loop set_order fz lo hi rest v) ->
         exists k ns0, In (k, ns0) ((item, ns) :: rest) /\ ~ In k v /\
            c = k :: container_iter set_order fz ns0 /\ size_within lo hi (length c)) /\
       ForallOrdPairs (fun c1 c2 => forall h t, c2 = h :: t -> ~ In h c1)
         (fuzzy_loop set_order fz lo hi rest v) /\
       (forall k ns0, In (k, ns0) ((item, ns) :: rest) -> size_within lo hi (S (length ns0)) ->
         In k v \/ In k (concat (fuzzy_loop set_order fz lo hi rest v)))).
    { intros v Hor. destruct (IH v Hnd') as (F1 & F2 & F3). split; [|split; [exact F2|]].
      - intros c Hc. destruct (F1 c Hc) as (k & ns0 & ? & ? & ? & ?).
        exists k, ns0. simpl; auto.
      - intros k ns0 [E|Hin] Hs; [|eauto]. inversion E; subst.
        destruct Hor; [auto|contradiction]. }
    destruct (memb_In item visited) as [Hin|Hnin]; [apply Hskip; auto|].
    destruct (Nat.ltb_spec (length ns + 1) lo) as [Hlt|Hge].
    { apply Hskip. right. unfold size_within. lia. }
    destruct (le_max (length ns + 1) hi) eqn:El; cbn [negb].
    2:{ apply Hskip. right. unfold size_within. intros [_ Hh].
        rewrite Nat.add_1_r in El. apply (le_max_true (S (length ns)) hi) in Hh. congruence. }
    destruct (IH (ns ++ visited) Hnd') as (F1 & F2 & F3).
    assert (Hlen : length (item :: container_iter set_order fz ns) = S (length ns)).
    { simpl. rewrite (Permutation_length (container_iter_perm fz ns)). reflexivity. }
    split; [|split].
    + intros c [<-|Hc].
      * exists item, ns. split; [simpl; auto|]. split; [exact Hnin|]. split; [reflexivity|].
        rewrite Hlen. split; [lia|]. rewrite Nat.add_1_r in El. apply (le_max_true (S (length ns)) hi). exact El.
      * destruct (F1 c Hc) as (k & ns0 & ? & Hk & ? & ?). exists k, ns0.
        split; [simpl; auto|]. split; [|auto]. intros Hv. apply Hk. apply in_app_iff. auto.
    + constructor; [|exact F2]. apply Forall_forall. intros c Hc h t ->.
      destruct (F1 _ Hc) as (k & ns0 & Hin & Hkv & E & _). inversion E; subst.
      intros [Hi|Hi].
      * subst. apply Hni. change k with (fst (k, ns0)). apply in_map. exact Hin.
      * apply Hkv. apply in_app_iff. left.
        eapply Permutation_in; [apply container_iter_perm|exact Hi].
    + intros k ns0 [E|Hin] Hs.
      * inversion E; subst. right. simpl. auto.
      * destruct (F3 k ns0 Hin Hs) as [Hv|Hv].
        -- apply in_app_iff in Hv as [Hv|Hv]; [|auto].
           right. simpl. right. apply in_app_iff. left.
           eapply Permutation_in; [symmetry; apply container_iter_perm|exact Hv].
        -- right. simpl. right. apply in_app_iff. auto.
Qed.

Lemma adj_NoDup_aux pairs g :
  (forall x, NoDup (adj g x)) -> forall x, NoDup (adj (fold_left (add_pair true) pairs g) x).
Proof.
  revert g. induction pairs as [|p pairs IH]; simpl; intros g Hg; [exact Hg|].
  apply IH. intros x. unfold add_pair.
  assert (G : forall g k z, (forall x, NoDup (adj g x)) -> forall x,
     NoDup (adj (dmodify g k [] (fun c => container_add true c z)) x)).
  { clear. intros g k z Hg x. unfold adj. destruct (eq_dec k x) as [->|Hn].
    - rewrite dget_dmodify_same. simpl. apply sadd_NoDup. specialize (Hg x). unfold adj in Hg.
      destruct (dget g x); [exact Hg|constructor].
    - rewrite dget_dmodify_other by exact Hn. apply Hg. }
  apply G. apply G. exact Hg.
Qed.

Lemma clusters_from_pairs_fuzzy pairs lo hi fz :
  exists out, clusters_from_pairs set_order pairs lo hi "fuzzy_clusters" fz = Ok out /\
    (forall c, In c out -> exists h t, c = h :: t /\ pair_vertex pairs h /\
        (forall y, In y t <-> neighbour pairs h y) /\ size_within lo hi (length c) /\
        (fz = true -> NoDup t)) /\
    ForallOrdPairs (fun c1 c2 => forall h t, c2 = h :: t -> ~ In h c1) out /\
    (lo <= 2 -> hi = None -> forall x, pair_vertex pairs x -> exists c, In c out /\ In x c) /\
    (fz = true -> forall x ns, pair_vertex pairs x -> NoDup ns ->
       (forall y, In y ns <-> neighbour pairs x y) -> size_within lo hi (S (length ns)) ->
       exists c, In c out /\ In x c).
Proof.
  unfold clusters_from_pairs.
  destruct (string_dec "fuzzy_clusters" "fuzzy_clusters") as [_|n]; [|contradiction].
  eexists. split; [reflexivity|].
  destruct (fuzzy_loop_facts fz lo hi (build_graph fz pairs) (build_graph fz pairs) [])
    as (F1 & F2 & F3); [auto|apply build_graph_keys_NoDup|].
  split; [|split; [exact F2|]].
  - intros c Hc. destruct (F1 c Hc) as (k & ns & Hin & _ & -> & Hs).
    assert (Hd : dget (build_graph fz pairs) k = Some ns).
    { apply In_dget; [apply build_graph_keys_NoDup|exact Hin]. }
    exists k, (container_iter set_order fz ns). split; [reflexivity|].
    split; [|split; [|split]].
    + apply (build_graph_keys fz). apply dget_In_keys. eauto.
    + intros y. rewrite <- (build_graph_adj fz). unfold adj. rewrite Hd.
      split; intros Hy; eapply Permutation_in; try exact Hy;
        [|symmetry]; apply container_iter_perm.
    + exact Hs.
    + intros ->. eapply Permutation_NoDup; [symmetry; apply container_iter_perm|].
      pose proof (adj_NoDup_aux pairs [] (fun x => NoDup_nil A) k) as Hn.
      unfold adj in Hn. unfold build_graph in Hd. rewrite Hd in Hn. exact Hn.
  - split; [|
      intros -> x ns Hx Hnd Hn Hs; apply (build_graph_keys true) in Hx;
      apply dget_In_keys in Hx as [ns' Hns];
      assert (Hl : length ns' = length ns);
      [ apply NoDup_same_length; [|exact Hnd|];
        [ pose proof (adj_NoDup_aux pairs [] (fun x => NoDup_nil A) x) as Hq;
          unfold adj in Hq; unfold build_graph in Hns; rewrite Hns in Hq; exact Hq
        | intros y; rewrite Hn, <- (build_graph_adj true); unfold adj; rewrite Hns; tauto ]
      | destruct (F3 x ns') as [[]|Hc];
        [ apply dget_Some_In; exact Hns | rewrite Hl; exact Hs
        | apply in_concat in Hc as (c & ? & ?); eauto ] ] ].
    intros Hlo -> x Hx. pose proof Hx as Hx'.
    apply (build_graph_keys fz) in Hx. apply dget_In_keys in Hx as [ns Hns].
    assert (Hne : 1 <= length ns).
    { destruct Hx' as [y Hy]. assert (In y ns).
      { assert (Ha : In y (adj (build_graph fz pairs) x)) by (apply build_graph_adj; exact Hy).
        unfold adj in Ha. rewrite Hns in Ha. exact Ha. }
      destruct ns; [contradiction|simpl; lia]. }
    destruct (F3 x ns) as [[]|Hc].
    + apply dget_Some_In; exact Hns.
    + split; [lia|exact Logic.I].
    + apply in_concat in Hc as (c & ? & ?). eauto.
Qed.
End Proofs.

Lemma In_bucket_pairs {A} (b : list A) x y :
  In (x, y) (bucket_pairs b) <-> exists l1 l2 l3, b = l1 ++ x :: l2 ++ y :: l3.
Proof.
  induction b as [|a b IH]; simpl.
  - split; [tauto|]. intros (l1 & l2 & l3 & E). destruct l1; discriminate.
  - rewrite in_app_iff, in_map_iff, IH. split.
    + intros [(b' & E & Hin)|(l1 & l2 & l3 & ->)].
      * inversion E; subst. apply in_split in Hin as (l2 & l3 & ->). exists [], l2, l3. reflexivity.
      * exists (a :: l1), l2, l3. reflexivity.
    + intros (l1 & l2 & l3 & E). destruct l1 as [|a' l1]; simpl in E; inversion E; subst.
      * left. exists y. split; [reflexivity|]. apply in_app_iff; simpl; auto.
      * right. eauto.
Qed.

Section Derived.
Context {A : Type} `{EqDec A}.
Variable set_order : list A -> list A.
Hypothesis set_order_perm : forall l, Permutation (set_order l) l.

Lemma clusters_from_pairs_same (order2 : list A -> list A) (pairs1 pairs2 : list (A * A))
    lo hi fuzzy1 fuzzy2 :
  (forall l, Permutation (order2 l) l) ->
  (forall x y, neighbour pairs1 x y <-> neighbour pairs2 x y) ->
  exists out1 out2,
    clusters_from_pairs set_order pairs1 lo hi "connected_components" fuzzy1 = Ok out1 /\
    clusters_from_pairs order2 pairs2 lo hi "connected_components" fuzzy2 = Ok out2 /\
    same_clusters out1 out2.
Proof.
  intros Ho Hp.
  destruct (clusters_from_pairs_components set_order set_order_perm pairs1 lo hi fuzzy1) as (o1 & E1 & C1).
  destruct (clusters_from_pairs_components order2 Ho pairs2 lo hi fuzzy2) as (o2 & E2 & C2).
  exists o1, o2. split; [exact E1|]. split; [exact E2|].
  apply (is_components_unique (pair_vertex pairs1) (pair_link pairs1) lo hi); [exact C1|].
  eapply is_components_ext; [| |exact C2].
  - intros x. unfold pair_vertex. split; intros [y Hy]; exists y; apply Hp; exact Hy.
  - intros x y. split; apply conn_mono; intros a b Hab; apply neighbour_conn; apply Hp; left; exact Hab.
Qed.

Lemma clusters_from_buckets_components (buckets : list (list A)) lo hi similarity fuzzy :
  exists out, clusters_from_buckets set_order buckets lo hi "connected_components" similarity fuzzy = Ok out /\
    is_components (fun x => exists y, bucket_link buckets similarity x y \/ bucket_link buckets similarity y x)
      (bucket_link buckets similarity) lo hi out.
Proof.
  unfold clusters_from_buckets.
  match goal with |- context [clusters_from_pairs _ ?p] => set (ps := p) end.
  assert (Hps : forall x y, In (x, y) ps <-> bucket_link buckets similarity x y).
  { intros x y. unfold ps, bucket_link, pairs_from_buckets. rewrite filter_In, in_flat_map. cbn [fst snd].
    split.
    - intros [(b & Hb & Hin) Hs]. apply In_bucket_pairs in Hin as (l1 & l2 & l3 & E).
      split; [eauto 7|]. destruct similarity; [exact Hs|exact Logic.I].
    - intros [(b & l1 & l2 & l3 & Hb & E) Hs]. split.
      + exists b. split; [exact Hb|]. apply In_bucket_pairs. eauto.
      + destruct similarity; [exact Hs|reflexivity]. }
  destruct (clusters_from_pairs_components set_order set_order_perm ps lo hi fuzzy) as (out & E & C).
  exists out. split; [exact E|]. eapply is_components_ext; [| |exact C].
  - intros x. unfold pair_vertex. split; intros [y Hy]; exists y; rewrite !Hps in *; exact Hy.
  - intros x y. split; apply conn_mono; intros a b Hab; apply rst_step; apply Hps; exact Hab.
Qed.
End Derived.

Lemma same_clusters_length {A} (o1 o2 : list (list A)) : same_clusters o1 o2 -> length o1 = length o2.
Proof.
  intros (o & Hp & Hf). rewrite (Permutation_length Hp). clear Hp.
  induction Hf; simpl; congruence.
Qed.
