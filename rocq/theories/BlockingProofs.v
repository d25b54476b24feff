(** Proofs about blocking, key collision and the intersection index *)
From Coq Require Import String QArith Relations.
From Verif Require Import Base BaseFacts ClustersModel ClustersSpec ClustersProofs
  PairwiseModel PairwiseSpec PairwiseProofs BlockingModel BlockingSpec.
Notation length := List.length.
Notation concat := List.concat.
Open Scope nat_scope.
Open Scope list_scope.

(** ** Clusters of positions, read in the data *)
Lemma conn_bound (link : nat -> nat -> Prop) n : (forall x y, link x y -> x < n /\ y < n) ->
  forall a b, connected link a b -> a = b \/ (a < n /\ b < n).
Proof.
  intros Hb a b Hc. induction Hc as [a b Hl|a|a b Hc IH|a b c Hc1 IH1 Hc2 IH2].
  - right. auto.
  - left; auto.
  - destruct IH as [->|[]]; auto.
  - destruct IH1 as [->|[]], IH2 as [->|[]]; auto.
Qed.

Lemma positions_read {A} (set_order : list nat -> list nat) (data : list A) (pairs : list (nat * nat))
    (link : nat -> nat -> Prop) lo hi fz :
  (forall l, Permutation (set_order l) l) ->
  (forall i j, In (i, j) pairs <-> link i j) ->
  (forall i j, link i j -> i < length data /\ j < length data) ->
  exists idx out,
    (let! cl := clusters_from_pairs set_order pairs lo hi "connected_components" fz in
     mapM (mapM (index data)) cl) = Ok out /\ reads data idx out /\
    is_components (fun i => exists j, link i j \/ link j i) link lo hi idx.
Proof.
  intros Hp Hl Hb.
  destruct (clusters_from_pairs_components set_order Hp pairs lo hi fz) as (idx & E & C).
  assert (C' : is_components (fun i => exists j, link i j \/ link j i) link lo hi idx).
  { eapply is_components_ext; [| |exact C].
    - intros x. unfold pair_vertex. split; intros [y Hy]; exists y; rewrite !Hl in *; exact Hy.
    - intros x y. split; apply conn_mono; intros a b Hab; apply rst_step; apply Hl; exact Hab. }
  rewrite E. cbn [bind].
  destruct (mapM_reads data idx) as (out & Eo & R).
  - intros c i Hc Hi. destruct C' as [H1 _ _]. destruct (H1 c Hc) as (Hcomp & (x & Hx & y & Hy) & _).
    apply (component_conn _ _ x i Hcomp Hx) in Hi.
    assert (Hx' : x < length data) by (destruct Hy as [Hy|Hy]; apply Hb in Hy; tauto).
    destruct (conn_bound link (length data) Hb _ _ Hi) as [<-|[]]; auto.
  - exists idx, out. auto.
Qed.

(** ** Buckets *)
Definition getd {K V} `{EqDec K} (d : dict K (list V)) (k : K) : list V :=
  match dget d k with Some v => v | None => [] end.

Lemma getd_append {K V} `{EqDec K} (d : dict K (list V)) k k' x :
  getd (dmodify d k [] (fun l => l ++ [x])) k' = getd d k' ++ (if eq_dec k k' then [x] else []).
Proof.
  unfold getd. destruct (eq_dec k k') as [->|Hn].
  - rewrite dget_dmodify_same. destruct (dget d k'); reflexivity.
  - rewrite dget_dmodify_other by exact Hn. rewrite app_nil_r. reflexivity.
Qed.

Lemma before_filter {A} (p : A -> bool) (l : list A) x y :
  precedes (filter p l) x y <-> precedes l x y /\ p x = true /\ p y = true.
Proof.
  unfold precedes. rewrite <- !In_bucket_pairs.
  induction l as [|a l IH]; simpl; [tauto|].
  rewrite in_app_iff, in_map_iff. destruct (p a) eqn:E.
  - simpl. rewrite in_app_iff, in_map_iff, IH. split.
    + intros [(b & Eb & Hb)|?]; [|tauto]. injection Eb as -> ->. apply filter_In in Hb as [Hb Hp].
      split; [left; exists y; auto|auto].
    + intros [[(b & Eb & Hb)|?] [H1 H2]]; [|tauto]. injection Eb as -> ->. left. exists y. rewrite filter_In. auto.
  - rewrite IH. split; [tauto|]. intros [[(b & Eb & Hb)|?] [H1 H2]]; [|tauto]. congruence.
Qed.

Section Buckets.
Context {A K : Type} `{EqDec K}.
Variable ks : A -> list K.

Definition collect (data : list A) (d : dict K (list A)) : dict K (list A) :=
  fold_left (fun buckets item =>
    fold_left (fun buckets k => dmodify buckets k [] (fun l => l ++ [item])) (ks item) buckets) data d.

(** the content of a bucket *)
Definition bucket (data : list A) (k : K) : list A :=
  flat_map (fun x => map (fun _ => x) (filter (eqb k) (ks x))) data.

Lemma collect_get_aux (x : A) l d k :
  getd (fold_left (fun buckets k => dmodify buckets k [] (fun l => l ++ [x])) l d) k =
  getd d k ++ map (fun _ => x) (filter (eqb k) l).
Proof.
  revert d. induction l as [|k' l IH]; intros d; simpl; [rewrite app_nil_r; reflexivity|].
  rewrite IH, getd_append, <- app_assoc. f_equal. unfold eqb at 2.
  destruct (eq_dec k' k) as [->|Hn], (eq_dec k k) as [_|Hn']; try contradiction; simpl.
  - destruct (eq_dec k k); [reflexivity|contradiction].
  - destruct (eq_dec k k'); [congruence|reflexivity].
Qed.

Lemma collect_get data d k : getd (collect data d) k = getd d k ++ bucket data k.
Proof.
  revert d. unfold collect, bucket. induction data as [|x data IH]; intros d; simpl; [rewrite app_nil_r; reflexivity|].
  rewrite IH, collect_get_aux, <- app_assoc. reflexivity.
Qed.

Lemma collect_keys_aux (x : A) l (d : dict K (list A)) :
  dkeys (fold_left (fun buckets k => dmodify buckets k [] (fun l => l ++ [x])) l d) = fold_left sadd l (dkeys d).
Proof. revert d. induction l as [|k l IH]; intros d; simpl; [reflexivity|]. rewrite IH, dkeys_dmodify. reflexivity. Qed.

Lemma collect_dkeys data d : dkeys (collect data d) = fold_left sadd (flat_map ks data) (dkeys d).
Proof.
  revert d. unfold collect. induction data as [|x data IH]; intros d; simpl; [reflexivity|].
  rewrite IH, collect_keys_aux, fold_left_app. reflexivity.
Qed.

Lemma dvalues_getd (d : dict K (list A)) : NoDup (dkeys d) -> dvalues d = map (getd d) (dkeys d).
Proof.
  intros Hn. unfold dvalues, dkeys. rewrite map_map. apply map_ext_in. intros [k v] Hk. simpl.
  unfold getd. erewrite In_dget; eauto.
Qed.

Lemma collect_values data : dvalues (collect data []) = map (bucket data) (set_of (flat_map ks data)).
Proof.
  rewrite dvalues_getd.
  - rewrite collect_dkeys. apply map_ext. intros k. rewrite collect_get. reflexivity.
  - rewrite collect_dkeys. apply fold_sadd_NoDup. constructor.
Qed.

Lemma In_bucket data k x : In x (bucket data k) <-> In x data /\ In k (ks x).
Proof.
  unfold bucket. rewrite in_flat_map. split.
  - intros (y & Hy & Hx). apply in_map_iff in Hx as (k' & <- & Hk). apply filter_In in Hk as [Hk E].
    rewrite eqb_true in E. subst. auto.
  - intros [Hx Hk]. exists x. split; [exact Hx|]. apply in_map_iff. exists k. split; [reflexivity|].
    apply filter_In. split; [exact Hk|]. apply eqb_refl.
Qed.

Lemma bucket_NoDup data k : (forall x, NoDup (ks x)) -> bucket data k = filter (fun x => memb k (ks x)) data.
Proof.
  intros Hn. unfold bucket. induction data as [|x data IH]; simpl; [reflexivity|].
  rewrite IH. assert (E : map (fun _ : K => x) (filter (eqb k) (ks x)) = if memb k (ks x) then [x] else []).
  { specialize (Hn x). clear IH. induction Hn as [|k' l Hk Hl IH]; [reflexivity|].
    simpl. destruct (eqb k k') eqn:E.
    - rewrite eqb_true in E. subst k'. simpl. rewrite IH.
      replace (memb k l) with false by (symmetry; apply memb_false; exact Hk).
      replace (memb k (k :: l)) with true by (symmetry; apply memb_true; simpl; auto). reflexivity.
    - rewrite IH. rewrite eqb_false in E. destruct (memb_In k l), (memb_In k (k' :: l)); simpl in *; try reflexivity; exfalso; intuition. }
  rewrite E. destruct (memb k (ks x)); reflexivity.
Qed.

Lemma fold_sadd_set_of (l : list K) : fold_left sadd l [] = set_of l.
Proof. reflexivity. Qed.
End Buckets.

(** ** blocking *)
Section Blocking.
Context {A B : Type} `{EqDec A} `{EqDec B}.
Variable set_order : list A -> list A.
Hypothesis set_order_perm : forall l, Permutation (set_order l) l.
Variable block_order : list B -> list B.
Hypothesis block_order_perm : forall l, Permutation (block_order l) l.
Variable similarity : A -> A -> bool.

Lemma short_no_pairs (b : list A) p : Nat.ltb 1 (length b) = false -> ~ In p (bucket_pairs b).
Proof. destruct b as [|x [|y b]]; simpl; [tauto|tauto|discriminate]. Qed.

Lemma blocking_pairs_In (buckets : dict B (list A)) arrival x y :
  (forall r, arrival = Some r -> forall l, Permutation (r l) l) ->
  (In (x, y) (blocking_pairs similarity buckets arrival) <->
   similarity x y = true /\ exists b, In b (dvalues buckets) /\ precedes b x y).
Proof.
  intros Ha. unfold blocking_pairs. set (results := map _ _).
  assert (G : In (x, y) (concat results) <-> similarity x y = true /\ exists b, In b (dvalues buckets) /\ precedes b x y).
  { unfold results. rewrite <- flat_map_concat_map, in_flat_map. unfold block_worker. split.
    - intros (b & Hb & Hxy). apply filter_In in Hb as [Hb _]. apply filter_In in Hxy as [Hxy Hs]. simpl in Hs.
      split; [exact Hs|]. exists b. split; [exact Hb|]. apply In_bucket_pairs. exact Hxy.
    - intros (Hs & b & Hb & Hp). apply In_bucket_pairs in Hp. exists b. split.
      + apply filter_In. split; [exact Hb|]. destruct (Nat.ltb 1 (length b)) eqn:E; [reflexivity|].
        apply (short_no_pairs b _ E) in Hp. contradiction.
      + apply filter_In. auto. }
  destruct arrival as [r|]; [|exact G]. rewrite <- G.
  specialize (Ha r eq_refl results). rewrite !in_concat.
  split; intros (l & Hl & Hx); exists l; (split; [|exact Hx]).
  - exact (Permutation_in _ Ha Hl).
  - exact (Permutation_in _ (Permutation_sym Ha) Hl).
Qed.

(** the blocks of an item, one or many *)
Definition blocks_of (how : (A -> B) + (A -> list B)) (x : A) : list B :=
  match how with inl f => [f x] | inr f => f x end.

Lemma dispatch_In how data arrival x y :
  (forall r, arrival = Some r -> forall l, Permutation (r l) l) ->
  (In (x, y) (blocking_pairs similarity
     (match how with inl f => dispatch_block f data | inr f => dispatch_blocks block_order f data end) arrival) <->
   block_link (blocks_of how) similarity data x y).
Proof.
  intros Ha. rewrite blocking_pairs_In by exact Ha.
  set (ks := match how with inl f => (fun x => [f x]) | inr f => (fun x => block_order (set_of (f x))) end).
  assert (E : match how with inl f => dispatch_block f data | inr f => dispatch_blocks block_order f data end
              = collect ks data []) by (destruct how; reflexivity).
  assert (Hks : forall x b, In b (ks x) <-> In b (blocks_of how x)).
  { intros x' b. destruct how as [f|f]; simpl; [tauto|]. rewrite <- (set_of_In (f x')).
    split; apply Permutation_in; [|symmetry]; apply block_order_perm. }
  assert (Hnd : forall x, NoDup (ks x)).
  { intros x'. destruct how as [f|f]; simpl; [repeat constructor; simpl; tauto|].
    eapply Permutation_NoDup; [symmetry; apply block_order_perm|apply set_of_NoDup]. }
  rewrite E, collect_values. unfold block_link. split.
  - intros (Hs & b & Hb & Hp). apply in_map_iff in Hb as (k & <- & Hk).
    rewrite bucket_NoDup in Hp by exact Hnd. apply before_filter in Hp as (Hp & H1 & H2).
    rewrite memb_true, Hks in H1. rewrite memb_true, Hks in H2. eauto.
  - intros (Hp & (b & H1 & H2) & Hs). split; [exact Hs|].
    exists (bucket ks data b). split.
    + apply in_map. rewrite set_of_In, in_flat_map. exists x. rewrite Hks. split; [|exact H1].
      destruct Hp as (l1 & l2 & l3 & ->). apply in_app_iff. simpl. auto.
    + rewrite bucket_NoDup by exact Hnd. apply before_filter. rewrite !memb_true, !Hks. auto.
Qed.

Lemma blocking_eq how data lo hi arrival mode :
  blocking set_order block_order similarity how data lo hi arrival mode =
  clusters_from_pairs set_order (blocking_pairs similarity
     (match how with inl f => dispatch_block f data | inr f => dispatch_blocks block_order f data end) arrival)
     lo hi mode (match how with inl _ => false | inr _ => true end).
Proof. destruct how; reflexivity. Qed.

Lemma blocking_components how data lo hi arrival :
  (forall r, arrival = Some r -> forall l, Permutation (r l) l) ->
  exists out, blocking set_order block_order similarity how data lo hi arrival "connected_components" = Ok out /\
    is_components (fun x => exists y, block_link (blocks_of how) similarity data x y \/
                                      block_link (blocks_of how) similarity data y x)
      (block_link (blocks_of how) similarity data) lo hi out.
Proof.
  intros Ha. rewrite blocking_eq.
  destruct (clusters_from_pairs_components set_order set_order_perm (blocking_pairs similarity
     (match how with inl f => dispatch_block f data | inr f => dispatch_blocks block_order f data end) arrival)
     lo hi (match how with inl _ => false | inr _ => true end)) as (out & E & C).
  exists out. split; [exact E|]. eapply is_components_ext; [| |exact C].
  - intros x. unfold pair_vertex. split; intros [y Hy]; exists y; rewrite !dispatch_In in * by exact Ha; exact Hy.
  - intros x y. split; apply conn_mono; intros a b Hab; apply rst_step;
      apply (dispatch_In how data arrival a b Ha); exact Hab.
Qed.
End Blocking.

Lemma blocking_same {A B} `{EqDec A} `{EqDec B} (so1 so2 : list A -> list A) (bo1 bo2 : list B -> list B)
    similarity how data lo hi arr1 arr2 :
  (forall l, Permutation (so1 l) l) -> (forall l, Permutation (so2 l) l) ->
  (forall l, Permutation (bo1 l) l) -> (forall l, Permutation (bo2 l) l) ->
  (forall r, arr1 = Some r -> forall l, Permutation (r l) l) ->
  (forall r, arr2 = Some r -> forall l, Permutation (r l) l) ->
  exists out1 out2,
    blocking so1 bo1 similarity how data lo hi arr1 "connected_components" = Ok out1 /\
    blocking so2 bo2 similarity how data lo hi arr2 "connected_components" = Ok out2 /\
    same_clusters out1 out2.
Proof.
  intros H1 H2 H3 H4 H5 H6.
  destruct (blocking_components so1 H1 bo1 H3 similarity how data lo hi arr1 H5) as (o1 & E1 & C1).
  destruct (blocking_components so2 H2 bo2 H4 similarity how data lo hi arr2 H6) as (o2 & E2 & C2).
  exists o1, o2. split; [exact E1|]. split; [exact E2|]. eapply is_components_unique; eassumption.
Qed.

(** ** key collision *)
Section KeyCollision.
Context {A K : Type} `{EqDec A} `{EqDec K}.
Variable set_order : list A -> list A.
Hypothesis set_order_perm : forall l, Permutation (set_order l) l.
Variable truthy : K -> bool.

Lemma collect_key_eq key (data : list A) :
  collect_key truthy key data = collect (fun x => if truthy (key x) then [key x] else []) data [].
Proof.
  unfold collect_key, collect. generalize (@nil (K * list A)). induction data as [|x data IH]; intros d; simpl; [reflexivity|].
  rewrite IH. destruct (truthy (key x)); reflexivity.
Qed.

Lemma fold_filter {X Y} (f : Y -> X -> Y) (p : X -> bool) l a :
  fold_left (fun y x => if p x then f y x else y) l a = fold_left f (filter p l) a.
Proof. revert a. induction l as [|x l IH]; intros a; simpl; [reflexivity|]. rewrite IH. destruct (p x); reflexivity. Qed.

Definition truthy_keys (keys : A -> option (list K)) (x : A) : list K :=
  match keys x with None => [] | Some l => filter truthy l end.

Lemma collect_keys_eq keys (data : list A) :
  BlockingModel.collect_keys truthy keys data = collect (truthy_keys keys) data [].
Proof.
  unfold BlockingModel.collect_keys, collect. generalize (@nil (K * list A)).
  induction data as [|x data IH]; intros d; simpl; [reflexivity|].
  rewrite IH. unfold truthy_keys at 3. destruct (keys x) as [l|]; [|reflexivity]. rewrite fold_filter. reflexivity.
Qed.

Lemma filter_ext_eq {X} (p q : X -> bool) l : (forall x, p x = q x) -> filter p l = filter q l.
Proof. intros E. induction l; simpl; [reflexivity|]. rewrite E, IHl. reflexivity. Qed.

Lemma key_collision_key_spec key (data : list A) lo hi :
  exists ks, NoDup ks /\ (forall k, In k ks <-> truthy k = true /\ exists x, In x data /\ key x = k) /\
    key_collision_key truthy key data lo hi =
      filter (fun c => Nat.leb lo (length c) && le_max (length c) hi)
        (map (fun k => filter (fun x => if eq_dec (key x) k then true else false) data) ks).
Proof.
  clear set_order_perm set_order. set (ks := fun x => if truthy (key x) then [key x] else []).
  exists (set_of (flat_map ks data)). split; [apply set_of_NoDup|]. split.
  - intros k. rewrite set_of_In, in_flat_map. unfold ks. split.
    + intros (x & Hx & Hk). destruct (truthy (key x)) eqn:E; [|destruct Hk]. destruct Hk as [<-|[]]. eauto.
    + intros (Ht & x & Hx & <-). exists x. rewrite Ht. simpl. auto.
  - unfold key_collision_key, buckets_within. rewrite collect_key_eq. fold ks. rewrite collect_values.
    rewrite (filter_ext_eq _ (fun c => Nat.leb lo (length c) && le_max (length c) hi)).
    2: { intros c. destruct (Nat.ltb_spec (length c) lo), (Nat.leb_spec lo (length c)), (le_max (length c) hi); simpl; try reflexivity; lia. }
    f_equal. apply map_ext_in. intros k Hk. rewrite set_of_In, in_flat_map in Hk. destruct Hk as (x0 & _ & Hk).
    assert (Ht : truthy k = true).
    { unfold ks in Hk. destruct (truthy (key x0)) eqn:E; [|destruct Hk]. destruct Hk as [<-|[]]. exact E. }
    rewrite bucket_NoDup.
    + apply filter_ext_eq. intros x. unfold ks. destruct (eq_dec (key x) k) as [->|Hn].
      * rewrite Ht. apply memb_true. simpl. auto.
      * apply memb_false. destruct (truthy (key x)); simpl; intuition.
    + intros x. unfold ks. destruct (truthy (key x)); repeat constructor. simpl. tauto.
Qed.

Lemma In_truthy_keys keys x k : In k (truthy_keys keys x) <->
  truthy k = true /\ exists l, keys x = Some l /\ In k l.
Proof.
  unfold truthy_keys. destruct (keys x) as [l|].
  - rewrite filter_In. split; [intros []; eauto|]. intros [? (l' & E & ?)]. injection E as <-. auto.
  - simpl. split; [tauto|]. intros [_ (l & E & _)]. discriminate.
Qed.

Lemma In_pair_precedes {X} (l : list X) x y : In x l -> In y l -> x = y \/ precedes l x y \/ precedes l y x.
Proof.
  intros Hx Hy. apply in_split in Hx as (l1 & l2 & ->). apply in_app_iff in Hy as [Hy|[Hy|Hy]]; auto.
  - apply in_split in Hy as (a & b & ->). right. right. exists a, b, l2. rewrite <- app_assoc. reflexivity.
  - apply in_split in Hy as (a & b & ->). right. left. exists l1, a, b. reflexivity.
Qed.

Lemma precedes_In {X} (l : list X) x y : precedes l x y -> In x l /\ In y l.
Proof.
  intros (l1 & l2 & l3 & ->). split; apply in_app_iff; right; [left; reflexivity|].
  right. apply in_app_iff. right. left. reflexivity.
Qed.

Lemma key_collision_merge keys (data : list A) lo hi :
  exists out, key_collision_keys set_order truthy keys data lo hi true = Ok out /\
    is_components (fun x => In x data) (key_link truthy keys data) 2 None out.
Proof.
  unfold key_collision_keys.
  destruct (clusters_from_buckets_components set_order set_order_perm
     (dvalues (BlockingModel.collect_keys truthy keys data)) 2 None None true) as (out & E & C).
  exists out. split; [exact E|].
  set (bs := dvalues (BlockingModel.collect_keys truthy keys data)) in *.
  assert (Hbs : forall x y, (exists b, In b bs /\ In x b /\ In y b) <-> key_link truthy keys data x y).
  { intros x y. unfold bs. rewrite collect_keys_eq, collect_values. unfold key_link. split.
    - intros (b & Hb & Hx & Hy). apply in_map_iff in Hb as (k & <- & _). apply In_bucket in Hx as [Hx Hk], Hy as [Hy Hk'].
      apply In_truthy_keys in Hk as (Ht & l & El & Hl), Hk' as (_ & l' & El' & Hl').
      split; [exact Hx|]. split; [exact Hy|]. exists k, l, l'. auto.
    - intros (Hx & Hy & k & l & l' & Ht & El & El' & Hl & Hl').
      assert (G : In k (truthy_keys keys x) /\ In k (truthy_keys keys y)) by (rewrite !In_truthy_keys; eauto 8).
      exists (bucket (truthy_keys keys) data k). rewrite !In_bucket. split; [|tauto].
      apply in_map. rewrite set_of_In, in_flat_map. exists x. tauto. }
  assert (Hlink : forall x y, bucket_link bs None x y -> key_link truthy keys data x y).
  { intros x y [(b & l1 & l2 & l3 & Hb & Eb) _]. apply Hbs. exists b. split; [exact Hb|].
    apply precedes_In. exists l1, l2, l3. exact Eb. }
  apply (is_components_ext (fun x => In x data) (fun x => In x data) (bucket_link bs None)); [tauto| |].
  - intros x y. split; apply conn_mono; intros a b Hab.
    + apply rst_step. apply Hlink. exact Hab.
    + apply Hbs in Hab as (bk & Hbk & Ha & Hb).
      destruct (In_pair_precedes bk a b Ha Hb) as [->|[(l1 & l2 & l3 & Ep)|(l1 & l2 & l3 & Ep)]].
      * apply rst_refl.
      * apply rst_step. split; [|exact Logic.I]. exists bk, l1, l2, l3. auto.
      * apply rst_sym, rst_step. split; [|exact Logic.I]. exists bk, l1, l2, l3. auto.
  - eapply is_components_vertex; [lia| | |exact C].
    + intros x y Hxy. split; [exists y|exists x]; auto.
    + intros x y Hxy. apply Hlink in Hxy as (? & ? & _). auto.
Qed.

Lemma key_collision_nomerge keys (data : list A) lo hi :
  (forall x l, keys x = Some l -> NoDup l) ->
  exists ks, NoDup ks /\
    (forall k, In k ks <-> truthy k = true /\ exists x l, In x data /\ keys x = Some l /\ In k l) /\
    key_collision_keys set_order truthy keys data lo hi false =
      Ok (filter (fun c => Nat.leb lo (length c) && le_max (length c) hi)
        (map (fun k => filter (fun x => match keys x with None => false | Some l => memb k l end) data) ks)).
Proof.
  clear set_order_perm. intros Hnd. exists (set_of (flat_map (truthy_keys keys) data)). split; [apply set_of_NoDup|]. split.
  - intros k. rewrite set_of_In, in_flat_map. split.
    + intros (x & Hx & Hk). apply In_truthy_keys in Hk as (Ht & l & El & Hl). eauto 6.
    + intros (Ht & x & l & Hx & El & Hl). exists x. rewrite In_truthy_keys. eauto.
  - unfold key_collision_keys, buckets_within. rewrite collect_keys_eq, collect_values.
    rewrite (filter_ext_eq _ (fun c => Nat.leb lo (length c) && le_max (length c) hi)).
    2: { intros c. destruct (Nat.ltb_spec (length c) lo), (Nat.leb_spec lo (length c)), (le_max (length c) hi); simpl; try reflexivity; lia. }
    do 2 f_equal. apply map_ext_in. intros k Hk. rewrite set_of_In, in_flat_map in Hk. destruct Hk as (x0 & _ & Hk).
    apply In_truthy_keys in Hk as (Ht & _).
    rewrite bucket_NoDup.
    + apply filter_ext_eq. intros x. destruct (memb_In k (truthy_keys keys x)) as [Hi|Hi];
      rewrite In_truthy_keys in Hi; destruct (keys x) as [l|].
      * symmetry. apply memb_true. destruct Hi as (_ & l' & E & ?). congruence.
      * destruct Hi as (_ & l' & E & ?). discriminate.
      * symmetry. apply memb_false. intros Hl. apply Hi. eauto.
      * reflexivity.
    + intros x. unfold truthy_keys. destruct (keys x) as [l|] eqn:E; [|constructor]. apply NoDup_filter. eauto.
Qed.
End KeyCollision.

Lemma key_collision_bounds_refuted :
  exists (truthy : nat -> bool) (keys : nat -> option (list nat)) data lo hi out c,
  key_collision_keys (fun l => l) truthy keys data lo hi true = Ok out /\ In c out /\
  ~ size_within lo hi (length c).
Proof.
  exists (fun _ => true), (fun _ => Some [0]), [1; 2; 3], 2, (Some 2). do 2 eexists.
  split; [vm_compute; reflexivity|]. split; [left; reflexivity|].
  unfold size_within. simpl. lia.
Qed.

(** ** The intersection index *)
Section Inter.
Definition cnt (inter : dict nat (dict nat nat)) (i j : nat) : option nat :=
  match dget inter i with None => None | Some c => dget c j end.
Definition val (o : option nat) : nat := match o with Some n => n | None => 0 end.

Record sane (inter : dict nat (dict nat nat)) : Prop := {
  sane_keys : NoDup (dkeys inter);
  sane_inner : forall i c, dget inter i = Some c -> NoDup (dkeys c);
  sane_pos : forall i j, cnt inter i j <> Some 0
}.

Lemma cnt_bump_same inter i j : cnt (bump inter i j) i j = Some (val (cnt inter i j) + 1).
Proof.
  unfold cnt, bump. rewrite dget_dmodify_same. rewrite dget_dmodify_same.
  destruct (dget inter i) as [c|]; [|reflexivity]. destruct (dget c j); reflexivity.
Qed.

Lemma cnt_bump_other inter i j i' j' : (i, j) <> (i', j') -> cnt (bump inter i j) i' j' = cnt inter i' j'.
Proof.
  intros Hn. unfold cnt, bump. destruct (Nat.eq_dec i i') as [->|Hi].
  - rewrite dget_dmodify_same, dget_dmodify_other by congruence. destruct (dget inter i'); reflexivity.
  - rewrite dget_dmodify_other by exact Hi. reflexivity.
Qed.

Lemma sane_bump inter i j : sane inter -> sane (bump inter i j).
Proof.
  intros [H1 H2 H3]. split.
  - unfold bump. rewrite dkeys_dmodify. apply sadd_NoDup, H1.
  - intros i' c. unfold bump. destruct (Nat.eq_dec i i') as [<-|Hi].
    + rewrite dget_dmodify_same. intros E. injection E as <-. rewrite dkeys_dmodify. apply sadd_NoDup.
      destruct (dget inter i) eqn:E; [eauto|constructor].
    + rewrite dget_dmodify_other by exact Hi. apply H2.
  - intros i' j'. destruct (eq_dec (i, j) (i', j')) as [E|E].
    + injection E as <- <-. rewrite cnt_bump_same. intros E. injection E. lia.
    + rewrite cnt_bump_other by exact E. apply H3.
Qed.

Lemma fold_bump i bk inter : sane inter ->
  sane (fold_left (fun inter j => bump inter i j) bk inter) /\
  forall i' j', val (cnt (fold_left (fun inter j => bump inter i j) bk inter) i' j') =
     val (cnt inter i' j') + if Nat.eqb i i' then count_occ Nat.eq_dec bk j' else 0.
Proof.
  revert inter. induction bk as [|j bk IH]; intros inter Hs; simpl.
  - split; [exact Hs|]. intros. destruct (Nat.eqb i i'); lia.
  - destruct (IH (bump inter i j) (sane_bump _ _ _ Hs)) as [G1 G2]. split; [exact G1|].
    intros i' j'. rewrite G2. destruct (Nat.eqb_spec i i') as [<-|Hi].
    + destruct (Nat.eq_dec j j') as [<-|Hj].
      * rewrite cnt_bump_same. simpl. lia.
      * rewrite cnt_bump_other by congruence. reflexivity.
    + rewrite cnt_bump_other by congruence. reflexivity.
Qed.

Lemma sane_In inter i j n : sane inter ->
  ((exists c, In (i, c) inter /\ In (j, n) c) <-> n <> 0 /\ val (cnt inter i j) = n).
Proof.
  intros Hs. split.
  - intros (c & Hi & Hj). assert (E : dget inter i = Some c) by (apply In_dget; [apply Hs|exact Hi]).
    assert (E' : cnt inter i j = Some n).
    { unfold cnt. rewrite E. apply In_dget; [apply (sane_inner _ Hs _ _ E)|exact Hj]. }
    pose proof (sane_pos _ Hs i j) as Hp. rewrite E' in *. simpl. split; congruence.
  - intros [Hn Hv]. unfold cnt in Hv. destruct (dget inter i) as [c|] eqn:E; [|simpl in Hv; congruence].
    destruct (dget c j) as [m|] eqn:E'; simpl in Hv; [|congruence]. subst m.
    exists c. split; apply dget_Some_In; assumption.
Qed.
End Inter.

Section InterIndex.
Context {T : Type} `{EqDec T}.
Variable sets : list (list T).
Hypothesis sets_NoDup : forall i, NoDup (nth i sets []).

Definition common (j : nat) (l : list T) : nat := length (filter (fun s => memb s (nth j sets [])) l).

Record index_inv (m : nat) (pre : list T) (st : dict T (list nat) * dict nat (dict nat nat)) : Prop := {
  ii_bucket : forall s, getd (fst st) s =
     filter (fun p => memb s (nth p sets [])) (seq 0 m) ++ if memb s pre then [m] else [];
  ii_sane : sane (snd st);
  ii_val : forall i j, val (cnt (snd st) i j) =
     if Nat.ltb j i then
       if Nat.ltb i m then common j (nth i sets [])
       else if Nat.eqb i m then common j pre else 0
     else 0
}.

Lemma common_snoc j pre s : common j (pre ++ [s]) = common j pre + if memb s (nth j sets []) then 1 else 0.
Proof.
  unfold common. rewrite filter_app, app_length. simpl. destruct (memb s (nth j sets [])); reflexivity.
Qed.

Lemma count_occ_filter_seq (p : nat -> bool) m j :
  count_occ Nat.eq_dec (filter p (seq 0 m)) j = if Nat.ltb j m && p j then 1 else 0.
Proof.
  assert (Hn : NoDup (filter p (seq 0 m))) by apply NoDup_filter, seq_NoDup.
  destruct (Nat.ltb j m && p j) eqn:E.
  - apply (NoDup_count_occ' Nat.eq_dec); [exact Hn|]. apply filter_In. rewrite in_seq.
    apply andb_true_iff in E as [E1 E2]. split; [lia|exact E2].
  - apply count_occ_not_In. rewrite filter_In, in_seq. intros [H1 H2].
    rewrite H2, andb_true_r in E. apply Nat.ltb_ge in E. lia.
Qed.

Lemma index_step m pre s st : ~ In s pre -> index_inv m pre st -> index_inv m (pre ++ [s]) (index_shingle m st s).
Proof.
  intros Hs [H1 H2 H3]. destruct st as [b inter]. cbn [fst snd] in *. unfold index_shingle. fold (getd b s).
  destruct (fold_bump m (getd b s) inter H2) as [G1 G2].
  assert (Eb : getd b s = filter (fun p => memb s (nth p sets [])) (seq 0 m)).
  { rewrite (H1 s). replace (memb s pre) with false by (symmetry; apply memb_false; exact Hs). apply app_nil_r. }
  split; cbn [fst snd] in *.
  - intros s'. rewrite getd_append, H1, <- app_assoc. f_equal.
    destruct (eq_dec s s') as [<-|Hn].
    + replace (memb s pre) with false by (symmetry; apply memb_false; exact Hs).
      replace (memb s (pre ++ [s])) with true; [reflexivity|].
      symmetry. apply memb_true. apply in_app_iff. simpl. auto.
    + rewrite app_nil_r. replace (memb s' (pre ++ [s])) with (memb s' pre); [reflexivity|].
      destruct (memb_In s' pre) as [Hi|Hi], (memb_In s' (pre ++ [s])) as [Hj|Hj]; try reflexivity; exfalso;
        rewrite in_app_iff in Hj; simpl in Hj; intuition.
  - exact G1.
  - intros i j. rewrite G2, H3, Eb, count_occ_filter_seq, common_snoc.
    clear - m. destruct (memb s (nth j sets [])); destruct (Nat.ltb_spec j i), (Nat.ltb_spec i m), (Nat.eqb_spec i m), (Nat.eqb_spec m i), (Nat.ltb_spec j m);
      simpl; lia.
Qed.

Lemma index_item_inv m l pre st : NoDup (pre ++ l) -> index_inv m pre st ->
  index_inv m (pre ++ l) (fold_left (index_shingle m) l st).
Proof.
  revert pre st. induction l as [|s l IH]; intros pre st Hn Hi; simpl; [rewrite app_nil_r; exact Hi|].
  replace (pre ++ s :: l) with ((pre ++ [s]) ++ l) in * by (rewrite <- app_assoc; reflexivity).
  apply IH; [exact Hn|]. apply index_step; [|exact Hi].
  apply NoDup_app_iff in Hn as (Hn & _). apply NoDup_app_iff in Hn as (_ & _ & Hd).
  intros Hs. apply (Hd s Hs). simpl. auto.
Qed.

Lemma index_inv_next m st : index_inv m (nth m sets []) st -> index_inv (S m) [] st.
Proof.
  intros [H1 H2 H3]. split; [|exact H2|].
  - intros s. rewrite H1, seq_S, filter_app. simpl. rewrite app_nil_r. reflexivity.
  - intros i j. rewrite H3. unfold common at 4. simpl.
    destruct (Nat.ltb_spec j i), (Nat.ltb_spec i m), (Nat.ltb_spec i (S m)), (Nat.eqb_spec i m), (Nat.eqb_spec i (S m));
      subst; try reflexivity; lia.
Qed.

Lemma build_inv suf : forall pre st, sets = pre ++ suf -> index_inv (length pre) [] st ->
  index_inv (length sets) [] (fold_left (fun st p => fold_left (index_shingle (fst p)) (snd p) st)
     (combine (seq (length pre) (length suf)) suf) st).
Proof.
  induction suf as [|x suf IH]; intros pre st E Hi; simpl.
  - rewrite E, app_nil_r. exact Hi.
  - assert (Ex : nth (length pre) sets [] = x) by (rewrite E, app_nth2, Nat.sub_diag by lia; reflexivity).
    specialize (IH (pre ++ [x])). rewrite app_length in IH. simpl in IH. rewrite Nat.add_1_r in IH.
    apply IH; [rewrite <- app_assoc; exact E|].
    apply index_inv_next. rewrite Ex. apply (index_item_inv _ x []); [|exact Hi].
    simpl. rewrite <- Ex. apply sets_NoDup.
Qed.

Lemma build_spec i j n :
  (exists c, In (i, c) (snd (build_intersections (enumerate sets))) /\ In (j, n) c) <->
  j < i /\ i < length sets /\ n = common j (nth i sets []) /\ n <> 0.
Proof.
  assert (Hi : index_inv (length sets) [] (build_intersections (enumerate sets))).
  { apply (build_inv sets []); [reflexivity|]. split; simpl.
    - reflexivity.
    - split; simpl; [constructor|discriminate|discriminate].
    - intros i' j'. unfold common. simpl. destruct (Nat.ltb j' i'), (Nat.ltb_spec i' 0), (Nat.eqb i' 0); try reflexivity; lia. }
  rewrite sane_In by apply Hi. rewrite (ii_val _ _ _ Hi).
  unfold common at 2. simpl. destruct (Nat.ltb_spec j i), (Nat.ltb_spec i (length sets)).
  - intuition.
  - destruct (Nat.eqb i (length sets)); intuition; lia.
  - intuition.
  - intuition.
Qed.
End InterIndex.

(** cardinals *)
Lemma card_unique {T} (P : T -> Prop) n m : card P n -> card P m -> n = m.
Proof.
  intros (l & Hl & El & <-) (l' & Hl' & El' & <-). apply Permutation_length, NoDup_Permutation; auto.
  intros x. rewrite El, El'. reflexivity.
Qed.

Section Cards.
Context {T : Type} `{EqDec T}.
Lemma card_inter (a b : list T) a' b' : NoDup a' -> (forall x, In x a' <-> In x a) -> (forall x, In x b' <-> In x b) ->
  card (fun x => In x a /\ In x b) (length (filter (fun s => memb s b') a')).
Proof.
  intros Hn Ha Hb. exists (filter (fun s => memb s b') a'). split; [apply NoDup_filter, Hn|]. split; [|reflexivity].
  intros x. rewrite filter_In, memb_true, Ha, Hb. reflexivity.
Qed.

Lemma card_list (a : list T) a' : NoDup a' -> (forall x, In x a' <-> In x a) -> card (fun x => In x a) (length a').
Proof. intros Hn Ha. exists a'. auto. Qed.

Lemma filter_split_length {X} (p : X -> bool) l : length (filter p l) + length (filter (fun x => negb (p x)) l) = length l.
Proof. induction l; simpl; [reflexivity|]. destruct (p a); simpl; lia. Qed.

Lemma filter_le {X} (p : X -> bool) l : length (filter p l) <= length l.
Proof. induction l; simpl; [lia|]. destruct (p a); simpl; lia. Qed.

Lemma card_union (a b : list T) a' b' : NoDup a' -> NoDup b' -> (forall x, In x a' <-> In x a) -> (forall x, In x b' <-> In x b) ->
  card (fun x => In x a \/ In x b) (length a' + length b' - length (filter (fun s => memb s b') a')).
Proof.
  intros Hna Hnb Ha Hb. exists (a' ++ filter (fun x => negb (memb x a')) b').
  split; [|split].
  - apply NoDup_app_iff. split; [exact Hna|]. split; [apply NoDup_filter, Hnb|].
    intros x Hx Hy. apply filter_In in Hy as [_ Hy]. apply negb_true_iff, memb_false in Hy. contradiction.
  - intros x. rewrite in_app_iff, filter_In, negb_true_iff, memb_false, Ha, Hb.
    destruct (in_dec eq_dec x a); tauto.
  - rewrite app_length. pose proof (filter_split_length (fun x => memb x a') b') as E. cbv beta in E.
    assert (Es : length (filter (fun s => memb s b') a') = length (filter (fun x => memb x a') b')).
    { apply (card_unique (fun x => In x a /\ In x b)); [apply card_inter; auto|].
      assert (G := card_inter b a b' a' Hnb Hb Ha). destruct G as (l & ? & El & ?). exists l. split; [auto|]. split; [|auto].
      intros x. rewrite El. tauto. }
    lia.
Qed.
End Cards.

Section InterMain.
Context {A T : Type} `{EqDec T}.
Variable token_order : list T -> list T.
Hypothesis token_order_perm : forall l, Permutation (token_order l) l.

Lemma intersection_pairs_In jaccard radius (keys : list (list T)) i j :
  In (i, j) (intersection_pairs token_order jaccard radius keys) <->
  token_link jaccard radius keys i j /\
  exists a b x, nth_error keys i = Some a /\ nth_error keys j = Some b /\ In x a /\ In x b.
Proof.
  unfold intersection_pairs. set (f := fun item => token_order (set_of item)).
  set (sets := map f keys).
  assert (Hf : forall l, NoDup (f l) /\ forall x, In x (f l) <-> In x l).
  { intros l. unfold f. split.
    - eapply Permutation_NoDup; [symmetry; apply token_order_perm|apply set_of_NoDup].
    - intros x. rewrite <- (set_of_In l). split; apply Permutation_in; [|symmetry]; apply token_order_perm. }
  assert (Hnth : forall i a, nth_error keys i = Some a -> nth i sets [] = f a).
  { intros i' a Ha. apply nth_error_nth. unfold sets. rewrite nth_error_map, Ha. reflexivity. }
  assert (Hnd : forall i, NoDup (nth i sets [])).
  { intros i'. destruct (nth_error keys i') as [a|] eqn:E.
    - rewrite (Hnth _ _ E). apply Hf.
    - rewrite nth_overflow; [constructor|]. unfold sets. rewrite map_length. apply nth_error_None. exact E. }
  assert (Hsz : forall i, nth i (map (@length T) sets) 0 = length (nth i sets [])).
  { intros i'. rewrite <- (map_nth (@length T) sets [] i'). reflexivity. }
  assert (Hlen : length sets = length keys) by apply map_length.
  assert (E : In (i, j) (flat_map (fun '(i, neighbors) => flat_map (fun '(j, n) =>
        if passes jaccard radius (nth i (map (@length T) sets) 0) (nth j (map (@length T) sets) 0) n
        then [(i, j)] else []) neighbors) (snd (build_intersections (enumerate sets)))) <->
     exists n, (exists c, In (i, c) (snd (build_intersections (enumerate sets))) /\ In (j, n) c) /\
       passes jaccard radius (length (nth i sets [])) (length (nth j sets [])) n = true).
  { rewrite in_flat_map. split.
    - intros ([i' c] & Hc & Hin). apply in_flat_map in Hin as ([j' n] & Hn & Hin).
      destruct (passes _ _ _ _ _) eqn:Ep; [|destruct Hin]. destruct Hin as [Hin|[]]. injection Hin as -> ->.
      rewrite !Hsz in Ep. eauto.
    - intros (n & (c & Hc & Hn) & Hp). exists (i, c). split; [exact Hc|]. apply in_flat_map. exists (j, n).
      split; [exact Hn|]. rewrite !Hsz, Hp. simpl. auto. }
  rewrite E. clear E.
  assert (Hboth : forall a b, nth_error keys i = Some a -> nth_error keys j = Some b ->
     let n := common sets j (nth i sets []) in
     card (fun x => In x a /\ In x b) n /\
     card (fun x => In x a \/ In x b) (length (nth i sets []) + length (nth j sets []) - n) /\
     card (fun x => In x a) (length (nth i sets [])) /\ card (fun x => In x b) (length (nth j sets []))).
  { intros a b Ha Hb n. unfold n, common. rewrite (Hnth _ _ Ha), (Hnth _ _ Hb).
    destruct (Hf a) as [Na Fa], (Hf b) as [Nb Fb].
    split; [apply card_inter; auto|]. split; [apply card_union; auto|]. split; apply card_list; auto. }
  assert (Hpos : forall a b, nth_error keys i = Some a -> nth_error keys j = Some b ->
     (common sets j (nth i sets []) <> 0 <-> exists x, In x a /\ In x b)).
  { intros a b Ha Hb. destruct (Hboth a b Ha Hb) as ((l & Hl & El & E) & _). cbv zeta in *. rewrite <- E. split.
    - destruct l as [|x l]; [simpl; congruence|]. intros _. exists x. apply El. simpl. auto.
    - intros (x & Hx). apply El in Hx. destruct l; [destruct Hx|simpl; lia]. }
  assert (Hle : common sets j (nth i sets []) <= length (nth i sets [])).
  { apply filter_le. }
  split.
  - intros (n & Hb & Hp). apply build_spec in Hb as (Hj & Hi & -> & Hn); [|exact Hnd].
    destruct (nth_error keys i) as [a|] eqn:Ea; [|apply nth_error_None in Ea; lia].
    destruct (nth_error keys j) as [b|] eqn:Eb; [|apply nth_error_None in Eb; lia].
    destruct (Hboth a b eq_refl eq_refl) as (C1 & C2 & C3 & C4). cbv zeta in *.
    assert (Hx := proj1 (Hpos a b eq_refl eq_refl) Hn). destruct Hx as (x & Hxa & Hxb).
    split; [|exists a, b, x; auto].
    assert (Hna : length (nth i sets []) <> 0).
    { rewrite (Hnth _ _ Ea). intros Z. apply length_zero_iff_nil in Z. apply (proj2 (Hf a)) in Hxa. rewrite Z in Hxa. destruct Hxa. }
    assert (Hnb : length (nth j sets []) <> 0).
    { rewrite (Hnth _ _ Eb). intros Z. apply length_zero_iff_nil in Z. apply (proj2 (Hf b)) in Hxb. rewrite Z in Hxb. destruct Hxb. }
    split; [exact Hj|]. unfold passes in Hp.
    destruct jaccard.
    + exists a, b. eexists. split; [exact Ea|]. split; [exact Eb|]. split.
      * exists (common sets j (nth i sets [])). eexists. split; [exact C1|]. split; [exact C2|].
        split; [lia|reflexivity].
      * apply Qle_bool_iff in Hp. rewrite Nat2Z.inj_sub, Nat2Z.inj_add by lia. exact Hp.
    + exists a, b. eexists. split; [exact Ea|]. split; [exact Eb|]. split.
      * exists (common sets j (nth i sets [])). do 2 eexists. split; [exact C1|]. split; [exact C3|]. split; [exact C4|].
        split; [exact Hna|]. split; [exact Hnb|reflexivity].
      * apply Qle_bool_iff in Hp. exact Hp.
  - intros ((Hj & a & b & q & Ea & Eb & Hq & Hr) & a' & b' & x & Ea' & Eb' & Hxa & Hxb).
    rewrite Ea in Ea'. rewrite Eb in Eb'. injection Ea' as <-. injection Eb' as <-.
    destruct (Hboth a b Ea Eb) as (C1 & C2 & C3 & C4). cbv zeta in *.
    exists (common sets j (nth i sets [])). split.
    + apply build_spec; [exact Hnd|]. split; [exact Hj|]. split; [rewrite Hlen; apply nth_error_Some; congruence|].
      split; [reflexivity|]. apply (Hpos a b Ea Eb). eauto.
    + unfold passes. apply Qle_bool_iff. destruct jaccard.
      * destruct Hq as (I & U & D1 & D2 & _ & ->). rewrite (card_unique _ _ _ D1 C1), (card_unique _ _ _ D2 C2) in Hr.
        rewrite Nat2Z.inj_sub, Nat2Z.inj_add in Hr by lia. exact Hr.
      * destruct Hq as (I & n & m & D1 & D2 & D3 & _ & _ & ->).
        rewrite (card_unique _ _ _ D1 C1), (card_unique _ _ _ D2 C3), (card_unique _ _ _ D3 C4) in Hr. exact Hr.
Qed.

(** with a positive radius, similar sets intersect *)
Lemma token_link_intersects jaccard radius (keys : list (list T)) i j : (0 < radius)%Q ->
  token_link jaccard radius keys i j ->
  exists a b x, nth_error keys i = Some a /\ nth_error keys j = Some b /\ In x a /\ In x b.
Proof.
  intros Hr (Hj & a & b & q & Ea & Eb & Hq & Hle). exists a, b.
  assert (Hq0 : (0 < q)%Q) by (eapply Qlt_le_trans; eauto).
  assert (G : forall I (d : Z), card (fun x => In x a /\ In x b) I -> q = (inject_Z (Z.of_nat I) / inject_Z d)%Q ->
     exists x, In x a /\ In x b).
  { intros I d (l & _ & El & <-) ->. destruct l as [|x l].
    - exfalso. revert Hq0. unfold Qlt, Qdiv, Qmult, inject_Z. simpl. lia.
    - exists x. apply El. simpl. auto. }
  assert (Hx : exists x, In x a /\ In x b).
  { destruct jaccard.
    - destruct Hq as (I & U & C1 & _ & _ & E). eapply G; eauto.
    - destruct Hq as (I & n & m & C1 & _ & _ & _ & _ & E). eapply G; eauto. }
  destruct Hx as (x & ? & ?). exists x. auto.
Qed.

Lemma intersection_pairs_pos jaccard radius (keys : list (list T)) i j : (0 < radius)%Q ->
  (In (i, j) (intersection_pairs token_order jaccard radius keys) <-> token_link jaccard radius keys i j).
Proof.
  intros Hr. rewrite intersection_pairs_In. split; [tauto|]. intros Ht. split; [exact Ht|].
  eapply token_link_intersects; eauto.
Qed.

Lemma token_link_bound jaccard radius (keys : list (list T)) i j :
  token_link jaccard radius keys i j -> i < length keys /\ j < length keys.
Proof. intros (_ & a & b & _ & Ha & Hb & _). split; apply nth_error_Some; congruence. Qed.

Lemma intersection_index_components (set_order : list nat -> list nat) (data : list A) (jaccard : bool)
    (radius : Q) (key : A -> list T) lo hi :
  (forall l, Permutation (set_order l) l) -> (0 < radius)%Q ->
  exists idx out,
    intersection_index token_order set_order data (if jaccard then "jaccard" else "overlap") radius key lo hi
      "connected_components" = Ok out /\ reads data idx out /\
    is_components (fun i => exists j, token_link jaccard radius (map key data) i j \/ token_link jaccard radius (map key data) j i)
      (token_link jaccard radius (map key data)) lo hi idx.
Proof.
  intros Hp Hr. unfold intersection_index.
  assert (Hb : forall i j, token_link jaccard radius (map key data) i j -> i < length data /\ j < length data).
  { intros i j Hl. apply token_link_bound in Hl. rewrite map_length in Hl. exact Hl. }
  destruct (positions_read set_order data (intersection_pairs token_order jaccard radius (map key data))
     (token_link jaccard radius (map key data)) lo hi false Hp
     (fun i j => intersection_pairs_pos jaccard radius (map key data) i j Hr) Hb) as (idx & out & E & R & C).
  exists idx, out. split; [|auto]. destruct jaccard; simpl; exact E.
Qed.
End InterMain.

Lemma intersection_index_metrics {A T : Type} `{EqDec T} (token_order : list T -> list T) (set_order : list nat -> list nat) (data : list A)
    metric radius (key : A -> list T) lo hi mode : metric <> "jaccard"%string -> metric <> "overlap"%string ->
  intersection_index token_order set_order data metric radius key lo hi mode = Err TypeError.
Proof. intros H1 H2. unfold intersection_index. destruct (string_dec metric "jaccard"); [contradiction|]. destruct (string_dec metric "overlap"); [contradiction | reflexivity]. Qed.
