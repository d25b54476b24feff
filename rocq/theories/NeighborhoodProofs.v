(** Proofs about the sorted neighborhood methods. *)
From Coq Require Import String Sorted Relations.
From Verif Require Import Base BaseFacts ClustersModel ClustersSpec ClustersProofs PairwiseModel PairwiseSpec
  PairwiseProofs BlockingSpec BlockingProofs SortModel SortSpec SortFacts NeighborhoodModel NeighborhoodSpec.
Open Scope nat_scope.
Open Scope list_scope.
Notation length := List.length.
Notation concat := List.concat.

Lemma range_In i j k : In k (range i j) <-> i <= k < j.
Proof. unfold range. rewrite in_seq. lia. Qed.

Lemma Forall2_in_r {X Y} (R : X -> Y -> Prop) l1 l2 y : Forall2 R l1 l2 -> In y l2 -> exists x, In x l1 /\ R x y.
Proof.
  induction 1 as [|a b l1 l2 Hab HF IH]; simpl; [intros []|]. intros [<-|Hy]; [eauto|].
  destruct (IH Hy) as (x & ? & ?). eauto.
Qed.

Lemma Forall2_in_l {X Y} (R : X -> Y -> Prop) l1 l2 x : Forall2 R l1 l2 -> In x l1 -> exists y, In y l2 /\ R x y.
Proof.
  induction 1 as [|a b l1 l2 Hab HF IH]; simpl; [intros []|]. intros [<-|Hy]; [eauto|].
  destruct (IH Hy) as (y & ? & ?). eauto.
Qed.

Lemma conn_ext {X} (l1 l2 : X -> X -> Prop) : (forall x y, l1 x y <-> l2 x y) ->
  forall x y, connected l1 x y <-> connected l2 x y.
Proof. intros Hl x y. split; apply conn_mono; intros; apply rst_step, Hl; assumption. Qed.

Section Neighborhood.
Context {A : Type} `{EqDec A}.
Variable similarity : A -> A -> bool.

Lemma compare_In S i j x y : In (x, y) (compare similarity S i j) <->
  nth_error S i = Some x /\ nth_error S j = Some y /\ similarity x y = true.
Proof.
  unfold compare. destruct (nth_error S i) as [a|]; [|split; [intros []|intros ([=] & _)]].
  destruct (nth_error S j) as [b|]; [|split; [intros []|intros (_ & [=] & _)]].
  destruct (similarity a b) eqn:E; simpl; split.
  - intros [[= <- <-]|[]]. auto.
  - intros ([= ->] & [= ->] & _). auto.
  - intros [].
  - intros ([= ->] & [= ->] & E'). congruence.
Qed.

Lemma window_pairs_In window S x y :
  In (x, y) (window_pairs similarity window S) <-> window_link similarity window S x y.
Proof.
  unfold window_pairs, window_link. rewrite in_flat_map. split.
  - intros (i & Hi & H1). rewrite in_flat_map in H1. destruct H1 as (j & Hj & H1).
    rewrite range_In in Hi, Hj. rewrite compare_In in H1. exists i, j. intuition lia.
  - intros (i & j & Hij & Hw & Hx & Hy & Hs).
    assert (j < length S) by (apply nth_error_Some; congruence).
    exists i. rewrite range_In. split; [lia|]. rewrite in_flat_map. exists j. rewrite range_In, compare_In.
    split; [lia|auto].
Qed.

Lemma sorted_passes_In data keys (s : list A) :
  In s (sorted_passes false data keys) <-> exists k, In k keys /\ s = sort_by k data.
Proof.
  induction keys as [|k keys IH]; simpl; [split; [intros []|intros (? & [] & _)]|].
  rewrite IH. split.
  - intros [<-|(k' & Hk & ->)]; eauto.
  - intros (k' & [->|Hk] & ->); eauto.
Qed.

(** one pass is all an iterator allows *)
Lemma sorted_passes_once data k (keys : list (A -> A -> bool)) s :
  In s (sorted_passes true data (k :: keys)) -> s = sort_by k data \/ s = [].
Proof.
  simpl. intros [<-|H1]; [auto|right]. induction keys as [|k' keys IH]; simpl in H1; [contradiction|].
  destruct H1 as [<-|H1]; auto.
Qed.

Lemma passes_pairs_In window data keys x y :
  (forall k, In k keys -> total_preorder k) ->
  (In (x, y) (flat_map (window_pairs similarity window) (sorted_passes false data keys)) <->
   neighborhood_link similarity window data keys x y).
Proof.
  intros Hk. rewrite in_flat_map. unfold neighborhood_link. split.
  - intros (s & Hs & H1). rewrite sorted_passes_In in Hs. destruct Hs as (k & Hin & ->).
    rewrite window_pairs_In in H1. exists k, (sort_by k data). split; [exact Hin|].
    split; [apply sort_by_stable; auto|exact H1].
  - intros (k & s & Hin & Hs & H1).
    rewrite (stably_sorted_unique k (Hk k Hin) data s (sort_by k data) Hs (sort_by_stable k (Hk k Hin) data)) in H1.
    exists (sort_by k data). split; [apply sorted_passes_In; eauto|apply window_pairs_In; exact H1].
Qed.

Lemma window_link_In window s x y : window_link similarity window s x y -> In x s /\ In y s.
Proof.
  intros (i & j & _ & _ & Hx & Hy & _). split; eapply nth_error_In; eauto.
Qed.

Variable set_order : list A -> list A.
Hypothesis set_order_perm : forall l, Permutation (set_order l) l.

Lemma sorted_neighborhood_components data key keys window lo hi :
  (forall k, In k (match keys with Some ks => ks | None => [key] end) -> total_preorder k) ->
  exists out, sorted_neighborhood set_order similarity false data key keys window lo hi "connected_components" = Ok out /\
    is_components
      (fun x => exists y, neighborhood_link similarity window data (match keys with Some ks => ks | None => [key] end) x y \/
                          neighborhood_link similarity window data (match keys with Some ks => ks | None => [key] end) y x)
      (neighborhood_link similarity window data (match keys with Some ks => ks | None => [key] end)) lo hi out.
Proof.
  intros Hk. unfold sorted_neighborhood. set (ks := match keys with Some ks => ks | None => [key] end) in *.
  destruct (clusters_from_pairs_components set_order set_order_perm
    (flat_map (window_pairs similarity window) (sorted_passes false data ks)) lo hi
    (match keys with Some _ => true | None => false end)) as (out & E & C).
  exists out. split; [exact E|]. revert C. apply is_components_ext.
  - intros x. unfold pair_vertex. split; intros (y & Hy); exists y; rewrite !(passes_pairs_In window data ks _ _ Hk) in *; exact Hy.
  - intros x y. apply conn_ext. intros a b. unfold pair_link. apply passes_pairs_In. exact Hk.
Qed.

(** ** A window as large as the data *)
Lemma large_window_link window data key x y :
  total_preorder key -> length data <= window -> (forall a b, similarity a b = similarity b a) ->
  neighborhood_link similarity window data [key] x y \/ neighborhood_link similarity window data [key] y x <->
  similarity x y = true /\ (precedes data x y \/ precedes data y x).
Proof.
  intros Hk Hw Hsym.
  assert (HL : forall a b, neighborhood_link similarity window data [key] a b <->
     similarity a b = true /\ precedes (sort_by key data) a b).
  { intros a b. unfold neighborhood_link. split.
    - intros (k & s & [<-|[]] & Hs & (i & j & Hij & _ & Hx & Hy & Es)).
      rewrite (stably_sorted_unique key Hk data s (sort_by key data) Hs (sort_by_stable key Hk data)) in *.
      split; [exact Es|]. apply nth_error_split in Hy as (l1 & l2 & E & Hl).
      rewrite E in Hx. rewrite nth_error_app1 in Hx by lia.
      apply nth_error_split in Hx as (l3 & l4 & E' & _). exists l3, l4, l2. rewrite E, E', <- app_assoc. reflexivity.
    - intros (Es & l1 & l2 & l3 & E). exists key, (sort_by key data). split; [left; reflexivity|].
      split; [apply sort_by_stable; exact Hk|].
      exists (length l1), (length l1 + S (length l2)).
      assert (Hlen : length data = length l1 + S (length l2 + S (length l3))).
      { rewrite <- (sort_by_length key data), E. rewrite !app_length. simpl. rewrite app_length. simpl. lia. }
      split; [lia|]. split; [lia|]. rewrite E.
      split; [rewrite nth_error_app2, Nat.sub_diag by lia; reflexivity|].
      split; [|exact Es]. rewrite nth_error_app2 by lia.
      replace (length l1 + S (length l2) - length l1) with (S (length l2)) by lia. simpl.
      rewrite nth_error_app2, Nat.sub_diag by lia. reflexivity. }
  rewrite !HL, (Hsym y x).
  assert (HP : (precedes (sort_by key data) x y \/ precedes (sort_by key data) y x) <->
               (precedes data x y \/ precedes data y x)).
  { assert (G : forall l1 l2 : list A, Permutation l1 l2 ->
       precedes l1 x y \/ precedes l1 y x -> precedes l2 x y \/ precedes l2 y x).
    { clear - H. intros l1 l2 HP Hx.
      destruct (eq_dec x y) as [<-|Hn].
      - assert (exists l, Permutation l1 (x :: x :: l)) as (l & Hl).
        { destruct Hx as [(a & b & c & ->)|(a & b & c & ->)]; exists (a ++ b ++ c);
            rewrite <- Permutation_middle; constructor; rewrite !app_assoc; rewrite <- Permutation_middle; reflexivity. }
        assert (HP2 : Permutation l2 (x :: x :: l)) by (rewrite <- HP; exact Hl).
        left. assert (Hin : In x l2) by (eapply Permutation_in; [apply Permutation_sym; exact HP2|left; reflexivity]).
        apply in_split in Hin as (a & b & ->).
        assert (HP3 : Permutation (a ++ b) (x :: l)) by (apply Permutation_cons_inv with x; rewrite <- HP2; apply Permutation_middle).
        assert (Hin : In x (a ++ b)) by (eapply Permutation_in; [apply Permutation_sym; exact HP3|left; reflexivity]).
        apply in_app_iff in Hin. destruct Hin as [Hin|Hin]; apply in_split in Hin as (c & d & ->).
        + exists c, d, b. rewrite <- app_assoc. reflexivity.
        + exists a, c, d. reflexivity.
      - assert (Hx' : In x l1 /\ In y l1).
        { destruct Hx as [(a & b & c & ->)|(a & b & c & ->)]; rewrite !in_app_iff; simpl; rewrite !in_app_iff; simpl; auto 10. }
        destruct Hx' as [Hx1 Hy1]. apply (Permutation_in x HP) in Hx1. apply (Permutation_in y HP) in Hy1.
        apply in_split in Hx1 as (a & b & ->). apply in_app_iff in Hy1. simpl in Hy1.
        destruct Hy1 as [Hy1|[Hy1|Hy1]]; [|contradiction|]; apply in_split in Hy1 as (c & d & ->).
        + right. exists c, d, b. rewrite <- app_assoc. reflexivity.
        + left. exists a, c, d. reflexivity. }
    split; apply G; [|apply Permutation_sym]; apply sort_by_perm. }
  tauto.
Qed.

Lemma sorted_neighborhood_exhaustive data key window lo hi :
  total_preorder key -> length data <= window -> (forall a b, similarity a b = similarity b a) ->
  exists out, sorted_neighborhood set_order similarity false data key None window lo hi "connected_components" = Ok out /\
    is_components (fun x => exists y, similarity x y = true /\ (precedes data x y \/ precedes data y x))
      (fun x y => similarity x y = true /\ precedes data x y) lo hi out.
Proof.
  intros Hk Hw Hsym.
  destruct (sorted_neighborhood_components data key None window lo hi) as (out & E & C).
  { intros k [<-|[]]. exact Hk. }
  exists out. split; [exact E|]. revert C. apply is_components_ext.
  - intros x. split; intros (y & Hy); exists y; apply (large_window_link window data key x y Hk Hw Hsym); exact Hy.
  - assert (G : forall x y, neighborhood_link similarity window data [key] x y ->
      connected (fun x y => similarity x y = true /\ precedes data x y) x y).
    { intros x y Hl. destruct (proj1 (large_window_link window data key x y Hk Hw Hsym)) as [Es [Hp|Hp]]; [left; exact Hl| |].
      - apply rst_step. auto.
      - apply rst_sym, rst_step. rewrite Hsym. auto. }
    assert (G' : forall x y, similarity x y = true /\ precedes data x y ->
      connected (neighborhood_link similarity window data [key]) x y).
    { intros x y [Es Hp]. destruct (proj2 (large_window_link window data key x y Hk Hw Hsym)) as [Hl|Hl]; [auto| |].
      - apply rst_step, Hl.
      - apply rst_sym, rst_step, Hl. }
    assert (K : forall l1 l2 : A -> A -> Prop, (forall x y, l1 x y -> connected l2 x y) ->
      forall x y, connected l1 x y -> connected l2 x y).
    { clear. intros l1 l2 Hl x y Hc. induction Hc; [auto|apply rst_refl|apply rst_sym; auto|eapply rst_trans; eauto]. }
    intros x y. split; apply K; assumption.
Qed.

(** ** The adaptive variant *)
Lemma interval_pairs_In S st en x y : st <= en ->
  (In (x, y) (interval_pairs similarity S (st, en)) <->
   exists i j, st <= i /\ i < j /\ j <= en /\ nth_error S i = Some x /\ nth_error S j = Some y /\
     similarity x y = true).
Proof.
  clear set_order_perm set_order.
  intros Hle. unfold interval_pairs.
  destruct (Nat.eqb_spec (en - st + 1) 1) as [E1|E1].
  - split; [intros []|]. intros (i & j & ? & ? & ? & _). lia.
  - destruct (Nat.eqb_spec (en - st + 1) 2) as [E2|E2].
    + rewrite compare_In. split.
      * intros (Hx & Hy & Hs). exists st, en. repeat split; auto; lia.
      * intros (i & j & H1 & H2 & H3 & Hx & Hy & Hs).
        assert (i = st) by lia. assert (j = en) by lia. subst. auto.
    + rewrite in_flat_map. split.
      * intros (i & Hi & H1). rewrite in_flat_map in H1. destruct H1 as (j & Hj & H1).
        rewrite range_In in Hi, Hj. rewrite compare_In in H1. exists i, j. intuition lia.
      * intros (i & j & H1 & H2 & H3 & Hxy). exists i. rewrite range_In. split; [lia|].
        rewrite in_flat_map. exists j. rewrite range_In, compare_In. split; [lia|auto].
Qed.

Lemma index_lt {X} (l : list X) i : i < length l -> exists x, index l i = Ok x /\ nth_error l i = Some x.
Proof.
  intros Hi. unfold index. destruct (nth_error l i) eqn:E; [eauto|].
  apply nth_error_Some in Hi. congruence.
Qed.

Lemma index_ge {X} (l : list X) i : length l <= i -> index l i = Err IndexError.
Proof. intros Hi. unfold index. rewrite (proj2 (nth_error_None l i) Hi). reflexivity. Qed.

Lemma enlarge_spec S f : forall fuel first last, f <= first -> first < last -> last < length S ->
  length S < fuel + last ->
  (exists l, enlarge similarity fuel S f first last = Ok l /\ last <= l < length S) \/
  (enlarge similarity fuel S f first last = Err IndexError /\ exists fi la, overrun similarity S f fi la).
Proof.
  clear set_order_perm set_order.
  induction fuel as [|fuel IH]; intros first last H1 H2 H3 Hf; [lia|]. simpl.
  destruct (index_lt S first) as (a & Ea & Na); [lia|]. destruct (index_lt S last) as (b & Eb & Nb); [lia|].
  rewrite Ea, Eb. simpl. destruct (similarity a b) eqn:Es.
  - destruct (Nat.lt_ge_cases (last + (last - f)) (length S)) as [Hl|Hl].
    + destruct (IH last (last + (last - f))) as [(l & E & Hr)|(E & Ho)]; try lia.
      * left. exists l. split; [exact E|lia].
      * right. auto.
    + right. destruct fuel as [|fuel]; [lia|]. split.
      * simpl. rewrite Eb. simpl. rewrite (index_ge S (last + (last - f)) Hl). reflexivity.
      * exists first, last. unfold overrun. split; [lia|]. split; [lia|]. split; [lia|]. split; [|lia].
        exists a, b. auto.
  - left. exists last. split; [reflexivity|lia].
Qed.

Lemma retrench_spec S : forall k last, k <= last -> last < length S ->
  exists l, retrench similarity k S last = Ok l /\ last - k <= l <= last.
Proof.
  clear set_order_perm set_order.
  induction k as [|k IH]; intros last Hk Hl; simpl; [exists last; split; [reflexivity|lia]|].
  destruct (index_lt S (last - 1)) as (a & Ea & _); [lia|]. destruct (index_lt S last) as (b & Eb & _); [lia|].
  rewrite Ea, Eb. simpl. destruct (similarity a b); [exists last; split; [reflexivity|lia]|].
  destruct (IH (last - 1)) as (l & E & Hr); [lia|lia|]. exists l. split; [exact E|lia].
Qed.

Lemma aa_loop_spec S step : 1 <= step -> forall fuel first, first <= length S -> length S < fuel + first ->
  (exists out, aa_loop similarity fuel S step first = Ok out /\
     Forall (fun se => fst se <= snd se) out /\
     concat (map (fun se => seq (fst se) (snd se + 1 - fst se)) out) = seq first (length S - first)) \/
  (aa_loop similarity fuel S step first = Err IndexError /\ exists f fi la, overrun similarity S f fi la).
Proof.
  clear set_order_perm set_order.
  intros Hstep. induction fuel as [|fuel IH]; intros first Hfirst Hfuel; [lia|].
  cbn [aa_loop]. destruct (Nat.ltb_spec (first + step) (length S)) as [Hlt|Hge].
  - destruct (enlarge_spec S first (Datatypes.S fuel) first (first + step)) as [(l & E & Hr)|(E & fi & la & Ho)]; try lia.
    + rewrite E. cbn [bind]. destruct (retrench_spec S (l - first - step) l) as (l' & E' & Hr'); [lia|lia|].
      rewrite E'. cbn [bind]. destruct (IH (l' + 1)) as [(out & Eo & Hf & Hc)|(Eo & Ho)]; try lia.
      * rewrite Eo. left. eexists. split; [reflexivity|]. split; [constructor; [simpl; lia|exact Hf]|].
        simpl. rewrite Hc. replace (length S - first) with ((l' + 1 - first) + (length S - (l' + 1))) by lia.
        rewrite seq_app. f_equal. f_equal. lia.
      * rewrite Eo. right. auto.
    + rewrite E. right. split; [reflexivity|]. eauto.
  - left. destruct (Nat.ltb_spec first (length S)) as [H1|H1].
    + eexists. split; [reflexivity|]. split; [repeat constructor; simpl; lia|]. simpl. rewrite app_nil_r.
      f_equal. lia.
    + exists []. split; [reflexivity|]. split; [constructor|]. simpl.
      replace (length S - first) with 0 by lia. reflexivity.
Qed.

Lemma full_AA_SNM_spec S step fuel : 1 <= step -> length S < fuel ->
  (exists out, full_AA_SNM similarity fuel S step = Ok out /\ tiles (length S) out) \/
  (full_AA_SNM similarity fuel S step = Err IndexError /\ exists f fi la, overrun similarity S f fi la).
Proof.
  clear set_order_perm set_order.
  intros H1 H2. unfold full_AA_SNM, tiles.
  destruct (aa_loop_spec S step H1 fuel 0) as [(out & E & Hf & Hc)|?]; [lia|lia| |auto].
  left. exists out. rewrite Nat.sub_0_r in Hc. auto.
Qed.

(** no similar records so far apart: no error *)
Lemma full_AA_SNM_total S step fuel : 1 <= step -> length S < fuel ->
  (forall f fi la, ~ overrun similarity S f fi la) ->
  exists out, full_AA_SNM similarity fuel S step = Ok out /\ tiles (length S) out.
Proof.
  clear set_order_perm set_order.
  intros H1 H2 Ho. destruct (full_AA_SNM_spec S step fuel H1 H2) as [?|(_ & f & fi & la & Hl)]; [assumption|].
  exfalso. eapply Ho; eauto.
Qed.

(** window = 1 and a similarity true of equal records: the enlargement never ends *)
Lemma enlarge_endless S x first : nth_error S first = Some x -> similarity x x = true ->
  forall fuel, enlarge similarity fuel S first first first = Err OutOfFuel.
Proof.
  intros Hx Hs. induction fuel as [|fuel IH]; [reflexivity|]. simpl. unfold index. rewrite Hx. simpl.
  rewrite Hs, Nat.sub_diag, Nat.add_0_r. exact IH.
Qed.

Lemma full_AA_SNM_endless x S : similarity x x = true ->
  forall fuel, full_AA_SNM similarity fuel (x :: S) 0 = Err OutOfFuel.
Proof.
  clear set_order_perm set_order.
  intros Hs fuel. unfold full_AA_SNM. destruct fuel as [|fuel]; [reflexivity|]. cbn [aa_loop].
  destruct (Nat.ltb_spec (0 + 0) (length (x :: S))) as [_|Hn]; [|simpl in Hn; lia].
  rewrite (enlarge_endless (x :: S) x 0 eq_refl Hs). reflexivity.
Qed.

Lemma adaptive_pairs_In fuel step S pairs : 1 <= step -> length S < fuel ->
  adaptive_pairs similarity fuel step S = Ok pairs ->
  exists intervals, full_AA_SNM similarity fuel S step = Ok intervals /\ tiles (length S) intervals /\
    forall x y, In (x, y) pairs <-> interval_link similarity intervals S x y.
Proof.
  clear set_order_perm set_order.
  intros H1 H2. unfold adaptive_pairs.
  destruct (full_AA_SNM_spec S step fuel H1 H2) as [(out & E & Ht)|(E & _)]; rewrite E; cbn [bind]; [|discriminate].
  intros [= <-]. exists out. split; [reflexivity|]. split; [exact Ht|]. intros x y.
  destruct Ht as [Hf _]. rewrite Forall_forall in Hf.
  rewrite in_flat_map. unfold interval_link. split.
  - intros ([st en] & Hin & Hp). rewrite interval_pairs_In in Hp by (apply (Hf _ Hin)).
    destruct Hp as (i & j & Hp). exists st, en, i, j. tauto.
  - intros (st & en & i & j & Hin & Hp). exists (st, en). split; [exact Hin|].
    rewrite interval_pairs_In by (apply (Hf _ Hin)). exists i, j. tauto.
Qed.

Lemma mapM_total {X Y} (f : X -> res Y) l : (forall x, In x l -> exists y, f x = Ok y) ->
  exists ys, mapM f l = Ok ys /\ Forall2 (fun x y => f x = Ok y) l ys.
Proof.
  induction l as [|x l IH]; intros Hl; simpl; [eauto|].
  destruct (Hl x (or_introl eq_refl)) as (y & Ey). destruct IH as (ys & Eys & Hys); [intros; apply Hl; right; auto|].
  exists (y :: ys). rewrite Ey, Eys. simpl. auto.
Qed.

Lemma adaptive_components fuel data key keys step lo hi :
  1 <= step -> length data < fuel ->
  (forall k, In k (match keys with Some ks => ks | None => [key] end) -> total_preorder k) ->
  (forall k s f fi la, In k (match keys with Some ks => ks | None => [key] end) ->
     stably_sorted k data s -> ~ overrun similarity s f fi la) ->
  exists windows : list A -> list (nat * nat),
    (forall k s, In k (match keys with Some ks => ks | None => [key] end) -> stably_sorted k data s ->
       tiles (length data) (windows s)) /\
  exists out,
    adaptive_sorted_neighborhood set_order similarity fuel false data key keys step lo hi "connected_components" = Ok out /\
    is_components
      (fun x => exists y, adaptive_link similarity windows data (match keys with Some ks => ks | None => [key] end) x y \/
                          adaptive_link similarity windows data (match keys with Some ks => ks | None => [key] end) y x)
      (adaptive_link similarity windows data (match keys with Some ks => ks | None => [key] end)) lo hi out.
Proof.
  intros H1 H2 Hk Ho. unfold adaptive_sorted_neighborhood.
  set (ks := match keys with Some ks => ks | None => [key] end) in *.
  set (fz := match keys with Some _ => true | None => false end).
  destruct (mapM_total (adaptive_pairs similarity fuel step) (sorted_passes false data ks)) as (pss & E & HF).
  { intros s Hs. rewrite sorted_passes_In in Hs. destruct Hs as (k & Hin & ->).
    unfold adaptive_pairs.
    destruct (full_AA_SNM_total (sort_by k data) step fuel H1) as (out & E & _).
    - rewrite sort_by_length. exact H2.
    - intros f fi la. apply (Ho k); [exact Hin|apply sort_by_stable; auto].
    - rewrite E. eexists. reflexivity. }
  set (windows := fun s => match full_AA_SNM similarity fuel s step with Ok l => l | Err _ => [] end).
  exists windows. split.
  { intros k s Hin Hs.
    assert (Hlen : length s = length data) by (apply Permutation_length, (sorted_perm _ _ _ Hs)).
    destruct (full_AA_SNM_total s step fuel H1) as (out & E' & Ht).
    - rewrite Hlen. exact H2.
    - intros f fi la. apply (Ho k); assumption.
    - unfold windows. rewrite E'. rewrite Hlen in Ht. exact Ht. }
  rewrite E. cbn [bind].
  assert (HIn : forall x y, In (x, y) (concat pss) <-> adaptive_link similarity windows data ks x y).
  { intros x y. rewrite in_concat. split.
    - intros (ps & Hps & Hin). apply (Forall2_in_r _ _ _ _ HF) in Hps as (s & Hs & Es).
      rewrite sorted_passes_In in Hs. destruct Hs as (k & Hkin & ->).
      destruct (adaptive_pairs_In fuel step (sort_by k data) ps H1) as (iv & Ei & _ & Hiff);
        [rewrite sort_by_length; exact H2|exact Es|].
      exists k, (sort_by k data). split; [exact Hkin|]. split; [apply sort_by_stable; auto|].
      unfold windows. rewrite Ei. apply Hiff. exact Hin.
    - intros (k & s & Hkin & Hs & Hl).
      rewrite (stably_sorted_unique k (Hk k Hkin) data s (sort_by k data) Hs (sort_by_stable k (Hk k Hkin) data)) in *.
      assert (Hin : In (sort_by k data) (sorted_passes false data ks)) by (apply sorted_passes_In; eauto).
      apply (Forall2_in_l _ _ _ _ HF) in Hin as (ps & Hps & Es). exists ps. split; [exact Hps|].
      destruct (adaptive_pairs_In fuel step (sort_by k data) ps H1) as (iv' & Ei' & _ & Hiff);
        [rewrite sort_by_length; exact H2|exact Es|].
      apply Hiff. unfold windows in Hl. rewrite Ei' in Hl. exact Hl. }
  destruct (clusters_from_pairs_components set_order set_order_perm (concat pss) lo hi fz) as (out & Eo & C).
  exists out. split; [exact Eo|]. revert C. apply is_components_ext.
  - intros x. unfold pair_vertex. split; intros (y & Hy); exists y; rewrite !HIn in *; exact Hy.
  - intros x y. apply conn_ext. intros a b. unfold pair_link. apply HIn.
Qed.
End Neighborhood.

(** ** Counter-examples *)
Lemma adaptive_index_error :
  full_AA_SNM Nat.eqb 100 [1; 1] 1 = Err IndexError /\
  adaptive_sorted_neighborhood (fun l => l) Nat.eqb 100 false [1; 1] Nat.leb None 1 2 None "connected_components" =
    Err IndexError.
Proof. split; vm_compute; reflexivity. Qed.

Lemma generator_refuted :
  exists (similarity : nat -> nat -> bool) (data : list nat) keys window out x y,
    (forall k, In k keys -> total_preorder k) /\
    sorted_neighborhood (fun l => l) similarity true data Nat.leb (Some keys) window 2 None "connected_components" = Ok out /\
    neighborhood_link similarity window data keys x y /\ forall c, In c out -> ~ (In x c /\ In y c).
Proof.
  set (k2 := fun a b => Nat.leb (Nat.modulo a 2) (Nat.modulo b 2)).
  assert (T1 : total_preorder Nat.leb) by (split; intros; rewrite !Nat.leb_le in *; lia).
  assert (T2 : total_preorder k2) by (unfold k2; split; intros; rewrite !Nat.leb_le in *; lia).
  exists (fun a b => Nat.eqb (a + 2) b), [1; 2; 3; 4], [Nat.leb; k2], 2, [], 1, 3.
  split; [intros k [<-|[<-|[]]]; assumption|]. split; [vm_compute; reflexivity|]. split; [|intros c []].
  exists k2, (sort_by k2 [1; 2; 3; 4]). split; [right; left; reflexivity|]. split; [apply sort_by_stable; exact T2|].
  exists 2, 3. vm_compute. repeat split; lia.
Qed.
