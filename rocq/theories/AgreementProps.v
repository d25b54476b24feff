(** C100 - C106: the algorithms against the exhaustive comparison of pairwise *)
From Coq Require Import QArith String Lia.
From Verif Require Import Base BaseFacts EditSpec LevModel LevProofs ClustersModel ClustersSpec ClustersProofs PairwiseModel PairwiseSpec PairwiseProofs PairwiseProps
  LevKeysModel LevKeysSpec LevKeysProofs PassJoinModel PassJoinSpec PassJoinProofs PassJoinProps BlockingModel BlockingSpec BlockingProofs BlockingProps
  SortSpec SortModel SortFacts NeighborhoodModel NeighborhoodSpec NeighborhoodProofs NeighborhoodProps
  MetricsModel MetricsSpec MetricsProofs QuickJoinModel QuickJoinSpec QuickJoinProofs QuickJoinClusterProofs QuickJoinProps SpaceModel SpaceSpec SpaceProofs SpaceProps BitsModel MinHashModel MinHashProps AgreementSpec AgreementProofs.
Open Scope nat_scope.
Open Scope string_scope.
Open Scope list_scope.
Notation length := List.length.
Notation concat := List.concat.

Section Items.
Context {A B : Type} `{EqDec A} `{EqDec B}.
Variable set_order : list A -> list A.
Hypothesis set_order_perm : forall l, Permutation (set_order l) l.
Variable similarity : A -> A -> bool.

(** C100: blocking finds the clusters of pairwise when similar items always share a block *)
Theorem C100_blocking (block_order : list B -> list B) how (data : list A) lo hi arrival :
  (forall l, Permutation (block_order l) l) -> schedule arrival -> NoDup data -> 2 <= lo ->
  (forall x y, precedes data x y -> similarity x y = true -> exists b, In b (blocks_of how x) /\ In b (blocks_of how y)) ->
  agree (blocking set_order block_order similarity how data lo hi arrival "connected_components")
        (pairwise_connected_components similarity (fun x => x) data lo hi).
Proof.
  intros Hb Ha N Lo Sh.
  destruct (C18_components set_order block_order similarity how data lo hi arrival set_order_perm Hb Ha) as (out & E & C).
  apply (agree_items similarity (fun x => x) data lo hi _ _ out _ N Lo E C).
  - intros x y L. split; [exists y; left|exists x; right]; exact L.
  - intros x y (P & _ & S). split; [|apply precedes_In; exact P]. apply Relation_Operators.rst_step. split; assumption.
  - intros x y (P & S). apply Relation_Operators.rst_step. split; [exact P|]. split; [apply Sh; assumption|exact S].
Qed.

(** C104: sorted_neighborhood, with a window as large as the data *)
Theorem C104_neighborhood (data : list A) key window lo hi :
  total_preorder key -> length data <= window -> (forall a b, similarity a b = similarity b a) -> NoDup data -> 2 <= lo ->
  agree (sorted_neighborhood set_order similarity false data key None window lo hi "connected_components")
        (pairwise_connected_components similarity (fun x => x) data lo hi).
Proof.
  intros Ht W Sy N Lo.
  destruct (C21_large_window similarity set_order data key window lo hi set_order_perm Ht W Sy) as (out & E & C).
  apply (agree_items similarity (fun x => x) data lo hi _ _ out _ N Lo E C).
  - intros x y (S & P). split; [exists y; split; [exact S|left; exact P]|exists x; split; [rewrite Sy; exact S|right; exact P]].
  - intros x y (S & P). split; [|apply precedes_In; exact P]. apply Relation_Operators.rst_step. split; assumption.
  - intros x y (P & S). apply Relation_Operators.rst_step. split; assumption.
Qed.

(** C105: whatever the blocks, blocking only ever splits the clusters of pairwise *)
Theorem C105_blocking (block_order : list B -> list B) how (data : list A) lo hi arrival :
  (forall l, Permutation (block_order l) l) -> schedule arrival -> NoDup data ->
  refines (blocking set_order block_order similarity how data lo hi arrival "connected_components")
          (pairwise_connected_components similarity (fun x => x) data lo None).
Proof.
  intros Hb Ha N.
  destruct (C18_components set_order block_order similarity how data lo hi arrival set_order_perm Hb Ha) as (out & E & C).
  apply (refines_items similarity (fun x => x) data lo hi _ _ out _ N E C).
  - intros x (y & [(P & _)|(P & _)]); apply precedes_In in P; tauto.
  - intros x y (P & _ & S). apply Relation_Operators.rst_step. split; assumption.
Qed.

Lemma similar_data (data : list A) x y : NoDup data -> (forall a b, similarity a b = similarity b a) ->
  In x data -> In y data -> similarity x y = true -> connected (pair_of_data similarity (fun x => x) data) x y.
Proof.
  intros N Sy Hx Hy S. destruct (eq_dec x y) as [->|D]; [apply conn_refl|].
  destruct (precedes_either data x y Hx Hy D) as [P|P]; [|apply conn_sym]; apply Relation_Operators.rst_step; split; try exact P; [exact S|rewrite Sy; exact S].
Qed.

(** C105: whatever the keys and the window, so does sorted_neighborhood *)
Theorem C105_neighborhood (data : list A) key keys window lo hi :
  (forall k, In k (match keys with Some ks => ks | None => [key] end) -> total_preorder k) ->
  (forall a b, similarity a b = similarity b a) -> NoDup data ->
  refines (sorted_neighborhood set_order similarity false data key keys window lo hi "connected_components")
          (pairwise_connected_components similarity (fun x => x) data lo None).
Proof.
  intros Ht Sy N.
  destruct (C21_components similarity set_order data key keys window lo hi set_order_perm Ht) as (out & E & C).
  assert (L : forall x y, neighborhood_link similarity window data (match keys with Some ks => ks | None => [key] end) x y ->
    In x data /\ In y data /\ similarity x y = true).
  { intros x y (k & s & _ & St & i & j & _ & _ & Hi & Hj & S). apply nth_error_In in Hi, Hj. pose proof (sorted_perm _ _ _ St) as P.
    split; [eapply Permutation_in; eassumption|]. split; [eapply Permutation_in; eassumption|exact S]. }
  apply (refines_items similarity (fun x => x) data lo hi _ _ out _ N E C).
  - intros x (y & [K|K]); apply L in K; tauto.
  - intros x y K. apply L in K as (Hx & Hy & S). apply similar_data; assumption.
Qed.

(** C105: and its adaptive version, when it returns *)
Theorem C105_adaptive fuel (data : list A) key keys step lo hi :
  (forall k, In k (match keys with Some ks => ks | None => [key] end) -> total_preorder k) ->
  (forall a b, similarity a b = similarity b a) -> NoDup data -> 1 <= step -> length data < fuel ->
  adaptive_sorted_neighborhood set_order similarity fuel false data key keys step lo hi "connected_components" = Err IndexError \/
  refines (adaptive_sorted_neighborhood set_order similarity fuel false data key keys step lo hi "connected_components")
          (pairwise_connected_components similarity (fun x => x) data lo None).
Proof.
  intros Ht Sy N St Fu. set (ks := match keys with Some ks => ks | None => [key] end) in *.
  assert (Each : forall s, In s (sorted_passes false data ks) ->
    adaptive_pairs similarity fuel step s = Err IndexError \/
    exists pairs, adaptive_pairs similarity fuel step s = Ok pairs /\ forall x y, In (x, y) pairs -> In x data /\ In y data /\ similarity x y = true).
  { intros s Hs. apply sorted_passes_In in Hs as (k & Hk & ->). pose proof (Permutation_length (sort_by_perm k data)) as Len.
    destruct (C60_outcomes similarity (sort_by k data) step fuel St) as [(w & E & _)|(E & _)]; [lia| |].
    - right. assert (E' : exists pairs, adaptive_pairs similarity fuel step (sort_by k data) = Ok pairs) by (unfold adaptive_pairs; rewrite E; cbn; eauto).
      destruct E' as (pairs & E'). exists pairs. split; [exact E'|]. intros x y I.
      destruct (C60_links similarity fuel step (sort_by k data) pairs St) as (w' & _ & _ & L); [lia|exact E'|].
      pose proof (proj1 (L x y) I) as (st & en & i & j & _ & _ & _ & _ & Hi & Hj & S). apply nth_error_In in Hi, Hj.
      split; [eapply Permutation_in; [apply sort_by_perm|eassumption]|]. split; [eapply Permutation_in; [apply sort_by_perm|eassumption]|exact S].
    - left. unfold adaptive_pairs. rewrite E. reflexivity. }
  assert (All : mapM (adaptive_pairs similarity fuel step) (sorted_passes false data ks) = Err IndexError \/
    exists pss, mapM (adaptive_pairs similarity fuel step) (sorted_passes false data ks) = Ok pss /\
      forall x y, In (x, y) (concat pss) -> In x data /\ In y data /\ similarity x y = true).
  { clear - Each. induction (sorted_passes false data ks) as [|s l IH]; [right; exists []; split; [reflexivity|intros x y []]|].
    cbn. destruct (Each s) as [E|(ps & E & P)]; [left; reflexivity|left; rewrite E; reflexivity|]. rewrite E. cbn.
    destruct IH as [E'|(pss & E' & P')]; [intros; apply Each; right; assumption|left; rewrite E'; reflexivity|].
    right. rewrite E'. cbn. exists (ps :: pss). split; [reflexivity|]. intros x y I. cbn in I. apply in_app_iff in I as [I|I]; auto. }
  unfold adaptive_sorted_neighborhood. fold ks. destruct All as [E|(pss & E & P)]; [left; rewrite E; reflexivity|right]. rewrite E. cbn [bind].
  destruct (clusters_from_pairs_components set_order set_order_perm (concat pss) lo hi (match keys with Some _ => true | None => false end)) as (out & F & C).
  apply (refines_items similarity (fun x => x) data lo hi _ _ out _ N F C).
  - intros x (y & [K|K]); apply P in K; tauto.
  - intros x y K. apply P in K as (Hx & Hy & S). apply similar_data; assumption.
Qed.
End Items.

(** C100: with the blocks of levenshtein_1d_blocks, for any similarity that implies at most one edit *)
Theorem C100_levenshtein set_order (block_order : list str -> list str) (similarity : str -> str -> bool) tr flag (data : list str) lo hi arrival :
  (forall l, Permutation (set_order l) l) -> (forall l, Permutation (block_order l) l) -> schedule arrival -> NoDup data -> 2 <= lo ->
  (forall x y, similarity x y = true -> if (tr : bool) then damerau_le 1 x y else lev_le 1 x y) ->
  agree (blocking set_order block_order similarity (inr (fun x => levenshtein_1d_blocks x tr flag)) data lo hi arrival "connected_components")
        (pairwise_connected_components similarity (fun x => x) data lo hi).
Proof.
  intros Hs Hb Ha N Lo Cl. apply C100_blocking; try assumption. intros x y _ S. apply Cl in S. cbn.
  destruct tr; [apply (blocks_complete_damerau x y flag); exact S|apply (blocks_complete_lev x y false flag); exact S].
Qed.

(** C101: passjoin *)
Theorem C101_passjoin set_order k distance (data : list str) sort lo hi :
  (forall l : list str, Permutation (set_order l) l) -> decides k distance data -> NoDup data -> 2 <= lo ->
  agree (passjoin k distance set_order data sort lo hi "connected_components")
        (pairwise_connected_components (fun x y => Nat.leb (distance x y) k) (fun x => x) data lo hi).
Proof.
  intros Hs D N Lo. destruct (C10_components set_order k distance data sort lo hi Hs D Lo) as (out & E & C).
  apply (agree_items (fun x y => Nat.leb (distance x y) k) (fun x => x) data lo hi _ _ out _ N Lo E C).
  - intros x y (Hx & Hy & _). split; assumption.
  - intros x y (Hx & Hy & Ne & L). split; [|split; assumption].
    destruct (precedes_either data x y Hx Hy Ne) as [P|P]; [|apply conn_sym]; apply Relation_Operators.rst_step; (split; [exact P|]); apply Nat.leb_le; apply D; try assumption.
    apply lev_le_sym'. exact L.
  - intros x y (P & L). apply Nat.leb_le in L. pose proof (precedes_In _ _ _ P) as (Hx & Hy). apply Relation_Operators.rst_step.
    split; [exact Hx|]. split; [exact Hy|]. split; [|apply D; assumption].
    intros ->. destruct P as (l1 & l2 & l3 & ->). apply NoDup_remove_2 in N. apply N. rewrite !in_app_iff. cbn. tauto.
Qed.

(** C101: with the distance of the library *)
Theorem C101_limited set_order k (data : list str) sort lo hi :
  (forall l : list str, Permutation (set_order l) l) -> Forall bmp data -> NoDup data -> 2 <= lo ->
  agree (passjoin k (limited_levenshtein_distance k) set_order data sort lo hi "connected_components")
        (pairwise_connected_components (fun x y => Nat.leb (limited_levenshtein_distance k x y) k) (fun x => x) data lo hi).
Proof. intros Hs Hb. apply C101_passjoin; [exact Hs|apply C09_limited_distance; exact Hb]. Qed.

Section Tokens.
Context {A T : Type} `{EqDec T}.

Definition token_metric (jaccard : bool) (a b : list T) : Q := if jaccard then jaccard_similarity false a b else overlap_coefficient false a b.

Lemma token_similarity (jaccard : bool) radius (a b : list T) : (0 < radius)%Q ->
  (Qle_bool radius (token_metric jaccard a b) = true <->
   exists q, (if jaccard then jaccard_is a b q else overlap_is a b q) /\ (radius <= q)%Q).
Proof.
  intros R. rewrite Qle_bool_iff.
  assert (Co : coherent false a b) by (intros K; discriminate).
  pose proof (inter_card a b) as I.
  assert (Em : a = [] \/ b = [] -> ~ (radius <= token_metric jaccard a b)%Q).
  { intros E. destruct (metrics_empty a b E) as (E1 & E2 & _). unfold token_metric. intros K.
    destruct jaccard; [rewrite E1 in K|rewrite E2 in K]; exact (Qlt_not_le _ _ R K). }
  assert (Nz : forall l : list T, l <> [] -> length (set_of l) <> 0).
  { intros [|x l] Hl; [congruence|]. intros E. apply length_zero_iff_nil in E. assert (K : In x (set_of (x :: l))) by (apply set_of_In; left; reflexivity). rewrite E in K. destruct K. }
  destruct jaccard; unfold token_metric in *.
  - pose proof (set_card (a ++ b)) as U. apply (card_ext _ (fun x => In x a \/ In x b)) in U; [|intros; apply in_app_iff].
    split.
    + intros K. assert (Na : a <> []) by (intros ->; apply Em in K; auto).
      assert (Nu : length (set_of (a ++ b)) <> 0) by (apply Nz; intros E; apply app_eq_nil in E; tauto).
      eexists. split; [eexists _, _; split; [exact I|]; split; [exact U|]; split; [exact Nu|reflexivity]|].
      rewrite (jaccard_correct false a b _ _ Co I U Nu) in K. exact K.
    + intros (q & (i & u & Hi & Hu & Nu & ->) & K). rewrite (jaccard_correct false a b _ _ Co Hi Hu Nu). exact K.
  - split.
    + intros K. assert (Na : a <> []) by (intros ->; apply Em in K; auto). assert (Nb : b <> []) by (intros ->; apply Em in K; auto).
      apply Nz in Na, Nb. eexists. split.
      * eexists _, _, _. split; [exact I|]. split; [apply (set_card a)|]. split; [apply (set_card b)|]. split; [exact Na|]. split; [exact Nb|reflexivity].
      * rewrite (overlap_correct false a b _ _ _ Co I (set_card a) (set_card b) Na Nb) in K. exact K.
    + intros (q & (i & n & m & Hi & Hn & Hm & Nn & Nm & ->) & K). rewrite (overlap_correct false a b _ _ _ Co Hi Hn Hm Nn Nm). exact K.
Qed.

Lemma token_metric_sym (jaccard : bool) (a b : list T) : (token_metric jaccard a b == token_metric jaccard b a)%Q.
Proof. unfold token_metric. destruct jaccard; [apply jaccard_sym|rewrite overlap_sym; reflexivity]. Qed.

(** C102: intersection_index finds the clusters of pairwise with the metrics of the library, duplicates included *)
Theorem C102_intersection (token_order : list T -> list T) set_order (data : list A) (jaccard : bool) radius (key : A -> list T) lo hi :
  (forall l, Permutation (token_order l) l) -> (forall l, Permutation (set_order l) l) -> (0 < radius)%Q -> 2 <= lo ->
  agree (intersection_index token_order set_order data (if jaccard then "jaccard" else "overlap") radius key lo hi "connected_components")
        (pairwise_connected_components (fun a b => Qle_bool radius (if jaccard then jaccard_similarity false a b else overlap_coefficient false a b)) key data lo hi).
Proof.
  intros Ht Hs R Lo. change (fun a b => Qle_bool radius (if jaccard then jaccard_similarity false a b else overlap_coefficient false a b)) with (fun a b => Qle_bool radius (token_metric jaccard a b)).
  destruct (C20_components token_order Ht set_order data jaccard radius key lo hi Hs R) as (idx & out & E & Rd & C).
  destruct (C15_serial (fun a b => Qle_bool radius (token_metric jaccard a b)) key data lo hi) as (idx2 & out2 & E2 & Rd2 & C2).
  exists out, out2. split; [exact E|]. split; [exact E2|]. eapply reads_same; [|exact Rd|exact Rd2].
  apply (is_components_unique (fun i => i < length data) (similar_at (fun a b => Qle_bool radius (token_metric jaccard a b)) (map key data)) lo hi); [|exact C2].
  apply (is_components_vertex _ (fun i => i < length data)) in C; [|exact Lo|intros i j K; split; [exists j; left|exists i; right]; exact K|].
  2:{ intros i j K. apply token_link_bound in K. rewrite map_length in K. exact K. }
  apply (is_components_ext (fun i => i < length data) (fun i => i < length data) (token_link jaccard radius (map key data))); [intros; tauto| |exact C].
  assert (S : forall a b, (radius <= token_metric jaccard a b <-> radius <= token_metric jaccard b a)%Q) by (intros a b; rewrite token_metric_sym; reflexivity).
  intros i j. split; apply conn_mono; clear i j; intros i j K; apply conn_sym; apply Relation_Operators.rst_step.
  - destruct K as (Hij & a & b & q & Ha & Hb & Q & L). split; [exact Hij|]. exists b, a. split; [exact Hb|]. split; [exact Ha|].
    apply Qle_bool_iff. apply S. apply Qle_bool_iff. apply token_similarity; [exact R|]. exists q. auto.
  - destruct K as (Hij & a & b & Ha & Hb & Q). split; [exact Hij|]. apply Qle_bool_iff in Q. apply S in Q. apply Qle_bool_iff in Q. apply token_similarity in Q as (q & Q & L); [|exact R].
    exists b, a, q. auto.
Qed.
End Tokens.

Section QuickJoin.
Context {A : Type} `{EqDec A}.
Variable set_order : list A -> list A.
Hypothesis set_order_perm : forall l, Permutation (set_order l) l.
Variable neighbors : (A -> A -> Q) -> Q -> list A -> A -> list A.
Variable identity : A -> nat.
Variable unordered : list (list (A * A)) -> list (list (A * A)).
Hypothesis unordered_perm : forall l, Permutation (unordered l) l.
Variable distance : A -> A -> Q.

Lemma ordered_pairs_In (l : list A) x y : In (x, y) (ordered_pairs l) <-> precedes l x y.
Proof.
  unfold precedes. rewrite <- In_bucket_pairs. induction l as [|a l IH]; [reflexivity|]. cbn. rewrite !in_app_iff, IH. reflexivity.
Qed.

(** C103: quickjoin, whatever is drawn, as soon as it ends *)
Theorem C103_quickjoin fuel draws (data : list A) radius size lo hi processes beta out : semimetric distance -> NoDup data -> 2 <= lo ->
  quickjoin set_order neighbors identity unordered fuel draws data radius (Distance distance) size lo hi "connected_components" processes beta false = Ok out ->
  agree (Ok out) (pairwise_connected_components (fun x y => Qle_bool (distance x y) radius) (fun x => x) data lo hi).
Proof.
  intros M N Lo E. pose proof (C23_components distance set_order set_order_perm neighbors identity unordered unordered_perm fuel draws data radius size lo hi processes beta out M E) as C.
  assert (L : forall x y, pair_link (close_pairs distance radius data) x y <-> pair_of_data (fun x y => Qle_bool (distance x y) radius) (fun x => x) data x y).
  { intros x y. unfold pair_link, close_pairs, pair_of_data. rewrite filter_In, ordered_pairs_In. reflexivity. }
  apply (agree_items _ _ data lo hi _ _ out _ N Lo eq_refl C).
  - intros x y K. split; [exists y; left|exists x; right]; exact K.
  - intros x y K. apply L in K. split; [apply Relation_Operators.rst_step; exact K|]. apply precedes_In. exact (proj1 K).
  - intros x y K. apply L in K. apply Relation_Operators.rst_step. exact K.
Qed.

(** C105: with a similarity instead, it only splits the clusters of pairwise *)
Theorem C105_quickjoin fuel draws (data : list A) radius size lo hi processes beta out : (0 < radius)%Q ->
  (forall x y, distance x y == distance y x)%Q -> NoDup data ->
  quickjoin set_order neighbors identity unordered fuel draws data radius (Similarity distance) size lo hi "connected_components" processes beta false = Ok out ->
  refines (Ok out) (pairwise_connected_components (fun x y => Qle_bool radius (distance x y)) (fun x => x) data lo None).
Proof.
  intros R Sy N E. destruct (C86_similarity distance set_order set_order_perm neighbors identity unordered unordered_perm fuel draws data radius size lo hi processes beta out R E) as (chunks & P & _ & C).
  cbv zeta in C. set (pairs := flat_map _ chunks) in C.
  assert (L : forall x y, In (x, y) pairs -> In x data /\ In y data /\ Qle_bool radius (distance x y) = true).
  { intros x y K. apply in_flat_map in K as (c & Hc & K). apply filter_In in K as (K & S). apply ordered_pairs_In in K. apply precedes_In in K as (Hx & Hy).
    assert (D : forall z, In z c -> In z data) by (intros z Hz; eapply Permutation_in; [exact P|]; apply in_concat; eauto). auto. }
  apply (refines_items _ _ data lo hi _ _ out _ N eq_refl C).
  - intros x (y & [K|K]); apply L in K; tauto.
  - intros x y K. apply L in K as (Hx & Hy & S). apply (similar_data (fun x y => Qle_bool radius (distance x y))); try assumption.
    intros a b. apply Bool.eq_iff_eq_true. rewrite !Qle_bool_iff, Sy. reflexivity.
Qed.
End QuickJoin.

Section Collision.
Context {A K : Type} `{EqDec A} `{EqDec K}.
Variable truthy : K -> bool.

(** C104: key_collision, on one key: the clusters of pairwise when similar means the same truthy key *)
Theorem C104_key (key : A -> K) (data : list A) lo hi : NoDup data -> 2 <= lo ->
  agree (Ok (key_collision_key truthy key data lo hi))
        (pairwise_connected_components (fun k k' => truthy k && eqb k k') key data lo hi).
Proof.
  intros N Lo. set (sim := fun k k' => truthy k && eqb k k').
  destruct (C19_key truthy key data lo hi) as (ks & Nk & Hk & E). rewrite E. clear E.
  set (group := fun k => filter (fun x => if eq_dec (key x) k then true else false) data).
  assert (G : forall k x, In x (group k) <-> In x data /\ key x = k).
  { intros k x. unfold group. rewrite filter_In. destruct (eq_dec (key x) k); split; intros (? & ?); split; congruence. }
  assert (C : forall x y, connected (pair_of_data sim key data) x y -> x = y \/ In x data /\ In y data /\ key x = key y /\ truthy (key x) = true).
  { intros x y C. induction C as [x y (P & S)|x|x y C IH|x y z C IH C' IH'].
    - right. apply precedes_In in P. unfold sim in S. apply andb_true_iff in S as (S1 & S2). rewrite eqb_true in S2. tauto.
    - left. reflexivity.
    - destruct IH as [->|(? & ? & IH & ?)]; [left; reflexivity|right]. rewrite <- IH. auto.
    - destruct IH as [->|(? & ? & IH & ?)]; [exact IH'|]. destruct IH' as [<-|(? & ? & IH' & ?)]; right; [auto|]. rewrite IH, <- IH'. rewrite <- IH. auto. }
  assert (D : forall x y, In x data -> In y data -> key x = key y -> truthy (key x) = true -> connected (pair_of_data sim key data) x y).
  { intros x y Hx Hy Ek Tr. destruct (eq_dec x y) as [->|Ne]; [apply conn_refl|]. assert (S : sim (key x) (key y) = true) by (unfold sim; rewrite Tr, Ek, eqb_refl; reflexivity).
    destruct (precedes_either data x y Hx Hy Ne) as [P|P]; [|apply conn_sym]; apply Relation_Operators.rst_step; (split; [exact P|]); [exact S|].
    rewrite Ek in S. rewrite Ek. exact S. }
  apply (agree_items sim key data lo hi (fun x => In x data) (pair_of_data sim key data) _ _ N Lo eq_refl).
  2:{ intros x y (P & _). apply precedes_In. exact P. }
  2:{ intros x y L. split; [apply Relation_Operators.rst_step; exact L|apply precedes_In; exact (proj1 L)]. }
  2:{ intros x y L. apply Relation_Operators.rst_step. exact L. }
  assert (Sz : forall n, (Nat.leb lo n && le_max n hi = true) <-> size_within lo hi n).
  { intros n. unfold size_within, le_max. rewrite andb_true_iff, Nat.leb_le. destruct hi; [rewrite Nat.leb_le|]; tauto. }
  assert (Comp : forall k x, In k ks -> In x (group k) -> component (pair_of_data sim key data) (group k)).
  { intros k x Ik Ix. split; [apply NoDup_filter; exact N|]. exists x. split; [exact Ix|]. apply Hk in Ik as (Tr & _). apply G in Ix as (Ix & Ek).
    intros y. rewrite G. split.
    - intros (Iy & Ey). apply D; congruence.
    - intros Cy. apply C in Cy as [<-|(_ & Iy & Ey & _)]; [auto|]. split; [exact Iy|congruence]. }
  split.
  - intros c Hc. apply filter_In in Hc as (Hc & S). apply Sz in S. apply in_map_iff in Hc as (k & <- & Ik). fold (group k) in *.
    pose proof (proj1 (Hk k) Ik) as (Tr & x & Ix & Ek). assert (Gx : In x (group k)) by (apply G; auto).
    split; [apply (Comp k x); assumption|]. split; [exists x; auto|exact S].
  - intros c Cc (x & Hx & Ix) S.
    assert (O : exists y, In y c /\ x <> y).
    { destruct Cc as (Nc & _). destruct c as [|a [|b c]]; [destruct Hx|destruct S as (S & _); cbn in S; lia|].
      destruct (eq_dec x a) as [->|]; [exists b|exists a]; (split; [cbn; tauto|]); [|assumption]. inversion Nc as [|? ? N1]; subst. intros ->. apply N1. left. reflexivity. }
    destruct O as (y & Hy & Ne). pose proof (proj1 (component_conn _ c x y Cc Hx) Hy) as Cy. apply C in Cy as [Cy|(_ & _ & _ & Tr)]; [congruence|].
    assert (Ik : In (key x) ks) by (apply Hk; split; [exact Tr|exists x; auto]).
    assert (Gx : In x (group (key x))) by (apply G; auto).
    pose proof (component_Permutation _ c (group (key x)) x Cc (Comp _ _ Ik Gx) Hx Gx) as P.
    exists (group (key x)). split; [|exact P]. apply filter_In. split; [apply in_map_iff; exists (key x); auto|]. apply Sz. rewrite <- (Permutation_length P). exact S.
  - clear - Nk G N. induction ks as [|k ks IH]; [constructor|]. inversion Nk as [|? ? N1 N2]; subst. cbn [map filter].
    specialize (IH N2). fold (group k). destruct (Nat.leb lo (length (group k)) && le_max (length (group k)) hi); [|exact IH].
    cbn [concat]. apply NoDup_app_iff. split; [apply NoDup_filter; exact N|]. split; [exact IH|].
    intros x Gx Kx. apply in_concat in Kx as (c & Hc & Ic). apply filter_In in Hc as (Hc & _). apply in_map_iff in Hc as (k' & <- & Ik').
    apply G in Gx as (_ & <-). fold (group k') in Ic. apply G in Ic as (_ & <-). apply N1. exact Ik'.
Qed.

(** C104: key_collision, on several keys, merged *)
Theorem C104_keys set_order (keys : A -> option (list K)) (similarity : A -> A -> bool) (data : list A) lo hi :
  (forall l, Permutation (set_order l) l) -> NoDup data -> (forall x y, similarity x y = true <-> collide truthy keys x y) ->
  agree (key_collision_keys set_order truthy keys data lo hi true)
        (pairwise_connected_components similarity (fun x => x) data 2 None).
Proof.
  intros Hs N S. destruct (C59_merge truthy set_order keys data lo hi Hs) as (out & E & C).
  apply (agree_items similarity (fun x => x) data 2 None _ _ out _ N (le_n 2) E C).
  - intros x y (Hx & Hy & _). split; assumption.
  - intros x y (Hx & Hy & k & lx & ly & Cl). split; [|split; assumption]. apply similar_data; try assumption; [|apply S; exists k, lx, ly; exact Cl].
    intros a b. apply Bool.eq_iff_eq_true. rewrite !S. split; intros (k' & l1 & l2 & ? & ? & ? & ? & ?); exists k', l2, l1; auto 10.
  - intros x y (P & L). apply precedes_In in P as (Hx & Hy). apply Relation_Operators.rst_step. split; [exact Hx|]. split; [exact Hy|]. apply S. exact L.
Qed.
End Collision.

Section Balls.
Context {A : Type} `{EqDec A}.

(** C105: the balls of vp_tree *)
Theorem C105_vp_tree (within : A -> A -> bool) (data : list A) query lo hi :
  (forall x, ball within data x (query x)) -> (forall a b, within a b = within b a) -> NoDup data ->
  refines (Ok (vp_tree query data lo hi)) (pairwise_connected_components within (fun x => x) data lo None).
Proof.
  intros Q Sy N. apply (refines_connected within (fun x => x) data lo _ _ N eq_refl). intros c Hc.
  destruct (C54_balls within data query Q lo hi) as (centres & F & B & _).
  assert (E : exists x, In x centres /\ ball within data x c).
  { clear - F Hc. induction F as [|x d xs ds D F IH]; [destruct Hc|]. destruct Hc as [<-|Hc]; [exists x; split; [left; reflexivity|exact D]|].
    destruct (IH Hc) as (x' & I & D'). exists x'. split; [right; exact I|exact D']. }
  destruct E as (x & Ix & D). apply B in Ix as (Ix & S & _). unfold ball in D.
  split; [eapply Permutation_NoDup; [apply Permutation_sym; exact D|apply NoDup_filter; exact N]|].
  split; [rewrite (Permutation_length D); exact S|]. exists x. split; [exact Ix|]. intros y Hy.
  apply (Permutation_in _ D) in Hy. apply filter_In in Hy as (Hy & W). apply similar_data; assumption.
Qed.

(** C105: and laesa, unless it fails *)
Theorem C105_laesa set_order pivot_order (distance : A -> A -> Q) draw (data : list A) radius pivots lo hi :
  (forall l, Permutation (set_order l) l) -> (forall l, Permutation (pivot_order l) l) ->
  data <> [] -> (forall x y, In x data -> In y data -> (0 <= distance x y)%Q) -> draw < length data -> NoDup data ->
  laesa set_order pivot_order distance draw data radius pivots lo hi "connected_components" = Err IndexError \/
  refines (laesa set_order pivot_order distance draw data radius pivots lo hi "connected_components")
          (pairwise_connected_components (fun x y => Qle_bool (distance x y) radius) (fun x => x) data lo None).
Proof.
  intros Hs Hp Ne P Dr N. destruct (C75_links distance pivot_order Hp set_order Hs draw data radius pivots lo hi Ne P Dr) as [E|(ps & pairs & out & _ & _ & L & E & C)]; [left; exact E|right].
  apply (refines_items _ _ data lo hi _ _ out _ N E C).
  - intros x (y & [K|K]); apply L in K as (i & k & _ & Hi & Hk & _); eapply nth_error_In; eassumption.
  - intros x y K. apply L in K as (i & k & Hik & Hi & Hk & D & _). apply Relation_Operators.rst_step. split; [apply precedes_at; exists i, k; auto|apply Qle_bool_iff; exact D].
Qed.
End Balls.

(** C105: and minhash, for the similarity it checks *)
Theorem C105_minhash {A T} `{EqDec A} `{EqDec T} (crc32 : T -> N) (letter : N -> T) token_order set_order (key : A -> sequence T) same params (data : list A) h radius bands :
  (forall l, Permutation (token_order l) l) -> (forall l, Permutation (set_order l) l) -> NoDup data -> length params = h ->
  let b := match bands with Some b => b | None => guess_bands h radius end in 0 < b <= h ->
  refines (minhash crc32 letter token_order set_order key same params data h radius bands)
          (pairwise_connected_components (double_check letter key same radius) (fun x => x) data 2 None).
Proof.
  intros Ht Hs N L b Hb. destruct (C26_components crc32 letter token_order Ht set_order Hs key same params data h radius bands L Hb) as (out & E & C).
  apply (refines_items _ _ data 2 None _ _ out _ N E C).
  - intros x (y & [(P & _)|(P & _)]); apply precedes_In in P; tauto.
  - intros x y (P & _ & S). apply Relation_Operators.rst_step. split; assumption.
Qed.

(** C106 asks for the same agreement on data with repeated items.  False: pairwise keeps both, the others have one. *)
Theorem C106_duplicates_refuted : exists data : list str,
  (forall a b, lev_le 1 a b -> In a data -> In b data -> Nat.leb (limited_levenshtein_distance 1 a b) 1 = true) /\
  pairwise_connected_components (fun x y => Nat.leb (limited_levenshtein_distance 1 x y) 1) (fun x => x) data 2 None = Ok [data] /\
  passjoin 1 (limited_levenshtein_distance 1) (fun l => l) data true 2 None "connected_components" = Ok [] /\
  blocking (fun l => l) (fun l => l) (fun x y => Nat.leb (limited_levenshtein_distance 1 x y) 1) (inr (fun x => levenshtein_1d_blocks x false 0)) data 2 None None "connected_components" = Ok [] /\
  sorted_neighborhood (fun l => l) (fun x y => Nat.leb (limited_levenshtein_distance 1 x y) 1) false data (fun _ _ => true) None 10 2 None "connected_components" = Ok [].
Proof.
  exists [[97; 98]; [97; 98]]%N. split.
  - intros a b _ [<-|[<-|[]]] [<-|[<-|[]]]; vm_compute; reflexivity.
  - repeat split; vm_compute; reflexivity.
Qed.

Definition words : list str := [[97; 98; 99]; [97; 98]; [120; 121]; [120; 98; 99]; [120; 121; 122]]%N.
Definition within_one (x y : str) : bool := Nat.leb (limited_levenshtein_distance 1 x y) 1.
Example agreement_ex :
  pairwise_connected_components within_one (fun x => x) words 2 None =
    Ok [[[97; 98; 99]; [97; 98]; [120; 98; 99]]; [[120; 121]; [120; 121; 122]]]%N /\
  passjoin 1 (limited_levenshtein_distance 1) (fun l => l) words true 2 None "connected_components" =
    Ok [[[120; 98; 99]; [97; 98; 99]; [97; 98]]; [[120; 121]; [120; 121; 122]]]%N /\
  blocking (fun l => l) (fun l => l) within_one (inr (fun x => levenshtein_1d_blocks x false 0)) words 2 None None "connected_components" =
    Ok [[[97; 98; 99]; [120; 98; 99]; [97; 98]]; [[120; 121]; [120; 121; 122]]]%N.
Proof. repeat split; vm_compute; reflexivity. Qed.

(** blocks of the first letter lose a link; keys are the first letters *)
Definition first_letter (x : str) : list N := firstn 1 x.
Example splitting_ex :
  blocking (fun l => l) (fun l => l) within_one (inl first_letter) words 2 None None "connected_components" =
    Ok [[[97; 98; 99]; [97; 98]]; [[120; 121]; [120; 121; 122]]]%N /\
  sorted_neighborhood (fun l => l) within_one false words (fun x y => Nat.leb (length x) (length y)) None 2 2 None "connected_components" =
    Ok [[[97; 98; 99]; [120; 98; 99]]]%N /\
  sorted_neighborhood (fun l => l) within_one false words (fun x y => Nat.leb (length x) (length y)) None 5 2 None "connected_components" =
    Ok [[[97; 98]; [97; 98; 99]; [120; 98; 99]]; [[120; 121]; [120; 121; 122]]]%N.
Proof. repeat split; vm_compute; reflexivity. Qed.
Example collision_ex :
  pairwise_connected_components (fun k k' : list N => true && Base.eqb k k')%bool first_letter words 2 None =
    Ok (key_collision_key (fun _ => true) first_letter words 2 None).
Proof. vm_compute. reflexivity. Qed.

Print Assumptions C100_blocking.
Print Assumptions C100_levenshtein.
Print Assumptions C101_passjoin.
Print Assumptions C101_limited.
Print Assumptions C102_intersection.
Print Assumptions C103_quickjoin.
Print Assumptions C104_neighborhood.
Print Assumptions C104_key.
Print Assumptions C104_keys.
Print Assumptions C105_blocking.
Print Assumptions C105_neighborhood.
Print Assumptions C105_adaptive.
Print Assumptions C105_quickjoin.
Print Assumptions C105_vp_tree.
Print Assumptions C105_laesa.
Print Assumptions C105_minhash.
Print Assumptions C106_duplicates_refuted.
