(** C23, C85, C86, C87: quickjoin *)
From Coq Require Import QArith Qabs String Lqa.
From Verif Require Import Base BaseFacts ClustersModel ClustersSpec ClustersProofs PairwiseModel LevModel MetricsModel StringsModel QuickJoinModel QuickJoinSpec QuickJoinProofs QuickJoinClusterProofs QuickJoinEndProofs.
Open Scope nat_scope.
Open Scope list_scope.
Notation length := List.length.

Section Props.
Context {A : Type} `{EqDec A}.
Variable distance : A -> A -> Q.
Variable set_order : list A -> list A.
Hypothesis set_order_perm : forall l, Permutation (set_order l) l.
Variable neighbors : (A -> A -> Q) -> Q -> list A -> A -> list A.
Variable identity : A -> nat.
Variable unordered : list (list (A * A)) -> list (list (A * A)).
Hypothesis unordered_perm : forall l, Permutation (unordered l) l.

Lemma quickjoin_pairs fuel draws data radius size lo hi processes beta vp ps out :
  (forall qs, clustering distance radius (neighbors distance radius) identity unordered beta size processes vp fuel data draws = Ok qs -> same_pairs qs ps) ->
  quickjoin set_order neighbors identity unordered fuel draws data radius (Distance distance) size lo hi "connected_components" processes beta vp = Ok out ->
  is_components (pair_vertex ps) (pair_link ps) lo hi out.
Proof.
  intros C Q. unfold quickjoin in Q. apply bind_ok in Q as (qs & E & Q).
  destruct (clusters_from_pairs_components set_order set_order_perm qs lo hi true) as (o & F & K). rewrite F in Q. injection Q as <-.
  eapply components_same; [|exact K]. apply C. exact E.
Qed.

(** C23: whatever is drawn, if quickjoin ends, then its blocks have held each close pair of items once *)
Theorem C23_pairs fuel draws data radius size processes beta ps : semimetric distance ->
  clustering distance radius (neighbors distance radius) identity unordered beta size processes false fuel data draws = Ok ps ->
  same_pairs ps (close_pairs distance radius data).
Proof. intros M. exact (clustering_exact distance radius (neighbors distance radius) identity unordered unordered_perm (symmetric _ M) (triangle _ M) beta size processes fuel data draws ps). Qed.

(** C23: then its clusters are the components of the close pairs *)
Theorem C23_components fuel draws data radius size lo hi processes beta out : semimetric distance ->
  quickjoin set_order neighbors identity unordered fuel draws data radius (Distance distance) size lo hi "connected_components" processes beta false = Ok out ->
  is_components (pair_vertex (close_pairs distance radius data)) (pair_link (close_pairs distance radius data)) lo hi out.
Proof.
  intros M. apply quickjoin_pairs. intros qs. apply C23_pairs. exact M.
Qed.

(** C23: the same with trees, whose queries are exact, but for pairs of equal items *)
Theorem C23_vptree fuel draws data radius size lo hi processes beta out : semimetric distance ->
  (forall s x, Permutation (neighbors distance radius s x) (filter (fun y => Qle_bool (distance x y) radius) s)) ->
  (forall x y, identity x = identity y -> x = y) ->
  let pairs := filter (fun p => if eq_dec (fst p) (snd p) then false else true) (close_pairs distance radius data) in
  quickjoin set_order neighbors identity unordered fuel draws data radius (Distance distance) size lo hi "connected_components" processes beta true = Ok out ->
  is_components (pair_vertex pairs) (pair_link pairs) lo hi out.
Proof.
  intros M N I pairs. apply quickjoin_pairs. intros qs.
  exact (clustering_vptree distance radius (neighbors distance radius) identity unordered unordered_perm (symmetric _ M) (triangle _ M) N I beta size processes fuel data draws qs).
Qed.

Lemma solve_total radius vp b : exists l, solve distance radius (neighbors distance radius) identity vp b = Ok l.
Proof.
  destruct b as [s|s1 s2]; cbn; [eauto|]. destruct vp; [|eauto]. unfold quickjoin_vptree. destruct (Nat.ltb _ _); (destruct (Nat.eqb _ 1) eqn:E; [|eauto]); apply Nat.eqb_eq in E;
  [destruct s2|destruct s1]; try discriminate; cbn; eauto.
Qed.
Lemma quickjoin_ends fuel draws data radius size lo hi processes beta vp :
  (exists bs rest, blocks distance radius beta size fuel [Self data] draws = Ok (bs, rest)) <->
  (exists out, quickjoin set_order neighbors identity unordered fuel draws data radius (Distance distance) size lo hi "connected_components" processes beta vp = Ok out).
Proof.
  unfold quickjoin, clustering. split.
  - intros (bs & rest & E). rewrite E. cbn [bind].
    assert (F : exists found, mapM (solve distance radius (neighbors distance radius) identity vp) bs = Ok found).
    { clear E. induction bs as [|b bs (f & IH)]; cbn; [eauto|]. destruct (solve_total radius vp b) as (l & ->). cbn [bind]. rewrite IH. cbn. eauto. }
    destruct F as (found & ->). cbn [bind]. match goal with |- context [clusters_from_pairs _ ?p] => destruct (clusters_from_pairs_components set_order set_order_perm p lo hi true) as (o & -> & _) end. eauto.
  - intros (out & E). apply bind_ok in E as (ps & E & _). apply bind_ok in E as ((bs & rest) & E & _). eauto.
Qed.

(** C85: quickjoin can always still end, whatever was drawn before, exactly when no two items within the radius (maybe twice
    the same) come in more copies than a block holds *)
Theorem C85_ends data radius size lo hi processes vp : semimetric distance -> (0 <= radius)%Q ->
  (forall draws, exists more fuel out,
    quickjoin set_order neighbors identity unordered fuel (draws ++ more) data radius (Distance distance) size lo hi "connected_components" processes 1 vp = Ok out)
  <-> sparse distance radius size data.
Proof.
  intros M R. split.
  - intros E x y I J D. destruct (Nat.le_gt_cases (crowd distance x y data) size) as [L|L]; [exact L|exfalso].
    destruct (E []) as (more & fuel & K). apply quickjoin_ends in K as (bs & rest & K).
    rewrite (endless distance radius 1 size (reflexive _ M) (symmetric _ M) (triangle _ M) x y D) in K; [discriminate|]. apply Exists_cons_hd. exact L.
  - intros S draws.
    destruct (may_end distance radius 1 size (reflexive _ M) (symmetric _ M) (triangle _ M) (Qeq_refl 1) R data S (length draws) [Self data] draws (Nat.le_refl _)) as (more & fuel & bs & rest & E).
    + constructor; [|constructor]. exists []. rewrite app_nil_r. apply Permutation_refl.
    + exists more, fuel. apply quickjoin_ends. eauto.
Qed.

(** C85: otherwise it never ends, whatever is drawn and for every beta *)
Theorem C85_endless fuel draws data radius size lo hi mode processes beta vp x y : semimetric distance ->
  In x data -> In y data -> (distance x y <= radius)%Q -> size < crowd distance x y data ->
  quickjoin set_order neighbors identity unordered fuel draws data radius (Distance distance) size lo hi mode processes beta vp = Err OutOfFuel.
Proof.
  intros M I J D C. unfold quickjoin, clustering.
  rewrite (endless distance radius beta size (reflexive _ M) (symmetric _ M) (triangle _ M) x y D fuel [Self data] draws); [reflexivity|]. apply Exists_cons_hd. exact C.
Qed.

(** C86: with a similarity and a positive radius, the items are cut in blocks, and what lies in different blocks is never compared *)
Theorem C86_similarity fuel draws data radius size lo hi processes beta out : (0 < radius)%Q ->
  quickjoin set_order neighbors identity unordered fuel draws data radius (Similarity distance) size lo hi "connected_components" processes beta false = Ok out ->
  exists chunks, Permutation (concat chunks) data /\ (forall c, In c chunks -> length c <= size) /\
    let pairs := flat_map (fun c => filter (fun p => Qle_bool radius (distance (fst p) (snd p))) (ordered_pairs c)) chunks in
    is_components (pair_vertex pairs) (pair_link pairs) lo hi out.
Proof.
  intros R Q. unfold quickjoin in Q. apply bind_ok in Q as (qs & E & Q).
  destruct (clusters_from_pairs_components set_order set_order_perm qs lo hi true) as (o & F & K). rewrite F in Q. injection Q as <-.
  apply (clustering_blocks _ _ _ _ _ unordered_perm) in E as (bs & rest & B & S).
  pose proof (blocks_chunks (fun x y => - distance x y)%Q (- radius)%Q beta size fuel [Self data] draws bs rest) as C. destruct C as (P & T); [lra|repeat constructor|exact B|].
  exists (map self_items bs). cbn in P. rewrite app_nil_r in P. rewrite <- flat_map_concat_map. split; [exact P|]. split.
  - intros c I. apply in_map_iff in I as (b & <- & I). destruct (T b I) as (s & -> & L). exact L.
  - intros pairs. eapply components_same; [|exact K]. eapply same_trans; [exact S|].
    unfold pairs. rewrite (flat_map_concat_map _ (map self_items bs)), map_map, <- flat_map_concat_map.
    replace (flat_map (block_pairs (fun x y => - distance x y)%Q (- radius)%Q) bs) with (flat_map (fun b => filter (fun p => Qle_bool radius (distance (fst p) (snd p))) (ordered_pairs (self_items b))) bs); [apply same_refl|].
    clear -T. induction bs as [|b bs IH]; [reflexivity|]. cbn [flat_map]. rewrite IH by (intros c I; apply T; right; exact I). f_equal.
    destruct (T b (or_introl eq_refl)) as (s & -> & _). cbn. unfold close_pairs. apply filter_equal. intros p _. unfold close.
    destruct (Qle_bool radius _) eqn:X, (Qle_bool (- _) _) eqn:Y; try reflexivity; rewrite ?Qle_bool_iff in *; [apply Qle_false in Y|apply Qle_false in X]; lra.
Qed.

(** C86: it is exact on at most as many items as a block holds *)
Theorem C86_single fuel draws data radius size lo hi processes beta : length data <= size -> 0 < fuel ->
  exists out, quickjoin set_order neighbors identity unordered fuel draws data radius (Similarity distance) size lo hi "connected_components" processes beta false = Ok out /\
    let pairs := filter (fun p => Qle_bool radius (distance (fst p) (snd p))) (ordered_pairs data) in
    is_components (pair_vertex pairs) (pair_link pairs) lo hi out.
Proof.
  intros L F. destruct fuel as [|fuel]; [lia|]. unfold quickjoin.
  assert (B : blocks (fun x y => - distance x y)%Q (- radius)%Q beta size (S fuel) [Self data] draws = Ok ([Self data], draws)).
  { cbn [blocks]. apply Nat.leb_le in L. rewrite L. destruct fuel; reflexivity. }
  assert (C : exists qs, clustering (fun x y => - distance x y)%Q (- radius)%Q (neighbors (fun x y => - distance x y)%Q (- radius)%Q) identity unordered beta size processes false (S fuel) data draws = Ok qs).
  { unfold clustering. rewrite B. cbn. eauto. }
  destruct C as (qs & C). rewrite C. cbn [bind]. apply (clustering_blocks _ _ _ _ _ unordered_perm) in C as (bs & rest & B' & S). rewrite B in B'. injection B' as <- <-.
  destruct (clusters_from_pairs_components set_order set_order_perm qs lo hi true) as (o & E & K). exists o. split; [exact E|].
  cbv zeta. eapply components_same; [|exact K]. eapply same_trans; [exact S|]. cbn. rewrite app_nil_r. unfold close_pairs.
  erewrite filter_equal; [apply same_refl|]. intros p _. unfold close.
  destruct (Qle_bool radius _) eqn:X, (Qle_bool (- _) _) eqn:Y; try reflexivity; rewrite ?Qle_bool_iff in *; try (apply Qle_false in X); try (apply Qle_false in Y); lra.
Qed.

(** C87: the pivots of Fredriksson and Braithwaite lose nothing, and keep the order *)
Theorem C87_pivots radius s1 s2 : semimetric distance -> s1 <> [] ->
  quickjoin_join_pivots distance radius s1 s2 = Ok (filter (fun p => Qle_bool (distance (fst p) (snd p)) radius) (list_prod s1 s2)).
Proof.
  intros M N. destruct s1 as [|x s1]; [congruence|].
  rewrite (join_pivots_spec distance radius (x :: s1) s2 x (symmetric _ M) (triangle _ M)) by discriminate. rewrite bruteforce_spec. reflexivity.
Qed.
(** C87: but need a first item *)
Theorem C87_empty radius s2 : quickjoin_join_pivots distance radius [] s2 = Err IndexError.
Proof. reflexivity. Qed.
End Props.

Definition gap (x y : nat) : Q := inject_Z (Z.abs (Z.of_nat x - Z.of_nat y)).
Example gap_metric : semimetric gap.
Proof.
  split; intros; unfold gap.
  - rewrite Z.sub_diag. reflexivity.
  - replace (Z.abs (Z.of_nat x - Z.of_nat y)) with (Z.abs (Z.of_nat y - Z.of_nat x)) by lia. apply Qeq_refl.
  - rewrite <- inject_Z_plus, <- Zle_Qle. lia.
Qed.
Definition id_order {A} (l : list A) : list A := l.
(** exact trees *)
Definition trees {A} (d : A -> A -> Q) (r : Q) (s : list A) (x : A) : list A := filter (fun y => Qle_bool (d x y) r) s.
Definition on_numbers draws data radius size vp : res (list (list nat)) :=
  quickjoin id_order trees (fun x => x) id_order 100 draws data radius (Distance gap) size 2 None "connected_components" 1 1 vp.

(** C23: 501 copies of an item are never cut into blocks of at most 500 *)
Theorem C23_terminates_refuted : forall fuel draws,
  quickjoin id_order trees (fun x => x) id_order fuel draws (repeat 0 501) 1 (Distance gap) 500 2 None "connected_components" 1 1 false = Err OutOfFuel.
Proof.
  intros fuel draws. apply (C85_endless gap id_order trees (fun x => x) id_order) with (x := 0) (y := 0).
  - exact gap_metric.
  - left. reflexivity.
  - left. reflexivity.
  - unfold Qle. cbn. lia.
  - vm_compute. lia.
Qed.

(** two copies of two items within the radius of each other do not fit in blocks of 3 *)
Example no_end fuel draws :
  quickjoin id_order trees (fun x => x) id_order fuel draws [0; 1; 0; 1] 1 (Distance gap) 3 2 None "connected_components" 1 1 false = Err OutOfFuel.
Proof.
  apply (C85_endless gap id_order trees (fun x => x) id_order) with (x := 0) (y := 1).
  - exact gap_metric.
  - left. reflexivity.
  - right. left. reflexivity.
  - unfold Qle. cbn. lia.
  - vm_compute. lia.
Qed.
Example an_end : sparse gap 1 2 [0; 1; 5; 9; 10].
Proof.
  intros x y I J _.
  assert (K : forallb (fun x => forallb (fun y => negb (Qle_bool (gap x y) 1) || Nat.leb (crowd gap x y [0; 1; 5; 9; 10]) 2) [0; 1; 5; 9; 10]) [0; 1; 5; 9; 10] = true) by (vm_compute; reflexivity).
  cbn in I, J. repeat (destruct I as [<-|I]; [repeat (destruct J as [<-|J]; [vm_compute; lia|]); contradiction|]). contradiction.
Qed.
Example small_blocks : map (fun draws => on_numbers draws [0; 1; 5; 9; 10] 1 2 false) [[2; 0; 0; 1; 0; 1; 0; 1]; [4; 4; 4; 0; 1; 0; 0; 1; 1; 0; 1; 0; 1]] = [Ok [[9; 10]; [1; 0]]; Ok [[1; 0]; [9; 10]]].
Proof. vm_compute. reflexivity. Qed.
Example small_blocks_vp : on_numbers [2; 0; 0; 1; 0; 1; 0; 1] [0; 1; 5; 9; 10] 1 2 true = Ok [[10; 9]; [0; 1]].
Proof. vm_compute. reflexivity. Qed.

(** test/clustering/quickjoin_test.py *)
Definition names : list str := map codes ["Mister Hyde"; "Mister Hide"; "Claudia Loc"; "Cladia Loc"]%string.
Example basics : quickjoin id_order trees (fun _ => 0) id_order 1 [] names 1 (Distance (fun x y => inject_Z (Z.of_nat (levenshtein_distance x y)))) 500 2 None "connected_components" 1 1 false
  = Ok [map codes ["Mister Hyde"; "Mister Hide"]; map codes ["Claudia Loc"; "Cladia Loc"]]%string.
Proof. vm_compute. reflexivity. Qed.

(** C23: with a similarity, blocks of 2 miss a pair that compares above the radius *)
Definition on_sets draws data radius size : res (list (list (list nat))) :=
  quickjoin id_order trees (fun _ => 0) id_order 100 draws data radius (Similarity (jaccard_similarity false)) size 2 None "connected_components" 1 1 false.
Theorem C23_similarity_refuted :
  let x := [1; 2; 3; 4; 5] in let y := [1; 2; 3; 4; 5; 6] in let z := [1; 2; 3] in
  (4 # 5 <= jaccard_similarity false x y)%Q /\ on_sets [2; 1] [x; y; z] (4 # 5) 2 = Ok [] /\ on_sets [0; 2] [x; y; z] (4 # 5) 2 = Ok [[x; y]].
Proof. cbv zeta. split; [vm_compute; discriminate|]. split; vm_compute; reflexivity. Qed.
Example similarity_single : on_sets [] [[1; 2; 3; 4; 5]; [1; 2; 3; 4; 5; 6]; [1; 2; 3]] (4 # 5) 500 = Ok [[[1; 2; 3; 4; 5]; [1; 2; 3; 4; 5; 6]]].
Proof. vm_compute. reflexivity. Qed.

Example pivots : quickjoin_join_pivots gap 1 [0; 1; 5; 9] [1; 8; 5] = Ok [(0, 1); (1, 1); (5, 5); (9, 8)].
Proof. vm_compute. reflexivity. Qed.

Print Assumptions C23_pairs.
Print Assumptions C23_components.
Print Assumptions C23_vptree.
Print Assumptions C85_ends.
Print Assumptions C85_endless.
Print Assumptions C86_similarity.
Print Assumptions C86_single.
Print Assumptions C87_pivots.
Print Assumptions C87_empty.
Print Assumptions C23_terminates_refuted.
Print Assumptions C23_similarity_refuted.
