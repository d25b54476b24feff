(** quickjoin: the clusters, the pivots of Fredriksson and Braithwaite, similarities. *)
From Coq Require Import QArith Qabs String Lqa.
From Verif Require Import Base BaseFacts ClustersModel ClustersSpec ClustersProofs PairwiseModel LevModel LevProofs MinHashProofs QuickJoinModel QuickJoinSpec QuickJoinProofs.
Open Scope nat_scope.
Open Scope list_scope.
Notation length := List.length.

Section Invariant.
Context {A : Type}.
Variable distance : A -> A -> Q.
Variable radius : Q.
Variable P : block A -> Prop.
Hypothesis self_inv : forall s p rho, P (Self s) -> let '(L, G, Lw, Gw) := partition distance radius s p rho in
  P (Cross Lw Gw) /\ P (Self L) /\ P (Self G).
Hypothesis cross_inv : forall s1 s2 p rho, P (Cross s1 s2) ->
  let '(L1, G1, Lw1, Gw1) := partition distance radius s1 p rho in let '(L2, G2, Lw2, Gw2) := partition distance radius s2 p rho in
  P (Cross Gw1 Lw2) /\ P (Cross Lw1 Gw2) /\ P (Cross G1 G2) /\ P (Cross L1 L2).

Lemma blocks_forall beta size fuel stack draws out rest :
  Forall P stack -> blocks distance radius beta size fuel stack draws = Ok (out, rest) -> Forall P out.
Proof.
  revert stack draws out rest. induction fuel as [|fuel IH]; intros [|[s|s1 s2] stack] draws out rest; cbn [blocks]; intros F E;
    try discriminate; try (injection E as <- <-; constructor); apply Forall_cons_iff in F as (F & Fs).
  - destruct (Nat.leb (length s) size).
    + apply bind_ok in E as ((o & r) & E & K). injection K as <- <-. constructor; [exact F|]. eapply IH; eassumption.
    + apply bind_ok in E as ((i1 & d1) & _ & E). apply bind_ok in E as ((i2 & d2) & _ & E). apply bind_ok in E as (p1 & _ & E). apply bind_ok in E as (p2 & _ & E).
      pose proof (self_inv s p1 (beta * distance p1 p2)%Q F) as K. destruct (partition distance radius s p1 (beta * distance p1 p2)) as (((L & G) & Lw) & Gw).
      destruct K as (? & ? & ?). eapply IH; [|exact E]. repeat (constructor; [assumption|]). exact Fs.
  - destruct (Nat.leb (length s1 + length s2) size).
    + destruct (Nat.eqb (length s1) 0 || Nat.eqb (length s2) 0); [eapply IH; eassumption|].
      apply bind_ok in E as ((o & r) & E & K). injection K as <- <-. constructor; [exact F|]. eapply IH; eassumption.
    + apply bind_ok in E as ((i1 & d1) & _ & E). apply bind_ok in E as ((i2 & d2) & _ & E). apply bind_ok in E as (p1 & _ & E). apply bind_ok in E as (p2 & _ & E).
      pose proof (cross_inv s1 s2 p1 (beta * distance p1 p2)%Q F) as K.
      destruct (partition distance radius s1 p1 (beta * distance p1 p2)) as (((L1 & G1) & Lw1) & Gw1).
      destruct (partition distance radius s2 p1 (beta * distance p1 p2)) as (((L2 & G2) & Lw2) & Gw2).
      destruct K as (? & ? & ? & ?). eapply IH; [|exact E]. repeat (constructor; [assumption|]). exact Fs.
Qed.
End Invariant.

Section Components.
Context {A : Type} `{EqDec A}.

Lemma components_same (ps qs : list (A * A)) lo hi out : same_pairs ps qs ->
  is_components (pair_vertex ps) (pair_link ps) lo hi out -> is_components (pair_vertex qs) (pair_link qs) lo hi out.
Proof.
  intros E. apply is_components_ext.
  - intros x. unfold pair_vertex. split; intros (y & [I|I]); exists y;
      apply (same_In _ _ _ E) in I || apply (same_In _ _ _ (same_sym _ _ E)) in I; destruct I as [I|I]; cbn in I; tauto.
  - intros x y. split; apply conn_mono; clear x y; intros x y I.
    + apply (same_In _ _ _ E) in I as [I|I]; [apply Relation_Operators.rst_step; exact I|]. apply Relation_Operators.rst_sym, Relation_Operators.rst_step. exact I.
    + apply (same_In _ _ _ (same_sym _ _ E)) in I as [I|I]; [apply Relation_Operators.rst_step; exact I|]. apply Relation_Operators.rst_sym, Relation_Operators.rst_step. exact I.
Qed.

Variable distance : A -> A -> Q.
Variable radius : Q.
Variable neighbors : list A -> A -> list A.
Variable identity : A -> nat.
Variable unordered : list (list (A * A)) -> list (list (A * A)).
Hypothesis unordered_perm : forall l, Permutation (unordered l) l.

Lemma clustering_spec (f : block A -> list (A * A)) beta size processes vp fuel data draws ps bs rest :
  blocks distance radius beta size fuel [Self data] draws = Ok (bs, rest) ->
  (forall b, In b bs -> exists l, solve distance radius neighbors identity vp b = Ok l /\ same_pairs l (f b)) ->
  clustering distance radius neighbors identity unordered beta size processes vp fuel data draws = Ok ps ->
  same_pairs ps (flat_map f bs).
Proof.
  intros E S. unfold clustering. rewrite E. cbn [bind]. intros C. apply bind_ok in C as (found & M & C). injection C as <-.
  assert (K : Forall2 same_pairs found (map f bs)).
  { clear E. revert found M. induction bs as [|b bs IH]; intros found M; cbn [mapM] in M.
    - injection M as <-. constructor.
    - destruct (S b (or_introl eq_refl)) as (l & El & Sl). rewrite El in M. cbn [bind] in M. apply bind_ok in M as (ls & M & M'). injection M' as <-.
      cbn [map]. constructor; [exact Sl|]. apply IH; [|exact M]. intros c I. apply S. right. exact I. }
  rewrite flat_map_concat_map. eapply same_trans; [|apply same_concat; exact K].
  destruct (Nat.eqb processes 1); [apply same_refl|]. apply same_perm, perm_concat, unordered_perm.
Qed.

(** any measure: without trees, the pairs found are those of the blocks *)
Lemma clustering_blocks beta size processes fuel data draws ps :
  clustering distance radius neighbors identity unordered beta size processes false fuel data draws = Ok ps ->
  exists bs rest, blocks distance radius beta size fuel [Self data] draws = Ok (bs, rest) /\ same_pairs ps (flat_map (block_pairs distance radius) bs).
Proof.
  intros C. pose proof C as C'. unfold clustering in C'. apply bind_ok in C' as ((bs & rest) & B & _). exists bs, rest. split; [exact B|].
  eapply clustering_spec; [exact B| |exact C]. intros [s|s1 s2] _; eexists; cbn [solve block_pairs]; (split; [reflexivity|]).
  - rewrite self_bruteforce_spec. apply same_refl.
  - rewrite bruteforce_spec. apply same_refl.
Qed.

Hypothesis sym : forall x y, (distance x y == distance y x)%Q.
Hypothesis tri : forall x y z, (distance x z <= distance x y + distance y z)%Q.

Lemma clustering_exact beta size processes fuel data draws ps :
  clustering distance radius neighbors identity unordered beta size processes false fuel data draws = Ok ps ->
  same_pairs ps (close_pairs distance radius data).
Proof.
  intros C. apply clustering_blocks in C as (bs & rest & B & S). eapply same_trans; [exact S|].
  eapply same_trans; [eapply blocks_exact; eassumption|]. cbn. rewrite app_nil_r. apply same_refl.
Qed.

Hypothesis neighbors_exact : forall s x, Permutation (neighbors s x) (filter (fun y => Qle_bool (distance x y) radius) s).
Hypothesis identity_inj : forall x y, identity x = identity y -> x = y.

Definition unequal (b : block A) : Prop := match b with Self _ => True | Cross s1 s2 => forall x y, In x s1 -> In y s2 -> x <> y end.

Lemma clustering_vptree beta size processes fuel data draws ps :
  clustering distance radius neighbors identity unordered beta size processes true fuel data draws = Ok ps ->
  same_pairs ps (filter differ (close_pairs distance radius data)).
Proof.
  intros C. pose proof C as C'. unfold clustering in C'. apply bind_ok in C' as ((bs & rest) & B & _).
  assert (U : Forall unequal bs).
  { eapply (blocks_forall distance radius unequal); [| | |exact B].
    - intros s p rho _. rewrite partition_spec. cbn. repeat split. intros x y I J ->.
      apply filter_In in I as (I & _), J as (J & _). apply filter_In in I as (_ & I), J as (_ & J). unfold upper in J. rewrite I in J. discriminate.
    - intros s1 s2 p rho U. rewrite !partition_spec. cbn in *.
      repeat split; intros x y I J; rewrite ?filter_In in I, J; apply U; tauto.
    - repeat constructor. }
  rewrite Forall_forall in U.
  eapply same_trans; [eapply (clustering_spec (fun b => filter differ (block_pairs distance radius b))); [exact B| |exact C]|].
  - intros [s|s1 s2] I; cbn [solve block_pairs].
    + eexists. split; [reflexivity|]. apply self_vptree_spec; assumption.
    + destruct (vptree_spec distance radius neighbors neighbors_exact sym s1 s2) as (l & E & S). exists l. split; [exact E|].
      rewrite (filter_all differ); [exact S|]. intros (x & y) J. apply filter_In in J as (J & _). apply in_prod_iff in J as (J1 & J2).
      unfold differ. cbn. destruct (eq_dec x y) as [e|]; [|reflexivity]. exfalso. exact (U _ I x y J1 J2 e).
  - assert (K : forall bs, flat_map (fun b => filter differ (block_pairs distance radius b)) bs = filter differ (flat_map (block_pairs distance radius) bs)).
    { intros l. induction l as [|b l IH]; [reflexivity|]. cbn [flat_map]. rewrite filter_app, IH. reflexivity. }
    rewrite K. apply same_filter.
    + intros (x & y). unfold differ, swap. cbn. destruct (eq_dec x y), (eq_dec y x); congruence.
    + eapply same_trans; [eapply blocks_exact; eassumption|]. cbn. rewrite app_nil_r. apply same_refl.
Qed.
End Components.

Section Chunks.
Context {A : Type}.
Variable distance : A -> A -> Q.
Variable radius : Q.

Definition self_items (b : block A) : list A := match b with Self s => s | Cross _ _ => [] end.
Definition headless (b : block A) : Prop := match b with Self _ => True | Cross s1 _ => s1 = [] end.

(** with a negative radius, nothing is ever compared across a partition *)
Lemma blocks_chunks beta size fuel stack draws out rest : (radius < 0)%Q -> Forall headless stack ->
  blocks distance radius beta size fuel stack draws = Ok (out, rest) ->
  Permutation (flat_map self_items out) (flat_map self_items stack) /\ forall b, In b out -> exists s, b = Self s /\ length s <= size.
Proof.
  intros R. revert stack draws out rest. induction fuel as [|fuel IH]; intros [|[s|s1 s2] stack] draws out rest; cbn [blocks]; intros F E;
    try discriminate; try (injection E as <- <-; split; [apply perm_nil|intros b []]); apply Forall_cons_iff in F as (F & Fs).
  - destruct (Nat.leb (length s) size) eqn:Z.
    + apply bind_ok in E as ((o & r) & E & K). injection K as <- <-. apply IH in E as (E & O); [|exact Fs]. cbn [flat_map self_items]. split.
      * apply Permutation_app_head. exact E.
      * intros b [<-|I]; [|apply O; exact I]. exists s. split; [reflexivity|]. apply Nat.leb_le. exact Z.
    + apply bind_ok in E as ((i1 & d1) & _ & E). apply bind_ok in E as ((i2 & d2) & _ & E). apply bind_ok in E as (p1 & _ & E). apply bind_ok in E as (p2 & _ & E).
      rewrite partition_spec in E. set (rho := (beta * distance p1 p2)%Q) in *. apply IH in E as (E & O).
      * split; [|exact O]. eapply perm_trans; [exact E|]. cbn [flat_map self_items app]. rewrite app_assoc. apply Permutation_app_tail.
        apply Permutation_sym, (split_filter (lower distance p1 rho)).
      * repeat (constructor; [cbn; try exact Logic.I|]); [|exact Fs]. rewrite filter_and. apply filter_none. intros x _.
        unfold lower, window_l. destruct (Qle_bool rho (distance p1 x)) eqn:B; [reflexivity|]. apply Qle_false in B. cbn.
        destruct (Qle_bool (rho - radius) (distance p1 x)) eqn:C; [|reflexivity]. apply Qle_bool_iff in C. lra.
  - cbn in F. subst s1. cbn [length Nat.add Nat.eqb orb] in E. destruct (Nat.leb (length s2) size).
    + apply IH in E; [|exact Fs]. exact E.
    + apply bind_ok in E as ((i1 & d1) & _ & E). apply bind_ok in E as ((i2 & d2) & _ & E). apply bind_ok in E as (p1 & _ & E). apply bind_ok in E as (p2 & _ & E).
      rewrite !partition_spec in E. apply IH in E; [exact E|]. repeat (constructor; [reflexivity|]). exact Fs.
Qed.
End Chunks.

Section Pivots.
Context {A : Type}.
Variable distance : A -> A -> Q.
Variable radius : Q.
Variable s1 s2 : list A.
Variable dft : A.
Let n2 := length s2.
Let dist (i j : nat) : Q := distance (nth i s1 dft) (nth j s2 dft).
Let found (i j : nat) : list (A * A) := if Qle_bool (dist i j) radius then [(nth i s1 dft, nth j s2 dft)] else [].

Lemma index_nth (l : list A) i : i < length l -> index l i = Ok (nth i l dft).
Proof. intros L. unfold index. rewrite (nth_error_nth' _ dft L). reflexivity. Qed.
Lemma index_nth' (l : list Q) i : i < length l -> index l i = Ok (nth i l 0%Q).
Proof. intros L. unfold index. rewrite (nth_error_nth' _ 0%Q L). reflexivity. Qed.

Definition fill_row (i : nat) (a : A) (acc : res (list Q * list (A * A))) (j : nat) : res (list Q * list (A * A)) :=
  let! (P, out) := acc in
  let! b := index s2 j in
  let d := distance a b in
  if Nat.ltb (i * n2 + j) (length P) then Ok (upd P (i * n2 + j) d, out ++ (if Qle_bool d radius then [(a, b)] else [])) else Err IndexError.

Lemma row_spec k i js : forall P out, i < k -> length P = n2 * k -> (forall j, In j js -> j < n2) ->
  exists P', fold_left (fill_row i (nth i s1 dft)) js (Ok (P, out)) = Ok (P', out ++ flat_map (found i) js) /\
    length P' = n2 * k /\ (forall j, In j js -> nth (i * n2 + j) P' 0%Q = dist i j) /\
    (forall pos, (forall j, In j js -> pos <> i * n2 + j) -> nth pos P' 0%Q = nth pos P 0%Q).
Proof.
  induction js as [|j js IH]; intros P out I L J; cbn [fold_left flat_map].
  - exists P. rewrite app_nil_r. repeat split; [assumption|intros ? []].
  - assert (B : i * n2 + j < length P). { rewrite L. specialize (J j (or_introl eq_refl)). nia. }
    unfold fill_row at 2. cbn [bind]. rewrite index_nth by (apply J; left; reflexivity). cbn [bind].
    replace (Nat.ltb (i * n2 + j) (length P)) with true by (symmetry; apply Nat.ltb_lt; exact B).
    destruct (IH (upd P (i * n2 + j) (dist i j)) (out ++ found i j) I) as (P' & E & L' & G & O).
    + rewrite LevProofs.upd_length. exact L.
    + intros j' I'. apply J. right. exact I'.
    + exists P'. split; [rewrite app_assoc; exact E|]. split; [exact L'|]. split.
      * intros j' I'. destruct (in_dec Nat.eq_dec j' js) as [K|K]; [apply G; exact K|]. destruct I' as [<-|I']; [|contradiction].
        rewrite O by (intros j' I' D; assert (j' = j) by lia; subst j'; contradiction). rewrite LevProofs.nth_upd, Nat.eqb_refl.
        replace (Nat.ltb (i * n2 + j) (length P)) with true by (symmetry; apply Nat.ltb_lt; exact B). reflexivity.
      * intros pos D. rewrite O by (intros j' I'; apply D; right; exact I'). rewrite LevProofs.nth_upd.
        replace (Nat.eqb pos (i * n2 + j)) with false; [reflexivity|]. symmetry. apply Nat.eqb_neq, D. left. reflexivity.
Qed.

Lemma cell_unique i j i' j' : j < n2 -> j' < n2 -> i * n2 + j = i' * n2 + j' -> i = i'.
Proof.
  intros J J' E. rewrite (Nat.div_unique (i * n2 + j) n2 i j) by lia. rewrite (Nat.div_unique (i' * n2 + j') n2 i' j') by lia. rewrite E. reflexivity.
Qed.

Lemma rows_spec k is : forall P out, (forall i, In i is -> i < k /\ i < length s1) -> length P = n2 * k ->
  exists P', fold_left (fun acc i => let! (P, out) := acc in let! a := index s1 i in fold_left (fill_row i a) (seq 0 n2) (Ok (P, out))) is (Ok (P, out))
      = Ok (P', out ++ flat_map (fun i => flat_map (found i) (seq 0 n2)) is) /\
    length P' = n2 * k /\ (forall i j, In i is -> j < n2 -> nth (i * n2 + j) P' 0%Q = dist i j) /\
    (forall pos, (forall i j, In i is -> j < n2 -> pos <> i * n2 + j) -> nth pos P' 0%Q = nth pos P 0%Q).
Proof.
  induction is as [|i is IH]; intros P out I L; cbn [fold_left flat_map].
  - exists P. rewrite app_nil_r. repeat split; [assumption|intros ? ? []].
  - destruct (I i (or_introl eq_refl)) as (Ik & Is). cbn [bind]. rewrite index_nth by exact Is. cbn [bind].
    destruct (row_spec k i (seq 0 n2) P out Ik L) as (P1 & E1 & L1 & G1 & O1); [intros j J; apply in_seq in J; lia|]. rewrite E1.
    destruct (IH P1 (out ++ flat_map (found i) (seq 0 n2))) as (P' & E & L' & G & O); [intros i' I'; apply I; right; exact I'|exact L1|].
    exists P'. split; [rewrite app_assoc; exact E|]. split; [exact L'|]. split.
    + intros i' j I' J. destruct (in_dec Nat.eq_dec i' is) as [K|K]; [apply G; assumption|]. destruct I' as [<-|I']; [|contradiction].
      rewrite O by (intros i' j' I' J' D; apply cell_unique in D; try assumption; subst i'; contradiction). apply G1. apply in_seq. lia.
    + intros pos D. rewrite O by (intros i' j' I' J'; apply D; [right; exact I'|exact J']). apply O1. intros j J. apply in_seq in J. apply D; [left; reflexivity|lia].
Qed.

Lemma pivot_distances_spec k : k <= length s1 ->
  exists P, pivot_distances distance radius s1 s2 k = Ok (P, flat_map (fun i => flat_map (found i) (seq 0 n2)) (seq 0 k)) /\
    length P = n2 * k /\ (forall i j, i < k -> j < n2 -> nth (i * n2 + j) P 0%Q = dist i j).
Proof.
  intros K. destruct (rows_spec k (seq 0 k) (repeat 0%Q (n2 * k)) []) as (P & E & L & G & _).
  - intros i I. apply in_seq in I. lia.
  - apply repeat_length.
  - exists P. split; [exact E|]. split; [exact L|]. intros i j I J. apply G; [apply in_seq; lia|exact J].
Qed.

Hypothesis sym : forall x y, (distance x y == distance y x)%Q.
Hypothesis tri : forall x y z, (distance x z <= distance x y + distance y z)%Q.

Lemma discarded_spec P k i j ls : length P = n2 * k -> (forall i j, i < k -> j < n2 -> nth (i * n2 + j) P 0%Q = dist i j) ->
  j < n2 -> (forall l, In l ls -> l < k) ->
  exists f, discarded radius P (map (fun l => distance (nth l s1 dft) (nth i s1 dft)) (seq 0 k)) n2 j ls = Ok f /\ (f = true -> Qle_bool (dist i j) radius = false).
Proof.
  intros L G J. induction ls as [|l ls IH]; intros I; cbn [discarded].
  - exists false. split; [reflexivity|discriminate].
  - assert (Il : l < k) by (apply I; left; reflexivity).
    rewrite index_nth' by (rewrite L; nia). cbn [bind]. rewrite index_nth' by (rewrite map_length, seq_length; exact Il). cbn [bind]. rewrite G by assumption.
    set (h := fun l0 => distance (nth l0 s1 dft) (nth i s1 dft)).
    replace (nth l (map h (seq 0 k)) 0%Q) with (h l).
    2:{ rewrite (nth_indep _ 0%Q (h 0)) by (rewrite map_length, seq_length; exact Il). rewrite (map_nth h). rewrite seq_nth by exact Il. reflexivity. }
    unfold h, dist. destruct (Qle_bool (Qabs _) radius) eqn:B; cbn [negb].
    + apply IH. intros l' I'. apply I. right. exact I'.
    + exists true. split; [reflexivity|]. intros _. apply Qle_false in B. destruct (Qle_bool (distance (nth i s1 dft) (nth j s2 dft)) radius) eqn:C; [|reflexivity].
      apply Qle_bool_iff in C. exfalso. apply (Qlt_not_le _ _ B). apply Qabs_Qle_condition.
      pose proof (tri (nth l s1 dft) (nth i s1 dft) (nth j s2 dft)) as T1. pose proof (tri (nth l s1 dft) (nth j s2 dft) (nth i s1 dft)) as T2.
      pose proof (sym (nth i s1 dft) (nth j s2 dft)) as S. split; lra.
Qed.

Lemma brute_positions : quickjoin_bruteforce distance radius s1 s2 = flat_map (fun i => flat_map (found i) (seq 0 n2)) (seq 0 (length s1)).
Proof.
  unfold quickjoin_bruteforce. rewrite <- (map_nth_seq s1 dft) at 1. rewrite (flat_map_concat_map _ (map _ _)), map_map, <- flat_map_concat_map.
  apply flat_map_ext. intros i. rewrite <- (map_nth_seq s2 dft) at 1. rewrite (flat_map_concat_map _ (map _ _)), map_map, <- flat_map_concat_map. reflexivity.
Qed.

Lemma join_pivots_spec : s1 <> [] -> quickjoin_join_pivots distance radius s1 s2 = Ok (quickjoin_bruteforce distance radius s1 s2).
Proof.
  intros N. unfold quickjoin_join_pivots. set (k := Nat.max 1 (Nat.min 16 (length s1 / 8))).
  assert (K : k <= length s1).
  { unfold k. assert (length s1 <> 0) by (destruct s1; [congruence|discriminate]). pose proof (Nat.div_le_upper_bound (length s1) 8 (length s1)). lia. }
  destruct (pivot_distances_spec k K) as (P & E & L & G). rewrite E. cbn [bind].
  rewrite (mapM_map_ok _ (fun i => flat_map (found i) (seq 0 n2))).
  - cbn [bind]. f_equal. rewrite <- flat_map_concat_map, brute_positions, <- flat_map_app. f_equal. rewrite <- seq_app. f_equal. lia.
  - intros i I. apply in_seq in I. rewrite index_nth by lia. cbn [bind].
    rewrite (mapM_map_ok _ (fun l => distance (nth l s1 dft) (nth i s1 dft))).
    2:{ intros l Il. apply in_seq in Il. rewrite index_nth by lia. reflexivity. }
    cbn [bind]. rewrite (mapM_map_ok _ (found i)).
    + cbn [bind]. rewrite <- flat_map_concat_map. reflexivity.
    + intros j J. apply in_seq in J. rewrite index_nth by (fold n2; lia). cbn [bind].
      destruct (discarded_spec P k i j (seq 0 k) L G) as (f & F & D); [lia|intros l Il; apply in_seq in Il; lia|].
      fold n2. rewrite F. cbn [bind]. unfold found. fold (dist i j). destruct f; [rewrite (D eq_refl); reflexivity|]. cbn [negb andb]. reflexivity.
Qed.
End Pivots.
