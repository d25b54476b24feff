(** More proofs about the calls of the user's function: workers, functions that merge pairs. *)
From Coq Require Import String Sorted.
From Verif Require Import Base BaseFacts ClustersModel ClustersSpec ClustersProofs PairwiseModel PairwiseSpec PairwiseProofs
  SortModel BlockingModel BlockingSpec BlockingProofs NeighborhoodModel NeighborhoodProofs CallsModel CallsSpec CallsProofs.
From Verif Require Import LevKeysProofs.
From Verif Require StringsProofs EditSpec EditFacts EditFacts PassJoinModel PassJoinSpec PassJoinProofs LevModel.
Open Scope nat_scope.
Open Scope string_scope.
Open Scope list_scope.
Notation length := List.length.
Notation concat := List.concat.

(** ** Workers *)
Section Workers.
Context {A K : Type}.

Lemma worker_list_cells (rows cols : list K) oi oj :
  map (fun ab => (oi + fst (fst ab), oj + fst (snd ab))) (if Nat.eqb oi oj then upper_pairs rows else cross_pairs rows cols)
  = chunk_cells (rows, cols, oi, oj).
Proof.
  unfold chunk_cells. destruct (Nat.eqb oi oj).
  - change (fun ab : (nat * K) * (nat * K) => (oi + fst (fst ab), oj + fst (snd ab))) with
      (fun ab : (nat * K) * (nat * K) => (fun ij => (oi + fst ij, oj + snd ij)) ((fun ab => (fst (fst ab), fst (snd ab))) ab)).
    rewrite <- map_map, upper_pairs_cells. unfold cells. rewrite !flat_map_concat_map, concat_map, map_map. f_equal.
    apply map_ext. intros i. rewrite map_map. reflexivity.
  - unfold cross_pairs, enumerate. rewrite !flat_map_concat_map, concat_map, map_map.
    transitivity (concat (map (fun i => map (fun j => (oi + i, oj + j)) (seq 0 (length cols))) (map fst (combine (seq 0 (length rows)) rows)))).
    + rewrite map_map. f_equal. apply map_ext. intros [i a]. rewrite map_map. cbn [fst snd].
      rewrite <- (map_fst_enum cols 0) at 2. rewrite map_map. reflexivity.
    + rewrite map_fst_enum. reflexivity.
Qed.

Lemma serial_matches_cells (similarity : K -> K -> bool) (keys : list K) n : length keys = n ->
  serial_matches similarity keys =
  select (cells n) (map (fun q => similarity (fst q) (snd q)) (at_cells keys (cells n))).
Proof.
  intros <-. rewrite <- upper_pairs_values, map_map. rewrite <- upper_pairs_cells, select_map_fst, select_map. reflexivity.
Qed.

Lemma worker_prog_run {W} (f : user W) w rows cols oi oj :
  run f w (worker_prog (rows, cols, oi, oj) : prog (K * K) bool (list A) _) =
  match feed f w (map value_pair (if Nat.eqb oi oj then upper_pairs rows else cross_pairs rows cols)) with
  | (answers, w, None) =>
    (map Asked (map value_pair (if Nat.eqb oi oj then upper_pairs rows else cross_pairs rows cols)), w,
     Ok (select (chunk_cells (rows, cols, oi, oj)) answers))
  | (answers, w, Some e) =>
    (map Asked (firstn (S (length answers)) (map value_pair (if Nat.eqb oi oj then upper_pairs rows else cross_pairs rows cols))), w, Err e)
  end.
Proof.
  unfold worker_prog.
  rewrite (run_asks f value_pair (fun pairs ab similar =>
    if similar then pairs ++ [(oi + fst (fst ab), oj + fst (snd ab))] else pairs)).
  destruct (feed f w _) as [[answers w'] [e|]]; [reflexivity|]. repeat f_equal.
  rewrite (fold_select (fun ab : (nat * K) * (nat * K) => (oi + fst (fst ab), oj + fst (snd ab)))). cbn [app].
  rewrite <- select_map_fst, worker_list_cells. reflexivity.
Qed.

Lemma worker_values (keys : list K) c chunks rows cols oi oj : 1 <= c ->
  upper_triangular_matrix_chunk_iter keys c = Ok chunks -> In (rows, cols, oi, oj) chunks ->
  map value_pair (if Nat.eqb oi oj then upper_pairs rows else cross_pairs rows cols) =
  at_cells keys (chunk_cells (rows, cols, oi, oj)).
Proof.
  intros Hc E Hin. destruct (chunks_contents keys c chunks rows cols oi oj Hc E Hin) as [Er Ec].
  rewrite <- worker_list_cells.
  assert (H : forall ab, In ab (if Nat.eqb oi oj then upper_pairs rows else cross_pairs rows cols) ->
    nth_error keys (oi + fst (fst ab)) = Some (snd (fst ab)) /\ nth_error keys (oj + fst (snd ab)) = Some (snd (snd ab))).
  { intros [[i a] [j b]] H. cbn [fst snd].
    assert (G : forall o i a, nth_error (slice o (o + c) keys) i = Some a -> nth_error keys (o + i) = Some a).
    { intros o i' a'. rewrite nth_error_slice'. destruct (Nat.ltb i' c); [auto|discriminate]. }
    destruct (Nat.eqb_spec oi oj) as [->|Hne].
    - apply In_upper_pairs in H as (_ & Ha & Hb). subst rows. split; apply G; assumption.
    - apply In_cross_pairs in H as (Ha & Hb). subst rows cols. split; apply G; assumption. }
  unfold at_cells. rewrite flat_map_concat_map, map_map.
  clear Hin Er. revert H. generalize (if Nat.eqb oi oj then upper_pairs rows else cross_pairs rows cols). intros l H.
  induction l as [|ab l IH]; [reflexivity|].
  cbn [map concat]. destruct (H ab (or_introl eq_refl)) as [Ha Hb]. cbn [fst snd]. rewrite Ha, Hb. cbn [app]. f_equal.
  apply IH. intros ab' H'. apply H. right. exact H'.
Qed.

Lemma worker_talks {W} (f : user W) w (keys : list K) c chunks chunk : 1 <= c ->
  upper_triangular_matrix_chunk_iter keys c = Ok chunks -> In chunk chunks ->
  run f w (worker_prog chunk : prog (K * K) bool (list A) _) =
  match feed f w (at_cells keys (chunk_cells chunk)) with
  | (answers, w, None) => (map Asked (at_cells keys (chunk_cells chunk)), w, Ok (select (chunk_cells chunk) answers))
  | (answers, w, Some e) => (map Asked (firstn (S (length answers)) (at_cells keys (chunk_cells chunk))), w, Err e)
  end.
Proof.
  intros Hc E Hin. destruct chunk as [[[rows cols] oi] oj]. rewrite worker_prog_run, (worker_values keys c chunks) by assumption.
  reflexivity.
Qed.

Lemma chunks_permutation (keys : list K) c chunks : 1 <= c -> upper_triangular_matrix_chunk_iter keys c = Ok chunks ->
  Permutation (flat_map chunk_cells chunks) (cells (length keys)).
Proof.
  intros Hc E. destruct (chunks_cover keys c chunks Hc E) as [Hn Hi]. apply NoDup_Permutation; [exact Hn|apply NoDup_cells|].
  intros [i j]. rewrite Hi, In_cells. tauto.
Qed.
End Workers.

(** ** The complexity of the connected components *)
Definition to_last (n : nat) (a b : nat) : bool := Nat.eqb b (n - 1).

Lemma nth_error_seq0 n i x : nth_error (seq 0 n) i = Some x <-> x = i /\ i < n.
Proof.
  split.
  - intros H. assert (i < n). { rewrite <- (seq_length n 0). apply nth_error_Some. congruence. }
    rewrite (nth_error_nth' _ 0) in H by (rewrite seq_length; lia). rewrite seq_nth in H by lia. cbn in H. split; congruence.
  - intros [-> H]. rewrite (nth_error_nth' _ 0) by (rewrite seq_length; lia). rewrite seq_nth by lia. reflexivity.
Qed.

Lemma star_calls n out t : 2 <= n ->
  run (pure (fun q => to_last n (fst q) (snd q))) tt (components_prog (fun x => x) (seq 0 n) 1 None) = (t, tt, Ok tt) -> given t = out ->
  length out <= 1 /\ (n - 1) * (n - 2) <= 2 * length (asked t).
Proof.
  intros Hn Hrun Hout.
  destruct (components_calls (to_last n) (fun x => x) (seq 0 n) 1 None) as (cs & out' & E & Hr & Hsub & Hcs).
  rewrite Hr in Hrun. injection Hrun as <-. rewrite given_app, given_Asked, given_Gave in Hout. cbn [app] in Hout. subst out'.
  rewrite map_id in *. rewrite seq_length in *. split.
  - destruct (pairwise_cc_correct (to_last n) (fun x => x) (seq 0 n) 1 None) as (idx & out' & E' & Hrd & [H1 _ H3]).
    rewrite E in E'. injection E' as <-. rewrite map_id, seq_length in *.
    assert (Hlen : length out = length idx) by (unfold reads in Hrd; clear -Hrd; induction Hrd; cbn; congruence).
    rewrite Hlen.
    assert (Hlink : forall x, x < n -> connected (similar_at (to_last n) (seq 0 n)) x (n - 1)).
    { intros x Hx. destruct (Nat.eq_dec x (n - 1)) as [->|Hne]; [apply conn_refl|]. apply Relation_Operators.rst_step.
      split; [lia|]. exists x, (n - 1). rewrite !nth_error_seq0. split; [lia|]. split; [lia|]. unfold to_last. apply Nat.eqb_refl. }
    destruct idx as [|c1 [|c2 idx]]; cbn [length]; [lia|lia|exfalso].
    assert (Hin : forall c, In c (c1 :: c2 :: idx) -> In (n - 1) c).
    { intros c Hc. destruct (H1 c Hc) as (Hcomp & (x & Hx & Hxn) & _).
      apply (component_conn _ _ x (n - 1) Hcomp Hx). apply Hlink. exact Hxn. }
    cbn [concat] in H3. apply NoDup_app_iff in H3 as (_ & _ & H3). apply (H3 (n - 1)); [apply Hin; left; reflexivity|].
    apply in_app_iff. left. apply Hin. right. left. reflexivity.
  - rewrite asked_app, asked_Asked, asked_Gave, app_nil_r, at_cells_length.
    + assert (Hle : length (cells (n - 1)) <= length cs).
      { apply NoDup_incl_length; [apply NoDup_cells|]. intros [i j] H. apply In_cells in H. apply Hcs.
        split; [lia|]. split; [lia|]. intros Hc.
        assert (G : forall a b, connected (similar_before (to_last n) (seq 0 n) (i, j)) a b -> (a = i <-> b = i)).
        { intros a b Hab. induction Hab as [a b Hl|a|a b _ IH|a b c _ IH1 _ IH2]; [|tauto..].
          destruct Hl as ((Hlt & x & y & Hx & Hy & Hs) & Hb). apply nth_error_seq0 in Hx as [-> Hx]. apply nth_error_seq0 in Hy as [-> Hy].
          unfold to_last in Hs. apply Nat.eqb_eq in Hs. unfold before in Hb. cbn in Hb. lia. }
        apply G in Hc. lia. }
      pose proof (length_cells (n - 1)) as Hl. replace (n - 1 - 1) with (n - 2) in Hl by lia. lia.
    + intros i j H. rewrite seq_length. apply Hcs in H. lia.
Qed.

(** ** Functions that merge pairs *)
Section Pairs.
Context {A B : Type} `{EqDec A} `{EqDec B}.
Variable set_order : list A -> list A.
Variable block_order : list B -> list B.

Lemma clusters_talks {Q T W} (f : user W) (w : W) (pairs : prog Q T (list A) (list (A * A))) calls sel lo hi mode fuzzy :
  run f w pairs =
    match feed f w calls with
    | (answers, w, None) => (map Asked calls, w, Ok (sel answers))
    | (answers, w, Some e) => (map Asked (firstn (S (length answers)) calls), w, Err e)
    end ->
  run f w (clusters_prog set_order pairs lo hi mode fuzzy) =
  talks f w calls (fun answers => outcome (clusters_from_pairs set_order (sel answers) lo hi mode fuzzy)).
Proof.
  intros Hr. unfold clusters_prog, talks. rewrite run_bind, Hr.
  destruct (feed f w calls) as [[answers w'] [e|]]; [reflexivity|]. cbn [then_]. rewrite run_bind, run_lift. cbn [then_].
  destruct (clusters_from_pairs _ _ _ _ _ _) as [out|e]; cbn [outcome].
  - rewrite run_yields. reflexivity.
  - reflexivity.
Qed.

Lemma run_keep {W} (f : user W) (w : W) l acc :
  run f w (for_each l acc keep_similar : prog (A * A) bool (list A) _) =
  match feed f w l with
  | (answers, w, None) => (map Asked l, w, Ok (acc ++ select l answers))
  | (answers, w, Some e) => (map Asked (firstn (S (length answers)) l), w, Err e)
  end.
Proof.
  unfold keep_similar.
  rewrite (run_asks f (fun ab : A * A => ab) (fun pairs ab (similar : bool) => if similar then pairs ++ [ab] else pairs)).
  rewrite map_id. destruct (feed f w l) as [[answers w'] [e|]]; [reflexivity|].
  rewrite (fold_select (fun ab : A * A => ab)), map_id. reflexivity.
Qed.

Lemma buckets_talks {W} (f : user W) (w : W) buckets lo hi mode fuzzy :
  run f w (buckets_prog set_order buckets lo hi mode fuzzy) =
  talks f w (pairs_from_buckets buckets)
    (fun answers => outcome (clusters_from_pairs set_order (select (pairs_from_buckets buckets) answers) lo hi mode fuzzy)).
Proof. apply clusters_talks. apply run_keep. Qed.

Lemma block_worker_equiv (block : list A) graph : graph = None \/ graph = Some [] ->
  equiv (block_worker_prog block graph) (for_each (bucket_pairs block) [] keep_similar).
Proof. intros [ ->| ->]; apply for_each_ext; intros st ab _; apply equiv_refl. Qed.

Lemma block_step_equiv bucket graph pairs : graph = None \/ graph = Some [] ->
  equiv (if Nat.ltb (length bucket) 2 then Ret pairs
         else pbind (block_worker_prog bucket graph) (fun found => Ret (pairs ++ found)))
        (for_each (bucket_pairs bucket) pairs keep_similar : prog (A * A) bool (list A) _).
Proof.
  intros Hg. destruct (Nat.ltb_spec (length bucket) 2) as [Hl|Hl].
  - destruct bucket as [|a [|b bucket]]; [apply equiv_refl|apply equiv_refl|cbn in Hl; lia].
  - intros W f w. rewrite run_bind, (block_worker_equiv bucket graph Hg), !run_keep.
    destruct (feed f w (bucket_pairs bucket)) as [[answers w'] [e|]]; [reflexivity|]. cbn [then_ run app]. rewrite app_nil_r. reflexivity.
Qed.

Definition buckets_of (how : (A -> B) + (A -> list B)) (data : list A) : dict B (list A) :=
  match how with inl block => dispatch_block block data | inr blocks => dispatch_blocks block_order blocks data end.
Definition several (how : (A -> B) + (A -> list B)) : bool := match how with inl _ => false | inr _ => true end.

Lemma blocking_talks {W} (f : user W) (w : W) how data lo hi mode :
  run f w (blocking_prog set_order block_order how data lo hi mode) =
  talks f w (pairs_from_buckets (dvalues (buckets_of how data)))
    (fun answers => outcome (clusters_from_pairs set_order
       (select (pairs_from_buckets (dvalues (buckets_of how data))) answers) lo hi mode (several how))).
Proof.
  assert (G : forall buckets graph fz, graph = None \/ graph = Some [] ->
    run f w (clusters_prog set_order
      (for_each (dvalues buckets) [] (fun pairs bucket =>
        if Nat.ltb (length bucket) 2 then Ret pairs
        else pbind (block_worker_prog bucket graph) (fun found => Ret (pairs ++ found)))) lo hi mode fz) =
    talks f w (pairs_from_buckets (dvalues (buckets : dict B (list A))))
      (fun answers => outcome (clusters_from_pairs set_order
         (select (pairs_from_buckets (dvalues buckets)) answers) lo hi mode fz))).
  { intros buckets graph fz Hg. apply clusters_talks.
    rewrite (for_each_ext (dvalues buckets) _ (fun pairs bucket => for_each (bucket_pairs bucket) pairs keep_similar))
      by (intros st x _; apply block_step_equiv; exact Hg).
    rewrite for_each_flat. apply run_keep. }
  destruct how as [block|blocks]; cbn [blocking_prog buckets_of several]; apply G; [left|right]; reflexivity.
Qed.

(** how many times a pair is compared *)
Lemma count_bucket_pairs (dec : forall x y : A * A, {x = y} + {x <> y}) (l : list A) x y : NoDup l ->
  count_occ dec (bucket_pairs l) (x, y) = if in_dec dec (x, y) (bucket_pairs l) then 1 else 0.
Proof.
  intros Hn. assert (Hnd : NoDup (bucket_pairs l)).
  { induction Hn as [|a l Ha Hn IH]; [constructor|]. cbn [bucket_pairs]. apply NoDup_app_iff. split; [|split; [exact IH|]].
    - apply NoDup_map_inj; [intros; congruence|exact Hn].
    - intros p H1 H2. apply in_map_iff in H1 as (b & <- & Hb). apply In_bucket_pairs in H2 as (l1 & l2 & l3 & ->).
      apply Ha. apply in_app_iff. right. left. reflexivity. }
  destruct (in_dec dec (x, y) (bucket_pairs l)) as [Hi|Hi].
  - apply NoDup_count_occ'; assumption.
  - apply count_occ_not_In. exact Hi.
Qed.

Hypothesis block_order_perm : forall l, Permutation (block_order l) l.

Lemma blocking_count (dec : forall x y : A * A, {x = y} + {x <> y}) how data x y n : NoDup data -> precedes data x y ->
  card (fun b => In b (blocks_of how x) /\ In b (blocks_of how y)) n ->
  count_occ dec (pairs_from_buckets (dvalues (buckets_of how data))) (x, y) = n.
Proof.
  intros Hnd Hp Hcard.
  set (ks := match how with inl f => (fun x => [f x]) | inr f => (fun x => block_order (set_of (f x))) end).
  assert (E : buckets_of how data = collect ks data []) by (destruct how; reflexivity).
  assert (Hks : forall x b, In b (ks x) <-> In b (blocks_of how x)).
  { intros x' b. destruct how as [f|f]; simpl; [tauto|]. rewrite <- (set_of_In (f x')).
    split; apply Permutation_in; [|symmetry]; apply block_order_perm. }
  assert (Hnk : forall x, NoDup (ks x)).
  { intros x'. destruct how as [f|f]; simpl; [repeat constructor; simpl; tauto|].
    eapply Permutation_NoDup; [symmetry; apply block_order_perm|apply set_of_NoDup]. }
  rewrite E, collect_values. unfold pairs_from_buckets. rewrite flat_map_concat_map, map_map, <- flat_map_concat_map.
  set (keys := set_of (flat_map ks data)).
  assert (Hc : forall l, count_occ dec (flat_map (fun b => bucket_pairs (bucket ks data b)) l) (x, y) =
     length (filter (fun b => memb b (ks x) && memb b (ks y)) l)).
  { induction l as [|b l IH]; [reflexivity|]. cbn [flat_map filter]. rewrite count_occ_app, IH.
    rewrite bucket_NoDup by exact Hnk. rewrite count_bucket_pairs by (apply NoDup_filter; exact Hnd).
    destruct (in_dec dec (x, y) (bucket_pairs (filter (fun x0 => memb b (ks x0)) data))) as [Hi|Hi].
    - apply In_bucket_pairs in Hi. apply before_filter in Hi as (_ & H1 & H2). rewrite H1, H2. reflexivity.
    - destruct (memb b (ks x)) eqn:E1, (memb b (ks y)) eqn:E2; try reflexivity. exfalso. apply Hi.
      apply In_bucket_pairs. apply before_filter. auto. }
  rewrite Hc. destruct Hcard as (lb & Hlb & HIn & <-).
  assert (Hperm : Permutation (filter (fun b => memb b (ks x) && memb b (ks y)) keys) lb).
  { apply NoDup_Permutation; [apply NoDup_filter, set_of_NoDup|exact Hlb|]. intros b.
    rewrite filter_In, andb_true_iff, !memb_true, !Hks, HIn. split; [tauto|]. intros [H1 H2]. split; [|auto].
    unfold keys. rewrite set_of_In, in_flat_map. exists x. rewrite Hks. split; [|exact H1].
    destruct Hp as (l1 & l2 & l3 & ->). apply in_app_iff. right. left. reflexivity. }
  apply Permutation_length, Hperm.
Qed.

End Pairs.

(** ** Sorted neighborhood *)
Lemma window_cells_near window n : window_cells window n = near_cells window n.
Proof.
  unfold window_cells, near_cells, cells, range. rewrite Nat.sub_0_r.
  assert (G : forall l, flat_map (fun i => map (fun j => (i, j)) (seq (i + 1) (Nat.min n (i + window) - (i + 1)))) l =
    filter (fun ij => Nat.ltb (snd ij) (fst ij + window)) (flat_map (fun i => map (fun j => (i, j)) (seq (S i) (n - S i))) l)); [|apply G].
  induction l as [|i l IH]; [reflexivity|]. cbn [flat_map]. rewrite filter_app, IH. f_equal.
  assert (Hs : forall len s, filter (fun ij : nat * nat => Nat.ltb (snd ij) (fst ij + window)) (map (fun j => (i, j)) (seq s len)) =
     map (fun j => (i, j)) (seq s (Nat.min (s + len) (i + window) - s))).
  { induction len as [|len IHl]; intros s; cbn [seq map filter fst snd].
    - replace (Nat.min (s + 0) (i + window) - s) with 0 by lia. reflexivity.
    - rewrite IHl. destruct (Nat.ltb_spec s (i + window)).
      + replace (Nat.min (s + S len) (i + window) - s) with (S (Nat.min (S s + len) (i + window) - S s)) by lia. reflexivity.
      + replace (Nat.min (S s + len) (i + window) - S s) with 0 by lia.
        replace (Nat.min (s + S len) (i + window) - s) with 0 by lia. reflexivity. }
  rewrite Hs. replace (S i) with (i + 1) by lia. f_equal. f_equal. lia.
Qed.

Lemma In_near_cells window n i j : In (i, j) (near_cells window n) <-> i < j /\ j < n /\ j < i + window.
Proof. unfold near_cells. rewrite filter_In, In_cells. cbn [fst snd]. rewrite Nat.ltb_lt. tauto. Qed.

Lemma length_near_cells window n :
  2 * length (near_cells window n) = if Nat.leb window n then (window - 1) * (2 * n - window) else n * (n - 1).
Proof.
  rewrite <- window_cells_near. unfold window_cells, range. rewrite Nat.sub_0_r.
  assert (Hlen : forall l, length (flat_map (fun i => map (fun j => (i, j)) (seq (i + 1) (Nat.min n (i + window) - (i + 1)))) l) =
    list_sum (map (fun i => Nat.min (n - 1 - i) (window - 1)) l)).
  { induction l as [|i l IH]; [reflexivity|]. cbn [flat_map map list_sum fold_right]. rewrite app_length, map_length, seq_length, IH.
    unfold list_sum. f_equal. lia. }
  rewrite Hlen.
  assert (Hsum : forall m, m <= n -> 2 * list_sum (map (fun i => Nat.min (n - 1 - i) (window - 1)) (seq (n - m) m)) =
     if Nat.leb window m then (window - 1) * (2 * m - window) else m * (m - 1)).
  { induction m as [|m IH]; intros Hm; [cbn; destruct window; reflexivity|].
    replace (seq (n - S m) (S m)) with ((n - S m) :: seq (n - m) m) by (cbn [seq]; f_equal; f_equal; lia).
    cbn [map list_sum fold_right]. fold (list_sum (map (fun i => Nat.min (n - 1 - i) (window - 1)) (seq (n - m) m))).
    rewrite Nat.mul_add_distr_l, IH by lia. replace (n - 1 - (n - S m)) with m by lia.
    destruct (Nat.leb_spec window m), (Nat.leb_spec window (S m)); [|exfalso; lia| |].
    - rewrite Nat.min_r by lia. destruct window as [|v]; [reflexivity|]. cbn [Nat.sub]. rewrite Nat.sub_0_r. nia.
    - assert (window = S m) by lia. subst window. cbn [Nat.sub]. rewrite Nat.sub_0_r, Nat.min_id. nia.
    - rewrite Nat.min_l by lia. cbn [Nat.sub]. rewrite Nat.sub_0_r. nia. }
  specialize (Hsum n (le_n n)). rewrite Nat.sub_diag in Hsum. exact Hsum.
Qed.

Section Neighborhood.
Context {A : Type} `{EqDec A}.

Lemma compare_loop_equiv (s : list A) cs pairs : (forall i j, In (i, j) cs -> i < length s /\ j < length s) ->
  equiv (for_each cs pairs (compare_prog s)) (for_each (at_cells s cs) pairs keep_similar).
Proof.
  revert pairs. induction cs as [|[i j] cs IH]; intros pairs Hb; [apply equiv_refl|].
  destruct (Hb i j (or_introl eq_refl)) as [Hi Hj].
  unfold at_cells. cbn [flat_map fst snd]. fold (at_cells s cs).
  destruct (nth_error s i) as [a|] eqn:Ea; [|apply nth_error_None in Ea; lia].
  destruct (nth_error s j) as [b|] eqn:Eb; [|apply nth_error_None in Eb; lia].
  cbn [app for_each]. apply equiv_bind.
  - unfold compare_prog, index. cbn [fst snd]. rewrite Ea, Eb. apply equiv_refl.
  - intros r. apply IH. intros i' j' H'. apply Hb. right. exact H'.
Qed.

Variable set_order : list A -> list A.

(** the calls of sorted_neighborhood *)
Definition neighborhood_calls (window : nat) (passes : list (list A)) : list (A * A) :=
  flat_map (fun s => at_cells s (near_cells window (length s))) passes.
Definition passes_of (once : bool) (data : list A) (key : A -> A -> bool) (keys : option (list (A -> A -> bool))) : list (list A) :=
  sorted_passes once data (match keys with Some ks => ks | None => [key] end).

Lemma neighborhood_talks {W} (f : user W) (w : W) once data key keys window lo hi mode :
  run f w (neighborhood_prog set_order once data key keys window lo hi mode) =
  talks f w (neighborhood_calls window (passes_of once data key keys))
    (fun answers => outcome (clusters_from_pairs set_order
       (select (neighborhood_calls window (passes_of once data key keys)) answers) lo hi mode
       (match keys with Some _ => true | None => false end))).
Proof.
  unfold neighborhood_prog. fold (passes_of once data key keys). apply clusters_talks.
  rewrite (for_each_ext (passes_of once data key keys) _
    (fun pairs s => for_each (at_cells s (near_cells window (length s))) pairs keep_similar)).
  - rewrite for_each_flat. exact (run_keep f w (neighborhood_calls window (passes_of once data key keys)) []).
  - intros pairs s _. rewrite window_cells_near. apply compare_loop_equiv. intros i j Hij. apply In_near_cells in Hij. lia.
Qed.
End Neighborhood.

(** ** Adaptive sorted neighborhood with a pure function *)
Section Adaptive.
Context {A : Type} `{EqDec A}.
Variable similarity : A -> A -> bool.
Notation ask := (pure (fun q => similarity (fst q) (snd q))).

Lemma enlarge_agrees s f : forall fuel first last,
  exists qs, run ask tt (enlarge_prog fuel s f first last) = (map Asked qs, tt, enlarge similarity fuel s f first last).
Proof.
  induction fuel as [|fuel IH]; intros first last; cbn [enlarge_prog enlarge]; [exists []; reflexivity|].
  destruct (index s first) as [a|e]; [|exists []; reflexivity]. destruct (index s last) as [b|e]; [|exists []; reflexivity].
  cbn [lift pbind bind run pure fst snd]. destruct (similarity a b); [|exists [(a, b)]; reflexivity].
  destruct (IH last (last + (last - f))) as (qs & ->). exists ((a, b) :: qs). reflexivity.
Qed.

Lemma retrench_agrees s : forall k last,
  exists qs, run ask tt (retrench_prog k s last) = (map Asked qs, tt, retrench similarity k s last).
Proof.
  induction k as [|k IH]; intros last; cbn [retrench_prog retrench]; [exists []; reflexivity|].
  destruct (index s (last - 1)) as [a|e]; [|exists []; reflexivity]. destruct (index s last) as [b|e]; [|exists []; reflexivity].
  cbn [lift pbind bind run pure fst snd]. destruct (similarity a b); [exists [(a, b)]; reflexivity|].
  destruct (IH (last - 1)) as (qs & ->). exists ((a, b) :: qs). reflexivity.
Qed.

Lemma index_Ok_lt {X} (l : list X) i x : index l i = Ok x -> i < length l.
Proof. intros E. destruct (Nat.lt_ge_cases i (length l)) as [|Hge]; [assumption|]. rewrite index_ge in E by exact Hge. discriminate. Qed.

Lemma enlarge_lt s f : forall fuel first last l, enlarge similarity fuel s f first last = Ok l -> l < length s.
Proof.
  induction fuel as [|fuel IH]; intros first last l; cbn [enlarge]; [discriminate|].
  destruct (index s first) as [a|e]; [|discriminate]. destruct (index s last) as [b|e] eqn:Eb; [|discriminate]. cbn [bind].
  destruct (similarity a b); [apply IH|]. intros E. injection E as <-. eapply index_Ok_lt. exact Eb.
Qed.

Lemma retrench_le s : forall k last l, retrench similarity k s last = Ok l -> l <= last.
Proof.
  induction k as [|k IH]; intros last l; cbn [retrench]; [intros E; injection E as <-; lia|].
  destruct (index s (last - 1)) as [a|e]; [|discriminate]. destruct (index s last) as [b|e]; [|discriminate]. cbn [bind].
  destruct (similarity a b); intros E; [injection E as <-; lia|]. apply IH in E. lia.
Qed.

Lemma filter_at_cells s cs :
  filter (fun q => similarity (fst q) (snd q)) (at_cells s cs) = flat_map (fun ij => compare similarity s (fst ij) (snd ij)) cs.
Proof.
  unfold at_cells, compare. induction cs as [|[i j] cs IH]; [reflexivity|]. cbn [flat_map fst snd]. rewrite filter_app, IH. f_equal.
  destruct (nth_error s i) as [a|]; [|reflexivity]. destruct (nth_error s j) as [b|]; [|reflexivity].
  cbn. destruct (similarity a b); reflexivity.
Qed.

Lemma filter_window window s :
  filter (fun q => similarity (fst q) (snd q)) (at_cells s (near_cells window (length s))) = window_pairs similarity window s.
Proof.
  rewrite filter_at_cells, <- window_cells_near. unfold window_cells, window_pairs. cbv zeta.
  generalize (range 0 (length s)). induction l as [|i l IH]; [reflexivity|]. cbn [flat_map]. rewrite flat_map_app, IH. f_equal.
  generalize (range (i + 1) (Nat.min (length s) (i + window))). induction l0 as [|j l0 IH0]; [reflexivity|].
  cbn [map flat_map fst snd]. rewrite IH0. reflexivity.
Qed.

Lemma interval_run s start stop pairs : stop < length s ->
  exists qs, run ask tt (for_each (interval_cells start stop) pairs (compare_prog s)) =
    (map Asked qs, tt, Ok (pairs ++ interval_pairs similarity s (start, stop))).
Proof.
  intros Hs.
  assert (Hb : forall i j, In (i, j) (interval_cells start stop) -> i < length s /\ j < length s).
  { intros i j. unfold interval_cells. destruct (Nat.eqb_spec (stop - start + 1) 1); [intros []|].
    destruct (Nat.eqb_spec (stop - start + 1) 2).
    - intros [E|[]]. injection E as <- <-. lia.
    - intros Hij. apply in_flat_map in Hij as (i' & Hi & Hj). apply in_map_iff in Hj as (j' & E & Hj). injection E as <- <-.
      apply range_In in Hi, Hj. lia. }
  rewrite compare_loop_equiv by exact Hb. rewrite run_keep, feed_pure. exists (at_cells s (interval_cells start stop)).
  repeat f_equal. rewrite select_map.
  rewrite filter_at_cells. unfold interval_cells, interval_pairs. destruct (Nat.eqb _ 1); [reflexivity|].
  destruct (Nat.eqb _ 2); [cbn; rewrite app_nil_r; reflexivity|].
  generalize (range start (stop + 1)). induction l as [|i l IH]; [reflexivity|]. cbn [flat_map]. rewrite flat_map_app, IH. f_equal.
  generalize (range (i + 1) (stop + 1)). induction l0 as [|j l0 IH0]; [reflexivity|]. cbn [map flat_map fst snd]. rewrite IH0. reflexivity.
Qed.

Lemma adaptive_loop_agrees s step : forall fuel first pairs,
  exists qs, run ask tt (adaptive_loop_prog fuel s step first pairs) =
    (map Asked qs, tt, let! intervals := aa_loop similarity fuel s step first in
       Ok (pairs ++ flat_map (interval_pairs similarity s) intervals)).
Proof.
  induction fuel as [|fuel IH]; intros first pairs; cbn [adaptive_loop_prog aa_loop]; [exists []; reflexivity|].
  destruct (Nat.ltb (first + step) (length s)).
  - rewrite run_bind. destruct (enlarge_agrees s first (S fuel) first (first + step)) as (q1 & ->).
    destruct (enlarge similarity (S fuel) s first first (first + step)) as [last1|e] eqn:E1; cbn [then_ bind]; [|exists q1; reflexivity].
    apply enlarge_lt in E1. rewrite run_bind. destruct (retrench_agrees s (last1 - first - step) last1) as (q2 & ->).
    destruct (retrench similarity (last1 - first - step) s last1) as [last2|e] eqn:E2; cbn [then_ bind].
    2:{ exists (q1 ++ q2). rewrite map_app. reflexivity. }
    apply retrench_le in E2. rewrite run_bind. destruct (interval_run s first last2 pairs) as (q3 & ->); [lia|]. cbn [then_].
    destruct (IH (last2 + 1) (pairs ++ interval_pairs similarity s (first, last2))) as (q4 & ->).
    exists (q1 ++ q2 ++ q3 ++ q4). rewrite !map_app, !app_assoc. f_equal.
    destruct (aa_loop similarity fuel s step (last2 + 1)) as [out|e]; cbn [bind flat_map]; [|reflexivity].
    rewrite <- app_assoc. reflexivity.
  - destruct (Nat.ltb_spec first (length s)).
    + destruct (interval_run s first (length s - 1) pairs) as (q3 & ->); [lia|]. exists q3. cbn [bind flat_map]. rewrite app_nil_r. reflexivity.
    + exists []. cbn. rewrite app_nil_r. reflexivity.
Qed.

Variable set_order : list A -> list A.

Lemma adaptive_agrees fuel once data key keys step lo hi mode :
  exists qs, run ask tt (adaptive_prog set_order fuel once data key keys step lo hi mode) =
    (let '(out, o) := outcome (adaptive_sorted_neighborhood set_order similarity fuel once data key keys step lo hi mode) in
     (map Asked qs ++ map Gave out, tt, o)).
Proof.
  unfold adaptive_prog, adaptive_sorted_neighborhood, clusters_prog. cbv zeta.
  set (passes := sorted_passes once data (match keys with Some ks => ks | None => [key] end)).
  assert (G : forall l pairs, exists qs,
    run ask tt (for_each l pairs (fun pairs s => adaptive_loop_prog fuel s step 0 pairs)) =
    (map Asked qs, tt, let! found := mapM (adaptive_pairs similarity fuel step) l in Ok (pairs ++ concat found))).
  { induction l as [|s l IH]; intros pairs; cbn [for_each mapM]; [exists []; cbn; rewrite app_nil_r; reflexivity|].
    rewrite run_bind. destruct (adaptive_loop_agrees s step fuel 0 pairs) as (q1 & ->). unfold adaptive_pairs, full_AA_SNM.
    destruct (aa_loop similarity fuel s step 0) as [iv|e]; cbn [bind then_]; [|exists q1; reflexivity].
    destruct (IH (pairs ++ flat_map (interval_pairs similarity s) iv)) as (q2 & ->). exists (q1 ++ q2). rewrite map_app. f_equal.
    unfold adaptive_pairs, full_AA_SNM.
    destruct (mapM _ l) as [found|e]; cbn [bind concat]; [|reflexivity]. rewrite app_assoc. reflexivity. }
  rewrite run_bind. destruct (G passes []) as (qs & ->). exists qs.
  destruct (mapM (adaptive_pairs similarity fuel step) passes) as [found|e]; cbn [bind then_ outcome map]; [|rewrite app_nil_r; reflexivity].
  cbn [app]. rewrite run_bind, run_lift. cbn [then_].
  destruct (clusters_from_pairs _ _ _ _ _ _) as [out|e]; cbn [outcome map]; [rewrite run_yields; reflexivity|rewrite app_nil_r; reflexivity].
Qed.
End Adaptive.

(** ** PassJoin *)
Section PassJoin.
Import PassJoinModel PassJoinSpec PassJoinProofs LevModel.
Variable k : nat.
Notation dprog := (prog (str * str) nat (list str)).

Definition judge (pairs : list (str * str)) (ab : str * str) : dprog (list (str * str)) :=
  if both_short k ab then Ret (pairs ++ [ab]) else Call ab (fun d => Ret (if Nat.leb d k then pairs ++ [ab] else pairs)).
Definition candidates (sort : bool) (data : list str) : list (str * str) := passjoin_pairs k (fun _ _ => 0) sort data [].
Definition to_measure (l : list (str * str)) : list (str * str) := filter (fun ab => negb (both_short k ab)) l.

Lemma run_judge {W} (f : user W) l : forall w acc,
  run f w (for_each l acc judge : dprog _) =
  match feed f w (to_measure l) with
  | (answers, w, None) => (map Asked (to_measure l), w, Ok (acc ++ close_pairs k l answers))
  | (answers, w, Some e) => (map Asked (firstn (S (length answers)) (to_measure l)), w, Err e)
  end.
Proof.
  induction l as [|ab l IH]; intros w acc; cbn [for_each to_measure filter close_pairs].
  - cbn. rewrite app_nil_r. reflexivity.
  - fold (to_measure l). unfold judge at 1. destruct (both_short k ab) eqn:E; cbn [negb].
    + cbn [pbind]. rewrite IH. destruct (feed f w (to_measure l)) as [[answers w'] [e|]]; [reflexivity|]. rewrite <- app_assoc. reflexivity.
    + cbn [pbind run feed]. destruct (f w ab) as [w1 [d|e]]; [|reflexivity]. rewrite IH.
      destruct (feed f w1 (to_measure l)) as [[answers w'] [e|]]; [reflexivity|]. cbn [map].
      destruct (Nat.leb d k); [rewrite <- app_assoc|]; reflexivity.
Qed.

Lemma match_equiv sort L done A pairs : indexes k L done ->
  equiv (match_prog k sort L A pairs) (for_each (match_string k (fun _ _ => 0) sort L A) pairs judge).
Proof.
  intros HL. unfold match_prog, match_string. cbv zeta.
  eapply equiv_trans; [|apply for_each_flat]. apply for_each_ext. intros p1 l _.
  destruct (dget L l) as [Ll|] eqn:EL; [|apply equiv_refl].
  eapply equiv_trans; [|apply for_each_flat]. apply for_each_ext. intros p2 [[i start] len] _.
  eapply equiv_trans; [|apply for_each_flat]. apply for_each_ext. intros p3 sub _.
  destruct (dget Ll (i, sub)) as [cands|] eqn:Ec; [|apply equiv_refl].
  eapply equiv_trans; [|apply for_each_flat]. apply for_each_ext. intros p4 B HB.
  assert (Hl : length B = l). { apply (HL l (i, sub) B). unfold looked. rewrite EL, Ec. exact HB. }
  rewrite orb_true_r. cbn [for_each]. unfold judge, both_short. cbn [fst snd]. rewrite Hl.
  destruct (Nat.leb (length A) k && Nat.leb l k); apply equiv_refl.
Qed.

Lemma passjoin_loop_equiv sort data : forall L done pairs, indexes k L done ->
  equiv (do (_, pairs) <- for_each data (L, pairs) (fun '(L, pairs) A =>
           do pairs <- match_prog k sort L A pairs; Ret (index_string k L A, pairs));
         Ret pairs : dprog _)
        (for_each (passjoin_pairs k (fun _ _ => 0) sort data L) pairs judge).
Proof.
  induction data as [|A data IH]; intros L done pairs HL; [apply equiv_refl|]. cbn [for_each passjoin_pairs].
  eapply equiv_trans; [|apply equiv_sym, for_each_app].
  intros W f w. rewrite !run_bind, (match_equiv sort L done A pairs HL).
  destruct (run f w (for_each _ pairs judge)) as [[t w1] [pairs1|e]]; cbn [then_]; [|reflexivity].
  cbn [run then_]. rewrite <- (IH (index_string k L A) (done ++ [A]) pairs1 (indexes_snoc k L done A HL) W f w1).
  rewrite run_bind. destruct (run f w1 _) as [[t2 w2] [[L2 p2]|e]]; cbn [then_ run]; rewrite ?app_nil_r; reflexivity.
Qed.

Lemma passjoin_talks {W} (f : user W) (w : W) set_order data sort lo hi mode :
  run f w (passjoin_prog k set_order data sort lo hi mode) =
  talks f w (to_measure (candidates sort (order sort data)))
    (fun answers => outcome (clusters_from_pairs set_order (close_pairs k (candidates sort (order sort data)) answers) lo hi mode false)).
Proof.
  unfold passjoin_prog. cbv zeta. fold (order sort data). apply clusters_talks.
  rewrite (passjoin_loop_equiv sort (order sort data) [] [] [] (indexes_nil k)). apply run_judge.
Qed.

Definition share_segment (P B : str) : Prop := exists i start len sub,
  In (i, start, len) (partition k (length B)) /\ In sub (multi_match_aware_substrings k P (length B) i start len) /\
  In (i, sub) (segments k B).

Lemma close_filter (distance : str -> str -> nat) l :
  close_pairs k l (map (fun q => distance (fst q) (snd q)) (to_measure l)) =
  filter (fun ab => both_short k ab || Nat.leb (distance (fst ab) (snd ab)) k) l.
Proof.
  induction l as [|ab l IH]; [reflexivity|]. cbn [to_measure filter close_pairs]. fold (to_measure l).
  destruct (both_short k ab) eqn:E; cbn [negb map orb]; rewrite IH; [reflexivity|]. destruct (Nat.leb _ k); reflexivity.
Qed.

Lemma match_filter (distance : str -> str -> nat) sort L done A : indexes k L done ->
  match_string k distance sort L A =
  filter (fun ab => both_short k ab || Nat.leb (distance (fst ab) (snd ab)) k) (match_string k (fun _ _ => 0) sort L A).
Proof.
  intros HL. unfold match_string. cbv zeta.
  assert (G : forall {X Y} (p : Y -> bool) (g h : X -> list Y) l, (forall x, In x l -> g x = filter p (h x)) -> flat_map g l = filter p (flat_map h l)).
  { intros X Y p g h l. induction l as [|x l IH]; intros Hx; [reflexivity|]. cbn [flat_map]. rewrite filter_app, (Hx x) by (left; reflexivity).
    f_equal. apply IH. intros y Hy. apply Hx. right. exact Hy. }
  apply G. intros l _. destruct (dget L l) as [Ll|] eqn:EL; [|reflexivity].
  apply G. intros [[i start] len] _. apply G. intros sub _. destruct (dget Ll (i, sub)) as [cands|] eqn:Ec; [|reflexivity].
  apply G. intros B HB. assert (Hl : length B = l). { apply (HL l (i, sub) B). unfold looked. rewrite EL, Ec. exact HB. }
  rewrite orb_true_r. cbn [filter]. unfold both_short. cbn [fst snd]. rewrite Hl. reflexivity.
Qed.

Lemma passjoin_pairs_close (distance : str -> str -> nat) sort data :
  passjoin_pairs k distance sort data [] =
  close_pairs k (candidates sort data) (map (fun q => distance (fst q) (snd q)) (to_measure (candidates sort data))).
Proof.
  rewrite close_filter. unfold candidates.
  assert (G : forall data L done, indexes k L done -> passjoin_pairs k distance sort data L =
    filter (fun ab => both_short k ab || Nat.leb (distance (fst ab) (snd ab)) k) (passjoin_pairs k (fun _ _ => 0) sort data L)).
  { clear data. induction data as [|A data IH]; intros L done HL; [reflexivity|]. cbn [passjoin_pairs].
    rewrite filter_app. f_equal; [apply (match_filter distance sort L done A HL)|apply (IH _ (done ++ [A]) (indexes_snoc k L done A HL))]. }
  apply (G data [] [] (indexes_nil k)).
Qed.

(** which pairs are candidates *)
Lemma candidates_In sort rest : forall L done P B, indexes k L done ->
  (In (P, B) (passjoin_pairs k (fun _ _ => 0) sort rest L) <->
   exists r1 r2, rest = r1 ++ P :: r2 /\ In B (done ++ r1) /\ share_segment P B /\
     length P <= length B + k /\ length B <= length P + k /\ (sort = true -> length P <= length B)).
Proof.
  induction rest as [|A rest IH]; intros L done P B HL; cbn [passjoin_pairs].
  { split; [intros []|]. intros (r1 & r2 & E & _). destruct r1; discriminate. }
  rewrite in_app_iff, (IH (index_string k L A) (done ++ [A]) P B (indexes_snoc k L done A HL)).
  rewrite (match_string_In k (fun _ _ => 0) (fun _ => False)) by (intros a b []). split.
  - intros [(-> & l & i & start & len & sub & H1 & H2 & H3 & H4 & H5 & H6)|(r1 & r2 & -> & H2 & H3)].
    + apply HL in H5 as (H5 & H7 & H8). exists [], rest. split; [reflexivity|]. rewrite app_nil_r. split; [exact H5|]. subst l.
      split; [exists i, start, len, sub; auto|]. destruct sort; repeat split; try lia; intros; lia.
    + exists (A :: r1), r2. split; [reflexivity|]. rewrite <- app_assoc in H2. split; assumption.
  - intros (r1 & r2 & E & H2 & (i & start & len & sub & H3 & H4 & H5) & H6 & H7 & H8). destruct r1 as [|x r1]; injection E as <- ->.
    + left. split; [reflexivity|]. rewrite app_nil_r in H2. exists (length B), i, start, len, sub.
      split; [destruct sort; [apply H8; reflexivity|lia]|]. split; [lia|]. split; [exact H3|]. split; [exact H4|].
      split; [apply HL; auto|]. right. lia.
    + right. exists r1, r2. split; [reflexivity|]. rewrite <- app_assoc. repeat split; auto. exists i, start, len, sub. auto.
Qed.

Lemma candidates_exact sort data P B :
  In (P, B) (candidates sort (order sort data)) <->
  before (order sort data) B P /\ share_segment P B /\ length P <= length B + k /\ length B <= length P + k.
Proof.
  unfold candidates. rewrite (candidates_In sort (order sort data) [] [] P B (indexes_nil k)). split.
  - intros (r1 & r2 & E & HB & H1 & H2 & H3 & _). repeat split; try assumption. cbn [app] in HB. apply in_split in HB as (l1 & l2 & ->).
    exists l1, l2, r2. rewrite E, <- app_assoc. reflexivity.
  - intros ((l1 & l2 & l3 & E) & H1 & H2 & H3). exists (l1 ++ B :: l2), l3. rewrite E, <- app_assoc. split; [reflexivity|].
    split; [cbn [app]; apply in_app_iff; right; left; reflexivity|]. repeat split; try assumption.
    intros ->. cbn [order] in E. pose proof (sorted_sorted k (fun _ _ => 0) (fun _ => False) (fun a b (h : False) => match h with end) data) as Hs. rewrite E in Hs.
    clear -Hs. induction l1 as [|x l1 IH]; cbn [app] in Hs; inversion Hs as [|? ? H1 H2]; subst; [|apply IH; exact H1].
    rewrite Forall_forall in H2. apply H2. apply in_app_iff. right. left. reflexivity.
Qed.

Lemma share_close P B : EditSpec.lev_le k P B -> share_segment P B /\ length P <= length B + k /\ length B <= length P + k.
Proof.
  intros Hlev. pose proof Hlev as Hl. apply EditFacts.lev_le_lev in Hl. pose proof (EditFacts.lev_length P B) as Hd.
  split; [|lia]. destruct (common_segment k P B Hlev) as (i & u & w & Hi & EA & Hu1 & Hu2).
  exists i, (pos k (length B) i), (size k (length B) i), (seg k B i).
  split; [rewrite partition_eq; apply in_map_iff; exists i; split; [reflexivity|apply in_seq; lia]|].
  split.
  - apply substrings_In. exists (length u). split.
    + rewrite EA. unfold slice. rewrite skipn_length_app.
      replace (length u + size k (length B) i - length u) with (length (seg k B i)) by (rewrite seg_length by exact Hi; lia).
      rewrite firstn_length_app. reflexivity.
    + cbv zeta in *. split; [exact Hu1|]. split; [exact Hu2|]. rewrite EA at 1. rewrite !app_length, seg_length by exact Hi. lia.
  - rewrite segments_eq. apply in_map_iff. exists i. split; [reflexivity|apply in_seq; lia].
Qed.

Lemma balanced_tail x l : balanced (x :: l) -> balanced l.
Proof. intros Hb i j a b Hij H1 H2. apply (Hb (S i) (S j)); [lia|exact H1|exact H2]. Qed.

Lemma balanced_unique l1 : forall l2, balanced l1 -> balanced l2 -> length l1 = length l2 -> list_sum l1 = list_sum l2 -> l1 = l2.
Proof.
  assert (Hlow : forall m l, (forall y, In y l -> m <= y) -> length l * m <= list_sum l).
  { induction l as [|y l IH]; intros Hy; [cbn; lia|]. cbn [length list_sum fold_right].
    assert (m <= y) by (apply Hy; left; reflexivity).
    assert (length l * m <= list_sum l) by (apply IH; intros z Hz; apply Hy; right; exact Hz). unfold list_sum in *. lia. }
  assert (Hup : forall m l, (forall y, In y l -> y <= m) -> list_sum l <= length l * m).
  { induction l as [|y l IH]; intros Hy; [cbn; lia|]. cbn [length list_sum fold_right].
    assert (y <= m) by (apply Hy; left; reflexivity).
    assert (list_sum l <= length l * m) by (apply IH; intros z Hz; apply Hy; right; exact Hz). unfold list_sum in *. lia. }
  assert (Hlt : forall x l y l', balanced (x :: l) -> balanced (y :: l') -> length l = length l' -> x < y ->
    list_sum (x :: l) < list_sum (y :: l')).
  { intros x l y l' H1 H2 Hlen Hxy. cbn [list_sum fold_right].
    assert (list_sum l <= length l * (x + 1)).
    { apply Hup. intros z Hz. apply In_nth_error in Hz as (i & Hi). pose proof (H1 0 (S i) x z ltac:(lia) eq_refl Hi). lia. }
    assert (length l' * y <= list_sum l').
    { apply Hlow. intros z Hz. apply In_nth_error in Hz as (i & Hi). pose proof (H2 0 (S i) y z ltac:(lia) eq_refl Hi). lia. }
    unfold list_sum in *. rewrite Hlen in *. nia. }
  induction l1 as [|x l1 IH]; intros [|y l2] H1 H2 Hlen Hsum; try discriminate; [reflexivity|]. cbn [length] in Hlen. injection Hlen as Hlen.
  destruct (Nat.lt_trichotomy x y) as [Hxy|[->|Hxy]].
  - pose proof (Hlt _ _ _ _ H1 H2 Hlen Hxy). lia.
  - f_equal. apply IH; [eapply balanced_tail; eassumption..|exact Hlen|]. cbn in Hsum. unfold list_sum. lia.
  - pose proof (Hlt _ _ _ _ H2 H1 (eq_sym Hlen) Hxy). lia.
Qed.

Lemma length_concat_sum {X} (l : list (list X)) : length (concat l) = list_sum (map (fun x : list X => length x) l).
Proof. induction l as [|x l IH]; [reflexivity|]. cbn. rewrite app_length, IH. reflexivity. Qed.

Lemma same_pieces {X} (l1 : list (list X)) : forall l2, concat l1 = concat l2 ->
  map (fun x : list X => length x) l1 = map (fun x : list X => length x) l2 -> l1 = l2.
Proof.
  induction l1 as [|x l1 IH]; intros [|y l2] Hc Hm; try discriminate; [reflexivity|]. cbn in Hc, Hm. injection Hm as Hx Hm.
  assert (E : x = y). { apply (f_equal (firstn (length x))) in Hc. rewrite firstn_length_app in Hc. rewrite Hx, firstn_length_app in Hc. exact Hc. }
  subst y. f_equal. apply IH; [|exact Hm]. apply app_inv_head in Hc. exact Hc.
Qed.

Lemma pieces_unique pieces (B : str) : length pieces = k + 1 -> concat pieces = B -> balanced (map (fun x : str => length x) pieces) ->
  pieces = map (seg k B) (seq 0 (k + 1)).
Proof.
  intros Hl Hc Hb. assert (Hs : map snd (segments k B) = map (seg k B) (seq 0 (k + 1))).
  { rewrite segments_eq, map_map. reflexivity. }
  rewrite <- Hs. apply same_pieces; [rewrite Hc; symmetry; apply segments_concat|]. rewrite map_map. apply balanced_unique.
  - exact Hb.
  - apply segments_balanced.
  - rewrite !map_length, segments_eq, map_length, seq_length. exact Hl.
  - rewrite <- length_concat_sum, Hc. rewrite <- (segments_concat k B) at 1. rewrite length_concat_sum, map_map. reflexivity.
Qed.

Lemma share_piece_segment P B : share_piece k P B <-> share_segment P B.
Proof.
  split.
  - intros (prev & piece & next & u & v & Hl & Hc & Hb & HP & Hu & Hv).
    assert (Hp := pieces_unique _ B Hl Hc Hb). rewrite app_length in Hl. cbn [length] in Hl.
    set (i := length prev) in *.
    assert (Hpi : piece = seg k B i).
    { apply (f_equal (fun l => nth_error l i)) in Hp. unfold i in Hp at 1. rewrite nth_error_app2, Nat.sub_diag in Hp by lia. cbn in Hp.
      symmetry in Hp. apply nth_map_seq in Hp as [_ ->]. reflexivity. }
    assert (Hprev : prev = map (seg k B) (seq 0 i)).
    { apply (f_equal (firstn i)) in Hp. unfold i in Hp at 1. rewrite firstn_length_app, firstn_map_seq in Hp by lia. exact Hp. }
    assert (Hpos : length (concat prev) = pos k (length B) i).
    { rewrite Hprev, concat_segs by lia. rewrite firstn_length, Nat.min_l; [reflexivity|].
      rewrite <- (pos_end k (length B)) at 2. apply pos_mono. lia. }
    assert (Hsz : length piece = size k (length B) i) by (rewrite Hpi; apply seg_length; lia).
    exists i, (pos k (length B) i), (size k (length B) i), (seg k B i).
    split; [rewrite partition_eq; apply in_map_iff; exists i; split; [reflexivity|apply in_seq; lia]|].
    split; [|rewrite segments_eq; apply in_map_iff; exists i; split; [reflexivity|apply in_seq; lia]].
    apply substrings_In. exists (length u). rewrite <- Hpi, <- Hsz. split.
    + rewrite HP. unfold slice. rewrite skipn_length_app.
      replace (length u + length piece - length u) with (length piece) by lia. rewrite firstn_length_app. reflexivity.
    + cbv zeta. rewrite <- Hpos. rewrite HP at 1 2. rewrite !app_length. rewrite <- Hc at 1. rewrite concat_app. cbn [concat]. rewrite !app_length. lia.
  - intros (i & start & len & sub & H1 & H2 & H3).
    rewrite partition_eq in H1. apply in_map_iff in H1 as (i' & E & Hi). injection E as -> <- <-. apply in_seq in Hi.
    rewrite segments_eq in H3. apply in_map_iff in H3 as (i' & E & _). injection E as -> <-.
    apply substrings_In in H2 as (j & Hsub & Hz). cbv zeta in Hz. destruct Hz as (Hz1 & Hz2 & Hz3).
    exists (map (seg k B) (seq 0 i)), (seg k B i), (map (seg k B) (seq (S i) (k - i))), (firstn j P), (skipn (j + size k (length B) i) P).
    assert (Hall : map (seg k B) (seq 0 i) ++ seg k B i :: map (seg k B) (seq (S i) (k - i)) = map (seg k B) (seq 0 (k + 1))).
    { replace (k + 1) with (i + S (k - i)) by lia. rewrite seq_app, map_app. reflexivity. }
    assert (Hcat : concat (map (seg k B) (seq 0 i) ++ seg k B i :: map (seg k B) (seq (S i) (k - i))) = B)
      by (rewrite Hall; apply concat_all_segs).
    assert (Hpos : length (concat (map (seg k B) (seq 0 i))) = pos k (length B) i).
    { rewrite concat_segs by lia. rewrite firstn_length, Nat.min_l; [reflexivity|].
      rewrite <- (pos_end k (length B)) at 2. apply pos_mono. lia. }
    assert (Hsz : length (seg k B i) = size k (length B) i) by (apply seg_length; lia).
    pose proof (segments_balanced k B) as Hb. rewrite segments_eq, map_map in Hb. unfold str in *.
    split; [rewrite Hall, map_length, seq_length; reflexivity|]. split; [exact Hcat|].
    split. { rewrite Hall, map_map. exact Hb. }
    split. { rewrite Hsub. unfold slice. rewrite app_assoc. replace (j + size k (length B) i - j) with (size k (length B) i) by lia.
      rewrite <- (firstn_skipn j P) at 1. rewrite <- app_assoc. f_equal.
      rewrite <- (firstn_skipn (size k (length B) i) (skipn j P)) at 1. f_equal. rewrite StringsProofs.skipn_skipn. f_equal. lia. }
    rewrite map_length, seq_length, Hpos. rewrite firstn_length, skipn_length, Nat.min_l by lia.
    assert (HlB : length B = pos k (length B) i + (size k (length B) i + length (concat (@map nat (list N) (seg k B) (seq (S i) (k - i)))))).
    { pose proof (f_equal (@length N) Hcat) as G. rewrite concat_app in G. cbn [List.concat] in G. rewrite !app_length in G. lia. }
    rewrite map_length, seq_length. lia.
Qed.
End PassJoin.

(** ** Any program *)
Section Any.
Context {Q B C R : Type}.

Lemma run_local (f g : Q -> B) (p : prog Q B C R) t o : run (pure f) tt p = (t, tt, o) ->
  (forall q, In q (asked t) -> g q = f q) -> run (pure g) tt p = (t, tt, o).
Proof.
  revert t. induction p as [r|e|q k IH|c p IH]; intros t; cbn [run]; [auto|auto| |].
  - cbn [pure]. destruct (run (pure f) tt (k (f q))) as [[t1 []] o1] eqn:E. intros H Hg. injection H as <- <-.
    rewrite (Hg q) by (left; reflexivity). rewrite (IH _ _ E); [reflexivity|]. intros q' Hq. apply Hg. right. exact Hq.
  - destruct (run (pure f) tt p) as [[t1 []] o1] eqn:E. intros H Hg. injection H as <- <-. rewrite (IH _ eq_refl); [reflexivity|].
    intros q' Hq. apply Hg. exact Hq.
Qed.

Lemma run_simulates {W} (inv : W -> Prop) (f : user W) (g : Q -> B) (p : prog Q B C R) :
  (forall w q, inv w -> exists w', f w q = (w', Ok (g q)) /\ inv w') ->
  forall w t o, inv w -> run (pure g) tt p = (t, tt, o) -> exists w', run f w p = (t, w', o) /\ inv w'.
Proof.
  intros Hf. induction p as [r|e|q k IH|c p IH]; intros w t o Hw; cbn [run].
  - intros H. injection H as <- <-. eauto.
  - intros H. injection H as <- <-. eauto.
  - cbn [pure]. destruct (run (pure g) tt (k (g q))) as [[t1 []] o1] eqn:E. intros H. injection H as <- <-.
    destruct (Hf w q Hw) as (w1 & -> & Hw1). destruct (IH _ w1 _ _ Hw1 E) as (w2 & -> & Hw2). eauto.
  - destruct (run (pure g) tt p) as [[t1 []] o1] eqn:E. intros H. injection H as <- <-.
    destruct (IH w _ _ Hw eq_refl) as (w2 & -> & Hw2). eauto.
Qed.

Lemma run_raises {W} (f : user W) (p : prog Q B C R) : forall w t w' o, run f w p = (t, w', o) ->
  exists answers stop, feed f w (asked t) = (answers, w', stop) /\
    match stop with
    | None => length answers = length (asked t)
    | Some e => o = Err e /\ exists t0 q, t = t0 ++ [Asked q] /\ length answers = length (asked t0)
    end.
Proof.
  induction p as [r|e|q k IH|c p IH]; intros w t w' o; cbn [run].
  - intros H. injection H as <- <- <-. exists [], None. split; reflexivity.
  - intros H. injection H as <- <- <-. exists [], None. split; reflexivity.
  - destruct (f w q) as [w1 [b|e]] eqn:Ef.
    + destruct (run f w1 (k b)) as [[t1 w2] o1] eqn:E. intros H. injection H as <- <- <-.
      destruct (IH _ _ _ _ _ E) as (answers & stop & Hf & Hs). exists (b :: answers), stop. cbn [asked flat_map app feed]. rewrite Ef.
      change (flat_map _ t1) with (asked t1). rewrite Hf. split; [reflexivity|].
      destruct stop as [e|]; [|cbn; lia]. destruct Hs as (-> & t0 & q' & -> & Hl). split; [reflexivity|].
      exists (Asked q :: t0), q'. split; [reflexivity|]. cbn. f_equal. exact Hl.
    + intros H. injection H as <- <- <-. exists [], (Some e). cbn. rewrite Ef. split; [reflexivity|]. split; [reflexivity|].
      exists [], q. split; reflexivity.
  - destruct (run f w p) as [[t1 w2] o1] eqn:E. intros H. injection H as <- <- <-.
    destruct (IH _ _ _ _ E) as (answers & stop & Hf & Hs). exists answers, stop. split; [exact Hf|].
    destruct stop as [e|]; [|exact Hs]. destruct Hs as (-> & t0 & q' & -> & Hl). split; [reflexivity|].
    exists (Gave c :: t0), q'. split; [reflexivity|exact Hl].
Qed.
End Any.
