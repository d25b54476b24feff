(** C158-C166: the calls of the user's function made by the clustering functions *)
From Coq Require Import String Sorted.
From Verif Require Import Base BaseFacts ClustersModel ClustersSpec ClustersProofs PairwiseModel PairwiseSpec PairwiseProofs
  SortModel BlockingModel BlockingSpec BlockingProofs NeighborhoodModel NeighborhoodProofs CallsModel CallsSpec CallsProofs CallsMoreProofs.
From Verif Require PassJoinModel PassJoinSpec PassJoinProofs LevModel EditSpec PPJoinProofs.
Open Scope nat_scope.
Open Scope string_scope.
Open Scope list_scope.
Notation length := List.length.
Notation concat := List.concat.

(** ** C158: pairwise compares each pair of items at most once, in the order of the items *)

(** the cells of n items: the pairs of positions i < j < n, each once, in order *)
Theorem C158_cells n :
  (forall i j, In (i, j) (cells n) <-> i < j /\ j < n) /\ StronglySorted before (cells n) /\ 2 * length (cells n) = n * (n - 1).
Proof. split; [intros i j; apply In_cells|]. split; [apply cells_sorted|apply length_cells]. Qed.
Print Assumptions C158_cells.

(** fuzzy clusters: whatever the user's function does, all the pairs, then the clusters of the pairs it accepted; if it raises, nothing
    is yielded and it is not called again *)
Theorem C158_fuzzy {A K W} (f : user W) (w : W) (key : A -> K) (data : list A) lo hi :
  run f w (fuzzy_prog key data lo hi) =
  talks f w (at_cells (map key data) (cells (length data)))
    (fun answers => outcome (yield_fuzzy data (select (cells (length data)) answers) lo hi)).
Proof. apply fuzzy_prog_run. Qed.
Print Assumptions C158_fuzzy.

(** connected components: some of the pairs, in the same order, before anything is yielded *)
Theorem C158_components {A K W} (f : user W) (w : W) (key : A -> K) (data : list A) lo hi t w' o :
  run f w (components_prog key data lo hi) = (t, w', o) ->
  exists calls out, t = map Asked calls ++ map Gave out /\ subseq calls (at_cells (map key data) (cells (length data))) /\
    match o with Ok _ => True | Err _ => out = [] end.
Proof. apply components_any. Qed.
Print Assumptions C158_components.

(** leader: some of the pairs, in the same order *)
Theorem C158_leader {A W} (f : user W) (w : W) (data : list A) lo hi t w' o :
  run f w (leader_prog data lo hi) = (t, w', o) -> subseq (asked t) (at_cells data (cells (length data))).
Proof. apply leader_any. Qed.
Print Assumptions C158_leader.

(** with several processes: the cells of the chunks are the cells of the data, each once, and a worker compares those of its chunk *)
Theorem C158_workers {A K} (keys : list K) c chunks : 1 <= c -> upper_triangular_matrix_chunk_iter keys c = Ok chunks ->
  Permutation (flat_map chunk_cells chunks) (cells (length keys)) /\
  forall W (f : user W) w chunk, In chunk chunks ->
    run f w (worker_prog chunk : prog (K * K) bool (list A) _) =
    match feed f w (at_cells keys (chunk_cells chunk)) with
    | (answers, w, None) => (map Asked (at_cells keys (chunk_cells chunk)), w, Ok (select (chunk_cells chunk) answers))
    | (answers, w, Some e) => (map Asked (firstn (S (length answers)) (at_cells keys (chunk_cells chunk))), w, Err e)
    end.
Proof.
  intros Hc E. split; [apply (chunks_permutation keys c chunks Hc E)|]. intros W f w chunk Hin.
  apply (worker_talks f w keys c chunks chunk Hc E Hin).
Qed.
Print Assumptions C158_workers.

(** an unknown mode: the function is not called *)
Theorem C158_mode {A W} (f : user W) (w : W) (data : list A) lo hi mode :
  ~ In mode ["leader"; "fuzzy_clusters"; "connected_components"] ->
  run f w (pairwise_prog data lo hi mode) = ([], w, Err TypeError).
Proof.
  intros Hm. unfold pairwise_prog. destruct (string_dec mode "leader"); [subst; cbn in Hm; tauto|].
  destruct (string_dec mode "fuzzy_clusters"); [subst; cbn in Hm; tauto|].
  destruct (string_dec mode "connected_components"); [subst; cbn in Hm; tauto|]. reflexivity.
Qed.
Print Assumptions C158_mode.

(** a user's function that fails the third time it is called *)
Definition third_fails : @user (nat * nat) bool nat := fun w q => if Nat.eqb w 2 then (3, Err ValueError) else (S w, Ok true).
Example C158_example_fails :
  run third_fails 0 (fuzzy_prog (fun x => x) [5; 6; 7] 2 None) = ([Asked (5, 6); Asked (5, 7); Asked (6, 7)], 3, Err ValueError).
Proof. reflexivity. Qed.
Example C158_example_fuzzy :
  run (pure (fun q => Nat.leb (snd q - fst q) 1)) tt (fuzzy_prog (fun x => x) [5; 6; 8] 2 None) =
  ([Asked (5, 6); Asked (5, 8); Asked (6, 8); Gave [5; 6]], tt, Ok tt).
Proof. reflexivity. Qed.

(** ** C159: leader clustering yields each cluster once its leader has been compared, and makes at most c * n calls *)

Theorem C159_trace {A} (similarity : A -> A -> bool) (data : list A) lo :
  exists leaders, are_leaders similarity data leaders /\ StronglySorted lt leaders /\
    run (pure (fun q => similarity (fst q) (snd q))) tt (leader_prog data lo None) =
    (flat_map (leader_turn similarity data leaders lo) leaders, tt, Ok tt).
Proof. apply leader_trace. Qed.
Print Assumptions C159_trace.

(** n items and c leaders: at most c * n - c * (c + 1) / 2 calls *)
Theorem C159_count {A} (similarity : A -> A -> bool) (data : list A) leaders lo : are_leaders similarity data leaders -> StronglySorted lt leaders ->
  2 * length (asked (flat_map (leader_turn similarity data leaders lo) leaders)) + length leaders * (length leaders + 1)
    <= 2 * length leaders * length data.
Proof. apply leader_count. Qed.
Print Assumptions C159_count.

Example C159_example :
  run (pure (fun q => Nat.leb (snd q - fst q) 1)) tt (leader_prog [1; 2; 3; 4] 2 None) =
  ([Asked (1, 2); Asked (1, 3); Asked (1, 4); Gave [1; 2]; Asked (3, 4); Gave [3; 4]], tt, Ok tt).
Proof. reflexivity. Qed.
(** the bound is reached: 3 leaders among 3 items, 3 calls *)
Example C159_example_bound :
  length (asked (fst (fst (run (pure (fun _ => false)) tt (leader_prog [1; 2; 3] 1 None))))) = 3.
Proof. reflexivity. Qed.

(** ** C160: connected components compares exactly the pairs not known to be connected yet *)

Theorem C160_calls {A K} (similarity : K -> K -> bool) (key : A -> K) (data : list A) lo hi :
  exists cs out, pairwise_connected_components similarity key data lo hi = Ok out /\
    run (pure (fun q => similarity (fst q) (snd q))) tt (components_prog key data lo hi) =
      (map Asked (at_cells (map key data) cs) ++ map Gave out, tt, Ok tt) /\
    subseq cs (cells (length data)) /\
    forall i j, In (i, j) cs <->
      i < j /\ j < length data /\ ~ connected (similar_before similarity (map key data) (i, j)) i j.
Proof. apply components_calls. Qed.
Print Assumptions C160_calls.

(** items of different components are always compared *)
Theorem C160_across {A K} (similarity : K -> K -> bool) (key : A -> K) (data : list A) lo hi i j a b :
  i < j -> nth_error (map key data) i = Some a -> nth_error (map key data) j = Some b ->
  ~ connected (similar_at similarity (map key data)) i j ->
  exists t, run (pure (fun q => similarity (fst q) (snd q))) tt (components_prog key data lo hi) = (t, tt, Ok tt) /\ In (a, b) (asked t).
Proof.
  intros Hij Ha Hb Hn. destruct (components_calls similarity key data lo hi) as (cs & out & _ & Hr & _ & Hcs).
  eexists. split; [exact Hr|]. rewrite asked_app, asked_Asked, asked_Gave, app_nil_r. unfold at_cells. apply in_flat_map.
  exists (i, j). cbn [fst snd]. rewrite Ha, Hb. split; [|left; reflexivity]. apply Hcs. split; [exact Hij|]. split.
  - rewrite <- (map_length key). apply nth_error_Some. congruence.
  - intros Hc. apply Hn. eapply conn_mono; [|exact Hc]. intros x y [Hxy _]. apply Relation_Operators.rst_step. exact Hxy.
Qed.
Print Assumptions C160_across.

(** 1 ~ 2, 2 ~ 3: the pair (1, 3) is asked before (2, 3), and (2, 3) before anything is known of 3 *)
Example C160_example :
  run (pure (fun q => Nat.leb (snd q - fst q) 1)) tt (components_prog (fun x => x) [1; 2; 3] 2 None) =
  ([Asked (1, 2); Asked (1, 3); Asked (2, 3); Gave [1; 2; 3]], tt, Ok tt).
Proof. reflexivity. Qed.
Example C160_example_skip :
  run (pure (fun q => true)) tt (components_prog (fun x => x) [1; 2; 3; 4] 2 None) =
  ([Asked (1, 2); Asked (1, 3); Asked (1, 4); Gave [1; 2; 3; 4]], tt, Ok tt).
Proof. reflexivity. Qed.

(** ** C161: the documented complexity of connected components, O(n * c), does not hold *)

(** for every constant m there are n items in a single component for which more than m * n * 1 calls are made *)
Theorem C161_refuted : forall m, exists (similarity : nat -> nat -> bool) data t,
  run (pure (fun q => similarity (fst q) (snd q))) tt (components_prog (fun x => x) data 1 None) = (t, tt, Ok tt) /\
  length (given t) <= 1 /\ m * length data < length (asked t).
Proof.
  intros m. set (n := 2 * m + 5). exists (to_last n), (seq 0 n).
  destruct (components_calls (to_last n) (fun x => x) (seq 0 n) 1 None) as (cs & out & E & Hr & _).
  eexists. split; [exact Hr|]. destruct (star_calls n _ _ ltac:(unfold n; lia) Hr eq_refl) as [H1 H2]. split; [exact H1|].
  rewrite seq_length. unfold n in *. nia.
Qed.
Print Assumptions C161_refuted.

(** ** C162: blocking compares the pairs of each block, and so a pair once per block it shares *)

Theorem C162_calls {A B W} `{EqDec A} `{EqDec B} set_order block_order (f : user W) (w : W) (how : (A -> B) + (A -> list B)) data lo hi mode :
  run f w (blocking_prog set_order block_order how data lo hi mode) =
  talks f w (pairs_from_buckets (dvalues (buckets_of block_order how data)))
    (fun answers => outcome (clusters_from_pairs set_order
       (select (pairs_from_buckets (dvalues (buckets_of block_order how data))) answers) lo hi mode (several how))).
Proof. apply blocking_talks. Qed.
Print Assumptions C162_calls.

(** different items: x, before y in the data, is compared with y as many times as they have blocks in common *)
Theorem C162_count {A B} `{EqDec A} `{EqDec B} block_order (dec : forall x y : A * A, {x = y} + {x <> y}) (how : (A -> B) + (A -> list B)) data x y n :
  (forall l, Permutation (block_order l) l) -> NoDup data -> precedes data x y ->
  card (fun b => In b (blocks_of how x) /\ In b (blocks_of how y)) n ->
  count_occ dec (pairs_from_buckets (dvalues (buckets_of block_order how data))) (x, y) = n.
Proof. intros Hb. apply (blocking_count (fun l => l)). exact Hb. Qed.
Print Assumptions C162_count.

(** with a single block, at most once *)
Theorem C162_single {A B} `{EqDec A} `{EqDec B} block_order (dec : forall x y : A * A, {x = y} + {x <> y}) (block : A -> B) data x y :
  (forall l, Permutation (block_order l) l) -> NoDup data -> precedes data x y ->
  count_occ dec (pairs_from_buckets (dvalues (buckets_of block_order (inl block) data))) (x, y) = if eq_dec (block x) (block y) then 1 else 0.
Proof.
  intros Hb Hn Hp. apply (blocking_count (fun l => l) block_order Hb dec (inl block)); [exact Hn|exact Hp|]. cbn [blocks_of].
  destruct (eq_dec (block x) (block y)) as [E|E].
  - exists [block x]. split; [repeat constructor; cbn; tauto|]. split; [|reflexivity]. intros b. cbn. rewrite <- E. tauto.
  - exists []. split; [constructor|]. split; [|reflexivity]. intros b. cbn. split; [tauto|]. intros [[<-|[]] [H1|[]]]. congruence.
Qed.
Print Assumptions C162_single.

Example C162_example :
  run (pure (fun q : nat * nat => Nat.leb (snd q - fst q) 1)) tt
    (blocking_prog (fun l => l) (fun l => l) (inl (fun x => Nat.modulo x 2)) [1; 2; 3; 4; 5] 1 None "connected_components") =
  ([Asked (1, 3); Asked (1, 5); Asked (3, 5); Asked (2, 4)], tt, Ok tt).
Proof. reflexivity. Qed.

(** ** C163: a pair can be compared several times *)

(** blocking with [blocks], passjoin *)
Theorem C163_refuted :
  asked (fst (fst (run (pure (fun _ : nat * nat => true)) tt
    (blocking_prog (fun l => l) (fun l => l) (inr (fun _ : nat => [0; 1])) [1; 2] 2 None "connected_components")))) = [(1, 2); (1, 2)] /\
  exists a b : LevModel.str, a <> b /\
  asked (fst (fst (run (pure (fun _ : LevModel.str * LevModel.str => 1)) tt
    (passjoin_prog 2 (fun l => l) [a; b] true 2 None "connected_components")))) = [(b, a); (b, a)].
Proof.
  split; [reflexivity|]. exists [97; 98; 99; 100; 101; 102]%N, [97; 98; 99; 100; 101; 103]%N. split; [discriminate|]. reflexivity.
Qed.
Print Assumptions C163_refuted.

(** ** C164: sorted_neighborhood compares each item with the window - 1 next ones *)

Theorem C164_calls {A W} `{EqDec A} set_order (f : user W) (w : W) once data key keys window lo hi mode :
  run f w (neighborhood_prog set_order once data key keys window lo hi mode) =
  let calls := flat_map (fun s => at_cells s (near_cells window (length s)))
                 (sorted_passes once data (match keys with Some ks => ks | None => [key] end)) in
  talks f w calls
    (fun answers => outcome (clusters_from_pairs set_order (select calls answers) lo hi mode
       (match keys with Some _ => true | None => false end))).
Proof. apply neighborhood_talks. Qed.
Print Assumptions C164_calls.

Theorem C164_cells window n i j : In (i, j) (near_cells window n) <-> i < j /\ j < n /\ j < i + window.
Proof. apply In_near_cells. Qed.
Print Assumptions C164_cells.

(** (window - 1) * (2 n - window) / 2 calls for each pass; all the pairs if the window is larger than the data *)
Theorem C164_number {A} (s : list A) window :
  2 * length (at_cells s (near_cells window (length s))) =
  let n := length s in if Nat.leb window n then (window - 1) * (2 * n - window) else n * (n - 1).
Proof.
  cbv zeta. rewrite at_cells_length; [apply length_near_cells|]. intros i j Hij. apply In_near_cells in Hij. lia.
Qed.
Print Assumptions C164_number.

Example C164_example :
  run (pure (fun q => Nat.eqb (fst q) (snd q))) tt (neighborhood_prog (fun l => l) false [3; 1; 2; 1] Nat.leb None 3 2 None "connected_components") =
  ([Asked (1, 1); Asked (1, 2); Asked (1, 2); Asked (1, 3); Asked (2, 3)], tt, Ok tt).
Proof. reflexivity. Qed.
Example C164_example_window : near_cells 3 5 = [(0, 1); (0, 2); (1, 2); (1, 3); (2, 3); (2, 4); (3, 4)].
Proof. reflexivity. Qed.

(** ** C165: passjoin only measures strings of close lengths that share a piece *)

Section C165.
Import LevModel PassJoinSpec PassJoinProofs.

Theorem C165_calls {W} (f : user W) (w : W) k set_order data sort lo hi mode :
  run f w (passjoin_prog k set_order data sort lo hi mode) =
  talks f w (filter (fun ab => negb (both_short k ab)) (candidates k sort (order sort data)))
    (fun answers => outcome (clusters_from_pairs set_order (close_pairs k (candidates k sort (order sort data)) answers) lo hi mode false)).
Proof. apply passjoin_talks. Qed.
Print Assumptions C165_calls.

(** the candidates *)
Theorem C165_candidates k sort data A B :
  In (A, B) (candidates k sort (order sort data)) <->
  PassJoinSpec.before (order sort data) B A /\ share_piece k A B /\ length A <= length B + k /\ length B <= length A + k.
Proof. rewrite share_piece_segment. apply candidates_exact. Qed.
Print Assumptions C165_candidates.

(** no close pair is missed: whatever the distance given, strings at most k edits apart are candidates *)
Theorem C165_complete k sort data A B :
  PassJoinSpec.before (order sort data) B A -> EditSpec.lev_le k A B -> In (A, B) (candidates k sort (order sort data)).
Proof. intros Hb Hl. apply candidates_exact. split; [exact Hb|]. apply share_close. exact Hl. Qed.
Print Assumptions C165_complete.

(** short strings are never measured *)
Theorem C165_short k sort data A B :
  In (A, B) (filter (fun ab => negb (both_short k ab)) (candidates k sort (order sort data))) -> k < length A \/ k < length B.
Proof.
  intros Hin. apply filter_In in Hin as [_ Hs]. unfold both_short in Hs. cbn [fst snd] in Hs.
  destruct (Nat.leb_spec (length A) k); [|left; lia]. destruct (Nat.leb_spec (length B) k); [discriminate|right; lia].
Qed.
Print Assumptions C165_short.

(** 'ab', 'b' and 'xyz', k = 1: the first two share the piece 'b' *)
Example C165_example :
  run (pure (fun q => length (fst q) - length (snd q) + (length (snd q) - length (fst q)))) tt
    (passjoin_prog 1 (fun l => l) [[97; 98]; [98]; [120; 121; 122]]%N true 2 None "connected_components") =
  ([Asked ([98], [97; 98]); Gave [[98]; [97; 98]]]%N, tt, Ok tt).
Proof. reflexivity. Qed.
(** 'a' and 'b', k = 1: not measured *)
Example C165_example_short :
  run (pure (fun _ => 9)) tt (passjoin_prog 1 (fun l => l) [[97]; [98]]%N true 2 None "connected_components") =
  ([Gave [[98]; [97]]]%N, tt, Ok tt).
Proof. reflexivity. Qed.
End C165.

(** ** C166: the programs do what the other models say, with any function that answers the same *)

(** A run of a program that gives what a model gives: the clusters and the end of the generator *)
Definition agrees {Q C} (r : list (event Q C) * unit * res unit) (model : res (list C)) : Prop :=
  exists t o, r = (t, tt, o) /\ outcome model = (given t, o).

Lemma agrees_talks {Q B C} (f : Q -> B) calls (finish : list B -> list C * res unit) model :
  outcome model = finish (map f calls) -> agrees (talks (pure f) tt calls finish) model.
Proof.
  intros E. unfold talks. rewrite feed_pure. destruct (finish (map f calls)) as [out o].
  eexists _, o. split; [reflexivity|]. rewrite given_app, given_Asked, given_Gave. exact E.
Qed.

Theorem C166_pairwise {A} (similarity : A -> A -> bool) data lo hi mode :
  exists t o, run (pure (fun q => similarity (fst q) (snd q))) tt (pairwise_prog data lo hi mode) = (t, tt, o) /\
    pairwise similarity data lo hi mode = (given t, ends o).
Proof.
  unfold pairwise_prog, pairwise. destruct (string_dec mode "leader"); [apply leader_agrees|].
  destruct (string_dec mode "fuzzy_clusters").
  { rewrite fuzzy_prog_run. unfold talks. rewrite feed_pure.
    assert (E : pairwise_fuzzy_clusters similarity (fun x => x) data lo hi =
      yield_fuzzy data (select (cells (length data)) (map (fun q => similarity (fst q) (snd q)) (at_cells (map (fun x => x) data) (cells (length data))))) lo hi).
    { unfold pairwise_fuzzy_clusters. f_equal. apply serial_matches_cells. apply map_length. }
    rewrite E. destruct (yield_fuzzy _ _ _ _) as [out|err]; cbn [outcome].
    - eexists _, _. split; [reflexivity|]. rewrite given_app, given_Asked, given_Gave. reflexivity.
    - eexists _, _. split; [reflexivity|]. rewrite given_app, given_Asked, given_Gave. reflexivity. }
  destruct (string_dec mode "connected_components").
  { rewrite components_prog_run. destruct (pairwise_connected_components similarity (fun x => x) data lo hi) as [out|err]; cbn [outcome];
      eexists _, _; (split; [reflexivity|]); rewrite given_app, given_Asked, given_Gave; reflexivity. }
  exists [], (Err TypeError). split; reflexivity.
Qed.
Print Assumptions C166_pairwise.

(** the worker of pairwise with several processes *)
Theorem C166_worker {A K} (similarity : K -> K -> bool) payload :
  exists calls, run (pure (fun q => similarity (fst q) (snd q))) tt (worker_prog payload : prog (K * K) bool (list A) _) =
    (map Asked calls, tt, Ok (pairwise_worker similarity payload)).
Proof.
  destruct payload as [[[rows cols] oi] oj]. rewrite worker_prog_run, feed_pure. eexists. repeat f_equal.
  rewrite <- worker_list_cells, map_map, select_map_fst, select_map. unfold pairwise_worker.
  destruct (Nat.eqb oi oj); reflexivity.
Qed.
Print Assumptions C166_worker.

Theorem C166_buckets {A} `{EqDec A} set_order (similarity : A -> A -> bool) buckets lo hi mode fuzzy :
  agrees (run (pure (fun q => similarity (fst q) (snd q))) tt (buckets_prog set_order buckets lo hi mode fuzzy))
    (clusters_from_buckets set_order buckets lo hi mode (Some similarity) fuzzy).
Proof. rewrite buckets_talks. apply agrees_talks. rewrite select_map. reflexivity. Qed.
Print Assumptions C166_buckets.

Theorem C166_blocking {A B} `{EqDec A} `{EqDec B} set_order block_order (similarity : A -> A -> bool) (how : (A -> B) + (A -> list B)) data lo hi mode :
  agrees (run (pure (fun q => similarity (fst q) (snd q))) tt (blocking_prog set_order block_order how data lo hi mode))
    (blocking set_order block_order similarity how data lo hi None mode).
Proof.
  rewrite blocking_talks. apply agrees_talks. rewrite select_map.
  assert (E : forall buckets : dict B (list A), blocking_pairs similarity buckets None =
    filter (fun q => similarity (fst q) (snd q)) (pairs_from_buckets (dvalues buckets))).
  { intros buckets. unfold blocking_pairs, pairs_from_buckets. generalize (dvalues buckets). induction l as [|b l IH]; [reflexivity|].
    cbn [flat_map filter]. rewrite filter_app, <- IH. destruct b as [|x [|y b]]; reflexivity. }
  destruct how as [block|blocks]; cbn [blocking buckets_of several]; rewrite E; reflexivity.
Qed.
Print Assumptions C166_blocking.

Theorem C166_neighborhood {A} `{EqDec A} set_order (similarity : A -> A -> bool) once data key keys window lo hi mode :
  agrees (run (pure (fun q => similarity (fst q) (snd q))) tt (neighborhood_prog set_order once data key keys window lo hi mode))
    (sorted_neighborhood set_order similarity once data key keys window lo hi mode).
Proof.
  rewrite neighborhood_talks. apply agrees_talks. rewrite select_map. unfold sorted_neighborhood. f_equal. f_equal.
  unfold neighborhood_calls, passes_of. induction (sorted_passes _ _ _) as [|s l IH]; [reflexivity|]. cbn [flat_map].
  rewrite filter_app, <- IH. f_equal. symmetry. apply filter_window.
Qed.
Print Assumptions C166_neighborhood.

Theorem C166_adaptive {A} `{EqDec A} set_order (similarity : A -> A -> bool) fuel once data key keys step lo hi mode :
  agrees (run (pure (fun q => similarity (fst q) (snd q))) tt (adaptive_prog set_order fuel once data key keys step lo hi mode))
    (adaptive_sorted_neighborhood set_order similarity fuel once data key keys step lo hi mode).
Proof.
  destruct (adaptive_agrees similarity set_order fuel once data key keys step lo hi mode) as (qs & ->).
  destruct (outcome _) as [out o] eqn:E. eexists _, o. split; [reflexivity|]. rewrite given_app, given_Asked, given_Gave. exact E.
Qed.
Print Assumptions C166_adaptive.

Theorem C166_passjoin k set_order (distance : LevModel.str -> LevModel.str -> nat) data sort lo hi mode :
  agrees (run (pure (fun q => distance (fst q) (snd q))) tt (passjoin_prog k set_order data sort lo hi mode))
    (PassJoinModel.passjoin k distance set_order data sort lo hi mode).
Proof.
  rewrite passjoin_talks. apply agrees_talks. unfold PassJoinModel.passjoin. cbv zeta. fold (PassJoinProofs.order sort data). f_equal. f_equal.
  apply passjoin_pairs_close.
Qed.
Print Assumptions C166_passjoin.

(** Any program.  A function that keeps a state but always answers g(q), a cache for instance, gives the same run. *)
Theorem C166_stateful {Q B C R W} (inv : W -> Prop) (f : user W) (g : Q -> B) (p : prog Q B C R) :
  (forall w q, inv w -> exists w', f w q = (w', Ok (g q)) /\ inv w') ->
  forall w t o, inv w -> run (pure g) tt p = (t, tt, o) -> exists w', run f w p = (t, w', o) /\ inv w'.
Proof. apply run_simulates. Qed.
Print Assumptions C166_stateful.

(** only the answers to the calls made matter *)
Theorem C166_local {Q B C R} (f g : Q -> B) (p : prog Q B C R) t o : run (pure f) tt p = (t, tt, o) ->
  (forall q, In q (asked t) -> g q = f q) -> run (pure g) tt p = (t, tt, o).
Proof. apply run_local. Qed.
Print Assumptions C166_local.

(** an exception of the function goes through at once; the function has seen the calls of the trace, in order *)
Theorem C166_raises {Q B C R W} (f : user W) (p : prog Q B C R) w t w' o : run f w p = (t, w', o) ->
  exists answers stop, feed f w (asked t) = (answers, w', stop) /\
    match stop with
    | None => length answers = length (asked t)
    | Some e => o = Err e /\ exists t0 q, t = t0 ++ [Asked q] /\ length answers = length (asked t0)
    end.
Proof. apply run_raises. Qed.
Print Assumptions C166_raises.

(** a cache: the state is the list of the calls answered so far *)
Definition cache (g : nat * nat -> bool) : user (dict (nat * nat) bool) := fun w q =>
  match dget w q with Some b => (w, Ok b) | None => (dset w q (g q), Ok (g q)) end.
Example C166_example_cache g (p : prog (nat * nat) bool (list nat) unit) t o : run (pure g) tt p = (t, tt, o) ->
  exists w', run (cache g) [] p = (t, w', o) /\ forall q b, dget w' q = Some b -> b = g q.
Proof.
  intros Hr. apply (C166_stateful (fun w => forall q b, dget w q = Some b -> b = g q) (cache g) g p); [|discriminate|exact Hr].
  intros w q Hw. unfold cache. destruct (dget w q) as [b|] eqn:E.
  - exists w. split; [rewrite (Hw q b E); reflexivity|exact Hw].
  - exists (dset w q (g q)). split; [reflexivity|]. intros q' b'. destruct (eq_dec q q') as [<-|Hne].
    + rewrite PPJoinProofs.dget_dset_same. congruence.
    + rewrite PPJoinProofs.dget_dset_other by exact Hne. apply Hw.
Qed.
Example C166_example_adaptive :
  run (pure (fun q => Nat.leb (snd q - fst q) 1)) tt
    (adaptive_prog (fun l => l) 9 false [4; 1; 2; 9] Nat.leb None 1 2 None "connected_components") =
  ([Asked (1, 2); Asked (2, 4); Asked (2, 4); Asked (1, 2); Asked (4, 9); Asked (4, 9); Gave [1; 2]], tt, Ok tt).
Proof. vm_compute. reflexivity. Qed.
