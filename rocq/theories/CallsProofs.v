(** Proofs about the calls of the user's function. *)
From Coq Require Import String.
From Verif Require Import Base BaseFacts ClustersModel ClustersSpec ClustersProofs PairwiseModel PairwiseSpec PairwiseProofs
  SortModel BlockingModel NeighborhoodModel NeighborhoodProofs CallsModel CallsSpec.
Open Scope nat_scope.
Open Scope list_scope.
Notation length := List.length.
Notation concat := List.concat.

(** ** Programs *)
Section Run.
Context {Q B C : Type}.
Notation prog := (prog Q B C).

Definition then_ {W R R'} (x : list (event Q C) * W * res R) (k : W -> R -> list (event Q C) * W * res R')
    : list (event Q C) * W * res R' :=
  let '(t, w, o) := x in
  match o with
  | Ok r => let '(t', w', o') := k w r in (t ++ t', w', o')
  | Err e => (t, w, Err e)
  end.

Lemma run_bind {W R R'} (f : user W) w (p : prog R) (k : R -> prog R') :
  run f w (pbind p k) = then_ (run f w p) (fun w r => run f w (k r)).
Proof.
  revert w. induction p as [r|e|q k' IH|c p IH]; intros w; cbn [pbind run].
  - cbn. destruct (run f w (k r)) as [[t w'] o]. reflexivity.
  - reflexivity.
  - destruct (f w q) as [w1 [b|e]]; [|reflexivity]. rewrite IH.
    destruct (run f w1 (k' b)) as [[t w'] [r|e]]; cbn; [|reflexivity].
    destruct (run f w' (k r)) as [[t' w''] o]. reflexivity.
  - rewrite IH. destruct (run f w p) as [[t w'] [r|e]]; cbn; [|reflexivity].
    destruct (run f w' (k r)) as [[t' w''] o]. reflexivity.
Qed.

(** the same behaviour with every user's function *)
Definition equiv {R} (p p' : prog R) : Prop := forall W (f : user W) w, run f w p = run f w p'.

Lemma equiv_refl {R} (p : prog R) : equiv p p.
Proof. intros W f w. reflexivity. Qed.
Lemma equiv_sym {R} (p p' : prog R) : equiv p p' -> equiv p' p.
Proof. intros H W f w. symmetry. apply H. Qed.
Lemma equiv_trans {R} (p q r : prog R) : equiv p q -> equiv q r -> equiv p r.
Proof. intros H1 H2 W f w. rewrite H1. apply H2. Qed.

Lemma then_ext {W R R'} (x : list (event Q C) * W * res R) (k k' : W -> R -> list (event Q C) * W * res R') :
  (forall w r, k w r = k' w r) -> then_ x k = then_ x k'.
Proof. intros H. destruct x as [[t w] [r|e]]; cbn; [|reflexivity]. rewrite H. reflexivity. Qed.

Lemma equiv_bind {R R'} (p p' : prog R) (k k' : R -> prog R') : equiv p p' -> (forall r, equiv (k r) (k' r)) ->
  equiv (pbind p k) (pbind p' k').
Proof. intros H1 H2 W f w. rewrite !run_bind, H1. apply then_ext. intros w' r. apply H2. Qed.

Lemma bind_assoc {R R' R''} (p : prog R) (k : R -> prog R') (k' : R' -> prog R'') :
  equiv (pbind (pbind p k) k') (pbind p (fun r => pbind (k r) k')).
Proof.
  intros W f w. rewrite !run_bind. destruct (run f w p) as [[t w'] [r|e]]; cbn; [|reflexivity].
  rewrite run_bind. destruct (run f w' (k r)) as [[t' w''] [r'|e]]; cbn; [|reflexivity].
  destruct (run f w'' (k' r')) as [[t'' w'''] o]. rewrite app_assoc. reflexivity.
Qed.

Lemma bind_ret {R} (p : prog R) : equiv (pbind p (fun r => Ret r)) p.
Proof.
  intros W f w. rewrite run_bind. destruct (run f w p) as [[t w'] [r|e]]; cbn; [|reflexivity].
  rewrite app_nil_r. reflexivity.
Qed.

Lemma for_each_ext {X St} (l : list X) (body body' : St -> X -> prog St) st :
  (forall st x, In x l -> equiv (body st x) (body' st x)) -> equiv (for_each l st body) (for_each l st body').
Proof.
  revert st. induction l as [|x l IH]; intros st H; [apply equiv_refl|]. cbn [for_each].
  apply equiv_bind; [apply H; left; reflexivity|]. intros r. apply IH. intros st' y Hy. apply H. right. exact Hy.
Qed.

Lemma for_each_app {X St} (l1 l2 : list X) (body : St -> X -> prog St) st :
  equiv (for_each (l1 ++ l2) st body) (pbind (for_each l1 st body) (fun st => for_each l2 st body)).
Proof.
  revert st. induction l1 as [|x l1 IH]; intros st; [apply equiv_refl|]. cbn [app for_each].
  eapply equiv_trans; [|apply equiv_sym, bind_assoc]. apply equiv_bind; [apply equiv_refl|]. intros r. apply IH.
Qed.

(** nested loops *)
Lemma for_each_flat {X Y St} (g : X -> list Y) (l : list X) (body : St -> Y -> prog St) st :
  equiv (for_each l st (fun st x => for_each (g x) st body)) (for_each (flat_map g l) st body).
Proof.
  revert st. induction l as [|x l IH]; intros st; [apply equiv_refl|]. cbn [flat_map for_each].
  eapply equiv_trans; [|apply equiv_sym, for_each_app]. apply equiv_bind; [apply equiv_refl|]. intros r. apply IH.
Qed.

Lemma for_each_map {X Y St} (g : X -> Y) (l : list X) (body : St -> Y -> prog St) st :
  equiv (for_each (map g l) st body) (for_each l st (fun st x => body st (g x))).
Proof.
  revert st. induction l as [|x l IH]; intros st; [apply equiv_refl|]. cbn [map for_each].
  apply equiv_bind; [apply equiv_refl|]. intros r. apply IH.
Qed.

(** a loop that makes one call for each element *)
Lemma run_asks {W X St} (f : user W) (q : X -> Q) (step : St -> X -> B -> St) l : forall st w,
  run f w (for_each l st (fun st x => Call (q x) (fun b => Ret (step st x b))) : prog St) =
  match feed f w (map q l) with
  | (answers, w, None) =>
    (map Asked (map q l), w, Ok (fold_left (fun st xb => step st (fst xb) (snd xb)) (combine l answers) st))
  | (answers, w, Some e) => (map Asked (firstn (S (length answers)) (map q l)), w, Err e)
  end.
Proof.
  induction l as [|x l IH]; intros st w; [reflexivity|]. cbn [for_each pbind run map feed].
  destruct (f w (q x)) as [w1 [b|e]]; [|reflexivity]. rewrite IH.
  destruct (feed f w1 (map q l)) as [[answers w2] [e|]]; cbn; reflexivity.
Qed.

Lemma run_yields {W} (f : user W) (w : W) l : run f w (yield_from l : prog unit) = (map Gave l, w, Ok tt).
Proof. induction l as [|c l IH]; [reflexivity|]. cbn [yield_from run map]. rewrite IH. reflexivity. Qed.

Lemma run_lift {W R} (f : user W) (w : W) (r : res R) : run f w (lift r : prog R) = ([], w, r).
Proof. destruct r; reflexivity. Qed.
End Run.

Lemma feed_pure {Q B} (f : Q -> B) l : feed (pure f) tt l = (map f l, tt, None).
Proof. induction l as [|q l IH]; [reflexivity|]. cbn. rewrite IH. reflexivity. Qed.

Lemma feed_length {Q B W} (f : @user Q B W) l : forall w answers w' stop, feed f w l = (answers, w', stop) ->
  match stop with None => length answers = length l | Some _ => length answers < length l end.
Proof.
  induction l as [|q l IH]; intros w answers w' stop H; cbn in H.
  - injection H as <- <- <-. reflexivity.
  - destruct (f w q) as [w1 [b|e]].
    + destruct (feed f w1 l) as [[a w2] s] eqn:E. injection H as <- <- <-. apply IH in E.
      destruct s; cbn [length]; lia.
    + injection H as <- <- <-. cbn. lia.
Qed.

Lemma fold_select {X Y} (g : X -> Y) (l : list X) answers acc :
  fold_left (fun st (xb : X * bool) => if snd xb then st ++ [g (fst xb)] else st) (combine l answers) acc
  = acc ++ map g (select l answers).
Proof.
  unfold select. revert answers acc. induction l as [|x l IH]; intros [|b answers] acc; cbn [combine fold_left filter map fst snd];
    rewrite ?app_nil_r; try reflexivity.
  rewrite IH. destruct b; cbn [filter map snd fst]; [|reflexivity]. rewrite <- app_assoc. reflexivity.
Qed.

Lemma select_map {X} (p : X -> bool) l : select l (map p l) = filter p l.
Proof.
  unfold select. induction l as [|x l IH]; [reflexivity|]. cbn [map combine filter snd]. destruct (p x); cbn [map fst]; rewrite IH; reflexivity.
Qed.

Lemma select_map_fst {X Y} (g : X -> Y) l answers : select (map g l) answers = map g (select l answers).
Proof.
  unfold select. revert answers. induction l as [|x l IH]; intros [|b answers]; cbn [map combine filter snd]; try reflexivity.
  destruct b; cbn [map fst]; rewrite IH; reflexivity.
Qed.

(** ** Cells *)
Lemma In_cells n i j : In (i, j) (cells n) <-> i < j /\ j < n.
Proof.
  unfold cells. rewrite in_flat_map. split.
  - intros (x & Hx & H). apply in_map_iff in H as (y & E & Hy). injection E as -> ->.
    apply in_seq in Hx. apply in_seq in Hy. lia.
  - intros H. exists i. split; [apply in_seq; lia|]. apply in_map_iff. exists j. split; [reflexivity|]. apply in_seq. lia.
Qed.

Lemma NoDup_cells n : NoDup (cells n).
Proof.
  unfold cells. apply NoDup_flat_map; [apply seq_NoDup| |].
  - intros i _. apply NoDup_map_inj; [intros; congruence|apply seq_NoDup].
  - intros i j x _ _ H1 H2. apply in_map_iff in H1 as (a & <- & _). apply in_map_iff in H2 as (b & E & _). congruence.
Qed.

Lemma length_cells n : 2 * length (cells n) = n * (n - 1).
Proof.
  unfold cells.
  assert (H : forall m k, 2 * length (flat_map (fun i => map (fun j => (i, j)) (seq (S i) (m + k - S i))) (seq k m)) = m * (m - 1)).
  { induction m as [|m IH]; intros k; [reflexivity|]. cbn [seq flat_map]. rewrite app_length, map_length, seq_length.
    specialize (IH (S k)). replace (m + S k) with (S m + k) in IH by lia.
    rewrite Nat.mul_add_distr_l, IH. clear IH. replace (S m + k - S k) with m by lia.
    destruct m as [|m]; [reflexivity|]. cbn [Nat.sub]. rewrite !Nat.sub_0_r. nia. }
  specialize (H n 0). rewrite Nat.add_0_r in H. exact H.
Qed.

Lemma upper_pairs_cells {K} (l : list K) :
  map (fun ab => (fst (fst ab), fst (snd ab))) (upper_pairs l) = cells (length l).
Proof. unfold upper_pairs, enumerate. rewrite bucket_pairs_enum_cells. reflexivity. Qed.

Lemma upper_pairs_values {K} (l : list K) :
  map (fun ab => (snd (fst ab), snd (snd ab))) (upper_pairs l) = at_cells l (cells (length l)).
Proof.
  rewrite <- upper_pairs_cells. unfold at_cells. rewrite flat_map_concat_map, map_map.
  assert (H : forall ab, In ab (upper_pairs l) -> nth_error l (fst (fst ab)) = Some (snd (fst ab)) /\
                                              nth_error l (fst (snd ab)) = Some (snd (snd ab))).
  { intros [[i a] [j b]] H. apply In_upper_pairs in H. cbn. tauto. }
  induction (upper_pairs l) as [|ab u IH]; [reflexivity|]. cbn [map concat fst snd].
  destruct (H ab (or_introl eq_refl)) as [-> ->]. cbn [app]. f_equal. apply IH. intros ab' Hab'. apply H. right. exact Hab'.
Qed.

Lemma at_cells_length {A} (l : list A) cs : (forall i j, In (i, j) cs -> i < length l /\ j < length l) ->
  length (at_cells l cs) = length cs.
Proof.
  induction cs as [|[i j] cs IH]; intros H; [reflexivity|]. unfold at_cells. cbn [flat_map fst snd].
  destruct (H i j (or_introl eq_refl)) as [Hi Hj].
  destruct (nth_error l i) eqn:Ei; [|apply nth_error_None in Ei; lia].
  destruct (nth_error l j) eqn:Ej; [|apply nth_error_None in Ej; lia].
  cbn [app length]. f_equal. apply IH. intros i' j' H'. apply H. right. exact H'.
Qed.

(** ** Pairwise *)
Section Pairwise.
Context {A K : Type}.

Lemma run_yield_read {W} (f : @user (K * K) bool W) (w : W) (data : list A) l :
  (forall c i, In c l -> In i c -> i < length data) ->
  run f w (yield_read data l) = let '(out, o) := outcome (mapM (mapM (index data)) l) in (map Gave out, w, o).
Proof.
  intros H.
  assert (H' : exists out, mapM (mapM (index data)) l = Ok out).
  { induction l as [|c l IH]; [exists []; reflexivity|]. cbn [mapM].
    destruct (mapM_index_ok data c) as (xs & E & _); [intros i Hi; apply (H c); [left; reflexivity|exact Hi]|].
    rewrite E. destruct IH as (out & ->); [intros c' i Hc; apply H; right; exact Hc|]. eexists. reflexivity. }
  destruct H' as (out & E). rewrite E. cbn [outcome]. clear H. revert out E.
  induction l as [|c l IH]; intros out E; cbn [mapM] in E; [injection E as <-; reflexivity|].
  cbn [yield_read]. rewrite run_bind, run_lift. cbn [then_].
  destruct (mapM (index data) c) as [xs|e]; cbn [bind] in E; [|discriminate].
  destruct (mapM (mapM (index data)) l) as [ys|e]; cbn [bind] in E; [|discriminate]. injection E as <-.
  cbn [run map]. rewrite (IH ys eq_refl). reflexivity.
Qed.

Lemma fuzzy_bound matches lo hi n c i : (forall i j, In (i, j) matches -> i < n /\ j < n) ->
  In c (fuzzy_loop (fun l => l) false lo hi (build_graph false matches) []) -> In i c -> i < n.
Proof.
  intros Hb Hc Hi.
  destruct (fuzzy_loop_facts (fun l => l) (fun l => Permutation_refl l) false lo hi
     (build_graph false matches) (build_graph false matches) [])
    as (F1 & _); [auto|apply build_graph_keys_NoDup|].
  assert (Hnb : forall x y, neighbour matches x y -> x < n /\ y < n).
  { intros x y [H|H]; apply Hb in H; tauto. }
  destruct (F1 c Hc) as (k & ns & Hin & _ & -> & _). cbn [container_iter] in Hi. destruct Hi as [<-|Hi].
  - assert (Hv : pair_vertex matches k).
    { apply (build_graph_keys false). change k with (fst (k, ns)). apply in_map; exact Hin. }
    destruct Hv as [y Hy]. apply (Hnb k y). exact Hy.
  - apply In_dget in Hin; [|apply build_graph_keys_NoDup].
    assert (E : adj (build_graph false matches) k = ns) by (unfold adj; rewrite Hin; reflexivity).
    rewrite <- E, build_graph_adj in Hi. apply Hnb in Hi. tauto.
Qed.

Lemma In_select {X} (l : list X) answers x : In x (select l answers) -> In x l.
Proof.
  unfold select. intros H. apply in_map_iff in H as ([y b] & <- & H). apply filter_In in H as [H _].
  apply in_combine_l in H. exact H.
Qed.

Lemma fuzzy_prog_run {W} (f : user W) w (key : A -> K) (data : list A) lo hi :
  run f w (fuzzy_prog key data lo hi) =
  talks f w (at_cells (map key data) (cells (length data)))
    (fun answers => outcome (yield_fuzzy data (select (cells (length data)) answers) lo hi)).
Proof.
  unfold fuzzy_prog. rewrite run_bind.
  rewrite (run_asks f (fun ab : (nat * K) * (nat * K) => (snd (fst ab), snd (snd ab)))
    (fun graph ab similar => if similar then add_pair false graph (fst (fst ab), fst (snd ab)) else graph)).
  unfold talks. rewrite upper_pairs_values. rewrite map_length.
  destruct (feed f w (at_cells (map key data) (cells (length data)))) as [[answers w'] [e|]]; [reflexivity|].
  cbn [then_].
  assert (E : forall u acc ans, fold_left (fun st (xb : ((nat * K) * (nat * K)) * bool) =>
       if snd xb then add_pair false st (fst (fst (fst xb)), fst (snd (fst xb))) else st) (combine u ans) acc
     = fold_left (add_pair false) (select (map (fun ab => (fst (fst ab), fst (snd ab))) u) ans) acc).
  { induction u as [|x u IH]; intros acc [|b ans]; try reflexivity.
    cbn [combine fold_left fst snd]. rewrite IH. unfold select. cbn [map combine filter snd]. destruct b; reflexivity. }
  rewrite E, upper_pairs_cells, map_length. unfold yield_fuzzy, build_graph.
  rewrite run_yield_read; [|].
  - destruct (outcome _) as [out o]. reflexivity.
  - intros c i Hc Hi. eapply fuzzy_bound; [|exact Hc|exact Hi]. intros x y H. apply In_select, In_cells in H. lia.
Qed.

Lemma length_uf_union u i j : length (uf_union u i j) = length u.
Proof. unfold uf_union. apply map_length. Qed.

(** *** Connected components *)
Lemma uf_components_bound u lo hi c i : In c (uf_components u lo hi) -> In i c -> i < length u.
Proof.
  intros Hc Hi. apply filter_In in Hc as [Hc _]. apply in_map_iff in Hc as (l & <- & _).
  apply filter_In in Hi as [Hi _]. apply in_seq in Hi. lia.
Qed.

Definition step_sets (similar : bool) (sets : uf) (ab : (nat * K) * (nat * K)) : uf :=
  if uf_connected sets (fst (fst ab)) (fst (snd ab)) then sets
  else if similar then uf_union sets (fst (fst ab)) (fst (snd ab)) else sets.

(** the calls of the loop with a pure function *)
Fixpoint component_calls (similarity : K -> K -> bool) (u : uf) (l : list ((nat * K) * (nat * K)))
    : list ((nat * K) * (nat * K)) :=
  match l with
  | [] => []
  | ab :: l =>
    let u' := step_sets (similarity (snd (fst ab)) (snd (snd ab))) u ab in
    if uf_connected u (fst (fst ab)) (fst (snd ab)) then component_calls similarity u' l
    else ab :: component_calls similarity u' l
  end.

Definition value_pair (ab : (nat * K) * (nat * K)) : K * K := (snd (fst ab), snd (snd ab)).

Lemma component_loop_run (similarity : K -> K -> bool) l : forall u,
  run (pure (fun q => similarity (fst q) (snd q))) tt
    (for_each l u (fun sets ab =>
      if uf_connected sets (fst (fst ab)) (fst (snd ab)) then Ret sets
      else Call (snd (fst ab), snd (snd ab)) (fun similar : bool =>
        Ret (if similar then uf_union sets (fst (fst ab)) (fst (snd ab)) else sets))) : prog (K * K) bool (list A) uf) =
  (map Asked (map value_pair (component_calls similarity u l)), tt,
   Ok (fold_left (fun u ab => step_sets (similarity (snd (fst ab)) (snd (snd ab))) u ab) l u)).
Proof.
  induction l as [|ab l IH]; intros u; [reflexivity|]. cbn [for_each component_calls fold_left]. rewrite run_bind.
  unfold step_sets at 1 2 4. destruct (uf_connected u (fst (fst ab)) (fst (snd ab))) eqn:E.
  - cbn [run then_]. rewrite IH. reflexivity.
  - cbn [run pure fst snd then_]. rewrite IH. reflexivity.
Qed.

Lemma components_prog_run (similarity : K -> K -> bool) (key : A -> K) (data : list A) lo hi :
  run (pure (fun q => similarity (fst q) (snd q))) tt (components_prog key data lo hi) =
  (let '(out, o) := outcome (pairwise_connected_components similarity key data lo hi) in
   (map Asked (map value_pair (component_calls similarity (uf_make (length data)) (upper_pairs (map key data)))) ++ map Gave out,
    tt, o)).
Proof.
  unfold components_prog. rewrite run_bind, component_loop_run. cbn [then_].
  unfold pairwise_connected_components, yield_components, serial_sets. rewrite map_length.
  assert (E : forall l u, length u = length data ->
    fold_left (fun u ab => step_sets (similarity (snd (fst ab)) (snd (snd ab))) u ab) l u =
    fold_left (fun u ab =>
      if uf_connected u (fst (fst ab)) (fst (snd ab)) then u
      else if similarity (snd (fst ab)) (snd (snd ab)) then uf_union u (fst (fst ab)) (fst (snd ab))
      else u) l u /\
    length (fold_left (fun u ab => step_sets (similarity (snd (fst ab)) (snd (snd ab))) u ab) l u) = length data).
  { induction l as [|ab l IH]; intros u Hu; [split; [reflexivity|exact Hu]|]. cbn [fold_left].
    change (if uf_connected u (fst (fst ab)) (fst (snd ab)) then u
      else if similarity (snd (fst ab)) (snd (snd ab)) then uf_union u (fst (fst ab)) (fst (snd ab))
      else u) with (step_sets (similarity (snd (fst ab)) (snd (snd ab))) u ab).
    apply IH. unfold step_sets. destruct (uf_connected _ _ _); [exact Hu|]. destruct (similarity _ _); [|exact Hu].
    rewrite length_uf_union. exact Hu. }
  destruct (E (upper_pairs (map key data)) (uf_make (length data))) as [<- El]; [unfold uf_make; apply seq_length|].
  rewrite run_yield_read.
  - destruct (outcome _) as [out o]. reflexivity.
  - intros c i Hc Hi. rewrite <- El. eapply uf_components_bound; eassumption.
Qed.
End Pairwise.

(** ** Order of the cells, subsequences *)
Lemma subseq_refl {X} (l : list X) : subseq l l.
Proof. induction l; constructor; assumption. Qed.
Lemma subseq_In {X} (l1 l2 : list X) x : subseq l1 l2 -> In x l1 -> In x l2.
Proof. induction 1; intros Hx; [destruct Hx|destruct Hx; [left; assumption|right; auto]|right; auto]. Qed.
Lemma subseq_length {X} (l1 l2 : list X) : subseq l1 l2 -> length l1 <= length l2.
Proof. induction 1; cbn [length]; lia. Qed.
Lemma subseq_map {X Y} (g : X -> Y) l1 l2 : subseq l1 l2 -> subseq (map g l1) (map g l2).
Proof. induction 1; constructor; assumption. Qed.
Lemma subseq_app {X} (a1 a2 b1 b2 : list X) : subseq a1 a2 -> subseq b1 b2 -> subseq (a1 ++ b1) (a2 ++ b2).
Proof.
  intros H Hb. induction H; cbn [app]; [|constructor; assumption..].
  induction l; [exact Hb|]. constructor. exact IHl.
Qed.
Lemma subseq_trans {X} (a b c : list X) : subseq a b -> subseq b c -> subseq a c.
Proof.
  intros H1 H2. revert a H1. induction H2 as [l|x l1 l2 H IH|x l1 l2 H IH]; intros a H1.
  - inversion H1. constructor.
  - inversion H1; subst; [constructor|apply subseq_take; auto|apply subseq_skip; auto].
  - apply subseq_skip. auto.
Qed.
Lemma subseq_filter {X} (p : X -> bool) l : subseq (filter p l) l.
Proof. induction l as [|x l IH]; [constructor|]. cbn. destruct (p x); constructor; exact IH. Qed.
Lemma subseq_NoDup {X} (l1 l2 : list X) : subseq l1 l2 -> NoDup l2 -> NoDup l1.
Proof.
  induction 1; intros Hn; [constructor|inversion Hn; subst; constructor; [|auto]|inversion Hn; auto].
  intros Hx. eapply subseq_In in Hx; [|eassumption]. contradiction.
Qed.

From Coq Require Import Sorted.

Lemma cells_sorted n : StronglySorted before (cells n).
Proof.
  unfold cells. generalize 0 as k. assert (H : forall m k, StronglySorted before
    (flat_map (fun i => map (fun j => (i, j)) (seq (S i) (n - S i))) (seq k m))); [|intros k; apply H].
  induction m as [|m IH]; intros k; [constructor|]. cbn [seq flat_map].
  assert (Hrow : forall len s, StronglySorted before (map (fun j => (k, j)) (seq s len))).
  { induction len as [|len IHl]; intros s; [constructor|]. cbn [seq map]. constructor; [apply IHl|].
    apply Forall_forall. intros [x y] H. apply in_map_iff in H as (z & E & Hz). injection E as <- <-. apply in_seq in Hz.
    right. cbn. lia. }
  assert (Happ : forall l1 l2, StronglySorted before l1 -> StronglySorted before l2 ->
    (forall c d, In c l1 -> In d l2 -> before c d) -> StronglySorted before (l1 ++ l2)).
  { clear. induction l1 as [|c l1 IHl]; intros l2 H1 H2 H; [exact H2|]. cbn [app]. inversion H1 as [|? ? H1' Hc]; subst.
    constructor; [apply IHl; [exact H1'|exact H2|intros; apply H; [right|]; assumption]|].
    apply Forall_app. split; [exact Hc|]. apply Forall_forall. intros d Hd. apply H; [left; reflexivity|exact Hd]. }
  apply Happ; [apply Hrow|apply IH|]. intros [x y] [x' y'] H1 H2. left.
  apply in_map_iff in H1 as (z & E & _). injection E as <- <-.
  apply in_flat_map in H2 as (z' & Hz' & H2). apply in_map_iff in H2 as (w & E & _). injection E as <- <-.
  apply in_seq in Hz'. cbn. lia.
Qed.

Lemma before_irrefl c : ~ before c c.
Proof. intros [H|[_ H]]; lia. Qed.
Lemma before_antisym c d : before c d -> before d c -> False.
Proof. unfold before. lia. Qed.

Lemma cells_split n l1 c l2 : cells n = l1 ++ c :: l2 -> forall d, In d l1 <-> In d (cells n) /\ before d c.
Proof.
  intros E d. pose proof (cells_sorted n) as H. rewrite E in *. clear E. induction l1 as [|a l1 IH]; cbn [app] in *.
  - inversion H as [|? ? _ Hc]; subst. split; [intros []|]. intros [[->|Hd] Hb]; [exact (before_irrefl _ Hb)|].
    rewrite Forall_forall in Hc. exact (before_antisym _ _ (Hc _ Hd) Hb).
  - inversion H as [|? ? H' Ha]; subst. rewrite Forall_forall in Ha. specialize (IH H'). cbn [In]. split.
    + intros [<-|Hd]; [split; [left; reflexivity|]; apply Ha, in_elt|].
      apply IH in Hd as [Hd Hb]. split; [right; exact Hd|exact Hb].
    + intros [[->|Hd] Hb]; [left; reflexivity|]. right. apply IH. split; assumption.
Qed.

(** ** Which calls the components need *)
Section Components.
Context {A K : Type}.
Variable similarity : K -> K -> bool.

Definition cell_of (ab : (nat * K) * (nat * K)) : nat * nat := (fst (fst ab), fst (snd ab)).
Definition similar_ab (ab : (nat * K) * (nat * K)) : bool := similarity (snd (fst ab)) (snd (snd ab)).

Lemma component_calls_subseq l : forall u, subseq (component_calls similarity u l) l.
Proof.
  induction l as [|ab l IH]; intros u; [constructor|]. cbn [component_calls].
  destruct (uf_connected _ _ _); [apply subseq_skip|apply subseq_take]; apply IH.
Qed.

Lemma component_calls_spec n l : forall u links, uf_rep n u (pair_link links) ->
  (forall ab, In ab l -> fst (fst ab) < n /\ fst (snd ab) < n) -> forall ab,
  In ab (component_calls similarity u l) <->
   exists l1 l2, l = l1 ++ ab :: l2 /\
     ~ connected (pair_link (links ++ map cell_of (filter similar_ab l1))) (fst (fst ab)) (fst (snd ab)).
Proof.
  induction l as [|x l IH]; intros u links Hu Hl ab.
  - split; [intros []|]. intros ([|? ?] & l2 & E & _); discriminate.
  - cbn [component_calls]. destruct (Hl x (or_introl eq_refl)) as [Hi Hj].
    set (u' := step_sets _ u x).
    assert (Hu' : uf_rep n u' (pair_link (links ++ if similar_ab x then [cell_of x] else []))).
    { unfold u', step_sets. fold (similar_ab x). destruct (uf_connected u (fst (fst x)) (fst (snd x))) eqn:Ec, (similar_ab x).
      - apply uf_rep_redundant; assumption.
      - rewrite app_nil_r. exact Hu.
      - apply uf_rep_union; assumption.
      - rewrite app_nil_r. exact Hu. }
    specialize (IH u' _ Hu' (fun ab H => Hl ab (or_intror H)) ab).
    assert (Hcons : forall l1, (links ++ if similar_ab x then [cell_of x] else []) ++ map cell_of (filter similar_ab l1) =
                      links ++ map cell_of (filter similar_ab (x :: l1))).
    { intros l1. cbn [filter]. rewrite <- app_assoc. destruct (similar_ab x); reflexivity. }
    assert (Hc : uf_connected u (fst (fst x)) (fst (snd x)) = true <-> connected (pair_link links) (fst (fst x)) (fst (snd x))).
    { unfold uf_connected. rewrite Nat.eqb_eq. apply Hu; assumption. }
    assert (Hrest : In ab (component_calls similarity u' l) <->
      exists l1 l2, x :: l = (x :: l1) ++ ab :: l2 /\
        ~ connected (pair_link (links ++ map cell_of (filter similar_ab (x :: l1)))) (fst (fst ab)) (fst (snd ab))).
    { rewrite IH. split; intros (l1 & l2 & E & H); exists l1, l2.
      - rewrite Hcons in H. split; [cbn; rewrite E; reflexivity|exact H].
      - rewrite Hcons. split; [cbn in E; congruence|exact H]. }
    assert (Hhead : (exists l1 l2, x :: l = l1 ++ ab :: l2 /\
        ~ connected (pair_link (links ++ map cell_of (filter similar_ab l1))) (fst (fst ab)) (fst (snd ab))) <->
      (x = ab /\ ~ connected (pair_link links) (fst (fst x)) (fst (snd x))) \/ In ab (component_calls similarity u' l)).
    { rewrite Hrest. split.
      - intros ([|y l1] & l2 & E & H).
        + left. injection E as -> ->. cbn [filter map] in H. rewrite app_nil_r in H. split; [reflexivity|exact H].
        + right. exists l1, l2. injection E as -> ->. split; [reflexivity|exact H].
      - intros [[-> H]|(l1 & l2 & E & H)].
        + exists [], l. cbn [filter map]. rewrite app_nil_r. split; [reflexivity|exact H].
        + exists (x :: l1), l2. split; [exact E|exact H]. }
    rewrite Hhead. destruct (uf_connected u (fst (fst x)) (fst (snd x))).
    + split; [tauto|]. intros [[_ H]|H]; [|exact H]. exfalso. apply H, Hc. reflexivity.
    + cbn [In]. split; [intros [H|H]; [left; split; [exact H|]|right; exact H]|tauto].
      intros H'. apply Hc in H'. discriminate.
Qed.

Lemma value_pairs_at (keys : list K) l : (forall ab, In ab l -> In ab (upper_pairs keys)) ->
  map value_pair l = at_cells keys (map cell_of l).
Proof.
  intros H. unfold at_cells. rewrite flat_map_concat_map, map_map. induction l as [|ab l IH]; [reflexivity|].
  cbn [map concat]. destruct ab as [[i a] [j b]] eqn:E. 
  assert (Hab : In ((i, a), (j, b)) (upper_pairs keys)) by (apply H; left; reflexivity).
  apply In_upper_pairs in Hab as (_ & Ha & Hb). cbn [cell_of fst snd]. rewrite Ha, Hb. cbn [app]. f_equal.
  apply IH. intros ab' H'. apply H. right. exact H'.
Qed.

Lemma components_calls (key : A -> K) (data : list A) lo hi :
  exists cs out, pairwise_connected_components similarity key data lo hi = Ok out /\
    run (pure (fun q => similarity (fst q) (snd q))) tt (components_prog key data lo hi) =
      (map Asked (at_cells (map key data) cs) ++ map Gave out, tt, Ok tt) /\
    subseq cs (cells (length data)) /\
    forall i j, In (i, j) cs <->
      i < j /\ j < length data /\ ~ connected (similar_before similarity (map key data) (i, j)) i j.
Proof.
  destruct (pairwise_cc_correct similarity key data lo hi) as (idx & out & E & _).
  set (keys := map key data). set (n := length data).
  assert (Hn : length keys = n) by (unfold keys; apply map_length).
  set (cc := component_calls similarity (uf_make n) (upper_pairs keys)).
  assert (Hsub : subseq cc (upper_pairs keys)) by apply component_calls_subseq.
  exists (map cell_of cc), out. split; [exact E|]. rewrite components_prog_run, E. cbn [outcome].
  fold n keys cc. rewrite (value_pairs_at keys cc); [|intros ab; apply subseq_In; exact Hsub].
  split; [reflexivity|].
  assert (Hcells : map cell_of (upper_pairs keys) = cells n) by (rewrite <- Hn; apply upper_pairs_cells).
  split; [rewrite <- Hcells; apply subseq_map; exact Hsub|].
  assert (Hb : forall ab, In ab (upper_pairs keys) -> fst (fst ab) < n /\ fst (snd ab) < n).
  { intros [[i a] [j b]] H. apply In_upper_pairs in H as (_ & Ha & Hb'). cbn. rewrite <- Hn.
    split; apply nth_error_Some; congruence. }
  pose proof (component_calls_spec n (upper_pairs keys) (uf_make n) [] (uf_rep_make n) Hb) as Hspec. fold cc in Hspec.
  assert (Hlink : forall l1 ab l2, upper_pairs keys = l1 ++ ab :: l2 -> forall x y,
    pair_link ([] ++ map cell_of (filter similar_ab l1)) x y <-> similar_before similarity keys (cell_of ab) x y).
  { intros l1 ab l2 El x y. unfold pair_link, similar_before. cbn [app].
    assert (Ec : cells n = map cell_of l1 ++ cell_of ab :: map cell_of l2) by (rewrite <- Hcells, El, map_app; reflexivity).
    pose proof (cells_split _ _ _ _ Ec (x, y)) as Hs. split.
    - intros H. apply in_map_iff in H as ([[i a] [j b]] & E' & H). apply filter_In in H as [H Hsim].
      unfold cell_of in E'. cbn in E'. injection E' as -> ->. split.
      + assert (Hu : In ((x, a), (y, b)) (upper_pairs keys)) by (rewrite El; apply in_app_iff; left; exact H).
        apply In_upper_pairs in Hu as (Hlt & Ha & Hb'). split; [exact Hlt|]. exists a, b. auto.
      + apply Hs. change (x, y) with (cell_of ((x, a), (y, b))). apply in_map. exact H.
    - intros [(Hlt & a & b & Ha & Hb' & Hsim) Hbef].
      assert (Hin : In (x, y) (map cell_of l1)).
      { apply Hs. split; [|exact Hbef]. apply In_cells. split; [exact Hlt|]. rewrite <- Hn. apply nth_error_Some. congruence. }
      apply in_map_iff in Hin as ([[i a'] [j b']] & E' & H). unfold cell_of in E'. cbn in E'. injection E' as -> ->.
      assert (Hu : In ((x, a'), (y, b')) (upper_pairs keys)) by (rewrite El; apply in_app_iff; left; exact H).
      apply In_upper_pairs in Hu as (_ & Ha' & Hb''). rewrite Ha in Ha'. rewrite Hb' in Hb''.
      injection Ha' as <-. injection Hb'' as <-.
      apply in_map_iff. exists ((x, a), (y, b)). split; [reflexivity|]. apply filter_In. split; [exact H|]. exact Hsim. }
  intros i j. split.
  - intros H. apply in_map_iff in H as (ab & E' & H). apply Hspec in H as (l1 & l2 & El & Hc).
    assert (Hin : In (i, j) (cells n)).
    { rewrite <- Hcells, <- E'. apply in_map. rewrite El. apply in_elt. }
    apply In_cells in Hin. split; [lia|]. split; [lia|].
    unfold cell_of in E'. injection E' as Ei Ej. rewrite Ei, Ej in Hc.
    intros Hconn. apply Hc. revert Hconn. apply conn_ext. intros x y.
    rewrite (Hlink l1 ab l2 El x y). unfold cell_of. rewrite Ei, Ej. reflexivity.
  - intros (H1 & H2 & Hc).
    assert (Hin : In (i, j) (map cell_of (upper_pairs keys))) by (rewrite Hcells; apply In_cells; lia).
    apply in_map_iff in Hin as (ab & E' & H). rewrite <- E'. apply in_map. apply Hspec.
    apply in_split in H as (l1 & l2 & El). exists l1, l2. split; [exact El|].
    unfold cell_of in E'. injection E' as Ei Ej. rewrite Ei, Ej.
    intros Hconn. apply Hc. revert Hconn. apply conn_ext. intros x y.
    rewrite (Hlink l1 ab l2 El x y). unfold cell_of. rewrite Ei, Ej. reflexivity.
Qed.
End Components.

(** ** Any function: each pair at most once, in order *)
Lemma asked_app {Q C} (t1 t2 : list (event Q C)) : asked (t1 ++ t2) = asked t1 ++ asked t2.
Proof. apply flat_map_app. Qed.
Lemma given_app {Q C} (t1 t2 : list (event Q C)) : given (t1 ++ t2) = given t1 ++ given t2.
Proof. apply flat_map_app. Qed.
Lemma asked_Asked {Q C} (l : list Q) : asked (map (@Asked Q C) l) = l.
Proof. induction l as [|q l IH]; [reflexivity|]. cbn. f_equal. exact IH. Qed.
Lemma given_Asked {Q C} (l : list Q) : given (map (@Asked Q C) l) = [].
Proof. induction l as [|q l IH]; [reflexivity|]. exact IH. Qed.
Lemma asked_Gave {Q C} (l : list C) : asked (map (@Gave Q C) l) = [].
Proof. induction l as [|q l IH]; [reflexivity|]. exact IH. Qed.
Lemma given_Gave {Q C} (l : list C) : given (map (@Gave Q C) l) = l.
Proof. induction l as [|q l IH]; [reflexivity|]. cbn. f_equal. exact IH. Qed.

Section AnyUser.
Context {A K W : Type}.
Variable f : @user (K * K) bool W.

Lemma component_loop_any l : forall w u t w' o,
  run f w (for_each l u (fun sets ab =>
      if uf_connected sets (fst (fst ab)) (fst (snd ab)) then Ret sets
      else Call (snd (fst ab), snd (snd ab)) (fun similar : bool =>
        Ret (if similar then uf_union sets (fst (fst ab)) (fst (snd ab)) else sets))) : prog (K * K) bool (list A) uf) = (t, w', o) ->
  exists qs, t = map Asked qs /\ subseq qs (map value_pair l) /\ forall u', o = Ok u' -> length u' = length u.
Proof.
  induction l as [|ab l IH]; intros w u t w' o H.
  - injection H as <- <- <-. exists []. split; [reflexivity|]. split; [constructor|]. intros u' E. injection E as <-. reflexivity.
  - cbn [for_each] in H. destruct (uf_connected u (fst (fst ab)) (fst (snd ab))).
    + cbn [pbind] in H. apply IH in H as (qs & -> & Hs & Hu). exists qs. split; [reflexivity|]. split; [|exact Hu].
      apply subseq_skip. exact Hs.
    + cbn [pbind run] in H. destruct (f w _) as [w1 [b|e]].
      * destruct (run f w1 _) as [[t1 w2] o1] eqn:E. injection H as <- <- <-.
        apply IH in E as (qs & -> & Hs & Hu). exists (value_pair ab :: qs). split; [reflexivity|].
        split; [apply subseq_take; exact Hs|]. intros u' E'. rewrite (Hu u' E'). destruct b; [apply length_uf_union|reflexivity].
      * injection H as <- <- <-. exists [value_pair ab]. split; [reflexivity|]. split; [apply subseq_take; constructor|]. discriminate.
Qed.

Lemma components_any (key : A -> K) (data : list A) lo hi w t w' o :
  run f w (components_prog key data lo hi) = (t, w', o) ->
  exists qs out, t = map Asked qs ++ map Gave out /\ subseq qs (at_cells (map key data) (cells (length data))) /\
    match o with Ok _ => True | Err _ => out = [] end.
Proof.
  unfold components_prog. rewrite run_bind. intros H.
  destruct (run f w (for_each _ _ _)) as [[t1 w1] o1] eqn:E. apply component_loop_any in E as (qs & -> & Hs & Hu).
  change (map value_pair (upper_pairs (map key data))) with
    (map (fun ab : (nat * K) * (nat * K) => (snd (fst ab), snd (snd ab))) (upper_pairs (map key data))) in Hs.
  rewrite upper_pairs_values, map_length in Hs.
  destruct o1 as [u|e]; cbn [then_] in H.
  - rewrite run_yield_read in H.
    + destruct (mapM_reads data (uf_components u lo hi)) as (out & Eo & _).
      { intros c i Hc Hi. specialize (Hu u eq_refl). unfold uf_make in Hu. rewrite seq_length in Hu. rewrite <- Hu.
        eapply uf_components_bound; eassumption. }
      rewrite Eo in H. cbn [outcome] in H. injection H as <- <- <-. exists qs, out. auto.
    + intros c i Hc Hi. specialize (Hu u eq_refl). unfold uf_make in Hu. rewrite seq_length in Hu. rewrite <- Hu.
      eapply uf_components_bound; eassumption.
  - injection H as <- <- <-. exists qs, []. rewrite app_nil_r. auto.
Qed.
End AnyUser.

Section LeaderAny.
Context {A W : Type}.
Variable f : @user (A * A) bool W.

Lemma leader_inner_any hi a rest : forall w visited cluster t w' o,
  run f w (leader_inner_prog hi a rest visited cluster) = (t, w', o) ->
  exists qs, t = map Asked qs /\ subseq qs (map (fun jb => (a, snd jb)) rest).
Proof.
  induction rest as [|[j b] rest IH]; intros w visited cluster t w' o H; cbn [leader_inner_prog] in H.
  - injection H as <- <- <-. exists []. split; [reflexivity|constructor].
  - destruct (memb j visited).
    + apply IH in H as (qs & -> & Hs). exists qs. split; [reflexivity|]. apply subseq_skip. exact Hs.
    + cbn [run] in H. destruct (f w (a, b)) as [w1 [[|]|e]].
      * destruct (negb _).
        -- injection H as <- <- <-. exists [(a, b)]. split; [reflexivity|]. apply subseq_take. constructor.
        -- destruct (run f w1 _) as [[t1 w2] o1] eqn:E. injection H as <- <- <-. apply IH in E as (qs & -> & Hs).
           exists ((a, b) :: qs). split; [reflexivity|]. apply subseq_take. exact Hs.
      * destruct (run f w1 _) as [[t1 w2] o1] eqn:E. injection H as <- <- <-. apply IH in E as (qs & -> & Hs).
        exists ((a, b) :: qs). split; [reflexivity|]. apply subseq_take. exact Hs.
      * injection H as <- <- <-. exists [(a, b)]. split; [reflexivity|]. apply subseq_take. constructor.
Qed.

Lemma leader_loop_any lo hi l : forall w visited t w' o,
  run f w (leader_loop_prog lo hi l visited) = (t, w', o) ->
  subseq (asked t) (map value_pair (bucket_pairs l)).
Proof.
  induction l as [|[i a] l IH]; intros w visited t w' o H; cbn [leader_loop_prog] in H.
  - injection H as <- <- <-. constructor.
  - cbn [bucket_pairs]. rewrite map_app, map_map. cbn [value_pair fst snd].
    destruct (memb i visited).
    + apply IH in H. change (asked t) with ([] ++ asked t). apply subseq_app; [constructor|exact H].
    + rewrite run_bind in H. destruct (run f w (leader_inner_prog _ _ _ _ _)) as [[t1 w1] o1] eqn:E.
      apply leader_inner_any in E as (qs & -> & Hs). destruct o1 as [[visited' cluster]|e]; cbn [then_] in H.
      * assert (G : forall t2, subseq (asked t2) (map value_pair (bucket_pairs l)) ->
          subseq (asked (map (@Asked (A * A) (list A)) qs ++ t2))
            (map (fun x : nat * A => (a, snd x)) l ++ map value_pair (bucket_pairs l))).
        { intros t2 H2. rewrite asked_app, asked_Asked. apply subseq_app; assumption. }
        assert (Hx : forall w2 v t2 w3 o2, run f w2 (leader_loop_prog lo hi l v) = (t2, w3, o2) ->
          subseq (asked t2) (map value_pair (bucket_pairs l))) by (intros; eapply IH; eassumption).
        destruct cluster as [c|]; [destruct (Nat.leb lo (length c))|].
        -- cbn [run] in H. destruct (run f w1 _) as [[t2 w2] o2] eqn:E2. injection H as <- <- <-.
           apply G. cbn. eapply Hx; eassumption.
        -- destruct (run f w1 _) as [[t2 w2] o2] eqn:E2. injection H as <- <- <-. apply G. eapply Hx; eassumption.
        -- destruct (run f w1 _) as [[t2 w2] o2] eqn:E2. injection H as <- <- <-. apply G. eapply Hx; eassumption.
      * injection H as <- <- <-. rewrite asked_Asked. rewrite <- (app_nil_r qs). apply subseq_app; [exact Hs|constructor].
Qed.

Lemma leader_any (data : list A) lo hi w t w' o :
  run f w (leader_prog data lo hi) = (t, w', o) -> subseq (asked t) (at_cells data (cells (length data))).
Proof. intros H. apply leader_loop_any in H. rewrite <- upper_pairs_values. exact H. Qed.
End LeaderAny.

(** ** Leader with a pure function *)
Section LeaderPure.
Context {A : Type}.
Variable similarity : A -> A -> bool.
Notation ask := (pure (fun q => similarity (fst q) (snd q))).

Lemma leader_inner_agrees hi a rest : forall visited cluster,
  exists qs, run ask tt (leader_inner_prog hi a rest visited cluster) =
    (map Asked qs, tt, leader_inner similarity hi a rest visited cluster).
Proof.
  induction rest as [|[j b] rest IH]; intros visited cluster; cbn [leader_inner_prog leader_inner].
  - exists []. reflexivity.
  - destruct (memb j visited); [apply IH|]. cbn [run pure fst snd]. destruct (similarity a b).
    + destruct (negb _); [exists [(a, b)]; reflexivity|]. edestruct IH as (qs & E). rewrite E. exists ((a, b) :: qs). reflexivity.
    + edestruct IH as (qs & E). rewrite E. exists ((a, b) :: qs). reflexivity.
Qed.

Definition ends {X} (o : res X) : option exn := match o with Ok _ => None | Err e => Some e end.

Lemma leader_loop_agrees lo hi l : forall visited, exists t o,
  run ask tt (leader_loop_prog lo hi l visited) = (t, tt, o) /\
  leader_loop similarity lo hi l visited = (given t, ends o).
Proof.
  induction l as [|[i a] l IH]; intros visited; cbn [leader_loop_prog leader_loop].
  - exists [], (Ok tt). split; reflexivity.
  - destruct (memb i visited); [apply IH|]. rewrite run_bind.
    destruct (leader_inner_agrees hi a l visited None) as (qs & ->).
    destruct (leader_inner similarity hi a l visited None) as [[visited' cluster]|e]; cbn [then_].
    + destruct (IH visited') as (t & o & E & E'). rewrite E'.
      destruct cluster as [c|]; [destruct (Nat.leb lo (length c))|]; cbn [run]; rewrite E;
        eexists _, o; (split; [reflexivity|]); rewrite given_app, given_Asked; reflexivity.
    + exists (map Asked qs), (Err e). split; [reflexivity|]. rewrite given_Asked. reflexivity.
Qed.

Lemma leader_agrees (data : list A) lo hi : exists t o,
  run ask tt (leader_prog data lo hi) = (t, tt, o) /\ pairwise_leader similarity data lo hi = (given t, ends o).
Proof. apply leader_loop_agrees. Qed.

Lemma leader_inner_calls a rest : forall visited cluster, NoDup (map fst rest) ->
  run ask tt (leader_inner_prog None a rest visited cluster) =
  (map Asked (map (fun jb => (a, snd jb)) (filter (fun jb => negb (memb (fst jb) visited)) rest)), tt,
   leader_inner similarity None a rest visited cluster).
Proof.
  induction rest as [|[j b] rest IH]; intros visited cluster Hn; [reflexivity|].
  cbn [map fst] in Hn. inversion Hn as [|? ? Hj Hn']; subst. cbn [leader_inner_prog leader_inner filter fst].
  destruct (memb j visited); cbn [negb]; [apply IH; exact Hn'|]. cbn [run pure fst snd map].
  assert (Ef : filter (fun jb : nat * A => negb (memb (fst jb) (j :: visited))) rest =
               filter (fun jb => negb (memb (fst jb) visited)) rest).
  { apply filter_ext_in. intros [j' b'] Hin. cbn [fst]. f_equal.
    destruct (memb_In j' (j :: visited)) as [H1|H1], (memb_In j' visited) as [H2|H2]; auto.
    - destruct H1; [|contradiction]. subst. exfalso. apply Hj. change j' with (fst (j', b')). apply in_map; exact Hin.
    - exfalso. apply H1. right; exact H2. }
  destruct (similarity a b); cbn [le_max negb]; rewrite IH by exact Hn'; [rewrite Ef|]; reflexivity.
Qed.
End LeaderPure.

Section LeaderTrace.
Context {A : Type}.
Variable similarity : A -> A -> bool.
Variable data : list A.
Notation N := (length data).
Notation sim := (sim_nth similarity data).
Notation lead := (lead similarity data).
Notation isleader := (isleader similarity data).
Notation ask := (pure (fun q => similarity (fst q) (snd q))).

Lemma items_at_reads c xs : Forall2 (fun i x => nth_error data i = Some x) c xs -> items_at data c = xs.
Proof. induction 1 as [|i x c xs Hi _ IH]; [reflexivity|]. unfold items_at in *. cbn [flat_map]. rewrite Hi, IH. reflexivity. Qed.

Lemma at_row_reads h a c xs : nth_error data h = Some a -> Forall2 (fun i x => nth_error data i = Some x) c xs ->
  at_cells data (map (fun j => (h, j)) c) = map (fun b => (a, b)) xs.
Proof.
  intros Ha. induction 1 as [|i x c xs Hi _ IH]; [reflexivity|]. unfold at_cells in *. cbn [map flat_map fst snd].
  rewrite Ha, Hi, IH. reflexivity.
Qed.

Lemma leader_loop_trace lo suf : forall pre visited,
  data = pre ++ suf ->
  (forall j, length pre <= j -> j < N ->
     (In j visited <-> exists h, In h (lead (length pre)) /\ sim h j = true)) ->
  run ask tt (leader_loop_prog lo None (combine (seq (length pre) (length suf)) suf) visited) =
  (flat_map (leader_turn similarity data (lead N) lo) (filter isleader (seq (length pre) (length suf))), tt, Ok tt).
Proof.
  induction suf as [|a suf IH]; intros pre visited Hd Hvis; [reflexivity|].
  set (i := length pre) in *.
  assert (HN : N = i + S (length suf)) by (rewrite Hd, app_length; reflexivity).
  assert (Hn : nth_error data i = Some a).
  { rewrite Hd. unfold i. rewrite nth_error_app2, Nat.sub_diag by lia. reflexivity. }
  assert (Hd' : data = (pre ++ [a]) ++ suf) by (rewrite <- app_assoc; exact Hd).
  assert (Hlen : length (pre ++ [a]) = S i) by (rewrite app_length; simpl; unfold i; lia).
  cbn [length seq combine filter leader_loop_prog].
  assert (Hil : isleader i = negb (memb i visited)).
  { destruct (memb_In i visited) as [Hv|Hv]; cbn [negb].
    - apply Hvis in Hv as (h & Hh & Hs); [|lia..]. unfold PairwiseProofs.isleader. rewrite negb_false_iff.
      apply existsb_exists. eauto.
    - unfold PairwiseProofs.isleader. rewrite negb_true_iff. destruct (existsb _ _) eqn:E; [|reflexivity].
      exfalso. apply Hv. apply Hvis; [lia..|]. apply existsb_exists in E as (h & ? & ?). eauto. }
  destruct (memb_In i visited) as [Hv|Hv]; rewrite Hil; cbn [negb].
  - specialize (IH (pre ++ [a]) visited Hd'). rewrite Hlen in IH. apply IH.
    intros j H1 H2. rewrite Hvis by lia. cbn [PairwiseProofs.lead]. unfold PairwiseProofs.isleader in Hil.
    apply negb_false_iff in Hil. rewrite Hil, app_nil_r. tauto.
  - (* a leader *)
    assert (Hrow : forall j, i < j -> j < N ->
       negb (memb j visited) = forallb (fun h' => negb (Nat.ltb h' i && sim h' j)) (lead N)).
    { intros j Hj HjN. destruct (memb_In j visited) as [Hvj|Hvj]; cbn [negb].
      - symmetry. apply not_true_iff_false. rewrite forallb_forall. intros Hall.
        apply Hvis in Hvj as (h & Hh & Hhs); [|lia..]. apply In_lead in Hh as [Hh1 Hh2].
        assert (Hin : In h (lead N)) by (apply In_lead; split; [lia|auto]).
        specialize (Hall h Hin). cbv beta in Hall. rewrite Hhs in Hall.
        destruct (Nat.ltb_spec h i); [discriminate|lia].
      - symmetry. apply forallb_forall. intros h Hh. apply In_lead in Hh as [Hh1 Hh2].
        destruct (Nat.ltb_spec h i); [|reflexivity]. cbn [andb].
        destruct (sim h j) eqn:Eh; [|reflexivity]. exfalso. apply Hvj. apply Hvis; [lia..|].
        exists h. split; [|exact Eh]. apply In_lead. auto. }
    assert (Hfun : forall j b, i < j -> nth_error data j = Some b ->
       negb (memb j visited) && similarity a b = follows similarity data (lead N) i j).
    { intros j b Hj Hb. unfold follows. destruct (Nat.ltb_spec i j); [|lia]. cbn [andb].
      assert (Hs : sim i j = similarity a b) by (unfold sim_nth; rewrite Hn, Hb; reflexivity).
      rewrite Hs, andb_comm, Hrow; [reflexivity|exact Hj|]. apply nth_error_Some. congruence. }
    assert (Hseq : forall p : nat -> bool, (forall j, j <= i -> p j = false) -> filter p (seq 0 N) = filter p (seq (S i) (length suf))).
    { intros p Hp. rewrite HN. replace (i + S (length suf)) with (S i + length suf) by lia. rewrite seq_app, filter_app.
      replace (filter p (seq 0 (S i))) with (@nil nat); [reflexivity|].
      symmetry. apply filter_none. intros j Hj. apply in_seq in Hj. apply Hp. lia. }
    assert (Hfollow : filter (follows similarity data (lead N) i) (seq 0 N) =
              filter (follows similarity data (lead N) i) (seq (S i) (length suf))).
    { apply Hseq. intros j Hj. unfold follows. destruct (Nat.ltb_spec i j); [lia|reflexivity]. }
    destruct (filter_enum similarity data lo (pre ++ [a]) suf (fun j b => negb (memb j visited) && similarity a b)
                (follows similarity data (lead N) i) Hd') as [F1 F2].
    { intros j b Hj Hb. apply Hfun; [rewrite Hlen in Hj; lia|exact Hb]. }
    set (inrow := fun j => Nat.ltb i j && forallb (fun h' => negb (Nat.ltb h' i && sim h' j)) (lead N)).
    destruct (filter_enum similarity data lo (pre ++ [a]) suf (fun j _ => negb (memb j visited)) inrow Hd') as [G1 G2].
    { intros j b Hj Hb. rewrite Hlen in Hj. unfold inrow. destruct (Nat.ltb_spec i j); [|lia]. cbn [andb]. apply Hrow; [lia|].
      apply nth_error_Some. congruence. }
    rewrite Hlen in F1, F2, G1, G2.
    rewrite run_bind, leader_inner_calls; [|rewrite map_fst_enum; apply seq_NoDup].
    assert (Hasked : at_cells data (map (fun j => (i, j)) (leader_row similarity data (lead N) i)) =
      map (fun jb : nat * A => (a, snd jb)) (filter (fun jb => negb (memb (fst jb) visited)) (combine (seq (S i) (length suf)) suf))).
    { unfold leader_row. fold inrow. rewrite Hseq.
      - rewrite (at_row_reads i a _ _ Hn G1), map_map. reflexivity.
      - intros j Hj. unfold inrow. destruct (Nat.ltb_spec i j); [lia|reflexivity]. }
    cbn [flat_map]. unfold leader_turn at 1. rewrite Hasked.
    pose proof (leader_inner_spec similarity None a (combine (seq (S i) (length suf)) suf) visited None) as Hin.
    rewrite map_fst_enum in Hin. specialize (Hin (seq_NoDup _ _)). cbv zeta in Hin.
    set (ms := filter (fun jb => negb (memb (fst jb) visited) && similarity a (snd jb))
                 (combine (seq (S i) (length suf)) suf)) in *.
    assert (Hcl : leader_cluster similarity data (lead N) i = i :: map fst ms).
    { unfold leader_cluster. rewrite Hfollow, F2. reflexivity. }
    assert (Hlc : length (leader_cluster similarity data (lead N) i) = 1 + length ms).
    { rewrite Hcl. simpl. rewrite map_length. reflexivity. }
    assert (Hrd : items_at data (leader_cluster similarity data (lead N) i) = a :: map snd ms).
    { apply items_at_reads. rewrite Hcl. constructor; [exact Hn|]. rewrite F2. exact F1. }
    assert (Hlead' : lead (S i) = lead i ++ [i]).
    { cbn [PairwiseProofs.lead]. unfold PairwiseProofs.isleader in Hil. apply negb_true_iff in Hil. rewrite Hil. reflexivity. }
    assert (Hvis' : forall visited', (forall x, In x visited' <-> In x visited \/ In x (map fst ms)) ->
       forall j, S i <= j -> j < N ->
        (In j visited' <-> exists h, In h (lead (S i)) /\ sim h j = true)).
    { intros visited' Hv' j H1 H2. rewrite Hv', Hlead', Hvis by lia. rewrite F2, filter_In, in_seq.
      assert (exists b, nth_error data j = Some b) as [b Hb].
      { apply nth_error_Some in H2. destruct (nth_error data j); [eauto|contradiction]. }
      rewrite <- (Hfun j b) by (assumption || lia).
      assert (Hs : sim i j = similarity a b) by (unfold sim_nth; rewrite Hn, Hb; reflexivity).
      split.
      - intros [(h & Hh & Hhs)|[_ Hf]].
        + exists h. split; [apply in_app_iff; auto|exact Hhs].
        + exists i. split; [apply in_app_iff; simpl; auto|]. rewrite Hs.
          apply andb_true_iff in Hf. tauto.
      - intros (h & Hh & Hhs). apply in_app_iff in Hh as [Hh|[<-|[]]]; [left; eauto|].
        destruct (memb_In j visited) as [Hvj|Hvj].
        + left. apply Hvis; [lia..|exact Hvj].
        + right. split; [lia|]. rewrite <- Hs, Hhs. reflexivity. }
    destruct ms as [|m ms'] eqn:Em.
    + rewrite Hin. cbn [then_]. specialize (IH (pre ++ [a]) visited Hd'). rewrite Hlen in IH.
      rewrite IH; [|apply Hvis'; intros x; simpl; tauto].
      assert (Hk : cluster_kept lo (leader_cluster similarity data (lead N) i) = false).
      { unfold cluster_kept. rewrite Hlc. reflexivity. }
      rewrite Hk, app_nil_r. reflexivity.
    + rewrite <- Em in *. assert (Hpos : 1 <= length ms) by (rewrite Em; simpl; lia).
      cbn [le_max] in Hin. destruct Hin as (visited' & Ein & Hv'). rewrite Ein. cbn [then_].
      specialize (IH (pre ++ [a]) visited' Hd'). rewrite Hlen in IH.
      assert (Hk : cluster_kept lo (leader_cluster similarity data (lead N) i) =
                   Nat.leb lo (length ([a] ++ map snd ms))).
      { unfold cluster_kept. rewrite Hlc. simpl. rewrite map_length.
        destruct (Nat.leb_spec 1 (length ms)); [|lia].
        destruct ms; simpl in *; [lia|reflexivity]. }
      rewrite Hk, Hrd. destruct (Nat.leb lo (length ([a] ++ map snd ms))).
      * cbn [run]. rewrite IH; [|apply Hvis'; exact Hv']. rewrite <- app_assoc. reflexivity.
      * rewrite IH; [|apply Hvis'; exact Hv']. rewrite app_nil_r. reflexivity.
Qed.

Lemma lead_sorted : StronglySorted lt (lead N).
Proof.
  rewrite lead_filter. generalize 0 as k, N as n. intros k n. revert k. induction n as [|n IH]; intros k; [constructor|].
  cbn [seq filter]. destruct (isleader k); [|apply IH]. constructor; [apply IH|].
  apply Forall_forall. intros x Hx. apply filter_In in Hx as [Hx _]. apply in_seq in Hx. lia.
Qed.

Lemma leader_trace lo : exists leaders, are_leaders similarity data leaders /\ StronglySorted lt leaders /\
  run ask tt (leader_prog data lo None) = (flat_map (leader_turn similarity data leaders lo) leaders, tt, Ok tt).
Proof.
  exists (lead N). split; [apply lead_are_leaders|]. split; [apply lead_sorted|].
  unfold leader_prog, enumerate. change (seq 0 N) with (seq (length (@nil A)) N).
  rewrite (leader_loop_trace lo data [] []); [|reflexivity|].
  - cbn [length]. rewrite <- lead_filter. reflexivity.
  - intros j _ _. cbn. split; [intros []|]. intros (h & [] & _).
Qed.

Lemma rows_bound (rows : nat -> list nat) n leaders : StronglySorted lt leaders ->
  (forall h, In h leaders -> h < n /\ length (rows h) <= n - 1 - h) -> forall k, (forall h, In h leaders -> k <= h) ->
  2 * length (flat_map rows leaders) + length leaders * (length leaders + 1) + 2 * k * length leaders <= 2 * length leaders * n.
Proof.
  induction 1 as [|h leaders Hs IH Hh]; intros Hr k Hk; [cbn; lia|]. cbn [flat_map length]. rewrite app_length.
  assert (Hk' : forall x, In x leaders -> k + 1 <= x).
  { intros x Hx. rewrite Forall_forall in Hh. specialize (Hh x Hx). specialize (Hk h (or_introl eq_refl)). lia. }
  specialize (IH (fun x Hx => Hr x (or_intror Hx)) (k + 1) Hk').
  destruct (Hr h (or_introl eq_refl)) as [H1 H2]. specialize (Hk h (or_introl eq_refl)). nia.
Qed.

Lemma leader_count leaders lo : are_leaders similarity data leaders -> StronglySorted lt leaders ->
  2 * length (asked (flat_map (leader_turn similarity data leaders lo) leaders)) + length leaders * (length leaders + 1)
    <= 2 * length leaders * N.
Proof.
  intros Hl Hs.
  assert (E : length (asked (flat_map (leader_turn similarity data leaders lo) leaders)) =
              length (flat_map (leader_row similarity data leaders) leaders)).
  { assert (Hb : forall h, In h leaders -> h < N) by (intros h Hh; apply Hl in Hh; tauto).
    assert (Hgen : forall ls, (forall h, In h ls -> h < N) ->
      length (asked (flat_map (leader_turn similarity data leaders lo) ls)) =
      length (flat_map (leader_row similarity data leaders) ls)); [|apply Hgen; exact Hb].
    induction ls as [|h ls IH]; intros Hls; [reflexivity|]. cbn [flat_map]. rewrite asked_app, !app_length, IH
      by (intros x Hx; apply Hls; right; exact Hx). f_equal.
    unfold leader_turn. rewrite asked_app, asked_Asked.
    assert (Hno : asked (if cluster_kept lo (leader_cluster similarity data leaders h)
       then [Gave (items_at data (leader_cluster similarity data leaders h))] else []) = @nil (A * A))
      by (destruct (cluster_kept _ _); reflexivity).
    rewrite Hno, app_nil_r, at_cells_length.
    - apply map_length.
    - intros i j H. apply in_map_iff in H as (x & E & Hx). injection E as <- <-. split; [apply Hls; left; reflexivity|].
      unfold leader_row in Hx. apply filter_In in Hx as [Hx _]. apply in_seq in Hx. lia. }
  rewrite E. pose proof (rows_bound (leader_row similarity data leaders) N leaders Hs) as H.
  specialize (H) with (k := 0). cbn [Nat.mul] in H. 
  assert (Hx : forall h, In h leaders -> h < N /\ length (leader_row similarity data leaders h) <= N - 1 - h).
  { intros h Hh. apply Hl in Hh as [Hh _]. split; [exact Hh|]. unfold leader_row.
    replace (filter _ (seq 0 N)) with (filter (fun j => Nat.ltb h j && forallb (fun h' => negb (Nat.ltb h' h && sim h' j)) leaders) (seq (S h) (N - S h))).
    - etransitivity; [apply subseq_length, subseq_filter|]. rewrite seq_length. lia.
    - replace (seq 0 N) with (seq 0 (S h) ++ seq (S h) (N - S h)) by (rewrite <- seq_app; f_equal; lia).
      rewrite filter_app. replace (filter _ (seq 0 (S h))) with (@nil nat); [reflexivity|]. symmetry. apply filter_none.
      intros j Hj. apply in_seq in Hj. destruct (Nat.ltb_spec h j); [lia|reflexivity]. }
  specialize (H Hx (fun h _ => Nat.le_0_l h)). lia.
Qed.
End LeaderTrace.
