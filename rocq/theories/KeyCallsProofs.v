(** Proofs about the calls of key functions. *)
From Coq Require Import String QArith.
From Verif Require Import Base BaseFacts ClustersModel PairwiseModel SortModel BlockingModel NeighborhoodModel HashJoinModel HashJoinSpec
  HashJoinProofs MinHashModel MetricsModel LevModel CallsModel CallsSpec CallsProofs CallsMoreProofs KeyCallsModel KeyCallsSpec.
Open Scope nat_scope.
Open Scope string_scope.
Open Scope list_scope.
Notation length := List.length.
Notation concat := List.concat.

(** ** Two functions *)
Section Two.
Context {Q1 B1 Q2 B2 C W : Type}.
Implicit Types (f : @user Q1 B1 W) (g : @user Q2 B2 W).

Lemma run_first {R} f g (p : prog Q1 B1 C R) : forall w,
  run (both f g) w (first p) = let '(t, w, o) := run f w p in (map of_first t, w, o).
Proof.
  induction p as [r|e|q k IH|c p IH]; intros w; cbn [first run]; try reflexivity.
  - cbn [both]. destruct (f w q) as [w1 [b|e]]; [|reflexivity]. rewrite IH. destruct (run f w1 (k b)) as [[t w2] o]. reflexivity.
  - rewrite IH. destruct (run f w p) as [[t w2] o]. reflexivity.
Qed.

Lemma run_second {R} f g (p : prog Q2 B2 C R) : forall w,
  run (both f g) w (second p) = let '(t, w, o) := run g w p in (map of_second t, w, o).
Proof.
  induction p as [r|e|q k IH|c p IH]; intros w; cbn [second run]; try reflexivity.
  - cbn [both]. destruct (g w q) as [w1 [b|e]]; [|reflexivity]. rewrite IH. destruct (run g w1 (k b)) as [[t w2] o]. reflexivity.
  - rewrite IH. destruct (run g w p) as [[t w2] o]. reflexivity.
Qed.

Lemma asked_first (t : list (event Q1 C)) : asked (map (@of_first Q1 Q2 C) t) = map inl (asked t).
Proof. induction t as [|[q|c] t IH]; cbn; [reflexivity|f_equal; exact IH|exact IH]. Qed.
Lemma asked_second (t : list (event Q2 C)) : asked (map (@of_second Q1 Q2 C) t) = map inr (asked t).
Proof. induction t as [|[q|c] t IH]; cbn; [reflexivity|f_equal; exact IH|exact IH]. Qed.
Lemma given_first (t : list (event Q1 C)) : given (map (@of_first Q1 Q2 C) t) = given t.
Proof. induction t as [|[q|c] t IH]; cbn; [reflexivity|exact IH|f_equal; exact IH]. Qed.
Lemma given_second (t : list (event Q2 C)) : given (map (@of_second Q1 Q2 C) t) = given t.
Proof. induction t as [|[q|c] t IH]; cbn; [reflexivity|exact IH|f_equal; exact IH]. Qed.
Lemma hide_app (t t' : list (event (Q1 + Q2) C)) : hide (t ++ t') = hide t ++ hide t'.
Proof. apply flat_map_app. Qed.
Lemma hide_first (l : list Q1) : hide (map of_first (map (@Asked Q1 C) l)) = ([] : list (event Q2 C)).
Proof. induction l as [|q l IH]; [reflexivity|exact IH]. Qed.
Lemma hide_second (t : list (event Q2 C)) : hide (map (@of_second Q1 Q2 C) t) = t.
Proof. induction t as [|[q|c] t IH]; cbn; [reflexivity|f_equal; exact IH|f_equal; exact IH]. Qed.
Lemma hide_gave (l : list C) : hide (map (@Gave (Q1 + Q2) C) l) = map (@Gave Q2 C) l.
Proof. induction l as [|q l IH]; [reflexivity|cbn; f_equal; exact IH]. Qed.
End Two.

Lemma lefts_inl {X Y} (l : list X) : lefts (map (@inl X Y) l) = l.
Proof. induction l as [|x l IH]; [reflexivity|cbn; f_equal; exact IH]. Qed.
Lemma lefts_inr {X Y} (l : list Y) : lefts (map (@inr X Y) l) = [].
Proof. induction l as [|x l IH]; [reflexivity|exact IH]. Qed.
Lemma lefts_app {X Y} (l l' : list (X + Y)) : lefts (l ++ l') = lefts l ++ lefts l'.
Proof. apply flat_map_app. Qed.

Lemma feed_still {Q B W} (f : Q -> B) (w : W) l : feed (still f) w l = (map f l, w, None).
Proof. induction l as [|q l IH]; [reflexivity|]. cbn. rewrite IH. reflexivity. Qed.

Lemma starts_refl {X} (l : list X) : starts l l.
Proof. exists []. rewrite app_nil_r. reflexivity. Qed.
Lemma starts_nil {X} (l : list X) : starts [] l.
Proof. exists l. reflexivity. Qed.
Lemma starts_firstn {X} n (l : list X) : starts (firstn n l) l.
Proof. exists (skipn n l). symmetry. apply firstn_skipn. Qed.
Lemma starts_app {X} (l l1 l2 : list X) : starts l1 l2 -> starts (l ++ l1) (l ++ l2).
Proof. intros [r ->]. exists r. rewrite app_assoc. reflexivity. Qed.
Lemma starts_more {X} (l l1 l2 : list X) : starts l l1 -> starts l (l1 ++ l2).
Proof. intros [r ->]. exists (r ++ l2). rewrite app_assoc. reflexivity. Qed.
Lemma starts_map {X Y} (g : X -> Y) l1 l2 : starts l1 l2 -> starts (map g l1) (map g l2).
Proof. intros [r ->]. exists (map g r). apply map_app. Qed.

(** ** One call per item *)
Lemma fold_collect {A B} (l : list A) (answers : list B) acc :
  fold_left (fun st xb => st ++ [(fst xb, snd xb)]) (combine l answers) acc = acc ++ combine l answers.
Proof.
  revert l acc. induction answers as [|b answers IH]; intros [|x l] acc; cbn [combine fold_left]; try (rewrite app_nil_r; reflexivity).
  rewrite IH, <- app_assoc. reflexivity.
Qed.

Lemma ask_each_run {A B C W} (f : user W) (w : W) (data : list A) :
  run f w (ask_each data : prog A B C (list (A * B))) =
  match feed f w data with
  | (answers, w, None) => (map Asked data, w, Ok (combine data answers))
  | (answers, w, Some e) => (map Asked (firstn (S (length answers)) data), w, Err e)
  end.
Proof.
  unfold ask_each. rewrite (run_asks f (fun x => x) (fun st x b => st ++ [(x, b)])). rewrite map_id.
  destruct (feed f w data) as [[answers w'] [e|]]; [reflexivity|]. rewrite fold_collect. reflexivity.
Qed.

(** a program that asks for the key of each item, then goes on without calls *)
Lemma ask_each_talks {A B C W} (f : user W) (w : W) (data : list A) (rest : list (A * B) -> prog A B C unit)
  (finish : list (A * B) -> list C * res unit) :
  (forall answers w, run f w (rest answers) = let '(out, o) := finish answers in (map Gave out, w, o)) ->
  run f w (pbind (ask_each data) rest) = talks f w data (fun answers => finish (combine data answers)).
Proof.
  intros H. rewrite run_bind, ask_each_run. unfold talks. destruct (feed f w data) as [[answers w'] [e|]]; cbn; [reflexivity|].
  rewrite H. destruct (finish (combine data answers)) as [out o]. reflexivity.
Qed.

Lemma combine_map_r {A B} (f : A -> B) l : combine l (map f l) = map (fun x => (x, f x)) l.
Proof. induction l as [|x l IH]; [reflexivity|cbn; f_equal; exact IH]. Qed.

Lemma fold_left_map_l {A B S} (f : A -> B) (step : S -> B -> S) l acc :
  fold_left step (map f l) acc = fold_left (fun s x => step s (f x)) l acc.
Proof. revert acc. induction l as [|x l IH]; intros acc; [reflexivity|cbn; apply IH]. Qed.

Section KeyCollision.
Context {A K : Type} `{EqDec A} `{EqDec K}.
Variable set_order : list A -> list A.
Variable truthy : K -> bool.

Lemma collision_key_talks data lo hi : exists finish : list K -> list (list A) * res unit,
  (forall W (f : user W) (w : W), run f w (key_collision_key_prog truthy data lo hi) = talks f w data finish) /\
  forall key, finish (map key data) = outcome (Ok (key_collision_key truthy key data lo hi)).
Proof.
  eexists. split.
  - intros W f w. apply ask_each_talks with (finish := fun answers => (buckets_within (fold_left (fun buckets '(item, k) =>
      if truthy k then dmodify buckets k [] (fun l => l ++ [item]) else buckets) answers []) lo hi, Ok tt)).
    intros answers w'. apply run_yields.
  - intros key. cbn. rewrite combine_map_r, fold_left_map_l. reflexivity.
Qed.

Lemma collision_keys_talks data lo hi merge : exists finish : list (option (list K)) -> list (list A) * res unit,
  (forall W (f : user W) (w : W), run f w (key_collision_keys_prog set_order truthy data lo hi merge) = talks f w data finish) /\
  forall keys, finish (map keys data) = outcome (key_collision_keys set_order truthy keys data lo hi merge).
Proof.
  eexists. split.
  - intros W f w. apply ask_each_talks with (finish := fun answers =>
      let buckets := fold_left (fun buckets '(item, ks) =>
        match ks with
        | None => buckets
        | Some ks => fold_left (fun buckets k => if truthy k then dmodify buckets k [] (fun l => l ++ [item]) else buckets) ks buckets
        end) answers [] in
      outcome (if merge then clusters_from_buckets set_order (dvalues buckets) 2 None "connected_components" None true
               else Ok (buckets_within buckets lo hi))).
    intros answers w'. cbv zeta. destruct merge; [|apply run_yields]. rewrite run_bind, run_lift. cbn [then_].
    match goal with |- context [clusters_from_buckets ?a ?b ?c ?d ?e ?f ?g] => destruct (clusters_from_buckets a b c d e f g) as [out|e'] end;
      [rewrite run_yields|]; reflexivity.
  - intros keys. cbv beta zeta. rewrite combine_map_r, fold_left_map_l. reflexivity.
Qed.
End KeyCollision.

Section Intersection.
Context {A T : Type} `{EqDec T}.
Variable token_order : list T -> list T.

(** what is yielded before the first wrong position *)
Fixpoint items_read (data : list A) (l : list (list nat)) : list (list A) * res unit :=
  match l with
  | [] => ([], Ok tt)
  | c :: l =>
    match mapM (index data) c with
    | Ok c => let '(out, o) := items_read data l in (c :: out, o)
    | Err e => ([], Err e)
    end
  end.

Lemma yield_items_run {Q B W} (f : @user Q B W) (w : W) (data : list A) l :
  run f w (yield_items data l) = let '(out, o) := items_read data l in (map Gave out, w, o).
Proof.
  induction l as [|c l IH]; [reflexivity|]. cbn [yield_items items_read]. rewrite run_bind, run_lift.
  destruct (mapM (index data) c) as [x|e]; cbn [then_ run]; [|reflexivity]. rewrite IH.
  destruct (items_read data l) as [out o]. reflexivity.
Qed.

Lemma items_read_mapM (data : list A) l :
  match mapM (mapM (index data)) l with
  | Ok out => items_read data l = (out, Ok tt)
  | Err e => snd (items_read data l) = Err e
  end.
Proof.
  induction l as [|c l IH]; [reflexivity|]. cbn [mapM items_read]. destruct (mapM (index data) c) as [x|e]; cbn [bind]; [|reflexivity].
  destruct (mapM (mapM (index data)) l) as [out|e]; cbn [bind].
  - rewrite IH. reflexivity.
  - destruct (items_read data l) as [out o]. exact IH.
Qed.

Definition index_finish set_order (data : list A) (jaccard : bool) radius lo hi mode (answers : list (A * list T)) : list (list A) * res unit :=
  match clusters_from_pairs set_order (intersection_pairs token_order jaccard radius (map snd answers)) lo hi mode false with
  | Ok out => items_read data out
  | Err e => ([], Err e)
  end.

Lemma index_finish_run set_order data jaccard radius lo hi mode {W} (f : user W) (w : W) :
  run f w (pbind (ask_each data) (fun answers =>
    pbind (lift (clusters_from_pairs set_order (intersection_pairs token_order jaccard radius (map snd answers)) lo hi mode false))
      (fun out => yield_items data out))) =
  talks f w data (fun answers => index_finish set_order data jaccard radius lo hi mode (combine data answers)).
Proof.
  apply ask_each_talks. intros answers w'. rewrite run_bind, run_lift. unfold index_finish.
  destruct (clusters_from_pairs _ _ _ _ _ _) as [out|e]; cbn [then_]; [|reflexivity]. rewrite yield_items_run.
  destruct (items_read data out) as [o r]. reflexivity.
Qed.

Lemma index_finish_pure set_order data jaccard radius lo hi mode (key : A -> list T) :
  match (let! out := clusters_from_pairs set_order (intersection_pairs token_order jaccard radius (map key data)) lo hi mode false in
         mapM (mapM (index data)) out) with
  | Ok out => index_finish set_order data jaccard radius lo hi mode (combine data (map key data)) = (out, Ok tt)
  | Err e => snd (index_finish set_order data jaccard radius lo hi mode (combine data (map key data))) = Err e
  end.
Proof.
  unfold index_finish. rewrite combine_map_r, map_map. cbn [snd].
  destruct (clusters_from_pairs _ _ _ _ _ _) as [out|e]; cbn [bind]; [|reflexivity]. apply items_read_mapM.
Qed.

Lemma intersection_talks set_order data metric radius lo hi mode : In metric ["jaccard"; "overlap"] ->
  exists finish : list (list T) -> list (list A) * res unit,
  (forall W (f : user W) (w : W), run f w (intersection_prog token_order set_order data metric radius lo hi mode) = talks f w data finish) /\
  forall key, match intersection_index token_order set_order data metric radius key lo hi mode with
              | Ok out => finish (map key data) = (out, Ok tt)
              | Err e => snd (finish (map key data)) = Err e
              end.
Proof.
  intros [<-|[<-|[]]]; unfold intersection_prog, intersection_index; cbn [string_dec];
    repeat match goal with |- context [string_dec ?a ?b] => destruct (string_dec a b); try congruence end.
  - eexists. split; [intros W f w; apply index_finish_run|]. intros key. apply index_finish_pure.
  - eexists. split; [intros W f w; apply index_finish_run|]. intros key. apply index_finish_pure.
Qed.
End Intersection.

(** ** Blocking *)
Section Blocking.
Context {A B : Type} `{EqDec A} `{EqDec B}.
Variable set_order : list A -> list A.
Variable block_order : list B -> list B.

(** first a call per item, then another program *)
Lemma keys_then {Q1 B2 C R W} (f : @user A Q1 W) (g : @user (A * A) B2 W) (w : W) (data : list A)
  (rest : list (A * Q1) -> prog (A * A) B2 C R) :
  run (both f g) w (pbind (first (ask_each data)) (fun answers => second (rest answers))) =
  match feed f w data with
  | (answers, w, None) =>
    let '(t, w, o) := run g w (rest (combine data answers)) in (map Asked (map inl data) ++ map of_second t, w, o)
  | (answers, w, Some e) => (map Asked (map inl (firstn (S (length answers)) data)), w, Err e)
  end.
Proof.
  rewrite run_bind, run_first, ask_each_run. destruct (feed f w data) as [[answers w'] [e|]]; cbn [then_].
  - rewrite !map_map. reflexivity.
  - rewrite run_second. destruct (run g w' (rest (combine data answers))) as [[t w2] o]. rewrite !map_map. reflexivity.
Qed.

Lemma blocking_block_then data lo hi mode : exists rest : list B -> prog (A * A) bool (list A) unit,
  (forall W (f : @user A B W) (g : @user (A * A) bool W) (w : W),
   run (both f g) w (blocking_block_prog set_order data lo hi mode) =
   match feed f w data with
   | (answers, w, None) => let '(t, w, o) := run g w (rest answers) in (map Asked (map inl data) ++ map of_second t, w, o)
   | (answers, w, Some e) => (map Asked (map inl (firstn (S (length answers)) data)), w, Err e)
   end) /\
  forall block, rest (map block data) = blocking_prog set_order block_order (inl block) data lo hi mode.
Proof.
  eexists. split.
  - intros W f g w. unfold blocking_block_prog. rewrite (keys_then f g w data (fun answers => compare_blocks set_order
      (fold_left (fun buckets '(item, b) => dmodify buckets b [] (fun l => l ++ [item])) answers []) None false lo hi mode)). reflexivity.
  - intros block. cbv beta. rewrite combine_map_r, fold_left_map_l. reflexivity.
Qed.

Lemma blocking_blocks_then data lo hi mode : exists rest : list (list B) -> prog (A * A) bool (list A) unit,
  (forall W (f : @user A (list B) W) (g : @user (A * A) bool W) (w : W),
   run (both f g) w (blocking_blocks_prog set_order block_order data lo hi mode) =
   match feed f w data with
   | (answers, w, None) => let '(t, w, o) := run g w (rest answers) in (map Asked (map inl data) ++ map of_second t, w, o)
   | (answers, w, Some e) => (map Asked (map inl (firstn (S (length answers)) data)), w, Err e)
   end) /\
  forall blocks, rest (map blocks data) = blocking_prog set_order block_order (inr blocks) data lo hi mode.
Proof.
  eexists. split.
  - intros W f g w. unfold blocking_blocks_prog. rewrite (keys_then f g w data (fun answers => compare_blocks set_order
      (fold_left (fun buckets '(item, bs) =>
              fold_left (fun buckets b => dmodify buckets b [] (fun l => l ++ [item])) (block_order (set_of bs)) buckets) answers [])
      (Some []) true lo hi mode)). reflexivity.
  - intros blocks. cbv beta. rewrite combine_map_r, fold_left_map_l. reflexivity.
Qed.
End Blocking.

(** ** Sorted neighborhood *)
Lemma insert_by_map {X Y} (g : X -> Y) (le : Y -> Y -> bool) x l :
  map g (insert_by (fun a b => le (g a) (g b)) x l) = insert_by le (g x) (map g l).
Proof. induction l as [|y l IH]; [reflexivity|]. cbn. destruct (le (g x) (g y)); [reflexivity|]. cbn. f_equal. exact IH. Qed.
Lemma insert_by_label {X Y} (h : X -> Y) (le : Y -> Y -> bool) x l :
  insert_by (fun a b => le (snd a) (snd b)) (x, h x) (map (fun y => (y, h y)) l) =
  map (fun y => (y, h y)) (insert_by (fun a b => le (h a) (h b)) x l).
Proof. induction l as [|y l IH]; [reflexivity|]. cbn. destruct (le (h x) (h y)); [reflexivity|]. cbn. f_equal. exact IH. Qed.
Lemma sort_by_label {X Y} (h : X -> Y) (le : Y -> Y -> bool) l :
  sort_by (fun a b => le (snd a) (snd b)) (map (fun y => (y, h y)) l) = map (fun y => (y, h y)) (sort_by (fun a b => le (h a) (h b)) l).
Proof. unfold sort_by. induction l as [|x l IH]; [reflexivity|]. cbn [map fold_right]. rewrite IH. apply insert_by_label. Qed.

Section Neighborhood.
Context {A K P : Type} `{EqDec A}.
Variable set_order : list A -> list A.
Variable key_leb : K -> K -> bool.
Variable item_leb : A -> A -> bool.
Notation sorted_prog := (sorted_prog key_leb item_leb).
Notation passes_prog := (passes_prog key_leb item_leb).

Lemma sorted_prog_run {C W} (f : @user (P * A) K W) (w : W) (data : list A) (p : P) :
  run f w (sorted_prog data (Some p) : prog _ _ C _) =
  match feed f w (map (pair p) data) with
  | (answers, w, None) => (map Asked (map (pair p) data), w, Ok (map fst (sort_by (fun x y => key_leb (snd x) (snd y)) (combine data answers))))
  | (answers, w, Some e) => (map Asked (firstn (S (length answers)) (map (pair p) data)), w, Err e)
  end.
Proof.
  cbn [sorted_prog]. rewrite run_bind, (run_asks f (pair p) (fun st x b => st ++ [(x, b)])).
  destruct (feed f w (map (pair p) data)) as [[answers w'] [e|]]; cbn [then_ run]; [reflexivity|].
  rewrite fold_collect, app_nil_r. reflexivity.
Qed.

Lemma sorted_prog_still {C W} (key : P * A -> K) (w : W) (data : list A) (k : option P) :
  run (still key) w (sorted_prog data k : prog _ _ C _) =
  (map Asked (match k with None => [] | Some p => map (pair p) data end), w, Ok (sort_by (by_key key_leb item_leb key k) data)).
Proof.
  destruct k as [p|]; [|reflexivity]. rewrite sorted_prog_run, feed_still, (map_map (pair p) key), combine_map_r.
  rewrite (sort_by_label (fun x => key (p, x)) key_leb).
  rewrite (map_map (fun y => (y, key (p, y))) fst (sort_by (fun a b => key_leb (key (p, a)) (key (p, b))) data)). cbn [fst]. rewrite map_id.
  reflexivity.
Qed.

Definition hidden {Q1 Q2 C W R} (x : list (event (Q1 + Q2) C) * W * res R) : list (event Q2 C) * W * res R :=
  let '(t, w, o) := x in (hide t, w, o).

Lemma hidden_then {Q1 B1 Q2 B2 C W R R'} (f : @user (Q1 + Q2) (B1 + B2) W) (g : @user Q2 B2 W) w (p : prog (Q1 + Q2) (B1 + B2) C R)
  (p' : prog Q2 B2 C R) (k : R -> prog (Q1 + Q2) (B1 + B2) C R') (k' : R -> prog Q2 B2 C R') :
  hidden (run f w p) = run g w p' -> (forall w r, hidden (run f w (k r)) = run g w (k' r)) ->
  hidden (run f w (pbind p k)) = run g w (pbind p' k').
Proof.
  intros H1 H2. rewrite !run_bind, <- H1. destruct (run f w p) as [[t w1] [r|e]]; cbn; [|reflexivity].
  specialize (H2 w1 r). rewrite <- H2. destruct (run f w1 (k r)) as [[t' w2] o]. cbn. rewrite hide_app. reflexivity.
Qed.

Lemma hidden_lift {Q1 B1 Q2 B2 C W R} (f : @user (Q1 + Q2) (B1 + B2) W) (g : @user Q2 B2 W) w (r : res R) :
  hidden (run f w (lift r : prog _ _ C R)) = run g w (lift r).
Proof. rewrite !run_lift. reflexivity. Qed.

Lemma hidden_yields {Q1 B1 Q2 B2 C W} (f : @user (Q1 + Q2) (B1 + B2) W) (g : @user Q2 B2 W) w (l : list C) :
  hidden (run f w (yield_from l)) = run g w (yield_from l).
Proof. rewrite !run_yields. cbn. rewrite hide_gave. reflexivity. Qed.

Lemma passes_hidden {C W} (pass : list (A * A) -> list A -> prog (A * A) bool C (list (A * A))) (key : P * A -> K)
  (g : @user (A * A) bool W) once keys : forall w data pairs,
  hidden (run (both (still key) g) w (passes_prog pass once data keys pairs)) =
  run g w (for_each (sorted_passes once data (map (by_key key_leb item_leb key) keys)) pairs pass).
Proof.
  induction keys as [|k keys IH]; intros w data pairs; [reflexivity|]. cbn [passes_prog map sorted_passes for_each].
  rewrite run_bind, run_first, sorted_prog_still. cbn [then_].
  assert (E : forall x : list (event (P * A + A * A) C) * W * res (list (A * A)),
    hidden (let '(t', w', o') := x in
      (map of_first (map Asked (match k with None => [] | Some p => map (pair p) data end)) ++ t', w', o')) = hidden x).
  { intros [[t' w'] o']. unfold hidden. rewrite hide_app, hide_first. reflexivity. }
  rewrite E. apply hidden_then.
  - rewrite run_second. destruct (run g w _) as [[t w'] o]. unfold hidden. rewrite hide_second. reflexivity.
  - intros w' r. apply IH.
Qed.

Lemma clusters_hidden {Q1 B1 Q2 B2 W} (f : @user (Q1 + Q2) (B1 + B2) W) (g : @user Q2 B2 W) w
  (p : prog (Q1 + Q2) (B1 + B2) (list A) (list (A * A))) (p' : prog Q2 B2 (list A) (list (A * A))) lo hi mode fuzzy :
  hidden (run f w p) = run g w p' ->
  hidden (run f w (clusters_prog set_order p lo hi mode fuzzy)) = run g w (clusters_prog set_order p' lo hi mode fuzzy).
Proof.
  intros E. unfold clusters_prog. apply hidden_then; [exact E|]. intros w' r. apply hidden_then; [apply hidden_lift|].
  intros w2 l. apply hidden_yields.
Qed.

Lemma some_keys (key : P * A -> K) (k : option P) keys :
  match option_map (map (by_key key_leb item_leb key)) keys with Some ks => ks | None => [by_key key_leb item_leb key k] end =
  map (by_key key_leb item_leb key) (match keys with Some ks => ks | None => [k] end).
Proof. destruct keys; reflexivity. Qed.
Lemma same_fuzzy {X Y} (h : X -> Y) (o : option X) : match option_map h o with Some _ => true | None => false end = match o with Some _ => true | None => false end.
Proof. destruct o; reflexivity. Qed.

Lemma neighborhood_hidden {W} (key : P * A -> K) (g : @user (A * A) bool W) w once data k keys window lo hi mode :
  hidden (run (both (still key) g) w (neighborhood_keys_prog set_order key_leb item_leb once data k keys window lo hi mode)) =
  run g w (neighborhood_prog set_order once data (by_key key_leb item_leb key k)
             (option_map (map (by_key key_leb item_leb key)) keys) window lo hi mode).
Proof.
  unfold neighborhood_keys_prog, neighborhood_prog. rewrite same_fuzzy, some_keys. apply clusters_hidden. apply passes_hidden.
Qed.

Lemma adaptive_hidden {W} (key : P * A -> K) (g : @user (A * A) bool W) w fuel once data k keys step lo hi mode :
  hidden (run (both (still key) g) w (adaptive_keys_prog set_order key_leb item_leb fuel once data k keys step lo hi mode)) =
  run g w (adaptive_prog set_order fuel once data (by_key key_leb item_leb key k)
             (option_map (map (by_key key_leb item_leb key)) keys) step lo hi mode).
Proof.
  unfold adaptive_keys_prog, adaptive_prog. rewrite same_fuzzy, some_keys. apply clusters_hidden. apply passes_hidden.
Qed.

(** the calls of the keys, whatever both functions do *)
Definition keys_met {Q1 Q2 C W R} (calls : list Q1) (x : list (event (Q1 + Q2) C) * W * res R) : Prop :=
  let '(t, w, o) := x in
  match o with Ok _ => lefts (asked t) = calls | Err _ => starts (lefts (asked t)) calls end.

Lemma keys_met_then {Q1 B1 Q2 B2 C W R R'} (f : @user (Q1 + Q2) (B1 + B2) W) w (p : prog _ _ C R) (k : R -> prog _ _ C R') l1 l2 :
  keys_met l1 (run f w p) -> (forall w r, keys_met l2 (run f w (k r))) -> keys_met (l1 ++ l2) (run f w (pbind p k)).
Proof.
  intros H1 H2. rewrite run_bind. destruct (run f w p) as [[t w1] [r|e]]; cbn [then_ keys_met] in *.
  - specialize (H2 w1 r). destruct (run f w1 (k r)) as [[t' w2] [r'|e]]; cbn [keys_met] in *; rewrite asked_app, lefts_app, H1.
    + rewrite H2. reflexivity.
    + apply starts_app. exact H2.
  - apply starts_more. exact H1.
Qed.

Lemma keys_met_second {Q1 B1 Q2 B2 C W R} (f : @user Q1 B1 W) (g : @user Q2 B2 W) w (p : prog Q2 B2 C R) :
  keys_met [] (run (both f g) w (second p)).
Proof.
  rewrite run_second. destruct (run g w p) as [[t w'] o]. cbn [keys_met]. rewrite asked_second, lefts_inr.
  destruct o; [reflexivity|apply starts_nil].
Qed.

Lemma keys_met_sorted {C W} (f : @user (P * A) K W) (g : @user (A * A) bool W) w data k :
  keys_met (match k with None => [] | Some p => map (pair p) data end) (run (both f g) w (first (sorted_prog data k : prog _ _ C _))).
Proof.
  rewrite run_first. destruct k as [p|]; [|reflexivity]. rewrite sorted_prog_run.
  destruct (feed f w (map (pair p) data)) as [[answers w'] [e|]]; cbn [keys_met]; rewrite asked_first, lefts_inl, asked_Asked;
    [apply starts_firstn|reflexivity].
Qed.

Lemma keys_met_passes {C W} (pass : list (A * A) -> list A -> prog (A * A) bool C (list (A * A)))
  (f : @user (P * A) K W) (g : @user (A * A) bool W) once keys : forall w data pairs,
  keys_met (key_calls once data keys) (run (both f g) w (passes_prog pass once data keys pairs)).
Proof.
  induction keys as [|k keys IH]; intros w data pairs; [reflexivity|]. cbn [passes_prog key_calls].
  apply keys_met_then; [apply keys_met_sorted|]. intros w' s. rewrite <- (app_nil_l (key_calls _ _ _)).
  apply keys_met_then; [apply keys_met_second|]. intros w2 r. apply IH.
Qed.

Lemma keys_met_clusters {Q1 B1 Q2 B2 W} (f : @user (Q1 + Q2) (B1 + B2) W) w (p : prog _ _ (list A) (list (A * A))) lo hi mode fuzzy calls :
  keys_met calls (run f w p) -> keys_met calls (run f w (clusters_prog set_order p lo hi mode fuzzy)).
Proof.
  intros E. unfold clusters_prog. rewrite <- (app_nil_r calls). apply keys_met_then; [exact E|]. intros w' r.
  rewrite run_bind, run_lift. destruct (clusters_from_pairs set_order r lo hi mode fuzzy) as [l|e]; cbn [then_].
  - rewrite run_yields. cbn [keys_met app]. rewrite asked_Gave. reflexivity.
  - apply starts_nil.
Qed.
End Neighborhood.

(** ** hashjoin *)
(** a program that makes the calls [l] whatever the answers, and does not raise by itself *)
Inductive steady {Q B C R} : prog Q B C R -> list Q -> Prop :=
| steady_ret r : steady (Ret r) []
| steady_call q k l : (forall b, steady (k b) l) -> steady (Call q k) (q :: l)
| steady_yield c p l : steady p l -> steady (Yield c p) l.

Lemma steady_bind {Q B C R R'} (p : prog Q B C R) l1 (k : R -> prog Q B C R') l2 :
  steady p l1 -> (forall r, steady (k r) l2) -> steady (pbind p k) (l1 ++ l2).
Proof.
  intros H1 H2. induction H1 as [r|q k' l _ IH|c p l _ IH]; cbn [pbind app]; [apply H2|constructor; exact IH|constructor; exact IH].
Qed.

Lemma steady_each {Q B C X St} (l : list X) (q : X -> Q) (body : St -> X -> prog Q B C St) :
  (forall st x, steady (body st x) [q x]) -> forall st, steady (for_each l st body) (map q l).
Proof.
  intros H. induction l as [|x l IH]; intros st; [constructor|]. cbn [for_each map]. apply (steady_bind _ [q x] _ (map q l)); [apply H|exact IH].
Qed.

Lemma steady_run {Q B C R W} (f : @user Q B W) (p : prog Q B C R) l : steady p l -> forall w,
  let '(t, w', o) := run f w p in
  match o with Ok _ => asked t = l | Err e => exists n, asked t = firstn (S n) l end.
Proof.
  intros H. induction H as [r|q k l _ IH|c p l _ IH]; intros w; cbn [run].
  - reflexivity.
  - destruct (f w q) as [w1 [b|e]].
    + specialize (IH b w1). destruct (run f w1 (k b)) as [[t w2] [r|e]]; cbn.
      * f_equal. exact IH.
      * destruct IH as [n E]. exists (S n). cbn in E |- *. f_equal. exact E.
    + exists 0. reflexivity.
  - specialize (IH w). destruct (run f w p) as [[t w2] [r|e]]; exact IH.
Qed.

Section HashJoin.
Context {T K : Type} `{EqDec K}.

Definition loop_calls (As : list T) (B : iterable T) : list T :=
  if reiterable B then flat_map (fun a => a :: items B) As else match As with [] => [] | a :: l => a :: items B ++ l end.

Lemma loop_calls_cons a As B : loop_calls (a :: As) B = a :: items B ++ loop_calls As (snd (consume B)).
Proof.
  destruct B as [l|l|l]; cbn; try reflexivity. f_equal. f_equal. destruct As as [|a' As]; [reflexivity|]. cbn. reflexivity.
Qed.

Lemma key_loop_steady invert As : forall B, steady (key_loop invert As B : prog T K _ _) (loop_calls As B).
Proof.
  induction As as [|a As IH]; intros B.
  - cbn. destruct B; constructor.
  - rewrite loop_calls_cons. cbn [key_loop]. constructor. intros key_a.
    replace (consume B) with (items B, snd (consume B)) by (destruct B; reflexivity). cbn [snd]. apply steady_bind.
    + rewrite <- (map_id (items B)) at 2. apply steady_each. intros st b. constructor. intros key_b.
      destruct (eqb key_a key_b); repeat constructor.
    + intros _. apply IH.
Qed.

Lemma keys_loop_steady invert As : forall B, steady (keys_loop invert As B : prog T (iterable K) _ _) (loop_calls As B).
Proof.
  induction As as [|a As IH]; intros B.
  - cbn. destruct B; constructor.
  - rewrite loop_calls_cons. cbn [keys_loop]. constructor. intros key_a.
    replace (consume B) with (items B, snd (consume B)) by (destruct B; reflexivity). cbn [snd]. apply steady_bind.
    + rewrite <- (map_id (items B)) at 2. apply steady_each. intros st b. constructor. intros key_b.
      destruct (consume st) as [ka st'], (consume key_b) as [kb x]. destruct (Nat.ltb _ _); repeat constructor.
    + intros _. apply IH.
Qed.

Lemma sides_spec (left right : iterable T) :
  match len left, len right with
  | Some n, Some m => if Nat.ltb m n then (right, left, true) else (left, right, false)
  | _, _ => (left, right, false)
  end = (outer left right, inner left right, swapped left right).
Proof. destruct left as [l|l|l], right as [r|r|r]; try reflexivity. unfold outer, inner. cbn [swapped len]. destruct (Nat.ltb (length r) (length l)); reflexivity. Qed.

Lemma hashjoin_key_run {W} (f : @user T K W) (g : @user T (iterable K) W) w left right :
  run (both f g) w (hashjoin_prog left right true false) =
  let '(t, w', o) := run f w (key_loop (swapped left right) (items (outer left right)) (inner left right)) in
  (map of_first t, w', match o with Ok _ => Ok tt | Err e => Err e end).
Proof.
  unfold hashjoin_prog. rewrite sides_spec.
  replace (consume (outer left right)) with (items (outer left right), snd (consume (outer left right))) by (destruct (outer left right); reflexivity).
  rewrite run_bind, run_bind, run_first. destruct (run f w _) as [[t w'] [B|e]]; cbn [then_ run]; [|reflexivity].
  rewrite !app_nil_r. reflexivity.
Qed.

Lemma hashjoin_keys_run {W} (f : @user T K W) (g : @user T (iterable K) W) w left right :
  run (both f g) w (hashjoin_prog left right false true) =
  let '(t, w', o) := run g w (keys_loop (swapped left right) (items (outer left right)) (inner left right)) in
  (map of_second t, w', match o with Ok _ => Ok tt | Err e => Err e end).
Proof.
  unfold hashjoin_prog. rewrite sides_spec.
  rewrite run_bind. cbn [run then_ fst snd].
  replace (consume (outer left right)) with (items (outer left right), snd (consume (outer left right))) by (destruct (outer left right); reflexivity).
  rewrite run_bind, run_second. destruct (run g w _) as [[t w'] [B|e]]; cbn [then_ run app]; [|reflexivity].
  rewrite !app_nil_r. reflexivity.
Qed.

(** what the loops yield with pure functions *)
Definition key_row (key : T -> K) (invert : bool) (a : T) (bs : list T) : list (event T (T * T)) :=
  flat_map (fun b => Asked b :: (if eqb (key a) (key b) then [Gave (if invert then (b, a) else (a, b))] else [])) bs.

Lemma key_row_run (key : T -> K) (invert : bool) (a : T) bs :
  run (pure key) tt (for_each bs tt (fun _ b => Call b (fun key_b =>
        if eqb (key a) key_b then Yield (if invert then (b, a) else (a, b)) (Ret tt) else Ret tt)) : prog T K (T * T) unit) = (key_row key invert a bs, tt, Ok tt).
Proof.
  induction bs as [|b bs IH]; [reflexivity|]. cbn [for_each pbind run pure key_row flat_map].
  destruct (eqb (key a) (key b)); cbn [pbind run app]; rewrite IH; reflexivity.
Qed.

Lemma given_key_row (key : T -> K) invert a bs : given (key_row key invert a bs) = row_pairs (same_key key) invert a bs.
Proof.
  unfold row_pairs, same_key. induction bs as [|b bs IH]; [reflexivity|]. cbn [flat_map]. rewrite <- IH. unfold key_row. cbn [flat_map].
  rewrite given_app. destruct (eqb (key a) (key b)); reflexivity.
Qed.

Fixpoint key_trace (key : T -> K) (invert : bool) (As : list T) (B : iterable T) : list (event T (T * T)) :=
  match As with
  | [] => []
  | a :: As => Asked a :: key_row key invert a (items B) ++ key_trace key invert As (snd (consume B))
  end.

Lemma key_loop_pure (key : T -> K) invert As : forall B, exists B',
  run (pure key) tt (key_loop invert As B) = (key_trace key invert As B, tt, Ok B').
Proof.
  induction As as [|a As IH]; intros B; [exists B; reflexivity|]. cbn [key_loop run pure].
  replace (consume B) with (items B, snd (consume B)) by (destruct B; reflexivity). cbn [snd].
  rewrite run_bind, key_row_run. cbn [then_]. destruct (IH (snd (consume B))) as [B' E]. rewrite E. exists B'. reflexivity.
Qed.

Lemma key_trace_given (key : T -> K) invert As : forall B, given (key_trace key invert As B) = fst (join_loop (same_key key) invert As B).
Proof.
  induction As as [|a As IH]; intros B; [reflexivity|]. cbn [key_trace join_loop].
  change (given (Asked a :: key_row key invert a (items B) ++ key_trace key invert As (snd (consume B))))
    with (given (key_row key invert a (items B) ++ key_trace key invert As (snd (consume B)))).
  rewrite given_app, given_key_row, IH.
  replace (consume B) with (items B, snd (consume B)) by (destruct B; reflexivity). cbn [snd].
  destruct (join_loop (same_key key) invert As (snd (consume B))) as [r B2]. reflexivity.
Qed.

Lemma key_trace_list (key : T -> K) invert As B : reiterable B = true ->
  key_trace key invert As B = flat_map (fun a => Asked a :: key_row key invert a (items B)) As.
Proof.
  intros HB. induction As as [|a As IH]; [reflexivity|]. cbn [key_trace flat_map]. rewrite (consume_reiterable B HB). cbn [snd]. rewrite IH.
  reflexivity.
Qed.

(** several keys: [ka] is what is left of the keys of [a] *)
Definition shared (ka kb : list K) : bool := existsb (fun k => memb k kb) ka.
Lemma shared_model ka kb : Nat.ltb 0 (length (filter (fun k => memb k (set_of kb)) (set_of ka))) = shared ka kb.
Proof. exact (model_common (fun b : bool => if b then ka else kb) true false). Qed.

Fixpoint keys_row (keys : T -> iterable K) (invert : bool) (a : T) (ka : iterable K) (bs : list T) : list (event T (T * T)) :=
  match bs with
  | [] => []
  | b :: bs =>
    Asked b :: (if shared (items ka) (items (keys b)) then [Gave (if invert then (b, a) else (a, b))] else []) ++
    keys_row keys invert a (snd (consume ka)) bs
  end.

Lemma keys_row_run (keys : T -> iterable K) (invert : bool) (a : T) bs : forall ka, exists ka',
  run (pure keys) tt (for_each bs ka (fun key_a b => Call b (fun key_b =>
        let '(ka, key_a) := consume key_a in
        let '(kb, _) := consume key_b in
        if Nat.ltb 0 (length (filter (fun k => memb k (set_of kb)) (set_of ka)))
        then Yield (if invert then (b, a) else (a, b)) (Ret key_a) else Ret key_a)) : prog T (iterable K) (T * T) (iterable K)) = (keys_row keys invert a ka bs, tt, Ok ka').
Proof.
  induction bs as [|b bs IH]; intros ka; [exists ka; reflexivity|]. cbn [for_each pbind run pure keys_row].
  replace (consume ka) with (items ka, snd (consume ka)) by (destruct ka; reflexivity).
  replace (consume (keys b)) with (items (keys b), snd (consume (keys b))) by (destruct (keys b); reflexivity). cbn [snd].
  rewrite shared_model. destruct (IH (snd (consume ka))) as [ka' E]. exists ka'.
  destruct (shared (items ka) (items (keys b))); cbn [pbind run app]; rewrite E; reflexivity.
Qed.

Fixpoint keys_trace (keys : T -> iterable K) (invert : bool) (As : list T) (B : iterable T) : list (event T (T * T)) :=
  match As with
  | [] => []
  | a :: As => Asked a :: keys_row keys invert a (keys a) (items B) ++ keys_trace keys invert As (snd (consume B))
  end.

Lemma keys_loop_pure (keys : T -> iterable K) invert As : forall B, exists B',
  run (pure keys) tt (keys_loop invert As B) = (keys_trace keys invert As B, tt, Ok B').
Proof.
  induction As as [|a As IH]; intros B; [exists B; reflexivity|]. cbn [keys_loop run pure].
  replace (consume B) with (items B, snd (consume B)) by (destruct B; reflexivity). cbn [snd].
  rewrite run_bind. destruct (keys_row_run keys invert a (items B) (keys a)) as [ka' E]. rewrite E. cbn [then_].
  destruct (IH (snd (consume B))) as [B' E']. rewrite E'. exists B'. reflexivity.
Qed.

Lemma keys_row_list (keys : T -> iterable K) (invert : bool) (a : T) ka bs : reiterable ka = true ->
  given (keys_row keys invert a ka bs) =
  flat_map (fun b => if shared (items ka) (items (keys b)) then [if invert then (b, a) else (a, b)] else []) bs.
Proof.
  intros Hk. induction bs as [|b bs IH]; [reflexivity|]. cbn [keys_row flat_map].
  replace (consume ka) with (items ka, ka) by (destruct ka; cbn in *; congruence). cbn [snd].
  rewrite <- IH. destruct (shared (items ka) (items (keys b))); reflexivity.
Qed.

Lemma keys_row_empty (keys : T -> iterable K) invert a bs : given (keys_row keys invert a (Iterator []) bs) = [].
Proof. induction bs as [|b bs IH]; [reflexivity|]. exact IH. Qed.

Lemma keys_row_once (keys : T -> iterable K) (invert : bool) (a : T) ka bs :
  given (keys_row keys invert a (Iterator ka) bs) =
  flat_map (fun b => if shared ka (items (keys b)) then [if invert then (b, a) else (a, b)] else []) (firstn 1 bs).
Proof.
  destruct bs as [|b bs]; [reflexivity|]. cbn [keys_row consume snd items firstn flat_map app].
  assert (E := keys_row_empty keys invert a bs).
  destruct (shared ka (items (keys b))); cbn; [f_equal|]; exact E.
Qed.

Lemma keys_trace_given (keys : T -> iterable K) invert As : (forall a, reiterable (keys a) = true) ->
  forall B, given (keys_trace keys invert As B) = fst (join_loop (common_key (fun x => items (keys x))) invert As B).
Proof.
  intros Hk. induction As as [|a As IH]; intros B; [reflexivity|]. cbn [keys_trace join_loop].
  change (given (Asked a :: keys_row keys invert a (keys a) (items B) ++ keys_trace keys invert As (snd (consume B))))
    with (given (keys_row keys invert a (keys a) (items B) ++ keys_trace keys invert As (snd (consume B)))).
  rewrite given_app, keys_row_list, IH by apply Hk.
  replace (consume B) with (items B, snd (consume B)) by (destruct B; reflexivity). cbn [snd].
  destruct (join_loop _ invert As (snd (consume B))) as [r B2]. reflexivity.
Qed.

Lemma keys_trace_once (ks : T -> list K) invert As B : reiterable B = true ->
  given (keys_trace (fun x => Iterator (ks x)) invert As B) = flat_map (fun a => row_pairs (common_key ks) invert a (firstn 1 (items B))) As.
Proof.
  intros HB. induction As as [|a As IH]; [reflexivity|]. cbn [keys_trace flat_map]. rewrite (consume_reiterable B HB). cbn [snd].
  rewrite <- IH.
  change (given (Asked a :: keys_row (fun x => Iterator (ks x)) invert a (Iterator (ks a)) (items B) ++ keys_trace (fun x => Iterator (ks x)) invert As B))
    with (given (keys_row (fun x => Iterator (ks x)) invert a (Iterator (ks a)) (items B) ++ keys_trace (fun x => Iterator (ks x)) invert As B)).
  rewrite given_app, keys_row_once. reflexivity.
Qed.

Lemma hashjoin_sides (left right : iterable T) key keys :
  hashjoin left right (Some key) None = fst (join_loop (same_key key) (swapped left right) (items (outer left right)) (inner left right)) /\
  hashjoin left right None (Some keys) = fst (join_loop (common_key keys) (swapped left right) (items (outer left right)) (inner left right)).
Proof.
  unfold hashjoin. rewrite sides_spec.
  replace (consume (outer left right)) with (items (outer left right), snd (consume (outer left right))) by (destruct (outer left right); reflexivity).
  split.
  - unfold same_key. destruct (join_loop _ _ _ _) as [r B]. reflexivity.
  - rewrite (ext_loop _ (common_key keys)) by (intros a b; apply model_common). destruct (join_loop _ _ _ _) as [r B]. reflexivity.
Qed.
End HashJoin.
