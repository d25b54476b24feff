(** Proofs about the number of calls of the similarity by nn_descent, and about its results. *)
From Coq Require Import QArith Qround String Permutation Lia.
From Verif Require Import Base BaseFacts ClustersModel PairwiseModel PairwiseProofs LevModel GraphModel NNDescentModel NNDescentSpec
  NNDescentLocalSpec NNDescentProofs NNDescentLocalProofs CallsModel CallsSpec CallsProofs BlockingSpec BlockingProofs
  NNCallsModel NNCallsSpec NNCallsProofs.
Open Scope nat_scope.
Open Scope list_scope.
Notation length := List.length.
Notation concat := List.concat.

(** ** With a pure function *)
Section Pure.
Context {A : Type}.
Variable set_order : list nat -> list nat.
Variable neg : bool.
Variable V : list A.
Variable g : A * A -> Q.

Definition sim (x y : A) : Q := if neg then (- g (x, y))%Q else g (x, y).

Definition result {R} (p : prog (A * A) Q (list A) R) : res R := snd (run (pure g) tt p).

Lemma result_bind {R R'} (p : prog (A * A) Q (list A) R) (k : R -> prog (A * A) Q (list A) R') :
  result (pbind p k) = let! r := result p in result (k r).
Proof.
  unfold result. rewrite run_bind. destruct (run (pure g) tt p) as [[t []] [r|e]]; cbn; [|reflexivity].
  destruct (run (pure g) tt (k r)) as [[t' w'] o]. reflexivity.
Qed.

Lemma result_lift {R} (r : res R) : result (lift r) = r.
Proof. destruct r; reflexivity. Qed.

Lemma result_ret {R} (r : R) : result (Ret r) = Ok r.
Proof. reflexivity. Qed.

Lemma result_pmap {X Y} (l : list X) (h : X -> prog (A * A) Q (list A) Y) (h' : X -> res Y) : (forall x, result (h x) = h' x) ->
  result (pmap l h) = mapM h' l.
Proof.
  intros E. induction l as [|x l IH]; [reflexivity|]. cbn [pmap mapM]. rewrite result_bind, E. destruct (h' x) as [y|e]; [|reflexivity].
  cbn [bind]. rewrite result_bind, IH. destruct (mapM h' l); reflexivity.
Qed.

Lemma result_for_each {X St} (l : list X) (body : St -> X -> prog (A * A) Q (list A) St) (body' : St -> X -> res St) :
  (forall st x, result (body st x) = body' st x) -> forall st, result (for_each l st body) = foldM body' l st.
Proof.
  intros E. induction l as [|x l IH]; intros st; [reflexivity|]. cbn [for_each foldM]. rewrite result_bind, E.
  destruct (body' st x); [apply IH|reflexivity].
Qed.

Lemma result_ask i j : result (ask_at neg V i j) = sim_at sim V i j.
Proof.
  unfold ask_at, sim_at, index. destruct (nth_error V i); [|reflexivity]. destruct (nth_error V j); [|reflexivity]. unfold sim, result. cbn. reflexivity.
Qed.

Lemma result_initial heapify k : forall items draws, result (initial_prog set_order neg V heapify draws k items) = initial_loop set_order heapify sim V draws k items.
Proof.
  induction items as [|i items IH]; intros draws; [reflexivity|]. cbn [initial_prog initial_loop].
  rewrite result_bind, result_lift. destruct (sample_loop draws k i []) as [[S d]|e]; [|reflexivity]. cbn [bind].
  rewrite result_bind, (result_pmap _ _ (fun j => let! s := sim_at sim V i j in Ok (s, j))).
  - destruct (mapM _ (set_order S)); [|reflexivity]. cbn [bind]. rewrite result_bind, IH. destruct (initial_loop _ _ _ _ d k items); reflexivity.
  - intros j. rewrite result_bind, result_ask. destruct (sim_at sim V i j); reflexivity.
Qed.

Lemma result_measure heapreplace i hc j : result (measure_prog neg V heapreplace i hc j) = compare heapreplace sim V i hc j.
Proof.
  destruct hc as [h c]. unfold measure_prog, compare. destruct (Nat.eqb i j); [reflexivity|]. rewrite result_bind, result_ask.
  destruct (sim_at sim V i j) as [s|]; [|reflexivity]. cbn [bind]. destruct h as [|[worst j'] h]; [reflexivity|]. destruct (Qle_bool s worst); reflexivity.
Qed.

Lemma foldM_app {X St} (body : St -> X -> res St) l l' : forall st, foldM body (l ++ l') st = let! st := foldM body l st in foldM body l' st.
Proof. induction l as [|x l IH]; intros st; [reflexivity|]. cbn [app foldM]. destruct (body st x); [apply IH|reflexivity]. Qed.

Lemma foldM_flat {X Y St} (body : St -> Y -> res St) (h : X -> list Y) l : forall st,
  foldM body (flat_map h l) st = foldM (fun st x => foldM body (h x) st) l st.
Proof.
  induction l as [|x l IH]; intros st; [reflexivity|]. cbn [flat_map]. rewrite foldM_app. cbn [foldM]. destruct (foldM body (h x) st); [apply IH|reflexivity].
Qed.

Lemma mapM_ext' {X Y} (h h' : X -> res Y) l : (forall x, h x = h' x) -> mapM h l = mapM h' l.
Proof. intros E. induction l as [|x l IH]; [reflexivity|]. cbn. rewrite E, IH. reflexivity. Qed.

Lemma result_turn heapreplace B : result (turn_prog set_order neg V heapreplace B) = turn set_order heapreplace sim V B.
Proof.
  unfold turn_prog, turn. rewrite result_bind, (result_pmap _ _ (fun '(i, h) => improve heapreplace sim V (map (candidates set_order B) (seq 0 (length V))) i h)).
  - destruct (mapM _ (enumerate B)); reflexivity.
  - intros [i h]. unfold improve_prog, improve. rewrite foldM_flat. apply result_for_each. intros st m. apply result_for_each. intros st' j. apply result_measure.
Qed.

Lemma result_descend heapreplace : forall fuel B, result (descend_prog set_order neg V heapreplace fuel B) = descend set_order heapreplace sim V fuel B.
Proof.
  induction fuel as [|fuel IH]; intros B; [reflexivity|]. cbn [descend_prog descend]. rewrite result_bind, result_turn.
  destruct (turn set_order heapreplace sim V B) as [[B' c]|]; [|reflexivity]. cbn [bind]. destruct (Nat.eqb c 0); [reflexivity|apply IH].
Qed.

(** ** The full version *)
Lemma result_initial_full heapify k : forall items draws,
  result (initial_full_prog set_order neg V heapify draws k items) = initial_full set_order heapify sim V draws k items.
Proof.
  induction items as [|i items IH]; intros draws; [reflexivity|]. cbn [initial_full_prog initial_full].
  rewrite result_bind, result_lift. destruct (sample_loop draws k i []) as [[S d]|e]; [|reflexivity]. cbn [bind].
  rewrite result_bind, (result_pmap _ _ (fun j => let! s := sim_at sim V i j in Ok (s, (j, true)))).
  - destruct (mapM _ (set_order S)); [|reflexivity]. cbn [bind]. rewrite result_bind, IH. destruct (initial_full _ _ _ _ d k items); reflexivity.
  - intros j. rewrite result_bind, result_ask. destruct (sim_at sim V i j); reflexivity.
Qed.

Lemma result_measure_full heapreplace u1 Bc u2 : result (measure_full_prog neg V heapreplace u1 Bc u2) = compare_full heapreplace sim V u1 Bc u2.
Proof.
  unfold measure_full_prog, compare_full. rewrite result_bind, result_ask. destruct (sim_at sim V u1 u2); [|reflexivity]. cbn [bind]. apply result_lift.
Qed.

Lemma result_join heapreplace later rhoK old new st i :
  result (join_full_prog set_order neg V heapreplace later rhoK old new st i) = join_full set_order heapreplace sim V later rhoK old new st i.
Proof.
  destruct st as [[B c] t]. unfold join_full_prog, join_full.
  rewrite result_bind, result_lift. destruct (index old i) as [o|]; [|reflexivity]. cbn [bind].
  rewrite result_bind, result_lift. destruct (index new i) as [n|]; [|reflexivity]. cbn [bind].
  rewrite result_bind, result_lift. destruct (sample_full later t (reverse_full old i) rhoK) as [[os t1]|]; [|reflexivity]. cbn [bind].
  rewrite result_bind, result_lift. destruct (sample_full later t1 (reverse_full new i) rhoK) as [[ns t2]|]; [|reflexivity]. cbn [bind].
  rewrite result_bind. match goal with |- bind ?x _ = bind ?y _ => assert (E : x = y); [|rewrite E; destruct y; reflexivity] end.
  apply result_for_each. intros Bc u1. rewrite result_bind.
  match goal with |- bind ?x _ = bind ?y _ => assert (E : x = y) end.
  { apply result_for_each. intros Bc' u2. destruct (Nat.leb u2 u1); [reflexivity|apply result_measure_full]. }
  rewrite E. clear E. match goal with |- bind ?x _ = _ => destruct x as [Bc'|]; [|reflexivity] end. cbn [bind].
  apply result_for_each. intros Bc'' u2. destruct (Nat.eqb u1 u2); [reflexivity|apply result_measure_full].
Qed.

Lemma result_turn_full heapreplace later t rhoK B :
  result (turn_full_prog set_order neg V heapreplace later t rhoK B) = turn_full set_order heapreplace sim V later t rhoK B.
Proof.
  unfold turn_full_prog, turn_full. rewrite result_bind, result_lift. destruct (samplings later t rhoK B) as [[[[B' old] new] t']|]; [|reflexivity]. cbn [bind].
  apply result_for_each. intros st i. apply result_join.
Qed.

Lemma result_descend_full heapreplace later rhoK threshold : forall fuel t c B,
  result (descend_full_prog set_order neg V heapreplace later fuel t rhoK threshold c B) = descend_full set_order heapreplace sim V later fuel t rhoK threshold c B.
Proof.
  induction fuel as [|fuel IH]; intros t c B; [reflexivity|]. cbn [descend_full_prog descend_full]. destruct (Qle_bool threshold _); [|reflexivity].
  rewrite result_bind, result_turn_full. destruct (turn_full _ _ _ _ _ t rhoK B) as [[[B' c'] t']|]; [|reflexivity]. cbn [bind]. apply IH.
Qed.
End Pure.

(** ** Programs that yield nothing *)
Section Silent.
Context {Q B C W : Type}.
Variable f : @user Q B W.
Notation prog := (prog Q B C).

Definition silent {R} (p : prog R) : Prop := forall w, exists calls, fst (fst (run f w p)) = map Asked calls.

Lemma silent_ret {R} (r : R) : silent (Ret r). Proof. intros w. exists []. reflexivity. Qed.
Lemma silent_raise {R} e : silent (Raise e : prog R). Proof. intros w. exists []. reflexivity. Qed.
Lemma silent_lift {R} (r : res R) : silent (lift r). Proof. destruct r; [apply silent_ret|apply silent_raise]. Qed.
Lemma silent_call {R} q (k : B -> prog R) : (forall b, silent (k b)) -> silent (Call q k).
Proof.
  intros H w. cbn. destruct (f w q) as [w1 [b|e]]; [|exists [q]; reflexivity]. destruct (H b w1) as [calls E].
  destruct (run f w1 (k b)) as [[t w'] o]. exists (q :: calls). cbn in *. congruence.
Qed.
Lemma silent_bind {R R'} (p : prog R) (k : R -> prog R') : silent p -> (forall r, silent (k r)) -> silent (pbind p k).
Proof.
  intros H1 H2 w. rewrite run_bind. destruct (H1 w) as [calls E]. destruct (run f w p) as [[t w'] [r|e]]; cbn [fst then_] in *; [|eauto].
  destruct (H2 r w') as [calls' E']. destruct (run f w' (k r)) as [[t' w''] o]. cbn [fst] in *. exists (calls ++ calls'). rewrite map_app. congruence.
Qed.
Lemma silent_for_each {X St} (l : list X) (body : St -> X -> prog St) : (forall st x, silent (body st x)) -> forall st, silent (for_each l st body).
Proof. intros H. induction l as [|x l IH]; intros st; [apply silent_ret|]. apply silent_bind; [apply H|apply IH]. Qed.
Lemma silent_pmap {X Y} (l : list X) (h : X -> prog Y) : (forall x, silent (h x)) -> silent (pmap l h).
Proof.
  intros H. induction l as [|x l IH]; [apply silent_ret|]. apply silent_bind; [apply H|]. intros y. apply silent_bind; [exact IH|]. intros ys. apply silent_ret.
Qed.
End Silent.

Section SilentNN.
Context {A W : Type}.
Variable set_order : list nat -> list nat.
Variable neg : bool.
Variable V : list A.
Variable f : @user (A * A) Q W.

Lemma silent_ask i j : silent (C := list A) f (ask_at neg V i j).
Proof.
  unfold ask_at. apply silent_bind; [apply silent_lift|]. intros x. apply silent_bind; [apply silent_lift|]. intros y. apply silent_call. intros b. apply silent_ret.
Qed.

Lemma silent_initial heapify k : forall items draws, silent f (initial_prog set_order neg V heapify draws k items).
Proof.
  induction items as [|i items IH]; intros draws; [apply silent_ret|]. cbn [initial_prog]. apply silent_bind; [apply silent_lift|]. intros [S d].
  apply silent_bind; [apply silent_pmap; intros j; apply silent_bind; [apply silent_ask|intros s; apply silent_ret]|]. intros nb.
  apply silent_bind; [apply IH|]. intros B. apply silent_ret.
Qed.

Lemma silent_descend heapreplace : forall fuel B, silent f (descend_prog set_order neg V heapreplace fuel B).
Proof.
  induction fuel as [|fuel IH]; intros B; [apply silent_raise|]. cbn [descend_prog]. apply silent_bind.
  - unfold turn_prog. apply silent_bind; [|intros hcs; apply silent_ret]. apply silent_pmap. intros [i h]. apply silent_for_each. intros hc m.
    apply silent_for_each. intros [h' c] j. unfold measure_prog. destruct (Nat.eqb i j); [apply silent_ret|]. apply silent_bind; [apply silent_ask|].
    intros s. destruct h' as [|[worst j'] h']; [apply silent_raise|]. destruct (Qle_bool s worst); apply silent_ret.
  - intros [B' c]. destruct (Nat.eqb c 0); [apply silent_ret|apply IH].
Qed.

Lemma silent_initial_full heapify k : forall items draws, silent f (initial_full_prog set_order neg V heapify draws k items).
Proof.
  induction items as [|i items IH]; intros draws; [apply silent_ret|]. cbn [initial_full_prog]. apply silent_bind; [apply silent_lift|]. intros [S d].
  apply silent_bind; [apply silent_pmap; intros j; apply silent_bind; [apply silent_ask|intros s; apply silent_ret]|]. intros nb.
  apply silent_bind; [apply IH|]. intros B. apply silent_ret.
Qed.

Lemma silent_measure_full heapreplace u1 Bc u2 : silent f (measure_full_prog neg V heapreplace u1 Bc u2).
Proof. unfold measure_full_prog. apply silent_bind; [apply silent_ask|]. intros s. apply silent_lift. Qed.

Lemma silent_descend_full heapreplace later rhoK threshold : forall fuel t c B, silent f (descend_full_prog set_order neg V heapreplace later fuel t rhoK threshold c B).
Proof.
  induction fuel as [|fuel IH]; intros t c B; [apply silent_raise|]. cbn [descend_full_prog]. destruct (Qle_bool threshold _); [|apply silent_ret]. apply silent_bind.
  - unfold turn_full_prog. apply silent_bind; [apply silent_lift|]. intros [[[B' old] new] t']. apply silent_for_each. intros [[B'' c'] t''] i.
    unfold join_full_prog. do 2 (apply silent_bind; [apply silent_lift|]; intros ?). do 2 (apply silent_bind; [apply silent_lift|]; intros [? ?]).
    apply silent_bind; [|intros Bc; apply silent_ret]. apply silent_for_each. intros Bc u1. apply silent_bind.
    + apply silent_for_each. intros Bc' u2. destruct (Nat.leb u2 u1); [apply silent_ret|apply silent_measure_full].
    + intros Bc'. apply silent_for_each. intros Bc'' u2. destruct (Nat.eqb u1 u2); [apply silent_ret|apply silent_measure_full].
  - intros [[B' c'] t']. apply IH.
Qed.
End SilentNN.

Section Same.
Context {A : Type}.
Variable set_order : list nat -> list nat.
Variable V : list A.
Variable g : A * A -> Q.
Notation run g := (run (pure g) tt).

Lemma run_silent {R} (p : prog (A * A) Q (list A) R) : silent (pure g) p -> exists calls, run g p = (map Asked calls, tt, result g p).
Proof. intros H. destruct (H tt) as [calls E]. unfold result. destruct (run g p) as [[t []] o]. cbn in *. exists calls. congruence. Qed.

Lemma run_clusters links lo hi mode :
  run g (clusters_of set_order V links lo hi mode) =
  match (let! clusters := clusters_from_pairs set_order links lo hi mode true in mapM (mapM (index V)) clusters) with
  | Ok out => (map Gave out, tt, Ok tt)
  | Err e => ([], tt, Err e)
  end.
Proof.
  unfold clusters_of. rewrite run_bind, run_lift. destruct (clusters_from_pairs set_order links lo hi mode true) as [clusters|e]; [|reflexivity]. cbn [then_ bind].
  rewrite run_bind, run_lift. destruct (mapM (mapM (index V)) clusters) as [out|e]; [|reflexivity]. cbn [then_ app]. rewrite run_yields. reflexivity.
Qed.

Definition agrees (happened : list (event (A * A) (list A)) * unit * res unit) (r : res (list (list A))) : Prop :=
  exists calls, happened = match r with
                           | Ok out => (map Asked calls ++ map Gave out, tt, Ok tt)
                           | Err e => (map Asked calls, tt, Err e)
                           end.

Lemma nn_agrees neg heapify heapreplace fuel draws k radius lo hi mode :
  agrees (run g (nn_prog set_order neg V heapify heapreplace fuel draws k radius lo hi mode))
    (nn_descent_with set_order heapify heapreplace (sim neg g) V fuel draws k (if neg then - radius else radius)%Q lo hi mode).
Proof.
  unfold nn_prog, nn_descent_with, nn_descent_graph. rewrite run_bind, run_lift. change (match k with Some k => _ | None => _ end) with (choose_k V k).
  destruct (choose_k V k) as [k'|e]; [|exists []; reflexivity]. cbn [then_ bind app]. rewrite run_bind.
  destruct (run_silent _ (silent_initial set_order neg V (pure g) heapify k' (seq 0 (length V)) draws)) as [calls1 ->]. rewrite result_initial.
  destruct (initial_loop _ _ _ _ draws k' _) as [B|e]; [|exists calls1; reflexivity]. cbn [then_ bind]. rewrite run_bind.
  destruct (run_silent _ (silent_descend set_order neg V (pure g) heapreplace fuel B)) as [calls2 ->]. rewrite result_descend.
  destruct (descend _ _ _ _ fuel B) as [B'|e]; [|exists (calls1 ++ calls2); rewrite map_app; reflexivity]. cbn [then_ bind]. rewrite run_clusters.
  destruct (let! clusters := _ in _) as [out|e]; exists (calls1 ++ calls2); rewrite map_app, ?app_nil_r, ?app_assoc; reflexivity.
Qed.

Lemma full_agrees neg heapify heapreplace later fuel draws k radius rho delta lo hi mode :
  agrees (run g (nn_full_prog set_order neg V heapify heapreplace later fuel draws k radius rho delta lo hi mode))
    (nn_descent_full_with set_order heapify heapreplace (sim neg g) V later fuel draws k (if neg then - radius else radius)%Q rho delta lo hi mode).
Proof.
  unfold nn_full_prog, nn_descent_full_with. rewrite run_bind, run_lift. change (match k with Some k => _ | None => _ end) with (choose_k V k).
  destruct (choose_k V k) as [k'|e]; [|exists []; reflexivity]. cbn [then_ bind app]. rewrite run_bind.
  destruct (run_silent _ (silent_initial_full set_order neg V (pure g) heapify k' (seq 0 (length V)) draws)) as [calls1 ->]. rewrite result_initial_full.
  destruct (initial_full _ _ _ _ draws k' _) as [B|e]; [|exists calls1; reflexivity]. cbn [then_ bind]. rewrite run_bind.
  match goal with |- context [descend_full_prog _ _ _ _ _ ?fu ?t ?r ?th ?c ?b] =>
    destruct (run_silent _ (silent_descend_full set_order neg V (pure g) heapreplace later r th fu t c b)) as [calls2 ->] end.
  rewrite result_descend_full.
  destruct (descend_full _ _ _ _ _ fuel _ _ _ _ B) as [B'|e]; [|exists (calls1 ++ calls2); rewrite map_app; reflexivity]. cbn [then_ bind]. rewrite run_clusters.
  destruct (let! clusters := _ in _) as [out|e]; exists (calls1 ++ calls2); rewrite map_app, ?app_nil_r, ?app_assoc; reflexivity.
Qed.
End Same.
