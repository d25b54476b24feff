(** Proofs about nn_descent and nn_descent_full without a similarity nor a distance. *)
From Coq Require Import QArith Qround String Permutation Lia.
From Verif Require Import Base BaseFacts ClustersModel PairwiseModel PairwiseProofs LevModel GraphModel NNDescentModel NNDescentSpec NNDescentProofs CallsModel CallsSpec CallsProofs
  NNCallsModel NNCallsSpec NNCallsProofs NNCallsEndProofs NNCallsCountProofs NNCallsFullProofs.
Open Scope nat_scope.
Open Scope list_scope.
Notation length := List.length.

(** a program that made no call with one function makes none with any other *)
Lemma no_call {Q B C R W} (g : Q -> B) (f : @user Q B W) (p : prog Q B C R) : forall w t o,
  run (pure g) tt p = (t, tt, o) -> asked t = [] -> run f w p = (t, w, o).
Proof.
  induction p as [r|e|q k IH|c p IH]; intros w t o E N; cbn [run] in *.
  - injection E as <- <-. reflexivity.
  - injection E as <- <-. reflexivity.
  - change (pure g tt q) with (tt, Ok (g q)) in E. cbv iota in E. destruct (run (pure g) tt (k (g q))) as [[t' w'] o']. injection E as <- _ <-. discriminate N.
  - destruct (run (pure g) tt p) as [[t' []] o'] eqn:E'. injection E as <- <-. cbn in N. rewrite (IH w t' o' eq_refl N). reflexivity.
Qed.

Section None.
Context {A : Type}.
Variable set_order : list nat -> list nat.
Hypothesis set_order_perm : forall l, Permutation (set_order l) l.
Variable V : list A.
(** calling None *)
Definition none : @user (A * A) Q unit := fun w _ => (w, Err TypeError).

Lemma set_order_nil : set_order [] = [].
Proof. apply Permutation_nil. symmetry. apply set_order_perm. Qed.

(** the first call *)
Lemma first_none {Y} i sampled (h : nat -> Q -> Y) : i < length V -> (forall j, In j sampled -> j < length V) -> sampled <> [] ->
  exists q, run none tt (pmap (C := list A) (set_order sampled) (fun j => do s <- ask_at false V i j; Ret (h j s))) = ([Asked q], tt, Err TypeError).
Proof.
  intros Hi Hj Hne. destruct (set_order sampled) as [|j l] eqn:E.
  - exfalso. apply Hne. apply Permutation_nil. rewrite <- E. apply set_order_perm.
  - assert (Lj : j < length V). { apply Hj. eapply Permutation_in; [apply set_order_perm|]. rewrite E. left. reflexivity. }
    cbn [pmap]. unfold ask_at, index. destruct (nth_error V i) as [x|] eqn:Ex; [|apply nth_error_None in Ex; lia].
    destruct (nth_error V j) as [y|] eqn:Ey; [|apply nth_error_None in Ey; lia]. exists (x, y). reflexivity.
Qed.

Section Simple.
Variable heapify : list entry -> list entry.
Hypothesis heapify_perm : forall l, Permutation (heapify l) l.
Variable heapreplace : list entry -> entry -> list entry.

Lemma initial_0 draws items : initial_prog set_order false V heapify draws 0 items = Ret (map (fun _ => []) items).
Proof.
  induction items as [|i items IH]; [reflexivity|]. cbn [initial_prog].
  replace (sample_loop draws 0 i []) with (Ok ([] : list nat, draws)) by (destruct draws; reflexivity). cbn [lift pbind]. rewrite set_order_nil.
  cbn [pmap pbind]. rewrite IH. cbn [pbind map]. rewrite (Permutation_nil (Permutation_sym (heapify_perm []))). reflexivity.
Qed.

Lemma enumerate_empty {X Y} (l : list X) i h : In (i, h) (enumerate (map (fun _ => [] : list Y) l)) -> h = [].
Proof. rewrite In_enumerate. intros E. apply nth_error_In, in_map_iff in E as (x & <- & _). reflexivity. Qed.

Lemma enumerate_snd {X} (l : list X) : map snd (enumerate l) = l.
Proof.
  unfold enumerate. generalize 0. induction l as [|x l IH]; intros n; [reflexivity|]. cbn [length seq combine map snd]. f_equal. apply IH.
Qed.

Lemma flat_map_nil {X Y} (h : X -> list Y) l : (forall x, In x l -> h x = []) -> flat_map h l = [].
Proof. induction l as [|x l IH]; intros E; [reflexivity|]. cbn. rewrite E by (left; reflexivity). apply IH. intros y Hy. apply E. right. exact Hy. Qed.

Lemma candidates_0 {X} (items : list X) i : candidates set_order (map (fun _ => []) items) i = [].
Proof.
  unfold candidates, reverse. rewrite flat_map_nil by (intros [j h] Hp; apply enumerate_empty in Hp; rewrite Hp; reflexivity).
  replace (nth i (map (fun _ => [] : list entry) items) []) with ([] : list entry); [exact set_order_nil|].
  destruct (nth_in_or_default i (map (fun _ => [] : list entry) items) []) as [Hi|Hi]; [apply in_map_iff in Hi as (x & Hi & _); exact Hi|symmetry; exact Hi].
Qed.

Lemma pmap_ret {Q B C X Y} (l : list X) (h : X -> prog Q B C Y) (h' : X -> Y) : (forall x, In x l -> h x = Ret (h' x)) -> pmap l h = Ret (map h' l).
Proof.
  induction l as [|x l IH]; intros E; [reflexivity|]. cbn [pmap]. rewrite E by (left; reflexivity). cbn [pbind]. rewrite IH by (intros y Hy; apply E; right; exact Hy). reflexivity.
Qed.

Lemma turn_0 {X} (items : list X) : turn_prog set_order false V heapreplace (map (fun _ => []) items) = Ret (map (fun _ => []) items, 0).
Proof.
  unfold turn_prog. rewrite (pmap_ret _ _ (fun ih => (snd ih, 0))).
  - cbn [pbind]. rewrite !map_map. cbn [fst snd]. rewrite list_sum_zero by reflexivity. rewrite enumerate_snd. reflexivity.
  - intros [i h] Hp. apply enumerate_empty in Hp. rewrite Hp. unfold improve_prog.
    replace (nth i _ []) with ([] : list nat); [reflexivity|].
    destruct (nth_in_or_default i (map (candidates set_order (map (fun _ => []) items)) (seq 0 (length V))) []) as [Hi|Hi]; [|symmetry; exact Hi].
    apply in_map_iff in Hi as (j & Hi & _). rewrite candidates_0 in Hi. exact Hi.
Qed.

Lemma quiet_clusters links lo hi mode t o : run (pure (fun _ => 0%Q)) tt (clusters_of set_order V links lo hi mode) = (t, tt, o) -> asked t = [].
Proof.
  intros E. destruct (most_clusters set_order V (pure (fun _ => 0%Q)) (fun t => t) links lo hi mode tt) as [P _]. rewrite E in P. cbn [fst] in P. destruct (asked t); [reflexivity|cbn [length] in P; lia].
Qed.

(** no item or no neighbor to look for *)
Lemma quiet_nn fuel draws k k' radius lo hi mode t o : choose_k V k = Ok k' -> length V * k' = 0 ->
  run (pure (fun _ => 0%Q)) tt (nn_prog set_order false V heapify heapreplace fuel draws k radius lo hi mode) = (t, tt, o) -> asked t = [].
Proof.
  intros Ek Z. unfold nn_prog. rewrite Ek. cbn [lift pbind].
  assert (E : initial_prog set_order false V heapify draws k' (seq 0 (length V)) = Ret (map (fun _ => []) (seq 0 (length V)))).
  { destruct (Nat.eq_dec k' 0) as [->|Hk]; [apply initial_0|]. assert (length V = 0) as -> by nia. reflexivity. }
  rewrite E. cbn [pbind]. destruct fuel as [|fuel]; cbn [descend_prog].
  - cbn [pbind run]. intros X. injection X as <- _. reflexivity.
  - rewrite turn_0. cbn [pbind Nat.eqb]. apply quiet_clusters.
Qed.

Lemma none_nn fuel draws k radius lo hi mode : (forall r, In r draws -> r < length V) ->
  exists calls, length calls <= 1 /\ run none tt (nn_prog set_order false V heapify heapreplace fuel draws k radius lo hi mode) =
    match nn_descent set_order heapify heapreplace None None V fuel draws k radius lo hi mode with
    | Ok out => (map Gave out, tt, Ok tt)
    | Err e => (map Asked calls, tt, Err e)
    end.
Proof.
  intros D. unfold nn_descent, call_none. change (match k with Some k => Ok k | None => _ end) with (choose_k V k).
  destruct (choose_k V k) as [k'|e] eqn:Ek; cbn [bind]; [|exists []; split; [cbn; lia|]; unfold nn_prog; rewrite Ek; reflexivity].
  destruct (Nat.eqb_spec (length V * k') 0) as [Z|Z].
  - exists []. split; [cbn; lia|].
    destruct (nn_agrees set_order V (fun _ => 0%Q) false heapify heapreplace fuel draws k radius lo hi mode) as [calls E].
    pose proof (fun t o => quiet_nn fuel draws k k' radius lo hi mode t o Ek Z) as K.
    change (sim false (fun _ : A * A => 0%Q)) with (fun _ _ : A => 0%Q) in E. cbv iota in E.
    destruct (nn_descent_with _ _ _ _ _ _ _ _ _ _ _ _) as [out|e].
    + specialize (K _ _ E). assert (calls = []) as -> by (rewrite asked_silent in K; exact K). apply (no_call _ none _ tt) in E; [exact E|exact K].
    + specialize (K _ _ E). assert (calls = []) as ->. { pose proof (asked_silent calls (@nil (list A))) as S. cbn [map] in S. rewrite app_nil_r in S. rewrite S in K. exact K. }
      apply (no_call _ none _ tt) in E; [exact E|reflexivity].
  - unfold nn_prog. rewrite Ek. cbn [lift pbind]. destruct V as [|x V'] eqn:EV; [contradiction Z; reflexivity|]. rewrite <- EV in *.
    assert (Ls : seq 0 (length V) = 0 :: seq 1 (length V')) by (rewrite EV; reflexivity). rewrite Ls. cbn [initial_prog].
    destruct (sample_loop draws k' 0 []) as [[sampled draws']|e] eqn:Es; cbn [lift pbind bind]; [|exists []; split; [cbn; lia|reflexivity]].
    destruct (sample_ok k' 0 draws [] sampled draws') as (_ & _ & Ln & Hin & _); [constructor|intros []|cbn; lia|exact Es|].
    destruct (first_none 0 sampled (fun j s => (s, j))) as [q E].
    + rewrite EV. cbn. lia.
    + intros j Hj. destruct (Hin j Hj) as [[]|Hd]. apply D. exact Hd.
    + intros ->. cbn in Ln. subst k'. lia.
    + exists [q]. split; [cbn; lia|]. rewrite !run_bind. rewrite E. reflexivity.
Qed.
End Simple.

Section Full.
Variable heapify : list entry_full -> list entry_full.
Hypothesis heapify_perm : forall l, Permutation (heapify l) l.
Variable heapreplace : list entry_full -> entry_full -> list entry_full.
Hypothesis heapreplace_perm : forall e h x, Permutation (heapreplace (e :: h) x) (x :: h).
Variable later : nat -> nat.

Lemma quiet_descend fuel rhoK threshold : V = [] -> forall t c, exists o,
  run (pure (fun _ => 0%Q)) tt (descend_full_prog set_order false V heapreplace later fuel t rhoK threshold c []) = ([], tt, o).
Proof.
  intros EV. induction fuel as [|fuel IH]; intros t c; cbn [descend_full_prog]; [eexists; reflexivity|]. destruct (Qle_bool threshold _); [|eexists; reflexivity].
  unfold turn_full_prog. rewrite EV. cbn [samplings lift pbind length seq for_each]. rewrite <- EV. apply IH.
Qed.

Lemma quiet_full fuel draws k k' radius rho delta lo hi mode t o : (forall r, In r draws -> r < length V) -> choose_k V k = Ok k' -> length V * k' = 0 ->
  run (pure (fun _ => 0%Q)) tt (nn_full_prog set_order false V heapify heapreplace later fuel draws k radius rho delta lo hi mode) = (t, tt, o) -> asked t = [].
Proof.
  intros D Ek Z X. destruct (Nat.eq_dec k' 0) as [Hk|Hk].
  - assert (Ek' : k' = match k with Some k => k | None => Nat.log2 (length V) end).
    { unfold choose_k in Ek. destruct k; [congruence|]. destruct V; [discriminate|]. congruence. }
    destruct (most_full set_order set_order_perm false V (pure (fun _ => 0%Q)) heapify heapify_perm heapreplace heapreplace_perm later fuel draws k radius rho delta lo hi mode 0 D) with (w := tt) as [P _].
    { rewrite <- Ek', Hk. change (inject_Z (Z.of_nat 0)) with 0%Q. rewrite (NNDescentFullProofs.towards_zero_comp _ 0 (Qmult_0_r rho)). reflexivity. }
    rewrite X in P. cbn [fst] in P. rewrite <- Ek', Hk in P. unfold per_item in P. assert (length (asked t) = 0) by lia. destruct (asked t); [reflexivity|discriminate].
  - assert (EV : V = []) by (destruct V; [reflexivity|cbn in Z; lia]). revert X. unfold nn_full_prog. rewrite Ek. cbn [lift pbind].
    replace (seq 0 (length V)) with (@nil nat) by (rewrite EV; reflexivity). cbn [initial_full_prog pbind]. rewrite run_bind.
    destruct (quiet_descend fuel (towards_zero (rho * inject_Z (Z.of_nat k'))) (delta * inject_Z (Z.of_nat (length V * k'))) EV 0 (length V * k')) as [o' ->].
    destruct o' as [B|e]; cbn [then_].
    + intros X. destruct (run _ _ (clusters_of _ _ _ _ _ _)) as [[t' []] o'] eqn:E. apply quiet_clusters in E. cbn in X. injection X as <- _. exact E.
    + intros X. injection X as <- _. reflexivity.
Qed.

Lemma none_full fuel draws k radius rho delta lo hi mode : (forall r, In r draws -> r < length V) ->
  exists calls, length calls <= 1 /\ run none tt (nn_full_prog set_order false V heapify heapreplace later fuel draws k radius rho delta lo hi mode) =
    match nn_descent_full set_order heapify heapreplace None None V fuel draws later k radius rho delta lo hi mode with
    | Ok out => (map Gave out, tt, Ok tt)
    | Err e => (map Asked calls, tt, Err e)
    end.
Proof.
  intros D. unfold nn_descent_full, call_none. change (match k with Some k => Ok k | None => match V with [] => _ | _ => _ end end) with (choose_k V k).
  destruct (choose_k V k) as [k'|e] eqn:Ek; cbn [bind]; [|exists []; split; [cbn; lia|]; unfold nn_full_prog; rewrite Ek; reflexivity].
  destruct (Nat.eqb_spec (length V * k') 0) as [Z|Z].
  - exists []. split; [cbn; lia|].
    destruct (full_agrees set_order V (fun _ => 0%Q) false heapify heapreplace later fuel draws k radius rho delta lo hi mode) as [calls E].
    pose proof (fun t o => quiet_full fuel draws k k' radius rho delta lo hi mode t o D Ek Z) as K.
    change (sim false (fun _ : A * A => 0%Q)) with (fun _ _ : A => 0%Q) in E. cbv iota in E.
    destruct (nn_descent_full_with _ _ _ _ _ _ _ _ _ _ _ _ _ _ _) as [out|e].
    + specialize (K _ _ E). assert (calls = []) as -> by (rewrite asked_silent in K; exact K). apply (no_call _ none _ tt) in E; [exact E|exact K].
    + specialize (K _ _ E). assert (calls = []) as ->. { pose proof (asked_silent calls (@nil (list A))) as S. cbn [map] in S. rewrite app_nil_r in S. rewrite S in K. exact K. }
      apply (no_call _ none _ tt) in E; [exact E|reflexivity].
  - unfold nn_full_prog. rewrite Ek. cbn [lift pbind]. destruct V as [|x V'] eqn:EV; [contradiction Z; reflexivity|]. rewrite <- EV in *.
    assert (Ls : seq 0 (length V) = 0 :: seq 1 (length V')) by (rewrite EV; reflexivity). rewrite Ls. cbn [initial_full_prog].
    destruct (sample_loop draws k' 0 []) as [[sampled draws']|e] eqn:Es; cbn [lift pbind bind]; [|exists []; split; [cbn; lia|reflexivity]].
    destruct (sample_ok k' 0 draws [] sampled draws') as (_ & _ & Ln & Hin & _); [constructor|intros []|cbn; lia|exact Es|].
    destruct (first_none 0 sampled (fun j s => (s, (j, true)))) as [q E].
    + rewrite EV. cbn. lia.
    + intros j Hj. destruct (Hin j Hj) as [[]|Hd]. apply D. exact Hd.
    + intros ->. cbn in Ln. subst k'. lia.
    + exists [q]. split; [cbn; lia|]. rewrite !run_bind. rewrite E. reflexivity.
Qed.
End Full.
End None.

Section Results.
Context {A : Type}.
Variable set_order : list nat -> list nat.
Hypothesis set_order_perm : forall l, Permutation (set_order l) l.
Variable heapify : list entry -> list entry.
Hypothesis heapify_perm : forall l, Permutation (heapify l) l.
Variable heapreplace : list entry -> entry -> list entry.

Lemma links_0 {X} radius (items : list X) : links radius (map (fun _ => []) items) = [].
Proof. unfold links. apply flat_map_nil. intros [i h] Hp. apply enumerate_empty in Hp. rewrite Hp. reflexivity. Qed.

Lemma none_nothing (V : list A) fuel draws k k' radius lo hi : (forall r, In r draws -> r < length V) -> choose_k V k = Ok k' -> length V * k' = 0 ->
  nn_descent set_order heapify heapreplace None None V (S fuel) draws k radius lo hi "connected_components" = Ok [].
Proof.
  intros D Ek Z. destruct (none_nn set_order set_order_perm V heapify heapify_perm heapreplace (S fuel) draws k radius lo hi "connected_components" D) as (calls & _ & E).
  unfold nn_prog in E. rewrite Ek in E. cbn [lift pbind] in E.
  assert (E' : initial_prog set_order false V heapify draws k' (seq 0 (length V)) = Ret (map (fun _ => []) (seq 0 (length V)))).
  { destruct (Nat.eq_dec k' 0) as [->|Hk]; [apply initial_0; assumption|]. assert (length V = 0) as -> by nia. reflexivity. }
  rewrite E' in E. cbn [pbind descend_prog] in E. rewrite turn_0 in E by assumption. cbn [pbind Nat.eqb] in E. rewrite links_0 in E.
  destruct (nn_descent _ _ _ _ _ _ _ _ _ _ _ _ _) as [out|e]; [|discriminate E]. destruct out; [reflexivity|discriminate E].
Qed.
End Results.
