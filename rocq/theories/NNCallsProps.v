(** The calls of the similarity, or of the distance, by nn_descent and nn_descent_full: C188 to C193. *)
From Coq Require Import QArith Qround String Permutation Lia.
From Verif Require Import Base BaseFacts ClustersModel PairwiseModel LevModel GraphModel NNDescentModel NNDescentSpec NNDescentLocalSpec
  NNDescentProofs CallsModel CallsSpec CallsProofs BlockingSpec NNCallsModel NNCallsSpec NNCallsProofs NNCallsEndProofs NNCallsCountProofs
  NNCallsFullProofs NNCallsEndlessProofs.
Open Scope nat_scope.
Open Scope string_scope.
Open Scope list_scope.
Notation length := List.length.
Notation concat := List.concat.

(** C188: with a function that always gives the same answers, the programs do what the models of nn_descent do: all the calls, then the clusters,
    and nothing is yielded when they fail *)
Theorem C188_similarity {A} set_order heapify heapreplace (s : A -> A -> Q) other V fuel draws k radius lo hi mode :
  exists calls, run (pure (fun q => s (fst q) (snd q))) tt (nn_prog set_order false V heapify heapreplace fuel draws k radius lo hi mode) =
    match nn_descent set_order heapify heapreplace (Some s) None V fuel draws k radius lo hi mode with
    | Ok out => (map Asked calls ++ map Gave out, tt, Ok tt)
    | Err e => (map Asked calls, tt, Err e)
    end /\
  exists calls', run (pure (fun q => s (fst q) (snd q))) tt (nn_prog set_order true V heapify heapreplace fuel draws k radius lo hi mode) =
    match nn_descent set_order heapify heapreplace other (Some s) V fuel draws k radius lo hi mode with
    | Ok out => (map Asked calls' ++ map Gave out, tt, Ok tt)
    | Err e => (map Asked calls', tt, Err e)
    end.
Proof.
  destruct (nn_agrees set_order V (fun q => s (fst q) (snd q)) false heapify heapreplace fuel draws k radius lo hi mode) as [c E].
  destruct (nn_agrees set_order V (fun q => s (fst q) (snd q)) true heapify heapreplace fuel draws k radius lo hi mode) as [c' E'].
  exists c. split; [exact E|]. exists c'. exact E'.
Qed.
Print Assumptions C188_similarity.

Theorem C188_full {A} set_order heapify heapreplace (s : A -> A -> Q) other V later fuel draws k radius rho delta lo hi mode :
  exists calls, run (pure (fun q => s (fst q) (snd q))) tt (nn_full_prog set_order false V heapify heapreplace later fuel draws k radius rho delta lo hi mode) =
    match nn_descent_full set_order heapify heapreplace (Some s) None V fuel draws later k radius rho delta lo hi mode with
    | Ok out => (map Asked calls ++ map Gave out, tt, Ok tt)
    | Err e => (map Asked calls, tt, Err e)
    end /\
  exists calls', run (pure (fun q => s (fst q) (snd q))) tt (nn_full_prog set_order true V heapify heapreplace later fuel draws k radius rho delta lo hi mode) =
    match nn_descent_full set_order heapify heapreplace other (Some s) V fuel draws later k radius rho delta lo hi mode with
    | Ok out => (map Asked calls' ++ map Gave out, tt, Ok tt)
    | Err e => (map Asked calls', tt, Err e)
    end.
Proof.
  destruct (full_agrees set_order V (fun q => s (fst q) (snd q)) false heapify heapreplace later fuel draws k radius rho delta lo hi mode) as [c E].
  destruct (full_agrees set_order V (fun q => s (fst q) (snd q)) true heapify heapreplace later fuel draws k radius rho delta lo hi mode) as [c' E'].
  exists c. split; [exact E|]. exists c'. exact E'.
Qed.
Print Assumptions C188_full.

Section Calls.
Context {A W : Type}.
Variable set_order : list nat -> list nat.
Hypothesis set_order_perm : forall l, Permutation (set_order l) l.
Variable heapify : list entry -> list entry.
Hypothesis heapify_perm : forall l, Permutation (heapify l) l.
Variable heapreplace : list entry -> entry -> list entry.
Hypothesis heapreplace_perm : forall e h x, Permutation (heapreplace (e :: h) x) (x :: h).
Variable V : list A.
Variable neg : bool.
(** any function of the user *)
Variable f : @user (A * A) Q W.
Notation n := (length V).

(** C189: one turn compares the ends of the paths of two steps in the lists it starts with, as many times as there are paths; the answers
    do not change what is compared during the turn *)
Theorem C189_turn k B w : shaped n k B ->
  exists cells, round_cells n B cells /\
    asks f w (at_cells V cells) (fun Bc => shaped n k (fst Bc)) (run f w (turn_prog set_order neg V heapreplace B)).
Proof. apply turn_any; assumption. Qed.

(** C189: the samples are compared first, in the order they come *)
Theorem C189_first k samples w : Forall2 (fun i S => NoDup S /\ length S = k /\ forall j, In j S -> j < n /\ i <> j) (seq 0 n) samples ->
  asks f w (at_cells V (flat_map (fun iS => map (pair (fst iS)) (snd iS)) (combine (seq 0 n) (map set_order samples))))
    (Forall2 (fun S h => Permutation (map snd h) S) samples)
    (run f w (initial_prog set_order neg V heapify (concat samples) k (seq 0 n))).
Proof.
  intros F. apply (plan_initial set_order set_order_perm neg V f heapify heapify_perm k); [exact F|]. intros i Hi. apply in_seq in Hi. lia.
Qed.

(** C189: all the calls of nn_descent, when it ends: those of the samples, then those of the turns.  Two different positions each time, and all the
    calls come before the first cluster. *)
Theorem C189_calls fuel draws k radius lo hi mode w t w' o : (forall r, In r draws -> r < n) ->
  run f w (nn_prog set_order neg V heapify heapreplace fuel draws k radius lo hi mode) = (t, w', o) ->
  exists calls out, t = map Asked calls ++ map Gave out /\ Forall (of_others V) calls /\
    match o with
    | Ok _ => exists first B Bs rounds, let k := match k with Some k => k | None => Nat.log2 n end in
        first_cells n k first /\ (forall i j, (exists s, In (s, j) (nth i B [])) <-> In (i, j) first) /\
        Forall (shaped n k) (B :: Bs) /\ Forall2 (round_cells n) (B :: Bs) rounds /\ calls = at_cells V (first ++ concat rounds)
    | Err e => out = []
    end.
Proof. intros D E. eapply nn_any; eassumption. Qed.

(** C190: at least n * k * k calls, and at most n * (n - 1) * (n - 2) for each turn *)
Theorem C190_bounds fuel draws k radius lo hi mode w t w' : (forall r, In r draws -> r < n) ->
  run f w (nn_prog set_order neg V heapify heapreplace fuel draws k radius lo hi mode) = (t, w', Ok tt) ->
  let k := match k with Some k => k | None => Nat.log2 n end in
  n * (k * k) <= length (asked t) /\ exists turns, 1 <= turns /\ length (asked t) <= n * k + turns * (n * ((n - 1) * (n - 2))).
Proof.
  intros D E k'. destruct (nn_any set_order set_order_perm neg V f heapify heapify_perm heapreplace heapreplace_perm _ _ _ _ _ _ _ _ _ _ _ D E)
    as (calls & out & -> & _ & H). rewrite asked_silent. split; [apply nn_lower; exact H|apply nn_upper; exact H].
Qed.
End Calls.
Print Assumptions C189_turn.
Print Assumptions C189_first.
Print Assumptions C189_calls.
Print Assumptions C190_bounds.

(** C191: the file says that the time is subquadratic.  With the default number of neighbors, whatever the similarity and the data, and for
    some draws, the number of calls is more than any multiple of the square of the number of items. *)
Theorem C191_refuted {A} set_order heapify heapreplace is_heap (g : A * A -> Q) :
  (forall l, Permutation (set_order l) l) -> heap_module is_heap heapify heapreplace ->
  forall m V, length V = 2 ^ (m + 3) ->
  exists fuel draws t, (forall r, In r draws -> r < length V) /\
    run (pure g) tt (nn_prog set_order false V heapify heapreplace fuel draws None 0 2 None "connected_components") = (t, tt, Ok tt) /\
    m * (length V * length V) < length (asked t).
Proof.
  intros So Hm m V L. assert (P : m + 3 < 2 ^ (m + 3)) by (apply Nat.pow_gt_lin_r; lia).
  destruct (hub_run set_order heapify heapreplace is_heap V false g (S (length V * (Nat.log2 (length V) * length V))) 0 2 None So Hm) as (t & E & Ht).
  - intros ->. cbn in L. lia.
  - lia.
  - exists (S (length V * (Nat.log2 (length V) * length V))), (concat (map (hubs (Nat.log2 (length V))) (seq 0 (length V)))), t. split; [|split; [exact E|]].
    + intros r Hr. apply in_concat in Hr as (S & HS & Hr). apply in_map_iff in HS as (i & <- & _).
      destruct (hubs_sample V (Nat.log2 (length V)) i) as (_ & _ & H); [apply Nat.log2_lt_lin; lia|]. apply H. exact Hr.
    + eapply Nat.lt_le_trans; [|exact Ht]. rewrite L. rewrite Nat.log2_pow2 by lia. clear -P. set (n := 2 ^ (m + 3)) in *. clearbody n.
      destruct n as [|[|n]]; [lia|lia|]. cbn [Nat.sub]. rewrite ?Nat.sub_0_r. nia.
Qed.
Print Assumptions C191_refuted.

(** C192: each turn of nn_descent_full makes a number of calls that is linear in the number of items, the number of neighbors and the sample
    rate being given *)
Theorem C192_turns {A W} set_order (neg : bool) (V : list A) (f : @user (A * A) Q W) heapify heapreplace later fuel draws k radius rho delta lo hi mode w t w' o :
  (forall l, Permutation (set_order l) l) -> (forall l, Permutation (heapify l) l) ->
  (forall e h x, Permutation (heapreplace (e :: h) x) (x :: h)) -> (forall r, In r draws -> r < length V) -> (0 <= rho)%Q ->
  run f w (nn_full_prog set_order neg V heapify heapreplace later fuel draws k radius rho delta lo hi mode) = (t, w', o) ->
  let k := match k with Some k => k | None => Nat.log2 (length V) end in
  let r := Z.to_nat (Qfloor (rho * inject_Z (Z.of_nat k))) in
  length (asked t) <= length V * k + fuel * (length V * (r * (2 * r - 1) + 2 * r * (k + r))).
Proof.
  intros H1 H2 H3 D Hrho E k' r.
  assert (K : (0 <= rho * inject_Z (Z.of_nat k'))%Q) by (apply Qmult_le_0_compat; [exact Hrho|]; change 0%Q with (inject_Z 0); rewrite <- Zle_Qle; lia).
  assert (R : towards_zero (rho * inject_Z (Z.of_nat k')) = Z.of_nat r).
  { unfold towards_zero. pose proof (proj2 (Qle_bool_iff _ _) K) as ->. unfold r. apply Qfloor_resp_le in K. change (Qfloor 0) with 0%Z in K. lia. }
  pose proof (most_full set_order H1 neg V f heapify H2 heapreplace H3 later fuel draws k radius rho delta lo hi mode r D R w) as [P _].
  rewrite E in P. exact P.
Qed.
Print Assumptions C192_turns.

(** C193: with a similarity that changes with time, nn_descent may never end *)
Theorem C193_refuted : exists (f : @user (nat * nat) Q nat) w V draws k, k < length V /\ (forall r, In r draws -> r < length V) /\
  (exists is_heap, heap_module is_heap (@sort_entries nat) replace_least) /\
  (forall w q, exists w' s, f w q = (w', Ok s)) /\
  forall fuel radius lo hi mode, exists t w',
    run f w (nn_prog (fun l => l) false V sort_entries replace_least fuel draws (Some k) radius lo hi mode) = (t, w', Err OutOfFuel).
Proof.
  exists clock, 0, [0; 1; 2], [1; 2; 0], 1. split; [cbn; lia|]. split; [intros r Hr; cbn in Hr |- *; lia|]. split; [eexists; exact sorted_heaps|].
  split; [intros w q; eexists; eexists; reflexivity|]. intros fuel radius lo hi mode. apply clock_nn.
Qed.
Print Assumptions C193_refuted.

(** the calls of a small run: the samples, then one turn that compares the ends of the paths through position 1 *)
Example C189_example :
  asked (fst (fst (run (pure (fun _ => 1%Q)) tt
    (nn_prog (fun l => l) false [10; 11; 12] sort_entries replace_least 5 [1; 0; 1] (Some 1) 1 2 None "connected_components")))) =
  [(10, 11); (11, 10); (12, 11); (10, 12); (12, 10)].
Proof. vm_compute. reflexivity. Qed.

(** no third item: nothing to compare after the samples *)
Example C190_example :
  run (pure (fun _ => 1%Q)) tt
    (nn_prog (fun l => l) false [10; 11] sort_entries replace_least 5 [1; 0] (Some 1) 1 2 None "connected_components") =
  ([Asked (10, 11); Asked (11, 10); Gave [10; 11]], tt, Ok tt).
Proof. vm_compute. reflexivity. Qed.

(** a function that raises at the third call: nothing is yielded *)
Example C189_raises :
  run (fun w (_ : nat * nat) => (S w, if Nat.ltb w 2 then Ok 1%Q else Err KeyError)) 0
    (nn_prog (fun l => l) false [10; 11; 12] sort_entries replace_least 5 [1; 0; 1] (Some 1) 1 2 None "connected_components") =
  ([Asked (10, 11); Asked (11, 10); Asked (12, 11)], 3, Err KeyError).
Proof. vm_compute. reflexivity. Qed.

(** the hypothesis of C189_turn *)
Example C189_shaped : shaped 3 1 [[(1%Q, 1)]; [(1%Q, 0)]; [(1%Q, 1)]].
Proof.
  split; [reflexivity|]. intros [|[|[|i]]] Hi; cbn; [| | |lia]; (split; [reflexivity|]); intros s j [E|[]]; injection E as <- <-; lia.
Qed.

Example C192_example :
  length (asked (fst (fst (run (pure (fun q : nat * nat => (inject_Z (- Z.abs (Z.of_nat (fst q) - Z.of_nat (snd q))))%Q)) tt
    (nn_full_prog (fun l => l) false [1; 2; 5; 6] sort_entries replace_least (fun t => t) 9 [1; 2; 0; 3; 3; 0; 1; 2] (Some 2) (-1) 1 (1 # 1000) 2 None
      "connected_components"))))) <= 4 * 2 + 9 * (4 * (2 * 3 + 4 * 4)).
Proof. vm_compute. lia. Qed.
