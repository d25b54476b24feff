(** C194: nn_descent and nn_descent_full without a similarity nor a distance. *)
From Coq Require Import QArith String Permutation Lia.
From Verif Require Import Base BaseFacts ClustersModel LevModel GraphModel NNDescentModel NNDescentSpec NNDescentProofs CallsModel CallsSpec NNCallsModel NNCallsNoneProofs.
Open Scope nat_scope.
Open Scope string_scope.
Open Scope list_scope.
Notation length := List.length.
Notation concat := List.concat.

(** C194: what the programs do when the function they call is None.  They call it once at most, and nothing is yielded after a call. *)
Theorem C194_none {A} set_order heapify heapreplace (V : list A) fuel draws k radius lo hi mode :
  (forall l, Permutation (set_order l) l) -> (forall l, Permutation (heapify l) l) -> (forall r, In r draws -> r < length V) ->
  exists calls, length calls <= 1 /\
    run (fun w (_ : A * A) => (w, Err TypeError)) tt (nn_prog set_order false V heapify heapreplace fuel draws k radius lo hi mode) =
    match nn_descent set_order heapify heapreplace None None V fuel draws k radius lo hi mode with
    | Ok out => (map Gave out, tt, Ok tt)
    | Err e => (map Asked calls, tt, Err e)
    end.
Proof. intros. apply none_nn; assumption. Qed.
Print Assumptions C194_none.

Theorem C194_none_full {A} set_order heapify heapreplace (V : list A) later fuel draws k radius rho delta lo hi mode :
  (forall l, Permutation (set_order l) l) -> (forall l, Permutation (heapify l) l) -> (forall e h x, Permutation (heapreplace (e :: h) x) (x :: h)) ->
  (forall r, In r draws -> r < length V) ->
  exists calls, length calls <= 1 /\
    run (fun w (_ : A * A) => (w, Err TypeError)) tt (nn_full_prog set_order false V heapify heapreplace later fuel draws k radius rho delta lo hi mode) =
    match nn_descent_full set_order heapify heapreplace None None V fuel draws later k radius rho delta lo hi mode with
    | Ok out => (map Gave out, tt, Ok tt)
    | Err e => (map Asked calls, tt, Err e)
    end.
Proof. intros. apply none_full; assumption. Qed.
Print Assumptions C194_none_full.

(** C194: with items and neighbors to look for, both fail once every position was drawn for the first item; they never give anything *)
Theorem C194_fails {A} set_order heapify heapreplace heapify' heapreplace' (V : list A) later fuel block rest k radius rho delta lo hi mode :
  0 < match k with Some k => k | None => Nat.log2 (length V) end < length V -> (forall j, j < length V -> In j block) ->
  nn_descent set_order heapify heapreplace None None V fuel (block ++ rest) k radius lo hi mode = Err TypeError /\
  nn_descent_full set_order heapify' heapreplace' None None V fuel (block ++ rest) later k radius rho delta lo hi mode = Err TypeError.
Proof.
  intros Hk Hb. set (k' := match k with Some k => k | None => _ end) in *.
  assert (Ek : match k with Some k => Ok k | None => match V with [] => Err ValueError | _ => Ok (Nat.log2 (length V)) end end = Ok k').
  { unfold k' in *. destruct k; [reflexivity|]. destruct V; [cbn in Hk; lia|reflexivity]. }
  destruct (sample_enough (length V) k' 0 rest (proj2 Hk) block []) as (out & D' & E); [intros j Hj; right; right; apply Hb; exact Hj|].
  unfold nn_descent, nn_descent_full, call_none. rewrite Ek. cbn [bind]. destruct (Nat.eqb_spec (length V * k') 0) as [Z|Z]; [nia|]. rewrite E. split; reflexivity.
Qed.
Print Assumptions C194_fails.

(** C194: with no item and some k, or with no neighbor to look for, as for one item and the default k, nn_descent finds nothing and does not fail *)
Theorem C194_nothing {A} set_order heapify heapreplace (V : list A) fuel draws k radius lo hi :
  (forall l, Permutation (set_order l) l) -> (forall l, Permutation (heapify l) l) -> (forall r, In r draws -> r < length V) ->
  (V = [] /\ k <> None) \/ (V <> [] /\ match k with Some k => k | None => Nat.log2 (length V) end = 0) ->
  nn_descent set_order heapify heapreplace None None V (S fuel) draws k radius lo hi "connected_components" = Ok [].
Proof.
  intros So He D [[-> Hk]|[HV Hk]].
  - destruct k as [k|]; [|congruence]. eapply (none_nothing set_order So heapify He heapreplace); [exact D|reflexivity|reflexivity].
  - eapply (none_nothing set_order So heapify He heapreplace _ _ _ _ 0); [exact D| |lia]. unfold choose_k. destruct k; [congruence|]. destruct V; [congruence|]. f_equal. exact Hk.
Qed.
Print Assumptions C194_nothing.

(** ** Examples *)
Example C194_fails_example :
  nn_descent (A := nat) (fun l => l) sort_entries replace_least None None [10; 11; 12] 5 [0; 1; 2] (Some 1) 1 2 None "connected_components" = Err TypeError.
Proof. vm_compute. reflexivity. Qed.
Example C194_one_example :
  nn_descent (A := nat) (fun l => l) sort_entries replace_least None None [10] 5 [] None 1 2 None "connected_components" = Ok [].
Proof. vm_compute. reflexivity. Qed.
Example C194_empty_example :
  nn_descent (A := nat) (fun l => l) sort_entries replace_least None None [] 5 [] None 1 2 None "connected_components" = Err ValueError.
Proof. vm_compute. reflexivity. Qed.
