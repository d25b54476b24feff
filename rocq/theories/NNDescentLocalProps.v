(** C98, C99: what nn_descent has when it stops. *)
From Coq Require Import QArith Lqa String.
From Verif Require Import Base BaseFacts ClustersModel ClustersSpec PairwiseSpec NNDescentModel NNDescentSpec NNDescentProofs NNDescentLocalSpec NNDescentLocalProofs.
Open Scope nat_scope.
Open Scope list_scope.
Notation length := List.length.

Section NNDescent.
Context {A : Type} `{EqDec A}.
Variable set_order : list nat -> list nat.
Hypothesis set_order_perm : forall l, Permutation (set_order l) l.
Variable heapify : list (Q * nat) -> list (Q * nat).
Variable heapreplace : list (Q * nat) -> Q * nat -> list (Q * nat).
Variable is_heap : list (Q * nat) -> Prop.
Hypothesis heaps : heap_module is_heap heapify heapreplace.
Variable V : list A.
Variable draws : list nat.
Hypothesis draws_positions : forall r, In r draws -> r < length V.
Variable similarity : A -> A -> Q.

(** C98: the lists cannot be improved from the neighbors of the neighbors *)
Theorem C98_settled fuel k B :
  nn_descent_graph set_order heapify heapreplace similarity V fuel draws k = Ok B -> settled similarity V B.
Proof.
  intros E. unfold nn_descent_graph in E.
  destruct (match k with Some k => Ok k | None => match V with [] => Err ValueError | _ => Ok (Nat.log2 (length V)) end end) as [k'|]; cbn [bind] in E; [|discriminate].
  destruct (initial_loop _ _ _ _ _ _ _) as [B0|] eqn:E0; cbn [bind] in E; [|discriminate].
  eapply (descend_settled set_order set_order_perm heapify heapreplace is_heap heaps similarity V k'); [|exact E].
  eapply (initial_ok set_order set_order_perm heapify heapreplace is_heap heaps similarity V k'); [exact draws_positions | | exact E0].
  intros i Hi. apply in_seq in Hi. lia.
Qed.

(** C98: with as many neighbors as other items, each list has the best similarity only *)
Theorem C98_nearest fuel k B : length V = S k -> 0 < k ->
  nn_descent_graph set_order heapify heapreplace similarity V fuel draws (Some k) = Ok B ->
  forall i m x y, i <> m -> nth_error V i = Some x -> nth_error V m = Some y -> at_least (similarity x y) (nth i B []).
Proof.
  intros Hk Kp E. unfold nn_descent_graph in E. cbn [bind] in E.
  destruct (initial_loop _ _ _ _ _ _ _) as [B0|] eqn:E0; cbn [bind] in E; [|discriminate].
  exact (complete_nearest set_order set_order_perm heapify heapreplace is_heap heaps similarity V k fuel draws B0 B Hk Kp draws_positions E0 E).
Qed.
End NNDescent.

(** C99: having seen all the pairs, the links of similar items are lost *)
Theorem C99_complete_refuted :
  exists (V : list Z) distance draws B,
    (forall r, In r draws -> r < length V) /\ (exists is_heap, heap_module is_heap (@sort_entries nat) replace_least) /\
    nn_descent_graph (fun l => l) sort_entries replace_least (fun x y => - distance x y)%Q V 10 draws (Some 3) = Ok B /\
    length V = 4 /\ (exists x y, nth_error V 1 = Some x /\ nth_error V 2 = Some y /\ (distance x y <= 2)%Q) /\
    ~ (exists p, In (1, p) (links (-2)%Q B) /\ 2 <= p) /\
    nn_descent (fun l => l) sort_entries replace_least None (Some distance) V 10 draws (Some 3) 2 2 None "connected_components" =
      Ok [[0; 1]; [3; 4]]%Z.
Proof.
  exists [0; 1; 3; 4]%Z, (fun x y => inject_Z (Z.abs (x - y))), [1; 2; 3; 0; 2; 3; 0; 1; 3; 0; 1; 2]. eexists.
  split; [intros r Hr; cbn in Hr |- *; lia|]. split; [eexists; exact sorted_heaps|]. split; [vm_compute; reflexivity|]. split; [reflexivity|].
  split; [exists 1%Z, 3%Z; repeat split; vm_compute; congruence|]. split; [|vm_compute; reflexivity].
  intros (p & Hin & Hp). vm_compute in Hin. clear -Hin Hp. repeat (destruct Hin as [E|Hin]; [try discriminate E; injection E as <-; lia|]). exact Hin.
Qed.
Print Assumptions C98_settled.
Print Assumptions C98_nearest.
Print Assumptions C99_complete_refuted.

(** an outcome with fewer neighbors, and the lists of the witness *)
Example C98_ex :
  nn_descent_graph (fun l => l) sort_entries replace_least (fun x y => - inject_Z (Z.abs (x - y)))%Q [0; 1; 3; 4]%Z 10 [2; 2; 0; 0] (Some 1) =
    Ok [[((-1)%Q, 1)]; [((-1)%Q, 0)]; [((-1)%Q, 3)]; [((-1)%Q, 2)]] /\
  nn_descent_graph (fun l => l) sort_entries replace_least (fun x y => - inject_Z (Z.abs (x - y)))%Q [0; 1; 3; 4]%Z 10
    [1; 2; 3; 0; 2; 3; 0; 1; 3; 0; 1; 2] (Some 3) =
    Ok [[((-1)%Q, 1); ((-1)%Q, 1); ((-1)%Q, 1)]; [((-1)%Q, 0); ((-1)%Q, 0); ((-1)%Q, 0)];
        [((-1)%Q, 3); ((-1)%Q, 3); ((-1)%Q, 3)]; [((-1)%Q, 2); ((-1)%Q, 2); ((-1)%Q, 2)]].
Proof. split; vm_compute; reflexivity. Qed.
(** lists that are not settled *)
Example C98_unsettled : ~ settled (fun x y => - inject_Z (Z.abs (x - y)))%Q [0; 1; 3]%Z [[((-3)%Q, 2)]; [((-2)%Q, 2)]; [((-2)%Q, 1)]].
Proof.
  intros St. specialize (St 0 2 1 0%Z 1%Z). cbn [nth] in St.
  assert (X : (-1 <= -3)%Q).
  { apply (St) with (j := 2); try reflexivity; try lia; [exists (-3)%Q; left; left; reflexivity | exists (-2)%Q; left; left; reflexivity | left; reflexivity]. }
  vm_compute in X. congruence.
Qed.
