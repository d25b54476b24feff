(** nn_descent with a similarity that depends on the time. *)
From Coq Require Import QArith Qround String Permutation Lia.
From Verif Require Import Base BaseFacts ClustersModel PairwiseModel LevModel GraphModel NNDescentModel NNDescentSpec
  NNDescentProofs CallsModel CallsSpec CallsProofs NNCallsModel NNCallsSpec.
Open Scope nat_scope.
Open Scope list_scope.
Notation length := List.length.
Notation concat := List.concat.

Definition tick (w : nat) : Q := inject_Z (Z.of_nat w).

(** the number of calls made before *)
Definition clock : @user (nat * nat) Q nat := fun w _ => (S w, Ok (tick w)).

Lemma tick_lt m n : n < m -> Qle_bool (tick m) (tick n) = false.
Proof.
  intros H. destruct (Qle_bool (tick m) (tick n)) eqn:E; [|reflexivity]. apply Qle_bool_iff in E. unfold tick in E. rewrite <- Zle_Qle in E. lia.
Qed.

Ltac step := match goal with |- context [Qle_bool (tick ?m) (tick ?n)] => rewrite (tick_lt m n) by lia; lazy -[tick Qle_bool] end.

Lemma clock_turn w p0 p1 p2 j0 j1 j2 : p0 < w -> p1 < w -> p2 < w -> (j0 = 1 \/ j0 = 2) -> (j1 = 0 \/ j1 = 2) -> (j2 = 0 \/ j2 = 1) ->
  exists t w' p0' p1' p2' j0' j1' j2' c,
    run clock w (turn_prog (fun l => l) false [0; 1; 2] replace_least [[(tick p0, j0)]; [(tick p1, j1)]; [(tick p2, j2)]]) =
      (t, w', Ok ([[(tick p0', j0')]; [(tick p1', j1')]; [(tick p2', j2')]], S c)) /\
    p0' < w' /\ p1' < w' /\ p2' < w' /\ (j0' = 1 \/ j0' = 2) /\ (j1' = 0 \/ j1' = 2) /\ (j2' = 0 \/ j2' = 1).
Proof.
  intros H0 H1 H2 D0 D1 D2.
  destruct D0 as [-> | ->], D1 as [-> | ->], D2 as [-> | ->]; do 9 eexists; (split; [lazy -[tick Qle_bool]; repeat step; reflexivity|]);
    cbn; repeat split; lia.
Qed.

Lemma clock_descend : forall fuel w p0 p1 p2 j0 j1 j2, p0 < w -> p1 < w -> p2 < w -> (j0 = 1 \/ j0 = 2) -> (j1 = 0 \/ j1 = 2) -> (j2 = 0 \/ j2 = 1) ->
  exists t w', run clock w (descend_prog (fun l => l) false [0; 1; 2] replace_least fuel [[(tick p0, j0)]; [(tick p1, j1)]; [(tick p2, j2)]]) = (t, w', Err OutOfFuel).
Proof.
  induction fuel as [|fuel IH]; intros w p0 p1 p2 j0 j1 j2 H0 H1 H2 D0 D1 D2; [exists [], w; reflexivity|]. cbn [descend_prog]. rewrite run_bind.
  destruct (clock_turn w p0 p1 p2 j0 j1 j2 H0 H1 H2 D0 D1 D2) as (t & w' & p0' & p1' & p2' & j0' & j1' & j2' & c & -> & H0' & H1' & H2' & D0' & D1' & D2').
  cbn [then_ Nat.eqb]. destruct (IH w' p0' p1' p2' j0' j1' j2' H0' H1' H2' D0' D1' D2') as (t' & w'' & ->). eauto.
Qed.

Lemma clock_nn fuel radius lo hi mode :
  exists t w, run clock 0 (nn_prog (fun l => l) false [0; 1; 2] sort_entries replace_least fuel [1; 2; 0] (Some 1) radius lo hi mode) = (t, w, Err OutOfFuel).
Proof.
  unfold nn_prog. cbn [choose_k lift pbind]. rewrite run_bind. 
  assert (E : exists t, run clock 0 (initial_prog (fun l => l) false [0; 1; 2] sort_entries [1; 2; 0] 1 (seq 0 (length [0; 1; 2]))) =
    (t, 3, Ok [[(tick 0, 1)]; [(tick 1, 2)]; [(tick 2, 0)]])).
  { eexists. lazy -[tick Qle_bool]. reflexivity. }
  destruct E as [t ->]. cbn [then_]. rewrite run_bind. destruct (clock_descend fuel 3 0 1 2 1 2 0) as (t' & w' & ->); try lia. cbn [then_]. eauto.
Qed.
