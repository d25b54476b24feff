(** Specification vocabulary for the calls of the similarity by nn_descent. *)
From Coq Require Import QArith.
From Verif Require Import Base CallsModel CallsSpec BlockingSpec NNDescentLocalSpec.
Open Scope nat_scope.
Open Scope list_scope.
Notation length := List.length.

(** what happened is: these calls, in this order, until the user's function raises; if it does not, the result satisfies [post] *)
Definition asks {Q B C W R} (f : @user Q B W) (w : W) (calls : list Q) (post : R -> Prop) (happened : list (event Q C) * W * res R) : Prop :=
  match feed f w calls with
  | (answers, w', None) => exists r, happened = (map Asked calls, w', Ok r) /\ post r
  | (answers, w', Some e) => happened = (map Asked (firstn (S (length answers)) calls), w', Err e)
  end.

(** each of the [n] positions has [k] entries, other positions *)
Definition shaped (n k : nat) (B : list (list (Q * nat))) : Prop :=
  length B = n /\ forall i, i < n -> length (nth i B []) = k /\ forall s j, In (s, j) (nth i B []) -> j < n /\ i <> j.

(** the pairs that are compared at first: [k] other positions for each position, in the order of the positions *)
Record first_cells (n k : nat) (cells : list (nat * nat)) : Prop := {
  first_nodup : NoDup cells;
  first_bound : forall i j, In (i, j) cells -> i < n /\ j < n /\ i <> j;
  first_each : forall i, i < n -> card (fun j => In (i, j) cells) k;
  first_number : length cells = n * k
}.

(** the pairs that are compared during a turn that starts with the lists [B]: the ends of the paths of two steps, each as many
    times as there are such paths *)
Record round_cells (n : nat) (B : list (list (Q * nat))) (cells : list (nat * nat)) : Prop := {
  round_in : forall i j, In (i, j) cells <-> i <> j /\ exists m, related B i m /\ related B m j;
  round_times : forall (dec : forall x y : nat * nat, {x = y} + {x <> y}) i j times, i <> j ->
    card (fun m => related B i m /\ related B m j) times -> count_occ dec cells (i, j) = times;
  round_number : forall degree, (forall m, m < n -> card (related B m) (degree m)) ->
    length cells = list_sum (map (fun m => degree m * (degree m - 1)) (seq 0 n))
}.

(** two items at different positions *)
Definition of_others {A} (V : list A) (q : A * A) : Prop :=
  exists i j, i <> j /\ nth_error V i = Some (fst q) /\ nth_error V j = Some (snd q).
