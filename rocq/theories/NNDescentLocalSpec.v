(** What the neighbor lists of nn_descent look like in the end.  Independent of the model. *)
From Coq Require Import List QArith.
From Verif Require Import NNDescentSpec.
Import ListNotations.

(** one of the two positions has the other in its list *)
Definition related (B : list (list (Q * nat))) (i j : nat) : Prop :=
  exists s, In (s, j) (nth i B []) \/ In (s, i) (nth j B []).

(** no position two steps away is more similar than a position of the list *)
Definition settled {A} (similarity : A -> A -> Q) (V : list A) (B : list (list (Q * nat))) : Prop :=
  forall i j m x y, related B i j -> related B j m -> i <> m -> nth_error V i = Some x -> nth_error V m = Some y ->
  at_least (similarity x y) (nth i B []).
