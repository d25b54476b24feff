(** What a clustering around items and a clustering with pivots should give. *)
From Coq Require Import QArith Qabs.
From Verif Require Import Base.
Open Scope nat_scope.

(** [c] lists the items within reach of [x], repeated items included *)
Definition ball {A} (within : A -> A -> bool) (data : list A) (x : A) (c : list A) : Prop :=
  Permutation c (filter (within x) data).

Record pseudometric {A} (distance : A -> A -> Q) : Prop := {
  symmetric : forall x y, (distance x y == distance y x)%Q;
  triangle : forall x y z, (distance x z <= distance x y + distance y z)%Q
}.

(** the pairs that are compared: no pivot tells them apart by more than the distance from the first one to a pivot *)
Definition compared {A} (distance : A -> A -> Q) (pivots : list A) (x y : A) : Prop :=
  forall q r, In q pivots -> In r pivots -> (Qabs (distance q x - distance q y) <= distance r x)%Q.

(** at two different positions, the distance is positive *)
Definition distinct_items {A} (distance : A -> A -> Q) (data : list A) : Prop :=
  forall i j x y, i <> j -> nth_error data i = Some x -> nth_error data j = Some y -> (0 < distance x y)%Q.
