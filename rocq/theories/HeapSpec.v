(** What a heap is, independently of the functions of heapq. *)
From Verif Require Import Base.
Open Scope nat_scope.

(** the two children of a position *)
Definition child (p c : nat) : Prop := c = 2 * p + 1 \/ c = 2 * p + 2.
(** no element is greater than its children, from position [s] on *)
Definition heap_from {X} (le : X -> X -> Prop) (s : nat) (l : list X) : Prop :=
  forall p c x y, s <= p -> child p c -> nth_error l p = Some x -> nth_error l c = Some y -> le x y.
Definition heap {X} (le : X -> X -> Prop) (l : list X) : Prop := heap_from le 0 l.

(** [le] orders what [lt] compares: it may be coarser *)
Record compares {X} (lt : X -> X -> bool) (le : X -> X -> Prop) : Prop := {
  le_refl : forall x, le x x;
  le_trans : forall x y z, le x y -> le y z -> le x z;
  lt_le : forall x y, lt x y = true -> le x y;
  nlt_le : forall x y, lt x y = false -> le y x
}.
