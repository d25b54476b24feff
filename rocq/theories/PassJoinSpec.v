(** Specification vocabulary for PassJoin.  Independent of the model. *)
From Coq Require Import List Arith.
From Verif Require Import EditSpec.
Import ListNotations.

(** x is somewhere before y in l *)
Definition before {A} (l : list A) (x y : A) : Prop := exists l1 l2 l3, l = l1 ++ x :: l2 ++ y :: l3.

(** two different strings of the data, at most k edits apart *)
Definition close_strings {A} (k : nat) (data : list (list A)) (x y : list A) : Prop :=
  In x data /\ In y data /\ x <> y /\ lev_le k x y.

(** consecutive pieces: the sizes increase by at most one over the whole list *)
Definition balanced (sizes : list nat) : Prop :=
  forall i j a b, i <= j -> nth_error sizes i = Some a -> nth_error sizes j = Some b -> a <= b <= a + 1.
