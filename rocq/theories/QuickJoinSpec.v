(** What quickjoin should find.  Independent of the model. *)
From Coq Require Import List Permutation QArith.
Import ListNotations.
Open Scope nat_scope.

Section Spec.
Context {A : Type}.

Definition swap (p : A * A) : A * A := (snd p, fst p).

(** a list of pairs in both directions *)
Definition both_ways (pairs : list (A * A)) : list (A * A) := pairs ++ map swap pairs.

(** the same pairs, the same number of times, whatever the direction of each *)
Definition same_pairs (ps qs : list (A * A)) : Prop := Permutation (both_ways ps) (both_ways qs).

(** the pairs of items at positions i < j *)
Fixpoint ordered_pairs (l : list A) : list (A * A) :=
  match l with
  | [] => []
  | x :: l => map (pair x) l ++ ordered_pairs l
  end.

Definition close (distance : A -> A -> Q) (radius : Q) (p : A * A) : bool :=
  Qle_bool (distance (fst p) (snd p)) radius.

(** what an exhaustive comparison finds *)
Definition close_pairs (distance : A -> A -> Q) (radius : Q) (data : list A) : list (A * A) :=
  filter (close distance radius) (ordered_pairs data).

Record semimetric (distance : A -> A -> Q) : Prop := {
  reflexive : forall x, (distance x x == 0)%Q;
  symmetric : forall x y, (distance x y == distance y x)%Q;
  triangle : forall x y z, (distance x z <= distance x y + distance y z)%Q
}.

(** the number of items that coincide with one of two given items *)
Definition crowd (distance : A -> A -> Q) (x y : A) (data : list A) : nat :=
  length (filter (fun z => Qeq_bool (distance x z) 0 || Qeq_bool (distance y z) 0)%bool data).

(** two items within the radius and their copies never outnumber a block *)
Definition sparse (distance : A -> A -> Q) (radius : Q) (block_size : nat) (data : list A) : Prop :=
  forall x y, In x data -> In y data -> (distance x y <= radius)%Q -> crowd distance x y data <= block_size.
End Spec.
