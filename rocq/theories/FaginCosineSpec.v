(** Weights of vectors. *)
From Coq Require Import QArith.
From Verif Require Import Base.

Section Spec.
Context {D : Type}.
Definition no_zero (v : dict D Q) : Prop := forall d w, In (d, w) v -> ~ (w == 0)%Q.
Definition positive (v : dict D Q) : Prop := forall d w, In (d, w) v -> (0 < w)%Q.
Definition null (v : dict D Q) : Prop := forall d w, In (d, w) v -> (w == 0)%Q.

(** the pairs of a position: with its leader, and with the earlier positions that have the same one *)
Definition around (leader : nat -> nat) (i : nat) : list (nat * nat) :=
  (i, leader i) :: map (fun j => (i, j)) (filter (fun j => Nat.eqb (leader j) (leader i)) (seq 0 i)).
End Spec.
