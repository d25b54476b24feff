(** The vector of least weight in a dimension, among the others. *)
From Coq Require Import QArith.
From Verif Require Import Base.
Open Scope nat_scope.

Section Spec.
Context {D : Type} `{EqDec D}.

(** k is the vector of least weight in d among those other than the i-th one, the first one in case of a tie *)
Definition least_other (vectors : list (dict D Q)) (i : nat) (d : D) (k : nat) : Prop :=
  k < length vectors /\ k <> i /\ exists w, dget (nth k vectors []) d = Some w /\
  forall k' w', k' < length vectors -> k' <> i -> dget (nth k' vectors []) d = Some w' -> (w < w')%Q \/ ((w == w')%Q /\ k <= k').
End Spec.
