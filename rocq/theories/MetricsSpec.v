(** Specification vocabulary for the metrics: sums over finite sets of keys, and histories of an online
    mean.  Independent of the model. *)
From Coq Require Import List QArith Qminmax Reals.
From Verif Require Import BlockingSpec.
Import ListNotations.

(** the same object has the same elements *)
Definition coherent {T} (same : bool) (A B : list T) : Prop := same = true -> forall x, In x A <-> In x B.

Definition Qsum (l : list Q) : Q := fold_right Qplus 0%Q l.
Definition Rsum (l : list R) : R := fold_right Rplus 0%R l.

(** [ks] lists without repetition all the keys of both dictionaries (possibly others) *)
Definition covers {T V} (ks : list T) (A B : list (T * V)) : Prop :=
  NoDup ks /\ (forall k v, In (k, v) A -> In k ks) /\ (forall k v, In (k, v) B -> In k ks).

(** w gives the weights of a dictionary, [zero] to the missing keys *)
Definition weights {T V} (zero : V) (A : list (T * V)) (w : T -> V) : Prop :=
  NoDup (map fst A) /\ (forall k v, In (k, v) A -> w k = v) /\ (forall k, ~ In k (map fst A) -> w k = zero).

(** dot product and norm over a list of keys *)
Definition dot {T} (ks : list T) (v w : T -> R) : R := Rsum (map (fun k => (v k * w k)%R) ks).
Definition norm {T} (ks : list T) (v : T -> R) : R := sqrt (dot ks v v).

(** what happens to an online mean *)
Inductive history :=
| New
| Added (h : history) (x : Q)
| Subtracted (h : history) (x : Q)
| Merged (h h' : history).

(** the values added and not subtracted, when only values that are there are subtracted *)
Inductive holds : history -> list Q -> Prop :=
| holds_new : holds New []
| holds_add h l x : holds h l -> holds (Added h x) (x :: l)
| holds_sub h l1 x l2 : holds h (l1 ++ x :: l2) -> holds (Subtracted h x) (l1 ++ l2)
| holds_merge h h' l l' : holds h l -> holds h' l' -> holds (Merged h h') (l ++ l').
