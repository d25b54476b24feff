(** Specification for the evaluation of clusterings.  Independent of the model. *)
From Coq Require Import List QArith.
From Verif Require Import Base.
Import ListNotations.
Open Scope nat_scope.

Section Spec.
Context {T : Type} `{EqDec T}.

(** items of a truth cluster found in a predicted one *)
Definition hits (t c : list T) : nat := length (filter (fun x => memb x c) t).
(** items of a predicted cluster that are somewhere in the truth *)
Definition counted (truth : list (list T)) (c : list T) : nat := length (filter (fun x => memb x (concat truth)) c).

Definition frac (a b : nat) : Q := (inject_Z (Z.of_nat a) / inject_Z (Z.of_nat b))%Q.
Definition precision_of truth (t c : list T) : Q := frac (hits t c) (counted truth c).
Definition recall_of (t c : list T) : Q := frac (hits t c) (length t).
Definition f1_of truth (t c : list T) : Q := frac (2 * hits t c) (counted truth c + length t).

(** c is a predicted cluster matching t best *)
Definition best_match (truth predicted : list (list T)) (t c : list T) : Prop :=
  In c predicted /\ 1 <= hits t c /\ forall c', In c' predicted -> (f1_of truth t c' <= f1_of truth t c)%Q.

Definition average (l : list Q) : Q := (fold_right Qplus 0 l / inject_Z (Z.of_nat (length l)))%Q.

(** what the function accepts *)
Definition valid (truth predicted : list (list T)) (allow : bool) : Prop :=
  truth <> [] /\ predicted <> [] /\
  Forall (fun c => c <> []) truth /\ Forall (fun c => c <> []) predicted /\
  (allow = true \/ forall x, In x (concat predicted) -> In x (concat truth)) /\
  NoDup (filter (fun x => memb x (concat truth)) (concat predicted)) /\
  (forall x, In x (concat truth) -> In x (concat predicted)).
End Spec.

(** the items having a label, in order *)
Definition labelled {I L} `{EqDec L} (labels : list (I * L)) (l : L) : list I :=
  map fst (filter (fun il => eqb (snd il) l) labels).
