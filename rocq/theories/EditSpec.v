(** Specification of edit distances: chains of single-character edits.  Independent of the model. *)
From Coq Require Import List Arith.
Import ListNotations.

Section Edit.
Context {A : Type}.

(** one insertion, deletion or substitution *)
Inductive edit1 : list A -> list A -> Prop :=
| edit_ins l x r : edit1 (l ++ r) (l ++ x :: r)
| edit_del l x r : edit1 (l ++ x :: r) (l ++ r)
| edit_sub l x y r : edit1 (l ++ x :: r) (l ++ y :: r).

(** one swap of two adjacent characters *)
Inductive swap1 : list A -> list A -> Prop :=
| swap_adj l x y r : swap1 (l ++ x :: y :: r) (l ++ y :: x :: r).

(** exactly n steps *)
Inductive steps (step : list A -> list A -> Prop) : nat -> list A -> list A -> Prop :=
| steps_0 a : steps step 0 a a
| steps_S n a b c : step a b -> steps step n b c -> steps step (S n) a c.

(** Levenshtein distance at most n *)
Definition lev_le (n : nat) (a b : list A) : Prop := exists m, m <= n /\ steps edit1 m a b.

(** Damerau-Levenshtein distance at most n: swaps allowed *)
Definition damerau_le (n : nat) (a b : list A) : Prop :=
  exists m, m <= n /\ steps (fun a b => edit1 a b \/ swap1 a b) m a b.

(** n is the Levenshtein distance: n edits suffice and no fewer do *)
Definition is_lev (a b : list A) (n : nat) : Prop :=
  steps edit1 n a b /\ forall m, steps edit1 m a b -> n <= m.
End Edit.
