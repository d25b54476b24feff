(** Specification for the keys and blocks of fog/key/levenshtein.py.  Independent of the model. *)
From Coq Require Import List.
Import ListNotations.

(** both lists have an element in common *)
Definition share {A} (l m : list A) : Prop := exists k, In k l /\ In k m.

(** B is A where a letter was inserted between two equal letters, different from it *)
Definition splits_double {A} (a b : list A) : Prop :=
  exists p x y s, x <> y /\ a = p ++ y :: y :: s /\ b = p ++ y :: x :: y :: s.

(** B is A where at most n letters were replaced *)
Inductive hamming_le {A} : nat -> list A -> list A -> Prop :=
| hamming_nil n : hamming_le n [] []
| hamming_same n x a b : hamming_le n a b -> hamming_le n (x :: a) (x :: b)
| hamming_diff n x y a b : hamming_le n a b -> hamming_le (S n) (x :: a) (y :: b).
