(** What nn_descent should maintain.  Independent of the model. *)
From Coq Require Import List Permutation QArith.
Import ListNotations.

(** what is assumed of the functions of heapq on entries that start with a similarity: some invariant, on the similarities,
    makes the first entry the least one *)
Record heap_module {X} (is_heap : list (Q * X) -> Prop) (heapify : list (Q * X) -> list (Q * X))
    (heapreplace : list (Q * X) -> Q * X -> list (Q * X)) : Prop := {
  heap_first : forall e h, is_heap (e :: h) -> forall e', In e' h -> (fst e <= fst e')%Q;
  heap_keys : forall h h', map fst h = map fst h' -> is_heap h -> is_heap h';
  heapify_heap : forall l, is_heap (heapify l);
  heapify_perm : forall l, Permutation (heapify l) l;
  heapreplace_heap : forall e h x, is_heap (e :: h) -> is_heap (heapreplace (e :: h) x);
  heapreplace_perm : forall e h x, Permutation (heapreplace (e :: h) x) (x :: h)
}.

(** the neighbor list of position [i]: [k] other positions, with their true similarities *)
Definition neighbors_of {A} (similarity : A -> A -> Q) (V : list A) (k i : nat) (l : list (Q * nat)) : Prop :=
  length l = k /\
  forall s j, In (s, j) l -> i <> j /\ exists x y, nth_error V i = Some x /\ nth_error V j = Some y /\ s = similarity x y.

(** every similarity of the list reaches [q] *)
Definition at_least {X} (q : Q) (l : list (Q * X)) : Prop := forall s j, In (s, j) l -> (q <= s)%Q.

(** for nn_descent_full, which measures a pair of positions in one direction only *)
Definition neighbors_full {A} (similarity : A -> A -> Q) (V : list A) (k i : nat) (l : list (Q * (nat * bool))) : Prop :=
  length l = k /\
  forall s j b, In (s, (j, b)) l -> i <> j /\ exists x y, nth_error V i = Some x /\ nth_error V j = Some y /\ (s = similarity x y \/ s = similarity y x).
