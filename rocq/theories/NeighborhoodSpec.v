(** Specification vocabulary for the sorted neighborhood methods.  Independent of the model. *)
From Coq Require Import List Arith.
From Verif Require Import SortSpec.
Import ListNotations.

(** x and y are similar and stand at positions i < j < i + window of s *)
Definition window_link {A} (similarity : A -> A -> bool) (window : nat) (s : list A) (x y : A) : Prop :=
  exists i j, i < j /\ j < i + window /\ nth_error s i = Some x /\ nth_error s j = Some y /\
    similarity x y = true.

(** the same in one of the sorted orders of the data *)
Definition neighborhood_link {A} (similarity : A -> A -> bool) (window : nat) (data : list A)
    (keys : list (A -> A -> bool)) (x y : A) : Prop :=
  exists k s, In k keys /\ stably_sorted k data s /\ window_link similarity window s x y.

(** non-empty intervals (both ends included) which list 0 .. n-1 in order *)
Definition tiles (n : nat) (intervals : list (nat * nat)) : Prop :=
  Forall (fun se => fst se <= snd se) intervals /\
  concat (map (fun se => seq (fst se) (snd se + 1 - fst se)) intervals) = seq 0 n.

(** x and y are similar and stand in this order in the same interval *)
Definition interval_link {A} (similarity : A -> A -> bool) (intervals : list (nat * nat)) (s : list A)
    (x y : A) : Prop :=
  exists st en i j, In (st, en) intervals /\ st <= i /\ i < j /\ j <= en /\
    nth_error s i = Some x /\ nth_error s j = Some y /\ similarity x y = true.

(** the same, in one of the sorted orders of the data; [windows] gives the intervals of an order *)
Definition adaptive_link {A} (similarity : A -> A -> bool) (windows : list A -> list (nat * nat))
    (data : list A) (keys : list (A -> A -> bool)) (x y : A) : Prop :=
  exists k s, In k keys /\ stably_sorted k data s /\ interval_link similarity (windows s) s x y.

(** two similar records at positions first < last, such that last plus its distance to some earlier
    position f is out of bounds *)
Definition overrun {A} (similarity : A -> A -> bool) (s : list A) (f first last : nat) : Prop :=
  f <= first /\ first < last /\ last < length s /\
  (exists a b, nth_error s first = Some a /\ nth_error s last = Some b /\ similarity a b = true) /\
  length s <= last + (last - f).
