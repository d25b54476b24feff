(** Specification vocabulary for joins. *)
From Coq Require Import List.
Import ListNotations.

Section Join.
Context {T K : Type}.

(** all the matching pairs, as often as their items are repeated *)
Definition matching_pairs (matches : T -> T -> bool) (left right : list T) : list (T * T) :=
  filter (fun ab => matches (fst ab) (snd ab)) (list_prod left right).

Definition shares_key (keys : T -> list K) (a b : T) : Prop := exists k, In k (keys a) /\ In k (keys b).
End Join.
