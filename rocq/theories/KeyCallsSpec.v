(** Specification vocabulary for the calls of key functions. *)
From Coq Require Import String.
From Verif Require Import Base HashJoinModel HashJoinProofs CallsModel CallsSpec.
Open Scope nat_scope.
Open Scope list_scope.
Notation length := List.length.
Notation concat := List.concat.

(** the start of a list *)
Definition starts {X} (l whole : list X) : Prop := exists rest, whole = l ++ rest.

(** a function without state that does not raise, beside another one that has a state *)
Definition still {Q B W} (f : Q -> B) : @user Q B W := fun w q => (w, Ok (f q)).

(** the calls of one of two functions *)
Definition lefts {X Y} (l : list (X + Y)) : list X := flat_map (fun q => match q with inl x => [x] | inr _ => [] end) l.
Definition rights {X Y} (l : list (X + Y)) : list Y := flat_map (fun q => match q with inl _ => [] | inr y => [y] end) l.
(** what happens, the calls of the first function left out *)
Definition hide {Q1 Q2 C} (t : list (event (Q1 + Q2) C)) : list (event Q2 C) :=
  flat_map (fun e => match e with Asked (inl _) => [] | Asked (inr q) => [Asked q] | Gave c => [Gave c] end) t.

(** an event of the first function, of the second one *)
Definition of_first {Q1 Q2 C} (e : event Q1 C) : event (Q1 + Q2) C := match e with Asked q => Asked (inl q) | Gave c => Gave c end.
Definition of_second {Q1 Q2 C} (e : event Q2 C) : event (Q1 + Q2) C := match e with Asked q => Asked (inr q) | Gave c => Gave c end.

(** hashjoin: the side of the outer loop is the shorter one if both have a length, and the left one else *)
Definition swapped {T} (left right : iterable T) : bool :=
  match left, right with Collection l, Collection r => Nat.ltb (length r) (length l) | _, _ => false end.
Definition outer {T} (left right : iterable T) : iterable T := if swapped left right then right else left.
Definition inner {T} (left right : iterable T) : iterable T := if swapped left right then left else right.
(** the items the key of which is asked for: an outer one, then all the inner ones, for each outer one; an iterator gives its items
    once *)
Definition join_calls {T} (left right : iterable T) : list T :=
  let bs := items (inner left right) in
  if reiterable (inner left right) then flat_map (fun a => a :: bs) (items (outer left right))
  else match items (outer left right) with [] => [] | a :: l => a :: bs ++ l end.
(** the pair, the item of the left side first *)
Definition ordered {T} (left right : iterable T) (ab : T * T) : T * T := if swapped left right then (snd ab, fst ab) else ab.

(** sorted neighborhood: the calls of the keys, one pass after the other *)
Fixpoint key_calls {A P} (once : bool) (data : list A) (keys : list (option P)) : list (P * A) :=
  match keys with
  | [] => []
  | k :: keys =>
    match k with None => [] | Some p => map (pair p) data end ++ key_calls once (if once then [] else data) keys
  end.
(** the comparison of items by a key *)
Definition by_key {A K P} (key_leb : K -> K -> bool) (item_leb : A -> A -> bool) (key : P * A -> K) (k : option P) : A -> A -> bool :=
  match k with None => item_leb | Some p => fun a b => key_leb (key (p, a)) (key (p, b)) end.
