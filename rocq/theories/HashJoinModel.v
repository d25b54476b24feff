(** Model of fog/join/hashjoin.py.  An iterable is a collection (with a length), a re-iterable object without a length, or
    an iterator (a generator), which is empty once consumed.  The two iterables are different objects; [key] and [keys]
    do not raise. *)
From Verif Require Import Base.

Inductive iterable (T : Type) : Type :=
| Collection (l : list T)
| Stream (l : list T)
| Iterator (l : list T).
Arguments Collection {T} l.
Arguments Stream {T} l.
Arguments Iterator {T} l.

Definition items {T} (it : iterable T) : list T := match it with Collection l | Stream l | Iterator l => l end.
(** a for loop over the iterable: what it visits and what is left of it *)
Definition consume {T} (it : iterable T) : list T * iterable T :=
  match it with Collection l | Stream l => (l, it) | Iterator l => (l, Iterator []) end.
(** len(it), None when it raises TypeError *)
Definition len {T} (it : iterable T) : option nat := match it with Collection l => Some (length l) | _ => None end.

Section HashJoin.
Context {T K : Type} `{EqDec K}.

(** hashjoin.py:48-58 and 61-73: the pairs yielded, and what is left of B *)
Fixpoint join_loop (matches : T -> T -> bool) (invert : bool) (A : list T) (B : iterable T) : list (T * T) * iterable T :=
  match A with
  | [] => ([], B)
  | a :: A =>
    let '(bs, B) := consume B in
    let pairs := flat_map (fun b => if matches a b then [if invert then (b, a) else (a, b)] else []) bs in
    let '(rest, B) := join_loop matches invert A B in
    (pairs ++ rest, B)
  end.

(** hashjoin.py:11-73 hashjoin, consumed to its end *)
Definition hashjoin (left right : iterable T) (key : option (T -> K)) (keys : option (T -> list K)) : list (T * T) :=
  let '(A, B, invert) :=
    match len left, len right with
    | Some n, Some m => if Nat.ltb m n then (right, left, true) else (left, right, false)
    | _, _ => (left, right, false)
    end in
  let '(single, A, B) :=
    match key with
    | None => ([], A, B)
    | Some key =>
      let '(As, A) := consume A in
      let '(pairs, B) := join_loop (fun a b => eqb (key a) (key b)) invert As B in
      (pairs, A, B)
    end in
  match keys with
  | None => single
  | Some keys =>
    let '(As, A) := consume A in
    let '(pairs, B) := join_loop (fun a b =>
      Nat.ltb 0 (length (filter (fun k => memb k (set_of (keys b))) (set_of (keys a))))) invert As B in
    single ++ pairs
  end.
End HashJoin.
