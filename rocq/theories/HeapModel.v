(** Model of the functions of python's module heapq that fog uses: heapify, heapreplace, nlargest (CPython's Lib/heapq.py; its C version makes
    the same comparisons).  [lt] is the operator <. *)
From Coq Require Import QArith ZArith.
From Verif Require Import Base LevModel SortModel GraphModel.
Open Scope nat_scope.
Open Scope list_scope.
Notation length := List.length.

Section Heap.
Context {X : Type}.
Variable lt : X -> X -> bool.

(** _siftdown: [newitem] goes up from [pos], at most to [startpos]; positions are within the heap.  Each turn is at a lower position. *)
Fixpoint sift_down (fuel : nat) (startpos pos : nat) (newitem : X) (heap : list X) : list X :=
  match fuel with
  | O => upd heap pos newitem
  | S fuel =>
    if Nat.ltb startpos pos then
      let parentpos := (pos - 1) / 2 in
      let parent := nth parentpos heap newitem in
      if lt newitem parent then sift_down fuel startpos parentpos newitem (upd heap pos parent) else upd heap pos newitem
    else upd heap pos newitem
  end.
(** _siftup: the smaller child goes up until a leaf is reached.  Each turn is at a higher position. *)
Fixpoint sift_up (fuel : nat) (pos : nat) (newitem : X) (heap : list X) : list X * nat :=
  match fuel with
  | O => (heap, pos)
  | S fuel =>
    let endpos := length heap in
    let childpos := 2 * pos + 1 in
    if Nat.ltb childpos endpos then
      let rightpos := childpos + 1 in
      let childpos := if Nat.ltb rightpos endpos && negb (lt (nth childpos heap newitem) (nth rightpos heap newitem)) then rightpos else childpos in
      sift_up fuel childpos newitem (upd heap pos (nth childpos heap newitem))
    else (heap, pos)
  end.
Definition siftup (heap : list X) (startpos : nat) : list X :=
  match nth_error heap startpos with
  | None => heap
  | Some newitem =>
    let '(heap, pos) := sift_up (length heap) startpos newitem heap in
    sift_down pos startpos pos newitem (upd heap pos newitem)
  end.

(** heapify: positions in decreasing order *)
Definition heapify (x : list X) : list X := fold_left siftup (rev (seq 0 (length x / 2))) x.
(** heapreplace: the heap afterwards; an empty heap raises IndexError, fog never replaces in one *)
Definition heapreplace (heap : list X) (item : X) : list X := match heap with [] => [] | _ :: heap => siftup (item :: heap) 0 end.
End Heap.

(** the operator < on pairs whose first component is a number, and on the entries of nn_descent and nn_descent_full *)
Definition entry_lt (x y : Q * nat) : bool := if Qeq_bool (fst x) (fst y) then Nat.ltb (snd x) (snd y) else Qle_bool (fst x) (fst y).
Definition full_lt (x y : Q * (nat * bool)) : bool :=
  if Qeq_bool (fst x) (fst y) then
    if Nat.eqb (fst (snd x)) (fst (snd y)) then negb (snd (snd x)) && snd (snd y) else Nat.ltb (fst (snd x)) (fst (snd y))
  else Qle_bool (fst x) (fst y).
(** on pairs of integers *)
Definition pair_lt (x y : nat * Z) : bool := if Nat.eqb (fst x) (fst y) then Z.ltb (snd x) (snd y) else Nat.ltb (fst x) (fst y).

(** nlargest of a generator of integers, without key: the loop over the elements left, [order] decreases at each replacement *)
Fixpoint nlargest_loop (l : list nat) (order : Z) (result : list (nat * Z)) : list (nat * Z) :=
  match l, result with
  | elem :: l, (top, _) :: _ =>
    if Nat.ltb top elem then nlargest_loop l (order - 1)%Z (heapreplace pair_lt result (elem, order)) else nlargest_loop l order result
  | _, _ => result
  end.
Definition nlargest_heap (n : nat) (l : list nat) : list nat :=
  if Nat.eqb n 1 then match l with [] => [] | x :: l => [fold_left Nat.max l x] end
  else
    let result := combine (firstn n l) (map (fun i => (- Z.of_nat i)%Z) (seq 0 n)) in
    match result with
    | [] => []
    | _ => map fst (sort_by (fun x y => negb (pair_lt x y)) (nlargest_loop (skipn n l) (- Z.of_nat n)%Z (heapify pair_lt result)))
    end.

(** graph/utils.py:37-43 with it *)
Definition second_largest_heap {N W} `{EqDec N} (g : graph N W) (edge_filter : N -> N -> W -> bool) : res (option nat) :=
  let! sizes := component_sizes g edge_filter in
  let top := nlargest_heap 2 sizes in
  Ok (if Nat.ltb (length top) 2 then None else nth_error top 1).
