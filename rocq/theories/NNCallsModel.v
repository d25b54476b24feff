(** nn_descent and nn_descent_full as programs that call the similarity, or the distance, of the user: it may keep a state, answer
    differently each time and raise.  The answers are rationals.  The numbers drawn by the random generator and the functions of
    heapq are those of NNDescentModel. *)
From Coq Require Import QArith Qround String.
From Verif Require Import Base ClustersModel PairwiseModel LevModel GraphModel NNDescentModel CallsModel.
Open Scope nat_scope.
Open Scope list_scope.
Notation length := List.length.

(** [f x for x in l], a list comprehension *)
Fixpoint pmap {Q B C X Y} (l : list X) (f : X -> prog Q B C Y) : prog Q B C (list Y) :=
  match l with
  | [] => Ret []
  | x :: l => do y <- f x; do ys <- pmap l f; Ret (y :: ys)
  end.

Section NNCalls.
Context {A : Type}.
Variable set_order : list nat -> list nat.
(** whether the user gave a distance *)
Variable neg : bool.
Variable V : list A.
Notation nprog := (prog (A * A) Q (list A)).

(** similarity(V[i], V[j]), nn_descent.py:97-98, 118, 144 *)
Definition ask_at (i j : nat) : nprog Q :=
  do x <- lift (index V i);
  do y <- lift (index V j);
  Call (x, y) (fun s => Ret (if neg then - s else s)%Q).

(** nn_descent.py:112-113 *)
Definition choose_k (k : option nat) : res nat :=
  match k with
  | Some k => Ok k
  | None => match V with [] => Err ValueError | _ => Ok (Nat.log2 (length V)) end
  end.

(** nn_descent.py:153-168: no call there.  The positions of a cluster are read when it is yielded; all of them are positions of
    the data, and they are all read at once here. *)
Definition clusters_of (links : list (nat * nat)) (lo : nat) (hi : option nat) (mode : string) : nprog unit :=
  do clusters <- lift (clusters_from_pairs set_order links lo hi mode true);
  do out <- lift (mapM (mapM (index V)) clusters);
  yield_from out.

Section Simple.
Variable heapify : list entry -> list entry.
Variable heapreplace : list entry -> entry -> list entry.

(** nn_descent.py:117-120 *)
Fixpoint initial_prog (draws : list nat) (k : nat) (items : list nat) : nprog (list (list entry)) :=
  match items with
  | [] => Ret []
  | i :: items =>
    do (sampled, draws) <- lift (sample_loop draws k i []);
    do neighbors <- pmap (set_order sampled) (fun j => do s <- ask_at i j; Ret (s, j));
    do B <- initial_prog draws k items;
    Ret (heapify neighbors :: B)
  end.

(** nn_descent.py:144-151 *)
Definition measure_prog (i : nat) (hc : list entry * nat) (jj : nat) : nprog (list entry * nat) :=
  let '(h, c) := hc in
  if Nat.eqb i jj then Ret (h, c)
  else
    do s <- ask_at i jj;
    match h with
    | [] => Raise IndexError
    | (worst, _) :: _ => if Qle_bool s worst then Ret (h, c) else Ret (heapreplace h (s, jj), c + 1)
    end.

(** nn_descent.py:136-151, for one item *)
Definition improve_prog (C : list (list nat)) (i : nat) (h : list entry) : nprog (list entry * nat) :=
  for_each (nth i C []) (h, 0) (fun hc ii => for_each (nth ii C []) hc (measure_prog i)).

(** nn_descent.py:124-151 *)
Definition turn_prog (B : list (list entry)) : nprog (list (list entry) * nat) :=
  let C := map (candidates set_order B) (seq 0 (length V)) in
  do hcs <- pmap (enumerate B) (fun '(i, h) => improve_prog C i h);
  Ret (map fst hcs, list_sum (map snd hcs)).

Fixpoint descend_prog (fuel : nat) (B : list (list entry)) : nprog (list (list entry)) :=
  match fuel with
  | 0 => Raise OutOfFuel
  | S fuel => do (B, c) <- turn_prog B; if Nat.eqb c 0 then Ret B else descend_prog fuel B
  end.

(** nn_descent.py:60-168, with a similarity or a distance *)
Definition nn_prog (fuel : nat) (draws : list nat) (k : option nat) (radius : Q) (lo : nat) (hi : option nat) (mode : string)
    : nprog unit :=
  do k <- lift (choose_k k);
  do B <- initial_prog draws k (seq 0 (length V));
  do B <- descend_prog fuel B;
  clusters_of (links (if neg then - radius else radius)%Q B) lo hi mode.
End Simple.

Section Full.
Variable heapify : list entry_full -> list entry_full.
Variable heapreplace : list entry_full -> entry_full -> list entry_full.
Variable later : nat -> nat.

(** nn_descent.py:284-288 *)
Fixpoint initial_full_prog (draws : list nat) (k : nat) (items : list nat) : nprog (list (list entry_full)) :=
  match items with
  | [] => Ret []
  | i :: items =>
    do (sampled, draws) <- lift (sample_loop draws k i []);
    do neighbors <- pmap (set_order sampled) (fun j => do s <- ask_at i j; Ret (s, (j, true)));
    do B <- initial_full_prog draws k items;
    Ret (heapify neighbors :: B)
  end.

(** nn_descent.py:334-342 and 349-357 *)
Definition measure_full_prog (u1 : nat) (Bc : list (list entry_full) * nat) (u2 : nat) : nprog (list (list entry_full) * nat) :=
  do s <- ask_at u1 u2;
  lift (let! Bc := insert_full heapreplace u1 u2 s Bc in insert_full heapreplace u2 u1 s Bc).

(** nn_descent.py:321-357, for one item *)
Definition join_full_prog (rhoK : Z) (old new : list (list nat)) (st : list (list entry_full) * nat * nat) (i : nat)
    : nprog (list (list entry_full) * nat * nat) :=
  let '(B, c, t) := st in
  do o <- lift (index old i);
  do n <- lift (index new i);
  do (os, t) <- lift (sample_full later t (reverse_full old i) rhoK);
  do (ns, t) <- lift (sample_full later t (reverse_full new i) rhoK);
  let o := set_order (fold_left sadd os o) in
  let n := set_order (fold_left sadd ns n) in
  do Bc <- for_each n (B, c) (fun Bc u1 =>
    do Bc <- for_each n Bc (fun Bc u2 => if Nat.leb u2 u1 then Ret Bc else measure_full_prog u1 Bc u2);
    for_each o Bc (fun Bc u2 => if Nat.eqb u1 u2 then Ret Bc else measure_full_prog u1 Bc u2));
  Ret (fst Bc, snd Bc, t).

(** nn_descent.py:293-357 *)
Definition turn_full_prog (t : nat) (rhoK : Z) (B : list (list entry_full)) : nprog (list (list entry_full) * nat * nat) :=
  do (B, old, new, t) <- lift (samplings later t rhoK B);
  for_each (seq 0 (length V)) (B, 0, t) (join_full_prog rhoK old new).

Fixpoint descend_full_prog (fuel : nat) (t : nat) (rhoK : Z) (threshold : Q) (c : nat) (B : list (list entry_full))
    : nprog (list (list entry_full)) :=
  match fuel with
  | 0 => Raise OutOfFuel
  | S fuel =>
    if Qle_bool threshold (inject_Z (Z.of_nat c)) then
      do (B, c, t) <- turn_full_prog t rhoK B; descend_full_prog fuel t rhoK threshold c B
    else Ret B
  end.

(** nn_descent.py:219-374 *)
Definition nn_full_prog (fuel : nat) (draws : list nat) (k : option nat) (radius rho delta : Q) (lo : nat) (hi : option nat)
    (mode : string) : nprog unit :=
  do k <- lift (choose_k k);
  do B <- initial_full_prog draws k (seq 0 (length V));
  do B <- descend_full_prog fuel 0 (towards_zero (rho * inject_Z (Z.of_nat k))) (delta * inject_Z (Z.of_nat (length V * k)))
            (length V * k) B;
  clusters_of (links_full (if neg then - radius else radius)%Q B) lo hi mode.
End Full.
End NNCalls.
