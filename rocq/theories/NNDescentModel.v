(** Model of fog/clustering/nn_descent.py: sample, reverse and nn_descent.  Similarities are rationals.  The numbers drawn by
    the random generator are given as a list, and running out of them is [OutOfFuel].  The heaps of the module heapq are
    lists handled by two external functions. *)
From Coq Require Import QArith Qround String.
From Verif Require Import Base ClustersModel PairwiseModel LevModel GraphModel.
Open Scope nat_scope.
Open Scope list_scope.
Notation length := List.length.

(** nn_descent.py:27-43: [S] the set of indices sampled so far *)
Fixpoint sample_loop (draws : list nat) (k i : nat) (S : list nat) : res (list nat * list nat) :=
  if Nat.leb k (length S) then Ok (S, draws)
  else match draws with
       | [] => Err OutOfFuel
       | r :: draws => if Nat.eqb r i then sample_loop draws k i S else sample_loop draws k i (sadd S r)
       end.

Notation entry := (Q * nat)%type.

Section NNDescent.
Context {A : Type} `{EqDec A}.
(** iteration order of sets of positions *)
Variable set_order : list nat -> list nat.
Variable heapify : list entry -> list entry.
(** the heap once its first entry is replaced *)
Variable heapreplace : list entry -> entry -> list entry.
Variable similarity : A -> A -> Q.
Variable V : list A.

Definition sim_at (i j : nat) : res Q := let! x := index V i in let! y := index V j in Ok (similarity x y).

(** nn_descent.py:46-57 *)
Definition reverse (B : list (list entry)) (i : nat) : list nat :=
  flat_map (fun '(k, neighbors) => flat_map (fun '(_, j) => if Nat.eqb j i then [k] else []) neighbors) (enumerate B).

(** nn_descent.py:117-120, the heap of neighbors of each item *)
Fixpoint initial_loop (draws : list nat) (k : nat) (items : list nat) : res (list (list entry)) :=
  match items with
  | [] => Ok []
  | i :: items =>
    let! (sampled, draws) := sample_loop draws k i [] in
    let! neighbors := mapM (fun j => let! s := sim_at i j in Ok (s, j)) (set_order sampled) in
    let! B := initial_loop draws k items in
    Ok (heapify neighbors :: B)
  end.

(** nn_descent.py:130-134 *)
Definition candidates (B : list (list entry)) (i : nat) : list nat :=
  set_order (fold_left sadd (reverse B i) (set_of (map snd (nth i B [])))).

(** nn_descent.py:144-151, one comparison: the heap and the count of changes *)
Definition compare (i : nat) (hc : list entry * nat) (jj : nat) : res (list entry * nat) :=
  let '(h, c) := hc in
  if Nat.eqb i jj then Ok (h, c)
  else
    let! s := sim_at i jj in
    match h with
    | [] => Err IndexError
    | (worst, _) :: _ => if Qle_bool s worst then Ok (h, c) else Ok (heapreplace h (s, jj), c + 1)
    end.

(** nn_descent.py:136-151, for one item; only its own heap changes *)
Definition improve (C : list (list nat)) (i : nat) (h : list entry) : res (list entry * nat) :=
  foldM (compare i) (flat_map (fun ii => nth ii C []) (nth i C [])) (h, 0).

(** nn_descent.py:124-151 *)
Definition turn (B : list (list entry)) : res (list (list entry) * nat) :=
  let C := map (candidates B) (seq 0 (length V)) in
  let! hcs := mapM (fun '(i, h) => improve C i h) (enumerate B) in
  Ok (map fst hcs, list_sum (map snd hcs)).

Fixpoint descend (fuel : nat) (B : list (list entry)) : res (list (list entry)) :=
  match fuel with
  | 0 => Err OutOfFuel
  | S fuel => let! (B, c) := turn B in if Nat.eqb c 0 then Ok B else descend fuel B
  end.

(** nn_descent.py:153-157 *)
Definition links (radius : Q) (B : list (list entry)) : list (nat * nat) :=
  flat_map (fun '(i, neighbors) => flat_map (fun '(s, j) => if Qle_bool radius s then [(i, j)] else []) neighbors) (enumerate B).

(** nn_descent.py:108-168, once the similarity is chosen; int(log2(N)) is exact *)
Definition nn_descent_graph (fuel : nat) (draws : list nat) (k : option nat) : res (list (list entry)) :=
  let! k := match k with
            | Some k => Ok k
            | None => match V with [] => Err ValueError | _ => Ok (Nat.log2 (length V)) end
            end in
  let! B := initial_loop draws k (seq 0 (length V)) in
  descend fuel B.

Definition nn_descent_with (fuel : nat) (draws : list nat) (k : option nat) (radius : Q) (lo : nat) (hi : option nat) (mode : string)
  : res (list (list A)) :=
  let! B := nn_descent_graph fuel draws k in
  let! clusters := clusters_from_pairs set_order (links radius B) lo hi mode true in
  mapM (mapM (index V)) clusters.
End NNDescent.

(** without a similarity nor a distance, calling None fails: it is called when the first item has been given its sample, if there
    is an item and a neighbor to look for, and otherwise it is never called *)
Definition call_none {A X} (V : list A) (draws : list nat) (k : option nat) (never : res X) : res X :=
  let! k := match k with
            | Some k => Ok k
            | None => match V with [] => Err ValueError | _ => Ok (Nat.log2 (length V)) end
            end in
  if Nat.eqb (length V * k) 0 then never else let! _ := sample_loop draws k 0 [] in Err TypeError.

(** nn_descent.py:60-168 *)
Definition nn_descent {A} set_order heapify heapreplace (similarity distance : option (A -> A -> Q)) (V : list A) (fuel : nat)
    (draws : list nat) (k : option nat) (radius : Q) (lo : nat) (hi : option nat) (mode : string) : res (list (list A)) :=
  match distance, similarity with
  | Some d, _ => nn_descent_with set_order heapify heapreplace (fun x y => - d x y)%Q V fuel draws k (- radius)%Q lo hi mode
  | None, Some s => nn_descent_with set_order heapify heapreplace s V fuel draws k radius lo hi mode
  | None, None => call_none V draws k (nn_descent_with set_order heapify heapreplace (fun _ _ => 0%Q) V fuel draws k radius lo hi mode)
  end.

(** ** nn_descent_full.  An entry is (similarity, (position, flag)).  A value drawn by randint(lo, hi) is given by any number,
    taken modulo the size of the range.
    The numbers drawn after the initial samples are a stream of their own, [later], read at increasing times. *)
Notation entry_full := (Q * (nat * bool))%type.

(** nn_descent.py:171-182, from [i] for [n] more swaps *)
Fixpoint shuffle_loop {X} (later : nat -> nat) (t : nat) (L : list X) (n i : nat) {struct n} : res (list X * nat) :=
  match n with
  | 0 => Ok (L, t)
  | S n =>
    if Nat.leb (length L) i then Err ValueError
    else
      let r := i + later t mod (length L - i) in
      let! v := index L r in
      let! w := index L i in
      shuffle_loop later (t + 1) (upd (upd L r w) i v) n (i + 1)
  end.

(** L[0:k], where a negative k is counted from the end *)
Definition slice_to {X} (L : list X) (k : Z) : list X := firstn (Z.to_nat (if (k <? 0)%Z then Z.of_nat (length L) + k else k)) L.

(** nn_descent.py:185-198; a negative k makes no swap *)
Definition sample_full {X} (later : nat -> nat) (t : nat) (L : list X) (k : Z) : res (list X * nat) :=
  if (Z.of_nat (length L) <=? k)%Z then Ok (L, t)
  else let! (L, t) := shuffle_loop later t L (Z.to_nat k) 0 in Ok (slice_to L k, t).

(** int(q) *)
Definition towards_zero (q : Q) : Z := if Qle_bool 0 q then Qfloor q else (- Qfloor (- q))%Z.

(** nn_descent.py:201-216, the list of one position *)
Definition reverse_full (sets : list (list nat)) (i : nat) : list nat :=
  flat_map (fun '(k, set) => if memb i set then [k] else []) (enumerate sets).

Section Full.
Context {A : Type} `{EqDec A}.
Variable set_order : list nat -> list nat.
Variable heapify : list entry_full -> list entry_full.
Variable heapreplace : list entry_full -> entry_full -> list entry_full.
Variable similarity : A -> A -> Q.
Variable V : list A.
Variable later : nat -> nat.
Notation sim_at := (sim_at similarity V).

(** nn_descent.py:284-288 *)
Fixpoint initial_full (draws : list nat) (k : nat) (items : list nat) : res (list (list entry_full)) :=
  match items with
  | [] => Ok []
  | i :: items =>
    let! (sampled, draws) := sample_loop draws k i [] in
    let! neighbors := mapM (fun j => let! s := sim_at i j in Ok (s, (j, true))) (set_order sampled) in
    let! B := initial_full draws k items in
    Ok (heapify neighbors :: B)
  end.

(** nn_descent.py:296-315: the neighbor list of one item, with the old ones, the new ones that are sampled and the list once
    the new ones that are not sampled are flagged as old *)
Definition sampling (t : nat) (rhoK : Z) (h : list entry_full) : res (list entry_full * list nat * list nat * nat) :=
  let o := set_of (flat_map (fun '(_, (j, flag)) => if flag : bool then [] else [j]) h) in
  let n := flat_map (fun '(p, (_, (j, flag))) => if flag : bool then [(p, j)] else []) (enumerate h) in
  let! (s, t) := sample_full later t n rhoK in
  let h := map (fun '(p, (q, (j, flag))) => (q, (j, andb flag (memb (p, j) s)))) (enumerate h) in
  Ok (h, o, set_of (map snd s), t).

Fixpoint samplings (t : nat) (rhoK : Z) (B : list (list entry_full))
  : res (list (list entry_full) * list (list nat) * list (list nat) * nat) :=
  match B with
  | [] => Ok ([], [], [], t)
  | h :: B =>
    let! (h, o, n, t) := sampling t rhoK h in
    let! (B, old, new, t) := samplings t rhoK B in
    Ok (h :: B, o :: old, n :: new, t)
  end.

(** nn_descent.py:336-338 and the like *)
Definition insert_full (u v : nat) (s : Q) (Bc : list (list entry_full) * nat) : res (list (list entry_full) * nat) :=
  let '(B, c) := Bc in
  let! h := index B u in
  match h with
  | [] => Err IndexError
  | (worst, _) :: _ => if Qle_bool s worst then Ok (B, c) else Ok (upd B u (heapreplace h (s, (v, true))), c + 1)
  end.

(** nn_descent.py:334-342 and 349-357 *)
Definition compare_full (u1 : nat) (Bc : list (list entry_full) * nat) (u2 : nat) : res (list (list entry_full) * nat) :=
  let! s := sim_at u1 u2 in
  let! Bc := insert_full u1 u2 s Bc in
  insert_full u2 u1 s Bc.

(** nn_descent.py:321-357, for one item *)
Definition join_full (rhoK : Z) (old new : list (list nat)) (st : list (list entry_full) * nat * nat) (i : nat)
  : res (list (list entry_full) * nat * nat) :=
  let '(B, c, t) := st in
  let! o := index old i in
  let! n := index new i in
  let! (os, t) := sample_full later t (reverse_full old i) rhoK in
  let! (ns, t) := sample_full later t (reverse_full new i) rhoK in
  let o := set_order (fold_left sadd os o) in
  let n := set_order (fold_left sadd ns n) in
  let! Bc := foldM (fun Bc u1 =>
    let! Bc := foldM (fun Bc u2 => if Nat.leb u2 u1 then Ok Bc else compare_full u1 Bc u2) n Bc in
    foldM (fun Bc u2 => if Nat.eqb u1 u2 then Ok Bc else compare_full u1 Bc u2) o Bc) n (B, c) in
  Ok (fst Bc, snd Bc, t).

(** nn_descent.py:293-357 *)
Definition turn_full (t : nat) (rhoK : Z) (B : list (list entry_full)) : res (list (list entry_full) * nat * nat) :=
  let! (B, old, new, t) := samplings t rhoK B in
  foldM (join_full rhoK old new) (seq 0 (length V)) (B, 0, t).

(** nn_descent.py:290-357; the threshold is delta * NK *)
Fixpoint descend_full (fuel : nat) (t : nat) (rhoK : Z) (threshold : Q) (c : nat) (B : list (list entry_full)) : res (list (list entry_full)) :=
  match fuel with
  | 0 => Err OutOfFuel
  | S fuel =>
    if Qle_bool threshold (inject_Z (Z.of_nat c)) then
      let! (B, c, t) := turn_full t rhoK B in descend_full fuel t rhoK threshold c B
    else Ok B
  end.

(** nn_descent.py:359-363 *)
Definition links_full (radius : Q) (B : list (list entry_full)) : list (nat * nat) :=
  flat_map (fun '(i, neighbors) => flat_map (fun '(s, (j, _)) => if Qle_bool radius s then [(i, j)] else []) neighbors) (enumerate B).

(** nn_descent.py:219-374, once the similarity is chosen *)
Definition nn_descent_full_with (fuel : nat) (draws : list nat) (k : option nat) (radius rho delta : Q) (lo : nat) (hi : option nat) (mode : string)
  : res (list (list A)) :=
  let! k := match k with
            | Some k => Ok k
            | None => match V with [] => Err ValueError | _ => Ok (Nat.log2 (length V)) end
            end in
  let NK := length V * k in
  let rhoK := towards_zero (rho * inject_Z (Z.of_nat k)) in
  let! B := initial_full draws k (seq 0 (length V)) in
  let! B := descend_full fuel 0 rhoK (delta * inject_Z (Z.of_nat NK)) NK B in
  let! clusters := clusters_from_pairs set_order (links_full radius B) lo hi mode true in
  mapM (mapM (index V)) clusters.
End Full.

Definition nn_descent_full {A} set_order heapify heapreplace (similarity distance : option (A -> A -> Q)) (V : list A) (fuel : nat)
    (draws : list nat) (later : nat -> nat) (k : option nat) (radius rho delta : Q) (lo : nat) (hi : option nat) (mode : string) : res (list (list A)) :=
  match distance, similarity with
  | Some d, _ => nn_descent_full_with set_order heapify heapreplace (fun x y => - d x y)%Q V later fuel draws k (- radius)%Q rho delta lo hi mode
  | None, Some s => nn_descent_full_with set_order heapify heapreplace s V later fuel draws k radius rho delta lo hi mode
  | None, None => call_none V draws k (nn_descent_full_with set_order heapify heapreplace (fun _ _ => 0%Q) V later fuel draws k radius rho delta lo hi mode)
  end.
