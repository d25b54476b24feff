(** Model of fog/clustering/quickjoin.py.  Distances are rationals ([Q]); numbers drawn at random are a list that is consumed. *)
From Coq Require Import QArith Qabs String.
From Verif Require Import Base ClustersModel PairwiseModel LevModel.
Open Scope nat_scope.
Open Scope list_scope.
Notation length := List.length.

(** what a block compares: a list with itself (python: (S, None)) or two lists with each other *)
Inductive block (A : Type) := Self (s : list A) | Cross (s1 s2 : list A).
Arguments Self {A} s.
Arguments Cross {A} s1 s2.

(** the function used: parameters distance and similarity of quickjoin, of which the second prevails (quickjoin.py:236-238).
    Giving none of them (a TypeError once a pair is compared) is left out. *)
Inductive measure (A : Type) := Distance (d : A -> A -> Q) | Similarity (s : A -> A -> Q).
Arguments Distance {A} d.
Arguments Similarity {A} s.

Section QuickJoin.
Context {A : Type} `{EqDec A}.
Variable distance : A -> A -> Q.
Variable radius : Q.

(** quickjoin.py:40-63 *)
Fixpoint partition (items : list A) (p : A) (rho : Q) : list A * list A * list A * list A :=
  match items with
  | [] => ([], [], [], [])
  | item :: items =>
    let '(L, G, Lw, Gw) := partition items p rho in
    let d := distance p item in
    if negb (Qle_bool rho d) then
      (item :: L, G, (if Qle_bool (rho - radius) d then item :: Lw else Lw), Gw)
    else
      (L, item :: G, Lw, (if Qle_bool d (rho + radius) then item :: Gw else Gw))
  end.

(** quickjoin.py:66-74 *)
Definition quickjoin_bruteforce (S1 S2 : list A) : list (A * A) :=
  flat_map (fun a => flat_map (fun b => if Qle_bool (distance a b) radius then [(a, b)] else []) S2) S1.

(** quickjoin.py:77-87 *)
Fixpoint quickjoin_self_bruteforce (items : list A) : list (A * A) :=
  match items with
  | [] => []
  | a :: items =>
    flat_map (fun b => if Qle_bool (distance a b) radius then [(a, b)] else []) items ++ quickjoin_self_bruteforce items
  end.

(** phylactery's VPTree(S, distance).neighbors_in_radius(item, radius): external *)
Variable neighbors_in_radius : list A -> A -> list A.
(** id(item); equal items are taken to be one object *)
Variable identity : A -> nat.

(** quickjoin.py:90-107 *)
Definition quickjoin_vptree (S1 S2 : list A) : res (list (A * A)) :=
  let '(S1, S2) := if Nat.ltb (length S2) (length S1) then (S2, S1) else (S1, S2) in
  if Nat.eqb (length S1) 1 then
    let! b := index S1 0 in
    Ok (flat_map (fun a => if Qle_bool (distance a b) radius then [(a, b)] else []) S2)
  else
    Ok (flat_map (fun a => map (fun b => (a, b)) (neighbors_in_radius S1 a)) S2).

(** quickjoin.py:110-123 *)
Definition quickjoin_self_vptree (items : list A) : list (A * A) :=
  if Nat.eqb (length items) 1 then []
  else
    flat_map (fun a =>
      flat_map (fun b =>
        if eq_dec a b then []
        else if Nat.ltb (identity a) (identity b) then [(a, b)] else [])
        (neighbors_in_radius items a))
      items.

(** quickjoin.py:137-148: the array [P], filled row by row; the pairs are given in the order of the loops *)
Definition pivot_distances (S1 S2 : list A) (k : nat) : res (list Q * list (A * A)) :=
  let n2 := length S2 in
  fold_left (fun acc i =>
    let! (P, out) := acc in
    let! a := index S1 i in
    fold_left (fun acc j =>
      let! (P, out) := acc in
      let! b := index S2 j in
      let d := distance a b in
      if Nat.ltb (i * n2 + j) (length P) then
        Ok (upd P (i * n2 + j) d, out ++ (if Qle_bool d radius then [(a, b)] else []))
      else Err IndexError)
      (seq 0 n2) (Ok (P, out)))
    (seq 0 k) (Ok (repeat 0%Q (n2 * k), [])).

(** quickjoin.py:162-165: the loop that may set f and break *)
Fixpoint discarded (P D : list Q) (n2 j : nat) (ls : list nat) : res bool :=
  match ls with
  | [] => Ok false
  | l :: ls =>
    let! x := index P (l * n2 + j) in
    let! y := index D l in
    if negb (Qle_bool (Qabs (x - y)) radius) then Ok true else discarded P D n2 j ls
  end.

(** quickjoin.py:126-168 *)
Definition quickjoin_join_pivots (S1 S2 : list A) : res (list (A * A)) :=
  let n1 := length S1 in
  let n2 := length S2 in
  let k := Nat.max 1 (Nat.min 16 (n1 / 8)) in
  let! (P, out) := pivot_distances S1 S2 k in
  let! more := mapM (fun i =>
    let! a := index S1 i in
    let! D := mapM (fun l => let! p := index S1 l in Ok (distance p a)) (seq 0 k) in
    let! found := mapM (fun j =>
      let! b := index S2 j in
      let! f := discarded P D n2 j (seq 0 k) in
      Ok (if negb f && Qle_bool (distance a b) radius then [(a, b)] else []))
      (seq 0 n2) in
    Ok (concat found))
    (seq k (n1 - k)) in
  Ok (out ++ concat more).

(** rng.randint(0, n - 1): any number below n *)
Definition randint (n : nat) (draws : list nat) : res (nat * list nat) :=
  match n, draws with
  | 0, _ => Err ValueError
  | _, [] => Err OutOfFuel
  | _, d :: draws => Ok (d mod n, draws)
  end.

(** quickjoin.py:262-263 and 295-296 *)
Fixpoint draw_other (n p1 : nat) (draws : list nat) : res (nat * list nat) :=
  match draws with
  | [] => Err OutOfFuel
  | d :: draws =>
    if Nat.eqb p1 (d mod n) then draw_other n p1 draws else Ok (d mod n, draws)
  end.

(** quickjoin.py:241-309; the head of [stack] is its last item.  The numbers not drawn are given back. *)
Fixpoint blocks (beta : Q) (block_size : nat) (fuel : nat) (stack : list (block A)) (draws : list nat)
  : res (list (block A) * list nat) :=
  match stack, fuel with
  | [], _ => Ok ([], draws)
  | _, 0 => Err OutOfFuel
  | Self items :: stack, S fuel =>
    let n := length items in
    if Nat.leb n block_size then
      let! (out, draws) := blocks beta block_size fuel stack draws in
      Ok (Self items :: out, draws)
    else
      let! (i1, draws) := randint n draws in
      let! (i2, draws) := draw_other n i1 draws in
      let! p1 := index items i1 in
      let! p2 := index items i2 in
      let rho := (beta * distance p1 p2)%Q in
      let '(L, G, Lw, Gw) := partition items p1 rho in
      blocks beta block_size fuel (Cross Lw Gw :: Self L :: Self G :: stack) draws
  | Cross S1 S2 :: stack, S fuel =>
    let n1 := length S1 in
    let n2 := length S2 in
    let n := n1 + n2 in
    if Nat.leb n block_size then
      if Nat.eqb n1 0 || Nat.eqb n2 0 then blocks beta block_size fuel stack draws
      else
        let! (out, draws) := blocks beta block_size fuel stack draws in
        Ok (Cross S1 S2 :: out, draws)
    else
      let! (i1, draws) := randint n draws in
      let! (i2, draws) := draw_other n i1 draws in
      let! p1 := (if Nat.ltb i1 n1 then index S1 i1 else index S2 (i1 - n1)) in
      let! p2 := (if Nat.ltb i2 n1 then index S1 i2 else index S2 (i2 - n1)) in
      let rho := (beta * distance p1 p2)%Q in
      let '(L1, G1, Lw1, Gw1) := partition S1 p1 rho in
      let '(L2, G2, Lw2, Gw2) := partition S2 p1 rho in
      blocks beta block_size fuel (Cross Gw1 Lw2 :: Cross Lw1 Gw2 :: Cross G1 G2 :: Cross L1 L2 :: stack) draws
  end.

(** quickjoin.py:171-188 (select_block_functions, worker) and 314-320: the pairs of a block *)
Definition solve (vp_tree : bool) (b : block A) : res (list (A * A)) :=
  match b with
  | Self items => Ok (if vp_tree then quickjoin_self_vptree items else quickjoin_self_bruteforce items)
  | Cross S1 S2 => if vp_tree then quickjoin_vptree S1 S2 else Ok (quickjoin_bruteforce S1 S2)
  end.

(** quickjoin.py:312-332; [unordered]: the order in which pool.imap_unordered gives back the results of the workers *)
Definition clustering (unordered : list (list (A * A)) -> list (list (A * A)))
    (beta : Q) (block_size processes : nat) (vp_tree : bool) (fuel : nat) (data : list A) (draws : list nat)
  : res (list (A * A)) :=
  let! (bs, _) := blocks beta block_size fuel [Self data] draws in
  let! found := mapM (solve vp_tree) bs in
  Ok (concat (if Nat.eqb processes 1 then found else unordered found)).
End QuickJoin.

(** quickjoin.py:191-340.  [draws] and [fuel]: what the generator gives, and a bound on the number of iterations;
    [neighbors] is given the distance and the radius of the tree.
    [processes]: at least 1 (Pool raises ValueError for 0).  dill and pickle keep functions and items as they are. *)
Definition quickjoin {A} `{EqDec A} (set_order : list A -> list A)
    (neighbors : (A -> A -> Q) -> Q -> list A -> A -> list A) (identity : A -> nat)
    (unordered : list (list (A * A)) -> list (list (A * A)))
    (fuel : nat) (draws : list nat) (data : list A) (radius : Q) (m : measure A) (block_size lo : nat) (hi : option nat)
    (mode : string) (processes : nat) (beta : Q) (vp_tree : bool) : res (list (list A)) :=
  let '(distance, radius) :=
    match m with
    | Distance d => (d, radius)
    | Similarity s => ((fun x y => - s x y)%Q, (- radius)%Q)
    end in
  let! pairs := clustering distance radius (neighbors distance radius) identity unordered beta block_size processes vp_tree fuel data draws in
  clusters_from_pairs set_order pairs lo hi mode true.
