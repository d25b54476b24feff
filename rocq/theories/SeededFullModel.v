(** nn_descent_full with the generator of python's module random (an integer seed), its heaps (HeapModel) and its floats: [rho * k] and
    [delta * NK] are rounded.  [tries] bounds the draws of one number, [fuel] those of one list of neighbors and [turns] the loop; python has no
    bound.  As in NNDescentModel, [rho] is not negative. *)
From Coq Require Import QArith Qround String.
From Verif Require Import Base ClustersModel PairwiseModel LevModel GraphModel MetricsModel NNDescentModel HeapModel FloatModel RandomModel SeededModel.
Open Scope nat_scope.
Open Scope list_scope.
Notation length := List.length.
Notation entry_full := (Q * (nat * bool))%type.

(** clustering/nn_descent.py:171-182, from [i] for [n] more swaps; rng.randint(i, last_i) *)
Fixpoint shuffle_seeded {X} (tries : nat) (L : list X) (n i : nat) (g : rng) {struct n} : res (list X * rng) :=
  match n with
  | 0 => Ok (L, g)
  | S n =>
    let! (r, g) := randint tries (Z.of_nat i) (Z.of_nat (length L) - 1) g in
    let r := Z.to_nat r in
    let! v := index L r in
    let! w := index L i in
    shuffle_seeded tries (upd (upd L r w) i v) n (i + 1) g
  end.

(** nn_descent.py:185-198 *)
Definition sample_full_seeded {X} (tries : nat) (L : list X) (k : Z) (g : rng) : res (list X * rng) :=
  if (Z.of_nat (length L) <=? k)%Z then Ok (L, g)
  else let! (L, g) := shuffle_seeded tries L (Z.to_nat k) 0 g in Ok (slice_to L k, g).

Section Full.
Context {A : Type} `{EqDec A}.
Variable set_order : list nat -> list nat.
Variable similarity : A -> A -> Q.
Variable V : list A.
Notation sim_at := (sim_at similarity V).

(** nn_descent.py:284-288 *)
Fixpoint initial_full_seeded (tries fuel : nat) (k : nat) (items : list nat) (g : rng) : res (list (list entry_full) * rng) :=
  match items with
  | [] => Ok ([], g)
  | i :: items =>
    let! (sampled, g) := sample_seeded tries fuel (length V) k i [] g in
    let! neighbors := mapM (fun j => let! s := sim_at i j in Ok (s, (j, true))) (set_order sampled) in
    let! (B, g) := initial_full_seeded tries fuel k items g in
    Ok (heapify full_lt neighbors :: B, g)
  end.

(** nn_descent.py:296-315 *)
Definition sampling_seeded (tries : nat) (rhoK : Z) (h : list entry_full) (g : rng) : res (list entry_full * list nat * list nat * rng) :=
  let o := set_of (flat_map (fun '(_, (j, flag)) => if flag : bool then [] else [j]) h) in
  let n := flat_map (fun '(p, (_, (j, flag))) => if flag : bool then [(p, j)] else []) (enumerate h) in
  let! (s, g) := sample_full_seeded tries n rhoK g in
  let h := map (fun '(p, (q, (j, flag))) => (q, (j, andb flag (memb (p, j) s)))) (enumerate h) in
  Ok (h, o, set_of (map snd s), g).
Fixpoint samplings_seeded (tries : nat) (rhoK : Z) (B : list (list entry_full)) (g : rng)
  : res (list (list entry_full) * list (list nat) * list (list nat) * rng) :=
  match B with
  | [] => Ok ([], [], [], g)
  | h :: B =>
    let! (h, o, n, g) := sampling_seeded tries rhoK h g in
    let! (B, old, new, g) := samplings_seeded tries rhoK B g in
    Ok (h :: B, o :: old, n :: new, g)
  end.

(** nn_descent.py:321-357, for one item *)
Definition join_seeded (tries : nat) (rhoK : Z) (old new : list (list nat)) (st : list (list entry_full) * nat * rng) (i : nat)
  : res (list (list entry_full) * nat * rng) :=
  let '(B, c, g) := st in
  let! o := index old i in
  let! n := index new i in
  let! (os, g) := sample_full_seeded tries (reverse_full old i) rhoK g in
  let! (ns, g) := sample_full_seeded tries (reverse_full new i) rhoK g in
  let o := set_order (fold_left sadd os o) in
  let n := set_order (fold_left sadd ns n) in
  let! Bc := foldM (fun Bc u1 =>
    let! Bc := foldM (fun Bc u2 => if Nat.leb u2 u1 then Ok Bc else compare_full (heapreplace full_lt) similarity V u1 Bc u2) n Bc in
    foldM (fun Bc u2 => if Nat.eqb u1 u2 then Ok Bc else compare_full (heapreplace full_lt) similarity V u1 Bc u2) o Bc) n (B, c) in
  Ok (fst Bc, snd Bc, g).

(** nn_descent.py:293-357 *)
Definition turn_seeded (tries : nat) (rhoK : Z) (B : list (list entry_full)) (g : rng) : res (list (list entry_full) * nat * rng) :=
  let! (B, old, new, g) := samplings_seeded tries rhoK B g in
  foldM (join_seeded tries rhoK old new) (seq 0 (length V)) (B, 0, g).

(** nn_descent.py:290-357 *)
Fixpoint descend_seeded (tries turns : nat) (rhoK : Z) (threshold : Q) (c : nat) (B : list (list entry_full)) (g : rng) : res (list (list entry_full)) :=
  match turns with
  | 0 => Err OutOfFuel
  | S turns =>
    if Qle_bool threshold (inject_Z (Z.of_nat c)) then
      let! (B, c, g) := turn_seeded tries rhoK B g in descend_seeded tries turns rhoK threshold c B g
    else Ok B
  end.

(** nn_descent.py:260-374, once the similarity is chosen *)
Definition descent_full_seeded (tries fuel turns : nat) (a : Z) (k : option nat) (radius rho delta : Q) (lo : nat) (hi : option nat) (mode : string)
  : res (list (list A)) :=
  let! k := match k with
            | Some k => Ok k
            | None => match V with [] => Err ValueError | _ => Ok (Nat.log2 (length V)) end
            end in
  let NK := length V * k in
  let rhoK := towards_zero (fmul rho (Qnat k)) in
  let! (B, g) := initial_full_seeded tries fuel k (seq 0 (length V)) (seed a) in
  let! B := descend_seeded tries turns rhoK (fmul delta (Qnat NK)) NK B g in
  let! clusters := clusters_from_pairs set_order (links_full radius B) lo hi mode true in
  mapM (mapM (index V)) clusters.
End Full.

(** nn_descent.py:218-374 *)
Definition nn_descent_full_seeded {A} set_order (similarity distance : option (A -> A -> Q)) (V : list A) (tries fuel turns : nat)
    (a : Z) (k : option nat) (radius rho delta : Q) (lo : nat) (hi : option nat) (mode : string) : res (list (list A)) :=
  match distance, similarity with
  | Some d, _ => descent_full_seeded set_order (fun x y => - d x y)%Q V tries fuel turns a k (- radius)%Q rho delta lo hi mode
  | None, Some s => descent_full_seeded set_order s V tries fuel turns a k radius rho delta lo hi mode
  | None, None => call_none_seeded V tries fuel a k (descent_full_seeded set_order (fun _ _ => 0%Q) V tries fuel turns a k radius rho delta lo hi mode)
  end.
