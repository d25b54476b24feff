(** The functions of fog that take a seed, with the generator of python's module random (an integer seed; without one, the generator starts
    from the entropy of the system, and the models with arbitrary draws apply).
    [tries] bounds the draws of one number, python has no bound. *)
From Coq Require Import QArith String.
From Verif Require Import Base ClustersModel PairwiseModel LevModel GraphModel MinHashModel QuickJoinModel NNDescentModel SpaceModel RandomModel DigestModel.
Open Scope nat_scope.
Open Scope list_scope.
Notation length := List.length.
Notation MAX_UINT32 := MinHashModel.MAX_UINT32.

(** ** lsh/minhash.py:77-86, 203-214: the loop, and both constructors; the first number of a pair is drawn first *)
Definition draw_pair (tries : nat) (g : rng) : res ((N * N) * rng) :=
  let! (a, g) := RandomModel.randint tries 1 (Z.of_N MAX_UINT32) g in
  let! (b, g) := RandomModel.randint tries 0 (Z.of_N MAX_UINT32) g in
  Ok ((Z.to_N a, Z.to_N b), g).
Fixpoint seeded_loop (tries fuel : nat) (h : nat) (params : list (N * N)) (g : rng) : res (list (N * N)) :=
  if Nat.ltb (length params) h then
    match fuel with
    | O => Err OutOfFuel
    | S fuel => let! (p, g) := draw_pair tries g in seeded_loop tries fuel h (sadd params p) g
    end
  else Ok params.
Definition seeded_params (params_order : list (N * N) -> list (N * N)) (tries fuel : nat) (a : Z) (h : nat) : res (list (N * N)) :=
  let! params := seeded_loop tries fuel h [] (seed a) in Ok (params_order params).
(** lsh/minhash.py:92-134 and 217-250 with these parameters and the crc32 of tokens *)
Definition seeded_signature params_order set_order (tries fuel : nat) (a : Z) (h : nat) (x : sequence str) : res (list N) :=
  let! params := seeded_params params_order tries fuel a h in signature_of set_order params h x.

(** ** lsh/minhash.py:163-167: the j-th number after rng.seed(token) *)
Definition token_draw (token : N) (j : nat) : Q := fst (random (Nat.iter j (fun g => snd (random g)) (seed (Z.of_N token)))).
Definition seeded_super (set_order : list N -> list N) (m : nat) (x : sequence str) : res (list Z) :=
  let! _ := match x with Text _ => Ok [] | Tokens l => mapM crc32 l end in
  super_signature checksum set_order token_draw m x.

(** ** rng.randint(0, n - 1), as a position *)
Definition draw_position (tries n : nat) (g : rng) : res (nat * rng) :=
  let! (r, g) := RandomModel.randint tries 0 (Z.of_nat n - 1) g in Ok (Z.to_nat r, g).

(** ** clustering/nn_descent.py:27-43 *)
Fixpoint sample_seeded (tries fuel : nat) (N k i : nat) (S : list nat) (g : rng) : res (list nat * rng) :=
  if Nat.leb k (length S) then Ok (S, g)
  else match fuel with
       | 0 => Err OutOfFuel
       | Datatypes.S fuel =>
         let! (r, g) := draw_position tries N g in
         if Nat.eqb r i then sample_seeded tries fuel N k i S g else sample_seeded tries fuel N k i (sadd S r) g
       end.
Section Descent.
Context {A : Type} `{EqDec A}.
Variable set_order : list nat -> list nat.
Variable heapify : list entry -> list entry.
Variable heapreplace : list entry -> entry -> list entry.
Variable similarity : A -> A -> Q.
Variable V : list A.
(** nn_descent.py:117-120 *)
Fixpoint initial_seeded (tries fuel : nat) (k : nat) (items : list nat) (g : rng) : res (list (list entry)) :=
  match items with
  | [] => Ok []
  | i :: items =>
    let! (sampled, g) := sample_seeded tries fuel (length V) k i [] g in
    let! neighbors := mapM (fun j => let! s := sim_at similarity V i j in Ok (s, j)) (set_order sampled) in
    let! B := initial_seeded tries fuel k items g in
    Ok (heapify neighbors :: B)
  end.
(** nn_descent.py:96-168 *)
Definition descent_seeded (tries fuel turns : nat) (a : Z) (k : option nat) (radius : Q) (lo : nat) (hi : option nat) (mode : string) : res (list (list A)) :=
  let! k := match k with
            | Some k => Ok k
            | None => match V with [] => Err ValueError | _ => Ok (Nat.log2 (length V)) end
            end in
  let! B := initial_seeded tries fuel k (seq 0 (length V)) (seed a) in
  let! B := descend set_order heapreplace similarity V turns B in
  let! clusters := clusters_from_pairs set_order (links radius B) lo hi mode true in
  mapM (mapM (index V)) clusters.
End Descent.
(** without a similarity nor a distance, as in NNDescentModel *)
Definition call_none_seeded {A X} (V : list A) (tries fuel : nat) (a : Z) (k : option nat) (never : res X) : res X :=
  let! k := match k with
            | Some k => Ok k
            | None => match V with [] => Err ValueError | _ => Ok (Nat.log2 (length V)) end
            end in
  if Nat.eqb (length V * k) 0 then never else let! _ := sample_seeded tries fuel (length V) k 0 [] (seed a) in Err TypeError.
Definition nn_descent_seeded {A} set_order heapify heapreplace (similarity distance : option (A -> A -> Q)) (V : list A) (tries fuel turns : nat)
    (a : Z) (k : option nat) (radius : Q) (lo : nat) (hi : option nat) (mode : string) : res (list (list A)) :=
  match distance, similarity with
  | Some d, _ => descent_seeded set_order heapify heapreplace (fun x y => - d x y)%Q V tries fuel turns a k (- radius)%Q lo hi mode
  | None, Some s => descent_seeded set_order heapify heapreplace s V tries fuel turns a k radius lo hi mode
  | None, None => call_none_seeded V tries fuel a k (descent_seeded set_order heapify heapreplace (fun _ _ => 0%Q) V tries fuel turns a k radius lo hi mode)
  end.

(** ** clustering/quickjoin.py:262-263 and 295-296 *)
Fixpoint other_seeded (tries fuel : nat) (n p1 : nat) (g : rng) : res (nat * rng) :=
  match fuel with
  | 0 => Err OutOfFuel
  | S fuel => let! (p2, g) := draw_position tries n g in if Nat.eqb p1 p2 then other_seeded tries fuel n p1 g else Ok (p2, g)
  end.
Section Quick.
Context {A : Type} `{EqDec A}.
Variable distance : A -> A -> Q.
Variable radius : Q.
(** quickjoin.py:241-309 *)
Fixpoint blocks_seeded (tries : nat) (beta : Q) (block_size : nat) (fuel : nat) (stack : list (block A)) (g : rng) : res (list (block A) * rng) :=
  match stack, fuel with
  | [], _ => Ok ([], g)
  | _, 0 => Err OutOfFuel
  | Self items :: stack, S fuel =>
    let n := length items in
    if Nat.leb n block_size then
      let! (out, g) := blocks_seeded tries beta block_size fuel stack g in
      Ok (Self items :: out, g)
    else
      let! (i1, g) := draw_position tries n g in
      let! (i2, g) := other_seeded tries tries n i1 g in
      let! p1 := index items i1 in
      let! p2 := index items i2 in
      let rho := (beta * distance p1 p2)%Q in
      let '(L, G, Lw, Gw) := partition distance radius items p1 rho in
      blocks_seeded tries beta block_size fuel (Cross Lw Gw :: Self L :: Self G :: stack) g
  | Cross S1 S2 :: stack, S fuel =>
    let n1 := length S1 in
    let n2 := length S2 in
    let n := n1 + n2 in
    if Nat.leb n block_size then
      if Nat.eqb n1 0 || Nat.eqb n2 0 then blocks_seeded tries beta block_size fuel stack g
      else
        let! (out, g) := blocks_seeded tries beta block_size fuel stack g in
        Ok (Cross S1 S2 :: out, g)
    else
      let! (i1, g) := draw_position tries n g in
      let! (i2, g) := other_seeded tries tries n i1 g in
      let! p1 := (if Nat.ltb i1 n1 then index S1 i1 else index S2 (i1 - n1)) in
      let! p2 := (if Nat.ltb i2 n1 then index S1 i2 else index S2 (i2 - n1)) in
      let rho := (beta * distance p1 p2)%Q in
      let '(L1, G1, Lw1, Gw1) := partition distance radius S1 p1 rho in
      let '(L2, G2, Lw2, Gw2) := partition distance radius S2 p1 rho in
      blocks_seeded tries beta block_size fuel (Cross Gw1 Lw2 :: Cross Lw1 Gw2 :: Cross G1 G2 :: Cross L1 L2 :: stack) g
  end.
End Quick.
(** quickjoin.py:231-340 *)
Definition quickjoin_seeded {A} `{EqDec A} (set_order : list A -> list A)
    (neighbors : (A -> A -> Q) -> Q -> list A -> A -> list A) (identity : A -> nat)
    (unordered : list (list (A * A)) -> list (list (A * A)))
    (tries fuel : nat) (a : Z) (data : list A) (radius : Q) (m : measure A) (block_size lo : nat) (hi : option nat)
    (mode : string) (processes : nat) (beta : Q) (vp_tree : bool) : res (list (list A)) :=
  let '(distance, radius) :=
    match m with
    | Distance d => (d, radius)
    | Similarity s => ((fun x y => - s x y)%Q, (- radius)%Q)
    end in
  let! (bs, _) := blocks_seeded distance radius tries beta block_size fuel [Self data] (seed a) in
  let! found := mapM (solve distance radius (neighbors distance radius) identity vp_tree) bs in
  clusters_from_pairs set_order (concat (if Nat.eqb processes 1 then found else unordered found)) lo hi mode true.

(** ** clustering/laesa.py:102-154 *)
Definition laesa_seeded {A} `{EqDec A} (set_order : list A -> list A) (pivot_order : list nat -> list nat) (distance : A -> A -> Q) (tries : nat) (a : Z)
    (data : list A) (radius : Q) (pivots : option nat) (lo : nat) (hi : option nat) (mode : string) : res (list (list A)) :=
  let! n := match pivots with
            | Some n => Ok n
            | None => match data with [] => Err ValueError | _ => Ok (Nat.log2_up (length data)) end
            end in
  let! (b, _) := draw_position tries (length data) (seed a) in
  let! (p, D) := pivot_selection pivot_order distance b data n in
  let! ps := mapM (index data) (firstn n p) in
  clusters_from_pairs set_order (laesa_pairs distance data ps D radius) lo hi mode false.
