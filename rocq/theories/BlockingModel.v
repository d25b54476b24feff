(** Model of fog/clustering/blocking.py, key_collision.py and intersection_index.py *)
From Coq Require Import String QArith.
From Verif Require Import Base ClustersModel PairwiseModel.
Open Scope nat_scope.
Open Scope string_scope.
Open Scope list_scope.
Notation length := List.length.
Notation concat := List.concat.

Section Blocking.
Context {A B : Type} `{EqDec A} `{EqDec B}.
(** iteration orders of sets of items and of sets of blocks *)
Variable set_order : list A -> list A.
Variable block_order : list B -> list B.
(** the result of make_similarity_function *)
Variable similarity : A -> A -> bool.

(** blocking.py:21-47 block_worker.  [graph] is either None or the dictionary [worker_graph], which
    nothing ever fills: the test of line 41 always fails and is left out. *)
Definition block_worker (block : list A) : list (A * A) :=
  filter (fun p => similarity (fst p) (snd p)) (bucket_pairs block).

(** blocking.py:106-110: one block per item *)
Definition dispatch_block (block : A -> B) (data : list A) : dict B (list A) :=
  fold_left (fun buckets item => dmodify buckets (block item) [] (fun l => l ++ [item])) data [].

(** blocking.py:106-115: several blocks per item, read from a set *)
Definition dispatch_blocks (blocks : A -> list B) (data : list A) : dict B (list A) :=
  fold_left (fun buckets item =>
      fold_left (fun buckets b => dmodify buckets b [] (fun l => l ++ [item]))
        (block_order (set_of (blocks item))) buckets)
    data [].

(** blocking.py:118-141.  [arrival]: None for processes = 1, else the reordering of the results of
    [imap_unordered] *)
Definition blocking_pairs (buckets : dict B (list A))
    (arrival : option (list (list (A * A)) -> list (list (A * A)))) : list (A * A) :=
  let results := map block_worker (filter (fun bucket => Nat.ltb 1 (length bucket)) (dvalues buckets)) in
  match arrival with
  | None => concat results
  | Some reorder => concat (reorder results)
  end.

(** blocking.py:50-149 blocking; [inl block] or [inr blocks] *)
Definition blocking (how : (A -> B) + (A -> list B)) (data : list A) (lo : nat) (hi : option nat)
    (arrival : option (list (list (A * A)) -> list (list (A * A)))) (mode : string)
    : res (list (list A)) :=
  match how with
  | inl block =>
    clusters_from_pairs set_order (blocking_pairs (dispatch_block block data) arrival) lo hi mode false
  | inr blocks =>
    clusters_from_pairs set_order (blocking_pairs (dispatch_blocks blocks data) arrival) lo hi mode true
  end.
End Blocking.

Section KeyCollision.
Context {A K : Type} `{EqDec A} `{EqDec K}.
Variable set_order : list A -> list A.
(** truth value of keys *)
Variable truthy : K -> bool.

(** key_collision.py:58-63 *)
Definition collect_key (key : A -> K) (data : list A) : dict K (list A) :=
  fold_left (fun buckets item =>
      if truthy (key item) then dmodify buckets (key item) [] (fun l => l ++ [item]) else buckets)
    data [].

(** key_collision.py:66-75.  [None] (as an empty collection) is falsey and skipped; repeated keys
    repeat the item in the bucket. *)
Definition collect_keys (keys : A -> option (list K)) (data : list A) : dict K (list A) :=
  fold_left (fun buckets item =>
      match keys item with
      | None => buckets
      | Some ks =>
        fold_left (fun buckets k =>
            if truthy k then dmodify buckets k [] (fun l => l ++ [item]) else buckets)
          ks buckets
      end)
    data [].

(** key_collision.py:82-86 *)
Definition buckets_within (buckets : dict K (list A)) (lo : nat) (hi : option nat) : list (list A) :=
  filter (fun c => negb (Nat.ltb (length c) lo || negb (le_max (length c) hi))) (dvalues buckets).

(** key_collision.py:15-86 key_collision with [key] *)
Definition key_collision_key (key : A -> K) (data : list A) (lo : nat) (hi : option nat)
    : list (list A) :=
  buckets_within (collect_key key data) lo hi.

(** key_collision.py:15-86 key_collision with [keys].  Line 79 does not hand min_size nor max_size
    over: clusters_from_buckets uses its defaults, 2 and infinity. *)
Definition key_collision_keys (keys : A -> option (list K)) (data : list A) (lo : nat) (hi : option nat)
    (merge : bool) : res (list (list A)) :=
  if merge
  then clusters_from_buckets set_order (dvalues (collect_keys keys data)) 2 None
         "connected_components" None true
  else Ok (buckets_within (collect_keys keys data) lo hi).
End KeyCollision.

Section IntersectionIndex.
Context {A T : Type} `{EqDec T}.
Variable token_order : list T -> list T.

(** intersection_index.py:84 intersections[i][j] += 1 *)
Definition bump (inter : dict nat (dict nat nat)) (i j : nat) : dict nat (dict nat nat) :=
  dmodify inter i [] (fun c => dmodify c j 0 (fun n => n + 1)).

(** intersection_index.py:81-86 *)
Definition index_shingle (i : nat) (st : dict T (list nat) * dict nat (dict nat nat)) (shingle : T)
    : dict T (list nat) * dict nat (dict nat nat) :=
  let '(buckets, inter) := st in
  let bucket := match dget buckets shingle with Some b => b | None => [] end in
  (dmodify buckets shingle [] (fun b => b ++ [i]),
   fold_left (fun inter j => bump inter i j) bucket inter).

(** intersection_index.py:73-86; the items come with their position *)
Definition build_intersections (shingles : list (nat * list T))
    : dict T (list nat) * dict nat (dict nat nat) :=
  fold_left (fun st p => fold_left (index_shingle (fst p)) (snd p) st) shingles ([], []).

(** intersection_index.py:88-103; [I / U] is the exact quotient.  [jaccard] is [metric == 'jaccard']. *)
Definition passes (jaccard : bool) (radius : Q) (size_i size_j I : nat) : bool :=
  let d := if jaccard then (Z.of_nat size_i + Z.of_nat size_j - Z.of_nat I)%Z
           else Z.of_nat (Nat.min size_i size_j) in
  Qle_bool radius (inject_Z (Z.of_nat I) / inject_Z d).

(** intersection_index.py:73-103: the pairs of positions *)
Definition intersection_pairs (jaccard : bool) (radius : Q) (keys : list (list T)) : list (nat * nat) :=
  let shingles := map (fun item => token_order (set_of item)) keys in
  let sizes := map (@length T) shingles in
  flat_map (fun '(i, neighbors) =>
      flat_map (fun '(j, n) =>
          if passes jaccard radius (nth i sizes 0) (nth j sizes 0) n then [(i, j)] else [])
        neighbors)
    (snd (build_intersections (enumerate shingles))).

(** intersection_index.py:23-113 intersection_index.  [key] gives the tokens of an item. *)
Definition intersection_index (set_order : list nat -> list nat) (data : list A) (metric : string)
    (radius : Q) (key : A -> list T) (lo : nat) (hi : option nat) (mode : string)
    : res (list (list A)) :=
  if string_dec metric "jaccard" then
    let! out := clusters_from_pairs set_order (intersection_pairs true radius (map key data)) lo hi mode false in
    mapM (mapM (index data)) out
  else if string_dec metric "overlap" then
    let! out := clusters_from_pairs set_order (intersection_pairs false radius (map key data)) lo hi mode false in
    mapM (mapM (index data)) out
  else Err TypeError.
End IntersectionIndex.
