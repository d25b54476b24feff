(** The functions that take a key, as programs that call it: with which items, how many times, and what has been yielded
    before.  The other models take the key to be pure and total; here it may keep a state, answer differently each time and raise.
    fog/join/hashjoin.py, fog/clustering/key_collision.py, blocking.py, intersection_index.py, sorted_neighborhood.py and minhash.py. *)
From Coq Require Import String QArith.
From Verif Require Import Base ClustersModel PairwiseModel SortModel BlockingModel NeighborhoodModel HashJoinModel MinHashModel
  MetricsModel LevModel CallsModel.
Open Scope nat_scope.
Open Scope string_scope.
Open Scope list_scope.
Notation length := List.length.
Notation concat := List.concat.

(** ** Programs that call two functions of the user *)
Section Two.
Context {Q1 B1 Q2 B2 C : Type}.

(** a program that calls the first function; its answers are its own *)
Fixpoint first {R} (p : prog Q1 B1 C R) : prog (Q1 + Q2) (B1 + B2) C R :=
  match p with
  | Ret r => Ret r
  | Raise e => Raise e
  | Call q k => Call (inl q) (fun b => match b with inl b => first (k b) | inr _ => Raise TypeError end)
  | Yield c p => Yield c (first p)
  end.
(** the second function *)
Fixpoint second {R} (p : prog Q2 B2 C R) : prog (Q1 + Q2) (B1 + B2) C R :=
  match p with
  | Ret r => Ret r
  | Raise e => Raise e
  | Call q k => Call (inr q) (fun b => match b with inr b => second (k b) | inl _ => Raise TypeError end)
  | Yield c p => Yield c (second p)
  end.

(** two functions, which may share a state *)
Definition both {W} (f : @user Q1 B1 W) (g : @user Q2 B2 W) : @user (Q1 + Q2) (B1 + B2) W := fun w q =>
  match q with
  | inl q => let '(w, r) := f w q in (w, match r with Ok b => Ok (inl b) | Err e => Err e end)
  | inr q => let '(w, r) := g w q in (w, match r with Ok b => Ok (inr b) | Err e => Err e end)
  end.
End Two.

(** a loop that calls the function with each item, and keeps the items with the answers *)
Definition ask_each {A B C} (data : list A) : prog A B C (list (A * B)) :=
  for_each data [] (fun l item => Call item (fun b => Ret (l ++ [(item, b)]))).

(** ** hashjoin.py *)
Section HashJoin.
Context {T K : Type} `{EqDec K}.

(** lines 48-58 *)
Fixpoint key_loop (invert : bool) (A : list T) (B : iterable T) : prog T K (T * T) (iterable T) :=
  match A with
  | [] => Ret B
  | a :: A =>
    Call a (fun key_a =>
      let '(bs, B) := consume B in
      do _ <- for_each bs tt (fun _ b => Call b (fun key_b =>
        if eqb key_a key_b then Yield (if invert then (b, a) else (a, b)) (Ret tt) else Ret tt));
      key_loop invert A B)
  end.

(** lines 61-73.  [keys] answers with an iterable, a new one each time; [set(key_a)] consumes it at each turn of the inner loop *)
Fixpoint keys_loop (invert : bool) (A : list T) (B : iterable T) : prog T (iterable K) (T * T) (iterable T) :=
  match A with
  | [] => Ret B
  | a :: A =>
    Call a (fun key_a =>
      let '(bs, B) := consume B in
      do _ <- for_each bs key_a (fun key_a b => Call b (fun key_b =>
        let '(ka, key_a) := consume key_a in
        let '(kb, _) := consume key_b in
        if Nat.ltb 0 (length (filter (fun k => memb k (set_of kb)) (set_of ka)))
        then Yield (if invert then (b, a) else (a, b)) (Ret key_a) else Ret key_a));
      keys_loop invert A B)
  end.

(** lines 11-73; [key], [keys]: whether they are given *)
Definition hashjoin_prog (left right : iterable T) (key keys : bool) : prog (T + T) (K + iterable K) (T * T) unit :=
  let '(A, B, invert) :=
    match len left, len right with
    | Some n, Some m => if Nat.ltb m n then (right, left, true) else (left, right, false)
    | _, _ => (left, right, false)
    end in
  do (A, B) <-
    (if key then let '(As, A) := consume A in do B <- first (key_loop invert As B); Ret (A, B) else Ret (A, B));
  if keys then let '(As, A) := consume A in do _ <- second (keys_loop invert As B); Ret tt else Ret tt.
End HashJoin.

(** ** key_collision.py *)
Section KeyCollision.
Context {A K : Type} `{EqDec A} `{EqDec K}.
Variable set_order : list A -> list A.
Variable truthy : K -> bool.

(** lines 58-63, 81-86 *)
Definition key_collision_key_prog (data : list A) (lo : nat) (hi : option nat) : prog A K (list A) unit :=
  do answers <- ask_each data;
  yield_from (buckets_within (fold_left (fun buckets '(item, k) =>
    if truthy k then dmodify buckets k [] (fun l => l ++ [item]) else buckets) answers []) lo hi).

(** lines 66-86; an answer is None, or an iterable *)
Definition key_collision_keys_prog (data : list A) (lo : nat) (hi : option nat) (merge : bool)
    : prog A (option (list K)) (list A) unit :=
  do answers <- ask_each data;
  let buckets := fold_left (fun buckets '(item, ks) =>
    match ks with
    | None => buckets
    | Some ks => fold_left (fun buckets k => if truthy k then dmodify buckets k [] (fun l => l ++ [item]) else buckets) ks buckets
    end) answers [] in
  if merge
  then do clusters <- lift (clusters_from_buckets set_order (dvalues buckets) 2 None "connected_components" None true);
       yield_from clusters
  else yield_from (buckets_within buckets lo hi).
End KeyCollision.

(** ** blocking.py *)
Section Blocking.
Context {A B : Type} `{EqDec A} `{EqDec B}.
Variable set_order : list A -> list A.
Variable block_order : list B -> list B.

(** lines 117-149, processes = 1 *)
Definition compare_blocks (buckets : dict B (list A)) (graph : option (dict A (list A))) (fuzzy : bool) (lo : nat) (hi : option nat)
    (mode : string) : prog (A * A) bool (list A) unit :=
  clusters_prog set_order
    (for_each (dvalues buckets) [] (fun pairs bucket =>
       if Nat.ltb (length bucket) 2 then Ret pairs
       else do found <- block_worker_prog bucket graph; Ret (pairs ++ found)))
    lo hi mode fuzzy.

(** lines 50-149 with [block] *)
Definition blocking_block_prog (data : list A) (lo : nat) (hi : option nat) (mode : string)
    : prog (A + A * A) (B + bool) (list A) unit :=
  do answers <- first (ask_each data);
  second (compare_blocks (fold_left (fun buckets '(item, b) => dmodify buckets b [] (fun l => l ++ [item])) answers [])
            None false lo hi mode).

(** lines 50-149 with [blocks] *)
Definition blocking_blocks_prog (data : list A) (lo : nat) (hi : option nat) (mode : string)
    : prog (A + A * A) (list B + bool) (list A) unit :=
  do answers <- first (ask_each data);
  second (compare_blocks (fold_left (fun buckets '(item, bs) =>
              fold_left (fun buckets b => dmodify buckets b [] (fun l => l ++ [item])) (block_order (set_of bs)) buckets) answers [])
            (Some []) true lo hi mode).
End Blocking.

(** ** intersection_index.py *)
Section IntersectionIndex.
Context {A T : Type} `{EqDec T}.
Variable token_order : list T -> list T.

(** line 112: yield [data[i] for i in cluster] *)
Fixpoint yield_items {Q B} (data : list A) (l : list (list nat)) : prog Q B (list A) unit :=
  match l with
  | [] => Ret tt
  | c :: l => do c <- lift (mapM (index data) c); Yield c (yield_items data l)
  end.

(** lines 23-113 with [key]; the pairs are those of [intersection_pairs], computed from the answers *)
Definition intersection_prog (set_order : list nat -> list nat) (data : list A) (metric : string) (radius : Q) (lo : nat)
    (hi : option nat) (mode : string) : prog A (list T) (list A) unit :=
  if string_dec metric "jaccard" then
    do answers <- ask_each data;
    do out <- lift (clusters_from_pairs set_order (intersection_pairs token_order true radius (map snd answers)) lo hi mode false);
    yield_items data out
  else if string_dec metric "overlap" then
    do answers <- ask_each data;
    do out <- lift (clusters_from_pairs set_order (intersection_pairs token_order false radius (map snd answers)) lo hi mode false);
    yield_items data out
  else Raise TypeError.
End IntersectionIndex.

(** ** sorted_neighborhood.py *)
Section Neighborhood.
Context {A K P : Type} `{EqDec A}.
Variable set_order : list A -> list A.
(** the comparison of keys, and of items when there is no key *)
Variable key_leb : K -> K -> bool.
Variable item_leb : A -> A -> bool.

(** lines 88, 204: sorted(data, key=k).  [k]: None, or the key function, named by [P]; sorted calls it with each item, in the order
    of the data, then compares the keys only *)
Definition sorted_prog {C} (data : list A) (k : option P) : prog (P * A) K C (list A) :=
  match k with
  | None => Ret (sort_by item_leb data)
  | Some k =>
    do answers <- for_each data [] (fun l item => Call (k, item) (fun b => Ret (l ++ [(item, b)])));
    Ret (map fst (sort_by (fun x y => key_leb (snd x) (snd y)) answers))
  end.

(** lines 82-99 and 198-227: one pass per key; [once]: data is an iterator, which the first pass exhausts; [pass]: what is done with
    the sorted items *)
Fixpoint passes_prog {C} (pass : list (A * A) -> list A -> prog (A * A) bool C (list (A * A))) (once : bool) (data : list A)
    (keys : list (option P)) (pairs : list (A * A)) : prog (P * A + A * A) (K + bool) C (list (A * A)) :=
  match keys with
  | [] => Ret pairs
  | k :: keys =>
    do s <- first (sorted_prog data k);
    do pairs <- second (pass pairs s);
    passes_prog pass once (if once then [] else data) keys pairs
  end.

(** lines 30-108 *)
Definition neighborhood_keys_prog (once : bool) (data : list A) (key : option P) (keys : option (list (option P))) (window lo : nat)
    (hi : option nat) (mode : string) : prog (P * A + A * A) (K + bool) (list A) unit :=
  clusters_prog set_order
    (passes_prog (fun pairs s => for_each (window_cells window (length s)) pairs (compare_prog s)) once data
       (match keys with Some ks => ks | None => [key] end) [])
    lo hi mode (match keys with Some _ => true | None => false end).

(** lines 152-236, with window = step + 1 *)
Definition adaptive_keys_prog (fuel : nat) (once : bool) (data : list A) (key : option P) (keys : option (list (option P)))
    (step lo : nat) (hi : option nat) (mode : string) : prog (P * A + A * A) (K + bool) (list A) unit :=
  clusters_prog set_order
    (passes_prog (fun pairs s => adaptive_loop_prog fuel s step 0 pairs) once data
       (match keys with Some ks => ks | None => [key] end) [])
    lo hi mode (match keys with Some _ => true | None => false end).
End Neighborhood.

(** ** minhash.py *)
Section MinHash.
Context {A T : Type} `{EqDec A} `{EqDec T}.
Variable crc32 : T -> N.
Variable letter : N -> T.
Variable token_order : list N -> list N.
Variable set_order : list A -> list A.
(** whether the keys of two items are the same python object *)
Variable same : A -> A -> bool.

(** lines 127-139 *)
Definition fill_prog {C} (params : list (N * N)) (h bands rows : nat) (data : list A)
    : prog A (sequence T) C (dict (nat * str) (list A)) :=
  for_each data [] (fun buckets item => Call item (fun k =>
    do signature <- lift (create_signature crc32 token_order params h k);
    if Nat.eqb rows 0 then Raise ValueError
    else Ret (fold_left (fun buckets band => dmodify buckets (band_key signature rows band) [] (fun l => l ++ [item]))
                (band_starts bands rows) buckets))).

(** lines 141-151: both keys are asked for again, for each pair of each bucket *)
Definition check_prog (radius : Q) (pairs : list (A * A)) (ab : A * A) : prog A (sequence T) (list A) (list (A * A)) :=
  Call (fst ab) (fun ka => Call (snd ab) (fun kb =>
    Ret (if Qle_bool radius (jaccard_similarity (same (fst ab) (snd ab)) (elements letter ka) (elements letter kb))
         then pairs ++ [ab] else pairs))).

(** lines 94-151 with [key]; [params] are those of MinHash(h, seed=seed) *)
Definition minhash_prog (params : list (N * N)) (data : list A) (h : nat) (radius : Q) (bands : option nat)
    : prog A (sequence T) (list A) unit :=
  let bands := match bands with Some b => b | None => guess_bands h radius end in
  if Nat.eqb bands 0 then Raise ZeroDivisionError
  else
    let rows := Nat.div h bands in
    do buckets <- fill_prog params h bands rows data;
    clusters_prog set_order (for_each (pairs_from_buckets (dvalues buckets)) [] (check_prog radius)) 2 None
      "connected_components" false.
End MinHash.
