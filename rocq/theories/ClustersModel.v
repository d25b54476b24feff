(** Model of fog/clustering/utils.py (clusters from pairs and from buckets,
    similarity functions, chunks of the upper triangle). *)
From Coq Require Import String QArith.
From Verif Require Import Base.
Open Scope nat_scope.

(** fog/clustering/utils.py:11-41 make_similarity_function.
    Scores are rationals ([Q]); with [radius = None] the similarity is used for
    its truth value (non null) and the distance for its negation.  Simplification: python's
    [if similarity:] (lines 33, 38) tests the truth value of a callable, which is
    true unless it overrides [__bool__]; here it is "is given". *)
Definition make_similarity_function {A : Type}
    (similarity distance : option (A -> A -> Q)) (radius : option Q) : res (A -> A -> bool) :=
  match similarity, distance with
  | None, None => Err TypeError
  | _, _ =>
    match radius with
    | Some r =>
      match similarity, distance with
      | Some s, _ => Ok (fun a b => Qle_bool r (s a b))
      | None, Some d => Ok (fun a b => Qle_bool (d a b) r)
      | None, None => Err TypeError
      end
    | None =>
      match similarity, distance with
      | Some s, _ => Ok (fun a b => negb (Qeq_bool (s a b) 0))
      | None, Some d => Ok (fun a b => Qeq_bool (d a b) 0)
      | None, None => Err TypeError
      end
    end
  end.

Section Clusters.
Context {A : Type} `{EqDec A}.

(** The iteration order of a python [set] whose elements were inserted in the
    order of the argument.  Nothing but "it is a permutation" is ever assumed. *)
Variable set_order : list A -> list A.

(** utils.py:65-72 [container] and [add] *)
Definition container_add (fuzzy : bool) (c : list A) (x : A) : list A :=
  if fuzzy then sadd c x else c ++ [x].

(** iterating over a container (utils.py:96, 111, 122) *)
Definition container_iter (fuzzy : bool) (c : list A) : list A :=
  if fuzzy then set_order c else c.

(** utils.py:78-80 *)
Definition add_pair (fuzzy : bool) (g : dict A (list A)) (p : A * A) : dict A (list A) :=
  let g1 := dmodify g (fst p) [] (fun c => container_add fuzzy c (snd p)) in
  dmodify g1 (snd p) [] (fun c => container_add fuzzy c (fst p)).

(** utils.py:76-80 *)
Definition build_graph (fuzzy : bool) (pairs : list (A * A)) : dict A (list A) :=
  fold_left (add_pair fuzzy) pairs [].

(** utils.py:82-97, the loop over [graph.items()] *)
Fixpoint fuzzy_loop (fuzzy : bool) (lo : nat) (hi : option nat)
    (items : list (A * list A)) (visited : list A) : list (list A) :=
  match items with
  | [] => []
  | (item, neighbors) :: rest =>
    if memb item visited then fuzzy_loop fuzzy lo hi rest visited
    else if Nat.ltb (length neighbors + 1) lo then fuzzy_loop fuzzy lo hi rest visited
    else if negb (le_max (length neighbors + 1) hi) then fuzzy_loop fuzzy lo hi rest visited
    else (item :: container_iter fuzzy neighbors)
           :: fuzzy_loop fuzzy lo hi rest (neighbors ++ visited)
  end.

(** utils.py:113-122, the [while len(stack) != 0] loop.  The python stack grows at its end:
    it is kept here in reverse, so that [stack.pop()] takes the head.
    [graph[neighbor]] on a missing key of the defaultdict would insert it while the
    dictionary is iterated over (RuntimeError); it is proved not to happen. *)
Fixpoint dfs (fuel : nat) (fuzzy : bool) (g : dict A (list A))
    (stack visited cluster : list A) : res (list A * list A) :=
  match fuel with
  | O => Err OutOfFuel
  | S fuel' =>
    match stack with
    | [] => Ok (visited, cluster)
    | neighbor :: stack' =>
      if memb neighbor visited then dfs fuel' fuzzy g stack' visited cluster
      else match dget g neighbor with
           | None => Err RuntimeError
           | Some ns =>
             dfs fuel' fuzzy g (rev (container_iter fuzzy ns) ++ stack')
                 (neighbor :: visited) (cluster ++ [neighbor])
           end
    end
  end.

(** enough fuel for one [while] loop: every edge end is pushed at most once *)
Definition dfs_fuel (g : dict A (list A)) : nat :=
  S (list_sum (map (fun kv => length (snd kv)) g)).

(** utils.py:103-125, the loop over [graph.items()] *)
Fixpoint components_loop (fuzzy : bool) (g : dict A (list A)) (lo : nat) (hi : option nat)
    (items : list (A * list A)) (visited : list A) : res (list (list A)) :=
  match items with
  | [] => Ok []
  | (item, neighbors) :: rest =>
    if memb item visited then components_loop fuzzy g lo hi rest visited
    else
      let! (visited', cluster) :=
        dfs (dfs_fuel g) fuzzy g (rev (container_iter fuzzy neighbors)) (item :: visited) [item] in
      let! out := components_loop fuzzy g lo hi rest visited' in
      if Nat.leb lo (length cluster) && le_max (length cluster) hi
      then Ok (cluster :: out) else Ok out
  end.

(** utils.py:44-128 clusters_from_pairs *)
Definition clusters_from_pairs (pairs : list (A * A)) (lo : nat) (hi : option nat)
    (mode : string) (fuzzy : bool) : res (list (list A)) :=
  let graph := build_graph fuzzy pairs in
  if string_dec mode "fuzzy_clusters" then Ok (fuzzy_loop fuzzy lo hi graph [])
  else if string_dec mode "connected_components" then components_loop fuzzy graph lo hi graph []
  else Err TypeError.

(** utils.py:139-145: all (bucket[i], bucket[j]) with i < j, in order *)
Fixpoint bucket_pairs (bucket : list A) : list (A * A) :=
  match bucket with
  | [] => []
  | a :: rest => map (fun b => (a, b)) rest ++ bucket_pairs rest
  end.

(** utils.py:131-145 pairs_from_buckets *)
Definition pairs_from_buckets (buckets : list (list A)) : list (A * A) :=
  flat_map bucket_pairs buckets.

(** utils.py:148-185 clusters_from_buckets *)
Definition clusters_from_buckets (buckets : list (list A)) (lo : nat) (hi : option nat)
    (mode : string) (similarity : option (A -> A -> bool)) (fuzzy : bool) : res (list (list A)) :=
  clusters_from_pairs
    (filter (fun p => match similarity with None => true | Some s => s (fst p) (snd p) end)
            (pairs_from_buckets buckets))
    lo hi mode fuzzy.
End Clusters.

(** utils.py:188-218 upper_triangular_matrix_chunk_iter.  [math.ceil(n / chunk_size)] is computed
    on exact integers (the python float quotient is exact enough below 2^53).
    chunk_size = 0 is python's ZeroDivisionError. *)
Definition upper_triangular_matrix_chunk_iter {A} (data : list A) (chunk_size : nat)
    : res (list (list A * list A * nat * nat)) :=
  match chunk_size with
  | O => Err ZeroDivisionError
  | S _ =>
    let n := length data in
    let c := (n + chunk_size - 1) / chunk_size in
    Ok (flat_map (fun j =>
          map (fun i =>
            let i_offset := i * chunk_size in
            let j_offset := j * chunk_size in
            (slice i_offset (i_offset + chunk_size) data,
             if Nat.eqb i_offset j_offset then [] else slice j_offset (j_offset + chunk_size) data,
             i_offset, j_offset))
          (seq 0 (Nat.min (j + 1) c)))
        (seq 0 c))
  end.
