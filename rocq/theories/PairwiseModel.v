(** Model of fog/clustering/pairwise.py *)
From Coq Require Import String.
From Verif Require Import Base ClustersModel.
Open Scope nat_scope.
Open Scope string_scope.
Open Scope list_scope.
Notation length := List.length.
Notation concat := List.concat.

(** python [l[i]] for i >= 0 *)
Definition index {A} (l : list A) (i : nat) : res A :=
  match nth_error l i with Some x => Ok x | None => Err IndexError end.

Fixpoint mapM {A B} (f : A -> res B) (l : list A) : res (list B) :=
  match l with
  | [] => Ok []
  | x :: l' => let! y := f x in let! ys := mapM f l' in Ok (y :: ys)
  end.

Definition enumerate {A} (l : list A) : list (nat * A) := combine (seq 0 (length l)) l.

(** The union-find of the external package [phylactery], as the list of the class
    labels of 0 .. n-1.  Trusted: its [union], [connected] and [components]
    behave like this (components with a size within the bounds; the order in which they are
    listed is not relied upon). *)
Definition uf := list nat.
Definition uf_make (n : nat) : uf := seq 0 n.
Definition uf_find (u : uf) (i : nat) : nat := nth i u 0.
Definition uf_connected (u : uf) (i j : nat) : bool := Nat.eqb (uf_find u i) (uf_find u j).
Definition uf_union (u : uf) (i j : nat) : uf :=
  let a := uf_find u i in let b := uf_find u j in
  map (fun l => if Nat.eqb l b then a else l) u.
Definition uf_components (u : uf) (lo : nat) (hi : option nat) : list (list nat) :=
  filter (fun c => Nat.leb lo (length c) && le_max (length c) hi)
    (map (fun l => filter (fun i => Nat.eqb (uf_find u i) l) (seq 0 (length u))) (set_of u)).

Section Pairwise.
(** [A]: items, [K]: keys of items (items themselves when key is None) *)
Context {A K : Type}.
(** the result of make_similarity_function *)
Variable similarity : K -> K -> bool.

(** pairwise.py:134-141 on a diagonal chunk, and the loops of lines 224-232, 337-349: all (i, j)
    with i < j, row by row *)
Definition upper_pairs (l : list K) : list ((nat * K) * (nat * K)) := bucket_pairs (enumerate l).

(** pairwise.py:134-141 on another chunk *)
Definition cross_pairs (rows cols : list K) : list ((nat * K) * (nat * K)) :=
  flat_map (fun a => map (fun b => (a, b)) (enumerate cols)) (enumerate rows).

(** pairwise.py:118-143 pairwise_worker *)
Definition pairwise_worker (payload : list K * list K * nat * nat) : list (nat * nat) :=
  let '(rows, cols, offset_i, offset_j) := payload in
  map (fun ab => (offset_i + fst (fst ab), offset_j + fst (snd ab)))
    (filter (fun ab => similarity (snd (fst ab)) (snd (snd ab)))
       (if Nat.eqb offset_i offset_j then upper_pairs rows else cross_pairs rows cols)).

(** pairwise.py:333-349: sequential union of similar pairs *)
Definition serial_sets (keys : list K) : uf :=
  fold_left (fun u ab =>
      if uf_connected u (fst (fst ab)) (fst (snd ab)) then u
      else if similarity (snd (fst ab)) (snd (snd ab)) then uf_union u (fst (fst ab)) (fst (snd ab))
      else u)
    (upper_pairs keys) (uf_make (length keys)).

(** pairwise.py:361-364: the results of the workers, in the order in which they arrive *)
Definition parallel_sets (n : nat) (arrived : list (list (nat * nat))) : uf :=
  fold_left (fun u ij => uf_union u (fst ij) (snd ij)) (concat arrived) (uf_make n).

(** pairwise.py:366-368 *)
Definition yield_components (data : list A) (u : uf) (lo : nat) (hi : option nat)
    : res (list (list A)) :=
  mapM (mapM (index data)) (uf_components u lo hi).

(** pairwise.py:268-368 pairwise_connected_components with processes = 1 *)
Definition pairwise_connected_components (key : A -> K) (data : list A)
    (lo : nat) (hi : option nat) : res (list (list A)) :=
  yield_components data (serial_sets (map key data)) lo hi.

(** pairwise.py:268-368 with processes > 1: [arrival] reorders the results of
    [imap_unordered] *)
Definition pairwise_connected_components_parallel (key : A -> K) (data : list A)
    (lo : nat) (hi : option nat) (chunk_size : nat)
    (arrival : list (list (nat * nat)) -> list (list (nat * nat))) : res (list (list A)) :=
  let! chunks := upper_triangular_matrix_chunk_iter (map key data) chunk_size in
  yield_components data (parallel_sets (length data) (arrival (map pairwise_worker chunks))) lo hi.

(** pairwise.py:251-265: the same loop as clusters_from_pairs in fuzzy mode with
    list containers, over positions *)
Definition yield_fuzzy (data : list A) (matches : list (nat * nat)) (lo : nat) (hi : option nat)
    : res (list (list A)) :=
  mapM (mapM (index data)) (fuzzy_loop (fun l => l) false lo hi (build_graph false matches) []).

(** pairwise.py:224-232: similar pairs of positions, sequentially *)
Definition serial_matches (keys : list K) : list (nat * nat) :=
  map (fun ab => (fst (fst ab), fst (snd ab)))
    (filter (fun ab => similarity (snd (fst ab)) (snd (snd ab))) (upper_pairs keys)).

(** pairwise.py:146-265 pairwise_fuzzy_clusters with processes = 1 *)
Definition pairwise_fuzzy_clusters (key : A -> K) (data : list A)
    (lo : nat) (hi : option nat) : res (list (list A)) :=
  yield_fuzzy data (serial_matches (map key data)) lo hi.

(** pairwise.py:146-265 with processes > 1 ([pool.imap] keeps the order of the chunks) *)
Definition pairwise_fuzzy_clusters_parallel (key : A -> K) (data : list A)
    (lo : nat) (hi : option nat) (chunk_size : nat) : res (list (list A)) :=
  let! chunks := upper_triangular_matrix_chunk_iter (map key data) chunk_size in
  yield_fuzzy data (concat (map pairwise_worker chunks)) lo hi.
End Pairwise.

Section Leader.
Context {A : Type}.
Variable similarity : A -> A -> bool.

(** pairwise.py:94-112.  [visited.delete] (line 109) does not exist on python sets: the loop over
    range(1, len(cluster)) is not empty there, hence AttributeError. *)
Fixpoint leader_inner (hi : option nat) (a : A) (rest : list (nat * A)) (visited : list nat)
    (cluster : option (list A)) : res (list nat * option (list A)) :=
  match rest with
  | [] => Ok (visited, cluster)
  | (j, b) :: rest' =>
    if memb j visited then leader_inner hi a rest' visited cluster
    else if similarity a b then
      let cluster' := match cluster with None => [a; b] | Some c => c ++ [b] end in
      if negb (le_max (length cluster') hi) then Err AttributeError
      else leader_inner hi a rest' (j :: visited) (Some cluster')
    else leader_inner hi a rest' visited cluster
  end.

(** pairwise.py:86-115; the clusters yielded before an exception are kept *)
Fixpoint leader_loop (lo : nat) (hi : option nat) (l : list (nat * A)) (visited : list nat)
    : list (list A) * option exn :=
  match l with
  | [] => ([], None)
  | (i, a) :: rest =>
    if memb i visited then leader_loop lo hi rest visited
    else match leader_inner hi a rest visited None with
         | Err e => ([], Some e)
         | Ok (visited', cluster) =>
           let '(out, e) := leader_loop lo hi rest visited' in
           match cluster with
           | Some c => if Nat.leb lo (length c) then (c :: out, e) else (out, e)
           | None => (out, e)
           end
         end
  end.

(** pairwise.py:19-115 pairwise_leader *)
Definition pairwise_leader (data : list A) (lo : nat) (hi : option nat)
    : list (list A) * option exn :=
  leader_loop lo hi (enumerate data) [].
End Leader.

(** pairwise.py:371-408 pairwise (without [key], which the leader mode does not accept, and with
    processes = 1).  The result of the other modes is cut by their first exception too; they are
    proved to raise none. *)
Definition pairwise {A} (similarity : A -> A -> bool) (data : list A) (lo : nat) (hi : option nat)
    (mode : string) : list (list A) * option exn :=
  let of_res r := match r with Ok out => (out, None) | Err e => ([], Some e) end in
  if string_dec mode "leader" then pairwise_leader similarity data lo hi
  else if string_dec mode "fuzzy_clusters" then
    of_res (pairwise_fuzzy_clusters similarity (fun x => x) data lo hi)
  else if string_dec mode "connected_components" then
    of_res (pairwise_connected_components similarity (fun x => x) data lo hi)
  else ([], Some TypeError).
