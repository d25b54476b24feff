(** Model of fog/graph/: utils.py, sparsification.py, projection.py.  A networkx graph is its adjacency, an
    insertion-ordered dictionary from nodes to (neighbor, attribute) lists; [graph.nodes] are its keys.  Floats are exact
    rationals; [sqrt] and [log] are parameters. *)
From Coq Require Import QArith String.
From Verif Require Import Base MetricsModel SortModel.
Notation length := List.length.
Open Scope list_scope.
Open Scope nat_scope.

(** a python for loop whose body may raise *)
Fixpoint foldM {S A} (f : S -> A -> res S) (l : list A) (s : S) : res S :=
  match l with
  | [] => Ok s
  | a :: l' => let! s' := f s a in foldM f l' s'
  end.

Section Graph.
Context {N W : Type} `{EqDec N}.

Definition graph := dict N (list (N * W)).

(** graph.edges(n, data=True) and graph.neighbors(n); networkx raises on an unknown node, which is never asked of
    a well formed adjacency *)
Definition adjacent (g : graph) (n : N) : list (N * W) := match dget g n with Some l => l | None => [] end.
Definition neighbors (g : graph) (n : N) : list N := map fst (adjacent g n).

(** graph.edges of an undirected graph: each edge once, from the first of its nodes *)
Fixpoint edges_from (items : graph) (seen : list N) : list (N * N * W) :=
  match items with
  | [] => []
  | (n, l) :: items' =>
    map (fun mw => (n, fst mw, snd mw)) (filter (fun mw => negb (memb (fst mw) seen)) l) ++ edges_from items' (n :: seen)
  end.
Definition edges (g : graph) : list (N * N * W) := edges_from g [].

(** utils.py:22-32: the head of [stack] is its last element; [edge_filter] is (fun _ _ _ => true) when not given *)
Fixpoint walk (fuel : nat) (g : graph) (edge_filter : N -> N -> W -> bool) (seen stack : list N) (c : nat)
  : res (list N * nat) :=
  match fuel with
  | 0 => Err OutOfFuel
  | S fuel =>
    match stack with
    | [] => Ok (seen, c)
    | n1 :: stack =>
      if memb n1 seen then walk fuel g edge_filter seen stack c
      else
        let stack := fold_left (fun stack mw =>
          if negb (edge_filter n1 (fst mw) (snd mw)) then stack else fst mw :: stack) (adjacent g n1) stack in
        walk fuel g edge_filter (sadd seen n1) stack (c + 1)
    end
  end.

Definition degrees (g : graph) : nat := list_sum (map (fun n => length (adjacent g n)) (dkeys g)).

(** utils.py:14-34 *)
Fixpoint sizes_from (fuel : nat) (g : graph) (edge_filter : N -> N -> W -> bool) (nodes seen : list N) : res (list nat) :=
  match nodes with
  | [] => Ok []
  | node :: nodes =>
    if memb node seen then sizes_from fuel g edge_filter nodes seen
    else
      let! (seen, c) := walk fuel g edge_filter seen [node] 0 in
      let! rest := sizes_from fuel g edge_filter nodes seen in
      Ok (c :: rest)
  end.

(** utils.py:10-34 component_sizes; the fuel is proved to be enough *)
Definition component_sizes (g : graph) (edge_filter : N -> N -> W -> bool) : res (list nat) :=
  sizes_from (degrees g + length (dkeys g) + 2) g edge_filter (dkeys g) [].

(** heapq.nlargest: documented as sorted(iterable, reverse=True)[:n] *)
Definition nlargest (n : nat) (l : list nat) : list nat := firstn n (sort_by (fun a b => Nat.leb b a) l).

(** utils.py:37-43 second_largest_component_size *)
Definition second_largest_component_size (g : graph) (edge_filter : N -> N -> W -> bool) : res (option nat) :=
  let! sizes := component_sizes g edge_filter in
  let top := nlargest 2 sizes in
  Ok (if Nat.ltb (length top) 2 then None else nth_error top 1).

(** networkx remove_edge of an undirected graph *)
Definition drop_neighbor (g : graph) (u v : N) : graph :=
  map (fun nl => if eqb (fst nl) u then (fst nl, filter (fun mw => negb (eqb (fst mw) v)) (snd nl)) else nl) g.
Definition remove_edge (g : graph) (uv : N * N) : graph :=
  let g := drop_neighbor g (fst uv) (snd uv) in
  if eqb (fst uv) (snd uv) then g else drop_neighbor g (snd uv) (fst uv).
End Graph.
Arguments graph : clear implicits.

Section Floatsam.
Context {N : Type} `{EqDec N}.
(** int(math.log(n)) *)
Variable int_log : nat -> nat.

(** sparsification.py:58-65; gives [best_threshold] *)
Fixpoint floatsam_loop (fuel : nat) (g : graph N Q) (learning_rate : Q) (max_drifter_size : nat) (threshold : Q) : res Q :=
  match fuel with
  | 0 => Err OutOfFuel
  | S fuel =>
    let best_threshold := threshold in
    let threshold := (threshold + learning_rate)%Q in
    let! c := second_largest_component_size g (fun _ _ w => Qle_bool threshold w) in
    match c with
    | Some c => if Nat.leb max_drifter_size c then Ok best_threshold
                else floatsam_loop fuel g learning_rate max_drifter_size threshold
    | None => floatsam_loop fuel g learning_rate max_drifter_size threshold
    end
  end.

(** sparsification.py:67-74 *)
Definition remove_light (g : graph N Q) (best_threshold : Q) : graph N Q :=
  let to_remove := flat_map (fun e : N * N * Q =>
    let '(u, v, w) := e in if negb (Qle_bool best_threshold w) then [(u, v)] else []) (edges g) in
  fold_left remove_edge to_remove g.

(** sparsification.py:11-76 floatsam_sparsification: the threshold and the graph afterwards.  Every edge has a weight. *)
Definition floatsam_sparsification (fuel : nat) (g : graph N Q) (starting_threshold learning_rate : Q)
    (max_drifter_size : option nat) (remove_edges : bool) : res (Q * graph N Q) :=
  if Nat.eqb (length (edges g)) 0 then Ok (starting_threshold, g)
  else
    let max_drifter_size := match max_drifter_size with None => int_log (length (dkeys g)) | Some m => m end in
    let! best_threshold := floatsam_loop fuel g learning_rate max_drifter_size starting_threshold in
    Ok (best_threshold, if remove_edges then remove_light g best_threshold else g).
End Floatsam.

Section Projection.
Context {N P : Type} `{EqDec N} `{EqDec P}.
(** math.sqrt on floats, and [>=] on nodes *)
Variable sqrt : Q -> Q.
Variable geb : N -> N -> bool.
(** node attribute; None when the node does not have it *)
Variable part : N -> option P.

(** fog/metrics/cosine.py:114-142 sparse_dot_product, over Q *)
Definition dot_product (A B : dict N Q) : Q :=
  let '(A, B) := if Nat.ltb (length B) (length A) then (B, A) else (A, B) in
  fold_left (fun p kv => match dget B (fst kv) with Some w2 => (p + snd kv * w2)%Q | None => p end) A 0%Q.

Definition quotient (a b : Q) : res Q := if Qeq_bool b 0 then Err ZeroDivisionError else Ok (a / b)%Q.

Definition is_metric (metric : option string) (name : string) : bool :=
  match metric with Some m => String.eqb m name | None => false end.

(** python's min *)
Definition py_min (a b : Q) : Q := if Qle_bool a b then a else b.

(** projection.py:16-42 compute_metric; the two vectors are distinct objects; except for cosine they are sets, here the
    keys *)
Definition compute_metric (metric : option string) (vector1 vector2 : dict N Q) (norm1 norm2 : Q) : res Q :=
  if is_metric metric "cosine" then
    let w := dot_product vector1 vector2 in
    if Qeq_bool w 0 then Ok 0%Q else quotient w (norm1 * norm2)
  else
    let w := Qnat (intersection_size false (dkeys vector1) (dkeys vector2)) in
    if Qeq_bool w 0 then Ok 0%Q
    else if is_metric metric "jaccard" then quotient w (norm1 + norm2 - w)
    else if is_metric metric "dice" then quotient (2 * w) (norm1 + norm2)
    else if is_metric metric "overlap" then quotient w (py_min norm1 norm2)
    else if is_metric metric "binary_cosine" then quotient w (sqrt (norm1 * norm2))
    else Ok w.

(** projection.py:94-102 *)
Definition check_edge (parts : list P) (e : N * N * Q) : res (list P) :=
  let '(n1, n2, _) := e in
  match part n1, part n2 with
  | Some p1, Some p2 =>
    let parts := sadd (sadd parts p1) p2 in
    if eqb p1 p2 || Nat.ltb 2 (length parts) then Err TypeError else Ok parts
  | _, _ => Err KeyError
  end.

(** projection.py:107-111 *)
Fixpoint kept_nodes (project : P) (nodes : list N) : res (list N) :=
  match nodes with
  | [] => Ok []
  | node :: nodes =>
    match part node with
    | None => Err KeyError
    | Some p =>
      let! rest := kept_nodes project nodes in
      Ok (if eqb p project then node :: rest else rest)
    end
  end.

(** projection.py:119-135: the vector and its norm, when the node has one *)
Definition vector_of (g : graph N Q) (metric : option string) (node : N) : list (N * (Q * dict N Q)) :=
  let cosine := is_metric metric "cosine" in
  let '(s, neighbors) := fold_left (fun (st : Q * dict N Q) mw =>
    ((fst st + (if cosine then snd mw * snd mw else 1))%Q, dset (snd st) (fst mw) (snd mw))) (adjacent g node) (0%Q, []) in
  if negb (Qle_bool s 0) then [(node, (if cosine then sqrt s else s, neighbors))] else [].

(** edges of the monopartite graph *)
Definition mono := list (N * N * Q).
Definition has_edge (m : mono) (a b : N) : bool :=
  existsb (fun e => let '(x, y, _) := e in (eqb x a && eqb y b) || (eqb x b && eqb y a)) m.

(** projection.py:170-174 and 191-195 *)
Definition keeps (threshold : option Q) (w : Q) : bool :=
  negb (Qeq_bool w 0) && match threshold with None => true | Some t => Qle_bool t w end.

(** projection.py:140-178 *)
Definition topology_edges (g : graph N Q) (metric : option string) (threshold : option Q)
    (vectors : dict N (Q * dict N Q)) : res mono :=
  foldM (fun m nv =>
    let '(n1, (norm1, vector1)) := nv in
    foldM (fun m np =>
      foldM (fun m n2 =>
        if geb n1 n2 then Ok m
        else if has_edge m n1 n2 then Ok m
        else
          match dget vectors n2 with
          | None => Err KeyError
          | Some (norm2, vector2) =>
            let! w := compute_metric metric vector1 vector2 norm1 norm2 in
            Ok (if keeps threshold w then m ++ [(n1, n2, w)] else m)
          end) (neighbors g np) m) (neighbors g n1) m) vectors [].

(** projection.py:180-197 *)
Fixpoint quadratic_edges (metric : option string) (threshold : option Q) (vectors : dict N (Q * dict N Q)) (m : mono) : res mono :=
  match vectors with
  | [] => Ok m
  | (n1, (norm1, vector1)) :: rest =>
    let! m := foldM (fun m nv =>
      let '(n2, (norm2, vector2)) := nv in
      let! w := compute_metric metric vector1 vector2 norm1 norm2 in
      Ok (if keeps threshold w then m ++ [(n1, n2, w)] else m)) rest m in
    quadratic_edges metric threshold rest m
  end.

Definition metrics : list string := ["cosine"; "jaccard"; "overlap"; "dice"; "binary_cosine"]%string.

(** projection.py:46-197 monopartite_projection: the nodes and the weighted edges *)
Definition monopartite_projection (g : graph N Q) (project : P) (metric : option string) (threshold : option Q)
    (use_topology bipartition_check : bool) : res (list N * mono) :=
  if match metric with Some m => negb (existsb (String.eqb m) metrics) | None => false end then Err TypeError
  else
    let! _ := if bipartition_check then foldM check_edge (edges g) [] else Ok [] in
    let! nodes := kept_nodes project (dkeys g) in
    let vectors := flat_map (vector_of g metric) nodes in
    let! m := if use_topology then topology_edges g metric threshold vectors
              else quadratic_edges metric threshold vectors [] in
    Ok (nodes, m).
End Projection.
