(** Specification vocabulary for clusterings: connected components of a relation.
    Independent of the model. *)
From Coq Require Import List Permutation Relations.
Import ListNotations.

Section Spec.
Context {A : Type}.

(** two items are connected when a chain of links, taken in any direction, joins them *)
Definition connected (link : A -> A -> Prop) : A -> A -> Prop := clos_refl_sym_trans A link.

(** a duplicate-free list of all the items connected to one of them *)
Definition component (link : A -> A -> Prop) (c : list A) : Prop :=
  NoDup c /\ exists x, In x c /\ forall y, In y c <-> connected link x y.

Definition size_within (lo : nat) (hi : option nat) (n : nat) : Prop :=
  lo <= n /\ match hi with None => True | Some h => n <= h end.

(** [out] lists exactly the components that contain a vertex and whose size is
    within bounds, each once, without overlap *)
Record is_components (vertex : A -> Prop) (link : A -> A -> Prop) (lo : nat) (hi : option nat)
    (out : list (list A)) : Prop := {
  each_is_component : forall c, In c out ->
      component link c /\ (exists x, In x c /\ vertex x) /\ size_within lo hi (length c);
  each_component_listed : forall c, component link c -> (exists x, In x c /\ vertex x) ->
      size_within lo hi (length c) -> exists c', In c' out /\ Permutation c c';
  no_overlap : NoDup (concat out)
}.

(** the same clusters, up to the order of clusters and of items inside clusters *)
Definition same_clusters (out1 out2 : list (list A)) : Prop :=
  exists out, Permutation out1 out /\ Forall2 (@Permutation A) out out2.

(** links given by a list of pairs *)
Definition pair_link (pairs : list (A * A)) (x y : A) : Prop := In (x, y) pairs.
Definition pair_vertex (pairs : list (A * A)) (x : A) : Prop :=
  exists y, In (x, y) pairs \/ In (y, x) pairs.

(** direct neighbours *)
Definition neighbour (pairs : list (A * A)) (x y : A) : Prop :=
  In (x, y) pairs \/ In (y, x) pairs.

(** what a worker of a parallel pairwise comparison does with a chunk of the matrix: for a
    chunk (rows, cols, oi, oj), compare the diagonal chunk with itself above the diagonal and
    any other chunk cell by cell; [chunk_cells] lists the positions compared *)
Definition chunk_cells {B} (chunk : list B * list B * nat * nat) : list (nat * nat) :=
  let '(rows, cols, oi, oj) := chunk in
  if Nat.eqb oi oj
  then flat_map (fun i => map (fun j => (oi + i, oj + j)) (seq (S i) (length rows - S i))) (seq 0 (length rows))
  else flat_map (fun i => map (fun j => (oi + i, oj + j)) (seq 0 (length cols))) (seq 0 (length rows)).
End Spec.

(** a bucket holds both items (x before y) and the similarity accepts them *)
Definition bucket_link {A} (buckets : list (list A)) (similarity : option (A -> A -> bool)) (x y : A) : Prop :=
  (exists b l1 l2 l3, In b buckets /\ b = l1 ++ x :: l2 ++ y :: l3) /\
  match similarity with None => True | Some s => s x y = true end.
