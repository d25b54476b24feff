(** Specification vocabulary for pairwise clustering. *)
From Coq Require Import List Arith Bool.
From Verif Require Import ClustersSpec.
Import ListNotations.

(** positions i < j of a list of keys hold similar keys *)
Definition similar_at {K} (similarity : K -> K -> bool) (keys : list K) (i j : nat) : Prop :=
  i < j /\ exists a b, nth_error keys i = Some a /\ nth_error keys j = Some b /\ similarity a b = true.

(** the same, without caring for the order of positions *)
Definition similar_positions {K} (similarity : K -> K -> bool) (keys : list K) (i j : nat) : Prop :=
  similar_at similarity keys i j \/ similar_at similarity keys j i.

(** the clusters [out] of items are read at the clusters [idx] of positions *)
Definition reads {A} (data : list A) (idx : list (list nat)) (out : list (list A)) : Prop :=
  Forall2 (Forall2 (fun i x => nth_error data i = Some x)) idx out.

(** leader clustering of the positions of [data].
    [leaders]: a position is a leader when it is similar to no earlier leader. *)
Definition sim_nth {A} (similarity : A -> A -> bool) (data : list A) (i j : nat) : bool :=
  match nth_error data i, nth_error data j with
  | Some a, Some b => similarity a b
  | _, _ => false
  end.

Definition are_leaders {A} (similarity : A -> A -> bool) (data : list A) (leaders : list nat) : Prop :=
  forall j, In j leaders <->
    j < length data /\ forall h, In h leaders -> h < j -> sim_nth similarity data h j = false.

(** a position belongs to the first leader it is similar to *)
Definition follows {A} (similarity : A -> A -> bool) (data : list A) (leaders : list nat) (h j : nat) : bool :=
  Nat.ltb h j && sim_nth similarity data h j &&
  forallb (fun h' => negb (Nat.ltb h' h && sim_nth similarity data h' j)) leaders.

Definition leader_cluster {A} (similarity : A -> A -> bool) (data : list A) (leaders : list nat) (h : nat)
    : list nat :=
  h :: filter (follows similarity data leaders h) (seq 0 (length data)).

(** a cluster larger than [hi] (a leader without follower never counts) *)
Definition cluster_fits (hi : option nat) (c : list nat) : bool :=
  Nat.leb (length c) 1 || match hi with None => true | Some h => Nat.leb (length c) h end.

(** clusters yielded: at least [lo] items, and never a leader alone *)
Definition cluster_kept (lo : nat) (c : list nat) : bool :=
  Nat.leb 2 (length c) && Nat.leb lo (length c).

Fixpoint takewhile {A} (p : A -> bool) (l : list A) : list A :=
  match l with
  | [] => []
  | x :: l' => if p x then x :: takewhile p l' else []
  end.

(** star clusters: an item followed by all the items related to it, such that no later
    cluster is headed by an item of an earlier one, and covering every item whose star
    has a size within bounds *)
Record are_stars {A} (related : A -> A -> Prop) (lo : nat) (hi : option nat) (out : list (list A)) : Prop := {
  each_is_star : forall c, In c out -> exists h t, c = h :: t /\ NoDup t /\
     (forall y, In y t <-> related h y) /\ size_within lo hi (length c);
  heads_are_new : ForallOrdPairs (fun c1 c2 => forall h t, c2 = h :: t -> ~ In h c1) out;
  stars_cover : forall x ns, ns <> [] -> NoDup ns -> (forall y, In y ns <-> related x y) ->
     size_within lo hi (S (length ns)) -> exists c, In c out /\ In x c
}.
