(** Specification vocabulary for graphs.  Independent of the model: a graph is an adjacency list. *)
From Coq Require Import List QArith String Relations.
From Verif Require Import Base ClustersSpec.
Import ListNotations.
Notation length := List.length.
Open Scope list_scope.
Open Scope nat_scope.

Section Graph.
Context {N W : Type}.
Implicit Type g : list (N * list (N * W)).

Definition node g (n : N) : Prop := In n (map fst g).
Definition edge g (a b : N) (w : W) : Prop := exists l, In (a, l) g /\ In (b, w) l.

(** an undirected graph without parallel edges *)
Record undirected g : Prop := {
  nodes_once : NoDup (map fst g);
  neighbors_once : forall a l, In (a, l) g -> NoDup (map fst l);
  both_ways : forall a b w, edge g a b w -> edge g b a w
}.

(** an accepted step *)
Definition accepted g (f : N -> N -> W -> bool) (a b : N) : Prop := exists w, edge g a b w /\ f a b w = true.
Definition reach (step : N -> N -> Prop) : N -> N -> Prop := clos_refl_trans N step.
Definition symmetric (f : N -> N -> W -> bool) : Prop := forall a b w, f a b w = f b a w.

(** what a walk from one node after the other finds: each list of [out] holds the nodes reachable from its root and
    not in a previous list *)
Inductive explored (step : N -> N -> Prop) : list N -> list (list N) -> Prop :=
| explored_nil before : explored step before []
| explored_cons before root c out :
    ~ In root before -> NoDup c -> (forall x, In x c <-> reach step root x /\ ~ In x before) ->
    explored step (before ++ c) out -> explored step before (c :: out).
End Graph.

(** the second largest element of a list, if any *)
Definition second_largest (l : list nat) (s : option nat) : Prop :=
  match s with
  | None => length l < 2
  | Some s => exists m rest, Permutation l (m :: s :: rest) /\ s <= m /\ forall x, In x rest -> x <= s
  end.

Section Weighted.
Context {N : Type} `{EqDec N}.
Implicit Type g : list (N * list (N * Q)).

(** edges weighing at least t *)
Definition heavy g (t : Q) (a b : N) : Prop := exists w, edge g a b w /\ (t <= w)%Q.

(** at threshold t, two components have at least m nodes *)
Definition drifts g (m : nat) (t : Q) : Prop := exists c c',
  component (heavy g t) c /\ component (heavy g t) c' /\ incl (c ++ c') (map fst g) /\
  (forall x, In x c -> ~ In x c') /\ m <= length c /\ m <= length c'.

Definition scaled (start rate : Q) (k : nat) : Q := (start + inject_Z (Z.of_nat k) * rate)%Q.

(* ---- projections ---- *)
Definition sum (l : list Q) : Q := fold_right Qplus 0%Q l.
Definition nat_Q (n : nat) : Q := inject_Z (Z.of_nat n).

Definition row g (n : N) : list (N * Q) := match dget g n with Some l => l | None => [] end.
Definition weight g (a k : N) : Q := match dget (row g a) k with Some w => w | None => 0%Q end.
Definition degree g (a : N) : nat := length (row g a).
Definition common g (a b : N) : nat := length (filter (fun kw => memb (fst kw) (map fst (row g b))) (row g a)).
Definition dot g (a b : N) : Q := sum (map (fun kw => (snd kw * weight g b (fst kw))%Q) (row g a)).

Definition similarity g (sqrt : Q -> Q) (metric : option string) (a b : N) : Q :=
  let i := nat_Q (common g a b) in
  let da := nat_Q (degree g a) in
  let db := nat_Q (degree g b) in
  match metric with
  | None => i
  | Some "cosine"%string => (dot g a b / (sqrt (dot g a a) * sqrt (dot g b b)))%Q
  | Some "jaccard"%string => (i / (da + db - i))%Q
  | Some "dice"%string => (2 * i / (da + db))%Q
  | Some "overlap"%string => (i / nat_Q (Nat.min (degree g a) (degree g b)))%Q
  | Some "binary_cosine"%string => (i / sqrt (da * db))%Q
  | Some _ => 0%Q
  end.

Definition retained (threshold : option Q) (w : Q) : Prop :=
  ~ (w == 0)%Q /\ match threshold with None => True | Some t => (t <= w)%Q end.

Definition same_pair (a b : N) (e : N * N * Q) : bool :=
  let '(x, y, _) := e in (eqb x a && eqb y b) || (eqb x b && eqb y a).

(** [m] holds exactly the retained pairs of [nodes], each once, with their similarity *)
Record is_projection g (sqrt : Q -> Q) metric threshold (nodes : list N) (m : list (N * N * Q)) : Prop := {
  only_retained : forall a b w, In (a, b, w) m ->
    In a nodes /\ In b nodes /\ a <> b /\ (w == similarity g sqrt metric a b)%Q /\ retained threshold w;
  all_retained : forall a b, In a nodes -> In b nodes -> a <> b -> retained threshold (similarity g sqrt metric a b) ->
    exists w, In (a, b, w) m \/ In (b, a, w) m;
  each_once : forall a b, length (filter (same_pair a b) m) <= 1
}.

(** two parts, and edges only across *)
Definition bipartite {P} g (part : N -> option P) : Prop :=
  (forall a b w, edge g a b w -> part a <> part b) /\
  (forall a b c a' b' c' w w' w'', edge g a a' w -> edge g b b' w' -> edge g c c' w'' ->
     part a = part b \/ part b = part c \/ part a = part c).

(** a vector of zeros *)
Definition null_row g (a : N) : Prop := row g a <> [] /\ forall k w, In (k, w) (row g a) -> (w == 0)%Q.
End Weighted.
