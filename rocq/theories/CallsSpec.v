(** Specification vocabulary for the calls of the user's function. *)
From Verif Require Import Base CallsModel PairwiseSpec.
From Verif Require PassJoinSpec.
Open Scope nat_scope.
Open Scope list_scope.

Section Feed.
Context {Q B C W : Type}.

(** the user's function called with a list of arguments, one after the other, until it raises *)
Fixpoint feed (f : user W) (w : W) (calls : list Q) : list B * W * option exn :=
  match calls with
  | [] => ([], w, None)
  | q :: calls =>
    match f w q with
    | (w, Ok b) => let '(answers, w, stop) := feed f w calls in (b :: answers, w, stop)
    | (w, Err e) => ([], w, Some e)
    end
  end.

(** A generator that first makes the calls [calls], whatever the answers, then finishes from the answers alone: it yields some clusters
    and returns or raises.  If the user's function raises, nothing has been yielded and nothing else is called. *)
Definition talks (f : user W) (w : W) (calls : list Q) (finish : list B -> list C * res unit)
    : list (event Q C) * W * res unit :=
  match feed f w calls with
  | (answers, w, None) => let '(out, o) := finish answers in (map Asked calls ++ map Gave out, w, o)
  | (answers, w, Some e) => (map Asked (firstn (S (length answers)) calls), w, Err e)
  end.
End Feed.

(** a result that comes at once *)
Definition outcome {C} (r : res (list C)) : list C * res unit :=
  match r with Ok out => (out, Ok tt) | Err e => ([], Err e) end.

(** those of the cells for which the answer was yes *)
Definition select {X} (cells : list X) (answers : list bool) : list X :=
  map fst (filter snd (combine cells answers)).

(** the cells (i, j), i < j < n, row by row *)
Definition cells (n : nat) : list (nat * nat) :=
  flat_map (fun i => map (fun j => (i, j)) (seq (S i) (n - S i))) (seq 0 n).

(** the same, j < i + window only *)
Definition near_cells (window n : nat) : list (nat * nat) :=
  filter (fun ij => Nat.ltb (snd ij) (fst ij + window)) (cells n).

(** the values at these cells *)
Definition at_cells {A} (l : list A) (cs : list (nat * nat)) : list (A * A) :=
  flat_map (fun ij => match nth_error l (fst ij), nth_error l (snd ij) with
                      | Some a, Some b => [(a, b)]
                      | _, _ => []
                      end) cs.

(** some elements of a list, in order *)
Inductive subseq {X} : list X -> list X -> Prop :=
| subseq_nil l : subseq [] l
| subseq_take x l1 l2 : subseq l1 l2 -> subseq (x :: l1) (x :: l2)
| subseq_skip x l1 l2 : subseq l1 l2 -> subseq l1 (x :: l2).

(** the order of the cells *)
Definition before (c d : nat * nat) : Prop := fst c < fst d \/ (fst c = fst d /\ snd c < snd d).

(** positions x < y hold similar keys, and the cell (x, y) comes before the cell c *)
Definition similar_before {K} (similarity : K -> K -> bool) (keys : list K) (c : nat * nat) (x y : nat) : Prop :=
  similar_at similarity keys x y /\ before (x, y) c.

(** leader clustering: the positions that the leader h is compared with, those after it that are similar to no leader before it *)
Definition leader_row {A} (similarity : A -> A -> bool) (data : list A) (leaders : list nat) (h : nat) : list nat :=
  filter (fun j => Nat.ltb h j && forallb (fun h' => negb (Nat.ltb h' h && sim_nth similarity data h' j)) leaders)
    (seq 0 (length data)).

(** the items at some positions *)
Definition items_at {A} (data : list A) (c : list nat) : list A :=
  flat_map (fun i => match nth_error data i with Some a => [a] | None => [] end) c.

(** what happens for one leader: it is compared with its row, then its cluster is yielded *)
Definition leader_turn {A} (similarity : A -> A -> bool) (data : list A) (leaders : list nat) (lo : nat) (h : nat)
    : list (event (A * A) (list A)) :=
  map Asked (at_cells data (map (fun j => (h, j)) (leader_row similarity data leaders h))) ++
  (if cluster_kept lo (leader_cluster similarity data leaders h)
   then [Gave (items_at data (leader_cluster similarity data leaders h))] else []).

(** ** PassJoin *)
(** two strings so short that they are close whatever they are *)
Definition both_short {X} (k : nat) (ab : list X * list X) : bool := Nat.leb (length (fst ab)) k && Nat.leb (length (snd ab)) k.

(** B cut into k + 1 pieces of almost equal sizes, the shorter first: one of the pieces is found in P, moved by at most as many places as there
    are pieces before it, counting from the left, and as there are pieces after it, counting from the right *)
Definition share_piece {X} (k : nat) (P B : list X) : Prop :=
  exists prev piece next u v, length (prev ++ piece :: next) = k + 1 /\ concat (prev ++ piece :: next) = B /\
    PassJoinSpec.balanced (map (fun x : list X => length x) (prev ++ piece :: next)) /\ P = u ++ piece ++ v /\
    (length u <= length (concat prev) + length prev /\ length (concat prev) <= length u + length prev) /\
    (length v <= length (concat next) + length next /\ length (concat next) <= length v + length next).

(** the candidate pairs that are short or close; [answers]: the distances of the others *)
Fixpoint close_pairs {X} (k : nat) (l : list (list X * list X)) (answers : list nat) : list (list X * list X) :=
  match l with
  | [] => []
  | ab :: l =>
    if both_short k ab then ab :: close_pairs k l answers
    else match answers with
         | [] => []
         | d :: answers => if Nat.leb d k then ab :: close_pairs k l answers else close_pairs k l answers
         end
  end.
