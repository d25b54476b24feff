(** Specification vocabulary for the calls of the distance in laesa and quickjoin *)
From Coq Require Import QArith.
From Verif Require Import Base PairwiseModel SpaceModel CallsSpec.
Open Scope nat_scope.
Open Scope list_scope.

(** laesa: the pairs that the pivots do not eliminate, in order *)
Definition kept_pairs {A} (distance : A -> A -> Q) (data pivots : list A) (rows : list (list Q)) : list (A * A) :=
  flat_map (fun '(i, x) =>
    map (fun ky => (x, snd ky))
      (filter (fun ky => Nat.ltb i (fst ky) && negb (eliminated (nearest distance pivots x None) rows i (fst ky))) (enumerate data)))
    (enumerate data).

(** the calls made for each item: with each pivot, then with the items that are not eliminated *)
Definition item_calls {A} (distance : A -> A -> Q) (data pivots : list A) (rows : list (list Q)) : list (A * A) :=
  flat_map (fun '(i, x) =>
    map (fun y => (y, x)) pivots ++
    map (fun ky => (x, snd ky))
      (filter (fun ky => Nat.ltb i (fst ky) && negb (eliminated (nearest distance pivots x None) rows i (fst ky))) (enumerate data)))
    (enumerate data).

(** the calls made to fill the table of the distances to the pivots *)
Definition table_calls {A} (data pivots : list A) : list (A * A) := flat_map (fun y => map (fun x => (y, x)) data) pivots.
