(** Probability that two signatures share a band, when their values agree independently.  Independent of the model. *)
From Coq Require Import List NArith Reals Bool.
Import ListNotations.
Open Scope nat_scope.
Open Scope R_scope.

(** all the outcomes of n draws *)
Fixpoint draws {X} (outcomes : list X) (n : nat) : list (list X) :=
  match n with
  | O => [[]]
  | S n => flat_map (fun x => map (cons x) (draws outcomes n)) outcomes
  end.

Fixpoint Rsum (l : list R) : R := match l with [] => 0 | x :: l => x + Rsum l end.
Fixpoint Rprod (l : list R) : R := match l with [] => 1 | x :: l => x * Rprod l end.

(** two values of the signatures agree with probability s *)
Definition agrees (s : R) (b : bool) : R := if b then s else 1 - s.

(** a band: which of its rows agree; a table: which rows of which bands agree *)
Definition band_weight (s : R) (band : list bool) : R := Rprod (map (agrees s) band).
Definition table_weight (s : R) (table : list (list bool)) : R := Rprod (map (band_weight s) table).
Definition tables (bands rows : nat) : list (list (list bool)) := draws (draws [true; false] rows) bands.

(** some band agrees on all its rows *)
Definition matching (table : list (list bool)) : bool := existsb (forallb (fun b => b)) table.

(** the probability of an event *)
Definition probability (s : R) (bands rows : nat) (event : list (list bool) -> bool) : R :=
  Rsum (map (table_weight s) (filter event (tables bands rows))).

(** which rows of which bands agree in two signatures *)
Definition agreement (bands rows : nat) (s s' : list N) : list (list bool) :=
  map (fun i => map (fun j => match nth_error s (i * rows + j)%nat, nth_error s' ((i * rows + j)%nat) with
                              | Some v, Some v' => N.eqb v v'
                              | None, None => true
                              | _, _ => false
                              end) (seq 0 rows)) (seq 0 bands).
