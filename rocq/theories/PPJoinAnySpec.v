(** Vocabulary for ppjoin with any threshold. *)
From Coq Require Import QArith.
From Verif Require Import PPJoinSpec.
Open Scope Q_scope.

(** a record of [n] different tokens is shorter than its prefix, as the metric counts it: the epsilon of the code is larger than the
    share of the record that the threshold asks for *)
Definition overrun (m : metric) (t : Q) (n : nat) : Prop :=
  match m with
  | Jaccard => t * natq n <= 1 # 1000000
  | Dice => 2 < t \/ t * natq n <= (1 # 1000000) * (2 - t)
  | BinaryCosine => t * t * natq n <= 1 # 1000000
  end.
(** the thresholds at which a helper divides by zero *)
Definition divides_by_zero (m : metric) (t : Q) : Prop :=
  match m with Jaccard => t == -1 # 1 | Dice => t == 2 | BinaryCosine => False end.
(** the thresholds above all the similarities, or equal to the highest one *)
Definition too_high (m : metric) (t : Q) : Prop := 1 <= t /\ match m with Dice => t < 2 | _ => True end.
