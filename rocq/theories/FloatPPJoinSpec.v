(** A similarity join whose numbers are floats.  Independent of the model. *)
From Coq Require Import List QArith.
From Verif Require Import BlockingSpec PPJoinSpec FloatSpec.
Import ListNotations.
Open Scope Q_scope.

(** the thresholds, floats, for which the join works *)
Definition threshold_ok_float (m : metric) (t : Q) : Prop :=
  float53 t /\ t < 1 /\ match m with BinaryCosine => 0 < t /\ 1 # 100000 <= t * t | _ => 1 # 100000 <= t end.

(** the numbers of tokens for which rounding is under control *)
Definition small (n : nat) : Prop := (Z.of_nat n <= 1048576)%Z.

(** the size under which equal records are lost, for a given epsilon *)
Definition too_short_at (e : Q) (m : metric) (t : Q) (n : nat) : Prop :=
  match m with
  | Jaccard => (natq n - 1 + e) * (1 + t) < 2 * t * natq n
  | _ => natq n - 1 + e < t * natq n
  end.
Definition lost_at {T} (e : Q) (m : metric) (t : Q) (x y : list T) : Prop :=
  (forall w, In w x <-> In w y) /\ exists n, card (fun w => In w x) n /\ too_short_at e m t n.
