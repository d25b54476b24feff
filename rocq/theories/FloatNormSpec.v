(** Sums of squares, without rounding. *)
From Coq Require Import QArith ZArith List.
From Verif Require Import FloatSpec.
Import ListNotations.
Open Scope Q_scope.

(** the sum of the squares *)
Fixpoint squares (ws : list Q) : Q :=
  match ws with
  | [] => 0
  | w :: ws => w * w + squares ws
  end.
Fixpoint zsquares (ws : list Z) : Z :=
  match ws with
  | [] => 0
  | w :: ws => w * w + zsquares ws
  end%Z.

(** the weights of a vector are floats *)
Definition floats {T : Type} (A : list (T * Q)) : Prop := forall k w, In (k, w) A -> float53 w.
(** weights of the same keys, in the same order, related by P *)
Definition pointwise {T V W : Type} (P : V -> W -> Prop) (A : list (T * V)) (B : list (T * W)) : Prop :=
  Forall2 (fun a b => fst a = fst b /\ P (snd a) (snd b)) A B.
(** the vector multiplied by c *)
Definition scaled_by {T : Type} (c : Q) (A : list (T * Q)) : list (T * Q) := map (fun kw => (fst kw, c * snd kw)) A.
(** int weights, as floats *)
Definition as_floats {T : Type} (A : list (T * Z)) : list (T * Q) := map (fun kw => (fst kw, inject_Z (snd kw))) A.
