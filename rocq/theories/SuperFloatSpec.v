(** Draws as rounded by the code: at turn j of a signature of size m, r * (m - j) is rounded to a float before its integer part is
    taken.  [rounded r m] are numbers for which nothing would be rounded: they have these integer parts. *)
From Coq Require Import QArith Qround ZArith NArith.
From Verif Require Import FloatModel.

(** python's random.random(): multiples of 2^-53 in [0, 1[; only the bounds matter here *)
Definition float_draws (r : N -> nat -> Q) : Prop := forall t j, (0 <= r t j /\ r t j <= 1 - (2 # 1) ^ (-53))%Q.
(** the number drawn at turn j is not within j + 1 times 2^-53 of 1 *)
Definition far_from_one (r : N -> nat -> Q) (m : nat) (t : N) : Prop :=
  forall j, (j < m)%nat -> (r t j <= 1 - inject_Z (Z.of_nat (S j)) * (2 # 1) ^ (-53))%Q.
Definition rounded (r : N -> nat -> Q) (m : nat) (t : N) (j : nat) : Q :=
  (inject_Z (Qfloor (fl (r t j * inject_Z (Z.of_nat (m - j))))) / inject_Z (Z.of_nat (m - j)))%Q.
