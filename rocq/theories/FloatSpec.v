(** What a binary64 number is, apart from its range.  Independent of the model. *)
From Coq Require Import QArith Qabs ZArith.
Open Scope Q_scope.

(** m * 2^k with m of at most 53 bits *)
Definition float53 (x : Q) : Prop := exists m k : Z, (Z.abs m <= 2 ^ 53)%Z /\ x == inject_Z m * (2 # 1) ^ k.

(** x is the float nearest to q; between two of them, the one whose significand is even *)
Definition rounds (q x : Q) : Prop :=
  float53 x /\
  (forall y, float53 y -> Qabs (x - q) <= Qabs (y - q)) /\
  (forall y, float53 y -> ~ y == x -> Qabs (y - q) == Qabs (x - q) ->
    exists m k : Z, (2 ^ 52 <= Z.abs m < 2 ^ 53)%Z /\ Z.even m = true /\ x == inject_Z m * (2 # 1) ^ k).

(** x is the float nearest to the square root of q, said on the squares: the root is not below the middle of x and a smaller float,
    nor above the middle of x and a greater one *)
Definition rounds_sqrt (q x : Q) : Prop :=
  float53 x /\ 0 <= x /\
  (forall y, float53 y -> 0 <= y -> y < x -> (x + y) * (x + y) <= 4 * q) /\
  (forall y, float53 y -> x < y -> 4 * q <= (x + y) * (x + y)).
