(** What bit counts and simhash should be.  Independent of the model. *)
From Coq Require Import List NArith ZArith.
Import ListNotations.

(** the number of bits set among the first [w] *)
Definition bits_set (w : nat) (x : N) : nat := length (filter (N.testbit_nat x) (seq 0 w)).
(** the number of different bits among the first [w] *)
Definition bits_apart (w : nat) (x y : N) : nat := length (filter (fun i => xorb (N.testbit_nat x i) (N.testbit_nat y i)) (seq 0 w)).

(** a strict majority of the numbers have the [i]-th bit set *)
Definition majority (hashes : list N) (i : nat) : Prop :=
  length hashes < 2 * length (filter (fun h => N.testbit_nat h i) hashes).

(** the number written by hexadecimal digits, most significant first *)
Definition hex_value (digits : list N) (x : N) : Prop :=
  (forall d, In d digits -> (d < 16)%N) /\
  x = fold_right N.add 0%N (map (fun '(k, d) => (d * 16 ^ N.of_nat k)%N) (combine (rev (seq 0 (length digits))) digits)).
