(** What minhash signatures and their clustering should be.  Independent of the model. *)
From Coq Require Import List NArith ZArith QArith Qround Reals.
Import ListNotations.
Open Scope nat_scope.

(** [v] is the least of 2^32 - 1 and of the numbers (a * t + b) mod p, for t in S *)
Definition least_hash (p a b : N) (S : N -> Prop) (v : N) : Prop :=
  (v = 2 ^ 32 - 1 \/ exists t, S t /\ v = ((a * t + b) mod p)%N)%N /\
  (v <= 2 ^ 32 - 1)%N /\ forall t, S t -> (v <= (a * t + b) mod p)%N.

(** the number of positions where two lists differ *)
Definition hamming (A B : list N) : nat := length (filter (fun ab => negb (N.eqb (fst ab) (snd ab))) (combine A B)).

(** ** SuperMinHash *)
(** exchange positions j and k *)
Definition swap (l : list nat) (j k : nat) : list nat :=
  map (fun x => nth (if Nat.eqb x j then k else if Nat.eqb x k then j else x) l 0) (seq 0 (length l)).
(** the shuffle of Fisher and Yates of 0 .. m-1, drawing [r j] at turn j *)
Definition shuffle_until (r : nat -> Q) (m n : nat) : list nat :=
  fold_left (fun l j => swap l j (j + Z.to_nat (Qfloor (r j * inject_Z (Z.of_nat (m - j)))))) (seq 0 n) (seq 0 m).
Definition shuffle (r : nat -> Q) (m : nat) : list nat := shuffle_until r m m.
(** [n] is the place of [x] in the shuffle *)
Definition place (r : nat -> Q) (m x n : nat) : Prop := nth_error (shuffle r m) n = Some x.
(** numbers drawn in [0, 1[ *)
Definition unit_draws (r : nat -> Q) : Prop := forall j, (0 <= r j < 1)%Q.
(** [v] is the least place of [x] in the shuffles of the tokens *)
Definition least_place (random : N -> nat -> Q) (m : nat) (S : N -> Prop) (x : nat) (v : nat) : Prop :=
  (exists t, S t /\ place (random t) m x v) /\ forall t n, S t -> place (random t) m x n -> v <= n.

(** ** number of bands *)
(** similarity_threshold on the reals *)
Definition real_threshold (h bands : nat) : R := Rpower (1 / INR bands) (1 / (INR h / INR bands)).
(** the items share all the values of one of the bands of [rows] values *)
Definition share_band (bands rows : nat) (s s' : list N) : Prop :=
  exists i, i < bands /\ forall j, i * rows <= j < S i * rows -> nth_error s j = nth_error s' j.
