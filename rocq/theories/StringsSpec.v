(** Specification for the string utilities.  Independent of the model. *)
From Coq Require Import List Arith NArith ZArith QArith Qround.
From Coq Require Import Sorting.Sorted.
Import ListNotations.
Open Scope nat_scope.

(** runs of equal characters: (character, length of the run) *)
Definition expand {A} (runs : list (A * nat)) : list A := flat_map (fun r => repeat (fst r) (snd r)) runs.

(** the runs are not empty and maximal *)
Fixpoint runs_ok {A} (runs : list (A * nat)) : Prop :=
  match runs with
  | [] => True
  | r :: rest =>
    1 <= snd r /\ match rest with [] => True | r' :: _ => fst r <> fst r' end /\ runs_ok rest
  end.

(** two equal characters follow one another *)
Definition has_double {A} (s : list A) : Prop := exists p c q, s = p ++ c :: c :: q.

(** I, X, C, M, upper or lower case *)
Definition roman_digit (c : N) : Prop := In c [73; 88; 67; 77; 105; 120; 99; 109]%N.

(** g is the part of s made of the [length g] items from position i *)
Definition window {A} (s : list A) (i : nat) (g : list A) : Prop :=
  exists p q, s = p ++ g ++ q /\ length p = i.

(** one list is obtained by deleting items of another *)
Inductive subseq {A} : list A -> list A -> Prop :=
| subseq_nil : subseq [] []
| subseq_keep x c l : subseq c l -> subseq (x :: c) (x :: l)
| subseq_drop x c l : subseq c l -> subseq c (x :: l).

(** the positions p are increasing and below g *)
Definition positions_of (g : nat) (p : list nat) : Prop :=
  StronglySorted lt p /\ Forall (fun i => i < g) p.

(** items in order of first appearance *)
Fixpoint firsts (l : list N) : list N :=
  match l with
  | [] => []
  | x :: r => x :: filter (fun y => negb (N.eqb x y)) (firsts r)
  end.

Definition vowel (c : N) : bool := existsb (N.eqb c) [65; 69; 73; 79; 85]%N.
(** R, S, T, N, L, C, H, D, P, G, M, F, B, Y, W, V, Z, X, Q, K, J, rarest first *)
Definition rarity : list N :=
  [74; 75; 81; 88; 90; 86; 87; 89; 66; 70; 77; 71; 80; 68; 72; 67; 76; 78; 84; 83; 82]%N.
Definition letter (c : N) : Prop := (65 <= c <= 90)%N.

(** number of n-grams of a long enough s *)
Definition gram_count (n : nat) (s : list N) : Z := (Z.of_nat (length s) - Z.of_nat n + 1)%Z.
(** max(1, floor(k * threshold)) *)
Definition least_grams (n : nat) (s : list N) (t : Q) : nat := Z.to_nat (Z.max 1 (Qfloor (inject_Z (gram_count n s) * t))).
