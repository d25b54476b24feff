(** Shared vocabulary of the model: decidable equality, python exceptions as
    values, python lists (slices), and insertion-ordered dictionaries. *)
From Coq Require Export List Arith ZArith Lia Bool Permutation.
From Coq Require Export ZifyBool ZifyNat ZifyN.
Export ListNotations.

Class EqDec (A : Type) := eq_dec : forall x y : A, {x = y} + {x <> y}.

#[global] Instance EqDec_nat : EqDec nat := Nat.eq_dec.
#[global] Instance EqDec_Z : EqDec Z := Z.eq_dec.
#[global] Instance EqDec_N : EqDec N := N.eq_dec.
#[global] Instance EqDec_bool : EqDec bool := bool_dec.
#[global] Instance EqDec_list {A} `{EqDec A} : EqDec (list A) := list_eq_dec eq_dec.
#[global] Instance EqDec_prod {A B} `{EqDec A} `{EqDec B} : EqDec (A * B).
Proof. intros [a b] [c d]. destruct (eq_dec a c), (eq_dec b d);
  try (right; congruence). left; congruence. Defined.
#[global] Instance EqDec_option {A} `{EqDec A} : EqDec (option A).
Proof. intros [a|] [b|]; try (right; congruence); [|left; reflexivity].
  destruct (eq_dec a b); [left|right]; congruence. Defined.

Definition eqb {A} `{EqDec A} (x y : A) : bool := if eq_dec x y then true else false.

(** python [x in l] *)
Definition memb {A} `{EqDec A} (x : A) (l : list A) : bool :=
  if in_dec eq_dec x l then true else false.

(** Python exceptions the modelled code can raise.  [OutOfFuel] is not a python
    exception: it marks a loop that has not finished within the given fuel. *)
Inductive exn :=
| TypeError | KeyError | IndexError | ValueError | ZeroDivisionError
| AttributeError | RuntimeError | StopIteration | AssertionError | StatisticsError | CsvError | OutOfFuel.

Inductive res (A : Type) :=
| Ok (a : A)
| Err (e : exn).
Arguments Ok {A} a.
Arguments Err {A} e.

Definition bind {A B} (x : res A) (f : A -> res B) : res B :=
  match x with Ok a => f a | Err e => Err e end.
Notation "'let!' x := a 'in' b" := (bind a (fun x => b))
  (at level 200, x pattern, a at level 100, b at level 200).

(** python slice [l[i:j]] for 0 <= i, 0 <= j (clipped like python's) *)
Definition slice {A} (i j : nat) (l : list A) : list A := firstn (j - i) (skipn i l).

(** Insertion-ordered dictionaries (python >= 3.7 dict/defaultdict). *)
Definition dict (K V : Type) := list (K * V).

Fixpoint dget {K V} `{EqDec K} (d : dict K V) (k : K) : option V :=
  match d with
  | [] => None
  | (k', v) :: d' => if eq_dec k k' then Some v else dget d' k
  end.

(** [d[k] = f(d[k])] where a missing key starts from [dflt] (defaultdict) *)
Fixpoint dmodify {K V} `{EqDec K} (d : dict K V) (k : K) (dflt : V) (f : V -> V) : dict K V :=
  match d with
  | [] => [(k, f dflt)]
  | (k', v) :: d' => if eq_dec k k' then (k', f v) :: d' else (k', v) :: dmodify d' k dflt f
  end.

(** [d[k] = v] *)
Definition dset {K V} `{EqDec K} (d : dict K V) (k : K) (v : V) : dict K V :=
  dmodify d k v (fun _ => v).

Definition dkeys {K V} (d : dict K V) : list K := map fst d.
Definition dvalues {K V} (d : dict K V) : list V := map snd d.

(** python [set] as the duplicate-free list of its elements in insertion order *)
Definition sadd {A} `{EqDec A} (s : list A) (x : A) : list A :=
  if in_dec eq_dec x s then s else s ++ [x].

Definition set_of {A} `{EqDec A} (l : list A) : list A := fold_left sadd l [].

(** size bounds: [max_size = float('inf')] is [None] *)
Definition le_max (n : nat) (hi : option nat) : bool :=
  match hi with None => true | Some h => Nat.leb n h end.
