(** What a similarity join is.  Independent of the model. *)
From Coq Require Import List QArith String.
From Verif Require Import BlockingSpec.
Import ListNotations.
Open Scope Q_scope.

Inductive metric := Jaccard | Dice | BinaryCosine.
Definition metric_name (m : metric) : string :=
  match m with Jaccard => "jaccard" | Dice => "dice" | BinaryCosine => "binary_cosine" end.

Definition natq (n : nat) : Q := inject_Z (Z.of_nat n).

(** the similarity of two sets, of a and b elements, o of them being shared, is at least q; without divisions nor roots *)
Definition sim_at_least (m : metric) (q : Q) (a b o : nat) : Prop :=
  match m with
  | Jaccard => q * natq (a + b - o) <= natq o
  | Dice => q * natq (a + b) <= 2 * natq o
  | BinaryCosine => q <= 0 \/ q * q * natq (a * b) <= natq o * natq o
  end.
(** the same for two lists of tokens *)
Definition similar {T} (m : metric) (q : Q) (x y : list T) : Prop :=
  exists a b o, card (fun w => In w x) a /\ card (fun w => In w y) b /\ card (fun w => In w x /\ In w y) o /\ sim_at_least m q a b o.

(** the thresholds for which the join works *)
Definition threshold_ok (m : metric) (t : Q) : Prop :=
  t < 1 /\ match m with BinaryCosine => 0 < t /\ 1 # 1000000 < t * t | _ => 2 # 1000000 <= t end.

(** the number of tokens under which two records with the same tokens are not found by the default and plus modes *)
Definition too_short (m : metric) (t : Q) (n : nat) : Prop :=
  match m with
  | Jaccard => (natq n - 1 + (1 # 1000000)) * (1 + t) < 2 * t * natq n
  | _ => natq n - 1 + (1 # 1000000) < t * natq n
  end.
Definition lost {T} (m : metric) (t : Q) (x y : list T) : Prop :=
  (forall w, In w x <-> In w y) /\ exists n, card (fun w => In w x) n /\ too_short m t n.

(** [out] lists pairs of records, of different positions, each unordered pair at most once;
    all pairs that are [wanted] are there, and all that are there are [allowed] *)
Definition joins {R T} (tokens : R -> list T) (wanted allowed : list T -> list T -> Prop) (records : list R) (out : list (R * R)) : Prop :=
  exists pairs : list (nat * nat),
    NoDup pairs /\
    Forall2 (fun p q => nth_error records (fst p) = Some (fst q) /\ nth_error records (snd p) = Some (snd q)) pairs out /\
    (forall i j, In (i, j) pairs -> i <> j /\ ~ In (j, i) pairs) /\
    (forall i j a b, i <> j -> nth_error records i = Some a -> nth_error records j = Some b -> wanted (tokens a) (tokens b) ->
      In (i, j) pairs \/ In (j, i) pairs) /\
    (forall i j a b, In (i, j) pairs -> nth_error records i = Some a -> nth_error records j = Some b -> allowed (tokens a) (tokens b)).
