(** Specification vocabulary for blocking, key collision and the intersection index.
    Independent of the model. *)
From Coq Require Import List Arith QArith.
Import ListNotations.
Open Scope nat_scope.
Open Scope list_scope.

(** x is somewhere before y in l *)
Definition precedes {A} (l : list A) (x y : A) : Prop := exists l1 l2 l3, l = l1 ++ x :: l2 ++ y :: l3.

(** n elements satisfy P *)
Definition card {T} (P : T -> Prop) (n : nat) : Prop :=
  exists l, NoDup l /\ (forall x, In x l <-> P x) /\ length l = n.

(** two items share a block and are similar (the similarity is given the first one first) *)
Definition block_link {A B} (blocks : A -> list B) (similarity : A -> A -> bool) (data : list A)
    (x y : A) : Prop :=
  precedes data x y /\ (exists b, In b (blocks x) /\ In b (blocks y)) /\ similarity x y = true.

(** two items share a truthy key *)
Definition key_link {A K} (truthy : K -> bool) (keys : A -> option (list K)) (data : list A) (x y : A) : Prop :=
  In x data /\ In y data /\ exists k lx ly, truthy k = true /\
    keys x = Some lx /\ keys y = Some ly /\ In k lx /\ In k ly.

(** jaccard and overlap similarities of the sets of two lists of tokens *)
Definition jaccard_is {T} (a b : list T) (q : Q) : Prop :=
  exists I U, card (fun x => In x a /\ In x b) I /\ card (fun x => In x a \/ In x b) U /\ U <> 0 /\
    q = (inject_Z (Z.of_nat I) / inject_Z (Z.of_nat U))%Q.
Definition overlap_is {T} (a b : list T) (q : Q) : Prop :=
  exists I n m, card (fun x => In x a /\ In x b) I /\ card (fun x => In x a) n /\ card (fun x => In x b) m /\
    n <> 0 /\ m <> 0 /\ q = (inject_Z (Z.of_nat I) / inject_Z (Z.of_nat (Nat.min n m)))%Q.

(** the later position first *)
Definition token_link {T} (jaccard : bool) (radius : Q) (keys : list (list T)) (i j : nat) : Prop :=
  j < i /\ exists a b q, nth_error keys i = Some a /\ nth_error keys j = Some b /\
    (if jaccard then jaccard_is a b q else overlap_is a b q) /\ (radius <= q)%Q.
