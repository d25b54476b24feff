(** python's [sorted], as a stable insertion sort.  [leb a b] stands for [key(a) <= key(b)]. *)
From Verif Require Import Base.

Section Sort.
Context {A : Type}.
Variable leb : A -> A -> bool.

Fixpoint insert_by (x : A) (l : list A) : list A :=
  match l with
  | [] => [x]
  | y :: l' => if leb x y then x :: l else y :: insert_by x l'
  end.

Definition sort_by (l : list A) : list A := fold_right insert_by [] l.
End Sort.
