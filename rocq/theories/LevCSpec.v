(** What the C code of the distances should do with the memory. *)
From Verif Require Import Base LevModel LevCModel.
Open Scope nat_scope.
Open Scope list_scope.

(** the system gives memory whenever it is asked *)
Definition generous (granted : N -> bool) : Prop := forall bytes, granted bytes = true.
(** the length is a C unsigned int *)
Definition fits (s : str) : Prop := (N.of_nat (length s) < 2 ^ 32)%N.
(** the characters are those of python *)
Definition chars (s : str) : Prop := forall x, In x s -> (x <= 1114111)%N.
(** the bytes still held *)
Fixpoint held (h : heap) : N :=
  match h with
  | [] => 0%N
  | None :: h => held h
  | Some (w, l) :: h => (w * N.of_nat (length l) + held h)%N
  end.
(** the difference of the lengths *)
Definition apart (A B : str) : nat := (length A - length B) + (length B - length A).
