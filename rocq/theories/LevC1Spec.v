(** What is left of a string whose length is counted on 32 bits. *)
From Verif Require Import Base.
Open Scope nat_scope.

Definition cut (s : list N) : list N := firstn (N.to_nat (N.of_nat (length s) mod 2 ^ 32)) s.
