(** Sharing dimensions. *)
From Coq Require Import QArith.
From Verif Require Import Base.
Open Scope nat_scope.

Section Spec.
Context {D : Type}.

(** the dimensions of the i-th vector, each once *)
Definition dims (vectors : list (dict D Q)) (i : nat) : list D := dkeys (nth i vectors []).
Definition well_formed (vectors : list (dict D Q)) : Prop := Forall (fun v => NoDup (dkeys v)) vectors.
Definition share_dimension (vectors : list (dict D Q)) (i j : nat) : Prop := exists d, In d (dims vectors i) /\ In d (dims vectors j).

(** candidates share a dimension with the vector and one of them has all its dimensions *)
Definition fagin_candidates (vectors : list (dict D Q)) (i : nat) (cands : list nat) : Prop :=
  NoDup cands /\ ~ In i cands /\ (forall j, In j cands -> j < length vectors /\ share_dimension vectors i j) /\
  exists j, In j cands /\ incl (dims vectors i) (dims vectors j).
End Spec.
