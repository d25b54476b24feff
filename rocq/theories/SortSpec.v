(** What a stable sort is.  Independent of the model. *)
From Coq Require Import List Permutation Sorted Bool.
Import ListNotations.

(** a total preorder, given by a boolean comparison *)
Record total_preorder {A} (leb : A -> A -> bool) : Prop := {
  leb_total : forall a b, leb a b = true \/ leb b a = true;
  leb_trans : forall a b c, leb a b = true -> leb b c = true -> leb a c = true
}.

(** s is l sorted, equivalent elements keeping their order *)
Record stably_sorted {A} (leb : A -> A -> bool) (l s : list A) : Prop := {
  sorted_perm : Permutation s l;
  sorted_order : StronglySorted (fun a b => leb a b = true) s;
  sorted_stable : forall x, filter (fun y => leb x y && leb y x) s = filter (fun y => leb x y && leb y x) l
}.
