(** What it means for two clustering runs to agree.  Independent of the algorithms. *)
From Coq Require Import List.
From Verif Require Import Base ClustersSpec.
Import ListNotations.

(** both runs succeed and give the same clusters *)
Definition agree {A} (run1 run2 : res (list (list A))) : Prop :=
  exists out1 out2, run1 = Ok out1 /\ run2 = Ok out2 /\ same_clusters out1 out2.

(** every cluster of the first run lies inside a cluster of the second one *)
Definition refines {A} (run1 run2 : res (list (list A))) : Prop :=
  exists out1 out2, run1 = Ok out1 /\ run2 = Ok out2 /\ forall c, In c out1 -> exists c', In c' out2 /\ incl c c'.

(** items that share a truthy key *)
Definition collide {A K} (truthy : K -> bool) (keys : A -> option (list K)) (x y : A) : Prop :=
  exists k lx ly, truthy k = true /\ keys x = Some lx /\ keys y = Some ly /\ In k lx /\ In k ly.
