(** C139 to C141: python's heapq, and what uses it. *)
From Coq Require Import QArith ZArith Lqa Lia String Sorted.
From Verif Require Import Base BaseFacts ClustersModel ClustersSpec PairwiseModel PairwiseSpec LevModel StringsModel SortModel SortSpec SortFacts GraphModel GraphSpec GraphProofs
  NNDescentModel NNDescentSpec NNDescentProofs NNDescentProps SeededModel SeededProps HeapModel HeapSpec HeapProofs.
Open Scope nat_scope.
Open Scope list_scope.
Notation length := List.length.

(** ** C139: heapify gives a heap of the same elements, heapreplace replaces the first one; the first element of a heap is a least one *)
Section Heaps.
Context {X : Type}.
Variable lt : X -> X -> bool.
Variable le : X -> X -> Prop.
Hypothesis C : compares lt le.

Theorem C139_heapify l : heap le (heapify lt l) /\ Permutation (heapify lt l) l.
Proof. split; [apply heapify_heap|eapply heapify_perm]; eauto. Qed.
Theorem C139_heapreplace e h x : heap le (e :: h) -> heap le (heapreplace lt (e :: h) x) /\ Permutation (heapreplace lt (e :: h) x) (x :: h).
Proof. split; [apply heapreplace_heap|eapply heapreplace_perm]; eauto. Qed.
Theorem C139_least e h : heap le (e :: h) -> Forall (le e) h.
Proof. intros Hh. apply Forall_forall. eapply heap_least; eauto. Qed.
End Heaps.

(** ** C140: heapq does what is asked of it by C53, C79 and C80 *)
Theorem C140_entries : heap_module (heap first_le) (heapify entry_lt) (heapreplace entry_lt).
Proof. apply heap_module_ok, entry_compares. Qed.
Theorem C140_full_entries : heap_module (heap first_le) (heapify full_lt) (heapreplace full_lt).
Proof. apply heap_module_ok, full_compares. Qed.
(** nn_descent with a seed and python's heapq: the clusters are made of pairs within the radius *)
Theorem C140_nn_descent {A} `{EqDec A} set_order (similarity : option (A -> A -> Q)) (distance : A -> A -> Q) V tries fuel turns a k radius lo hi out :
  (forall l, Permutation (set_order l) l) ->
  nn_descent_seeded set_order (heapify entry_lt) (heapreplace entry_lt) similarity (Some distance) V tries fuel turns a k radius lo hi "connected_components" = Ok out ->
  exists pairs clusters, (forall i j, In (i, j) pairs -> i <> j /\ exists x y, nth_error V i = Some x /\ nth_error V j = Some y /\ (distance x y <= radius)%Q) /\
    is_components (fun i => exists j, In (i, j) pairs \/ In (j, i) pairs) (fun i j => In (i, j) pairs) lo hi clusters /\ reads V clusters out.
Proof. intros P. apply (C138_nn_descent set_order _ _ (heap first_le)); auto. exact C140_entries. Qed.
(** nn_descent_full likewise, for any draws *)
Theorem C140_nn_descent_full {A} `{EqDec A} set_order (similarity : option (A -> A -> Q)) (distance : A -> A -> Q) V draws later fuel k radius rho delta lo hi out :
  (forall l, Permutation (set_order l) l) -> (forall r, In r draws -> r < length V) -> (forall x y, distance x y == distance y x)%Q ->
  nn_descent_full set_order (heapify full_lt) (heapreplace full_lt) similarity (Some distance) V fuel draws later k radius rho delta lo hi "connected_components" = Ok out ->
  exists pairs clusters, (forall i j, In (i, j) pairs -> i <> j /\ exists x y, nth_error V i = Some x /\ nth_error V j = Some y /\ (distance x y <= radius)%Q) /\
    is_components (fun i => exists j, In (i, j) pairs \/ In (j, i) pairs) (fun i j => In (i, j) pairs) lo hi clusters /\ reads V clusters out.
Proof. intros P D S'. apply (C80_links_distance set_order P _ _ (heap first_le) C140_full_entries); auto. Qed.

(** ** C141: heapq.nlargest of a generator gives the first [n] elements of its elements in decreasing order *)
Theorem C141_nlargest n l : exists rest, Permutation (nlargest_heap n l ++ rest) l /\ length (nlargest_heap n l) = Nat.min n (length l) /\
  StronglySorted (fun a b => b <= a) (nlargest_heap n l) /\ (forall x y, In x (nlargest_heap n l) -> In y rest -> y <= x).
Proof.
  rewrite nlargest_heap_spec. unfold nlargest. set (s := sort_by (fun a b => Nat.leb b a) l).
  assert (Srt : StronglySorted (fun a b => b <= a) s).
  { unfold s. pose proof (sort_by_sorted _ leb_rev_preorder l) as G. induction G as [|x m _ IH F]; constructor; [exact IH|].
    eapply Forall_impl; [|exact F]. intros y. apply Nat.leb_le. }
  exists (skipn n s). rewrite firstn_skipn, firstn_length. unfold s at 1 2. rewrite sort_by_length. split; [apply sort_by_perm|]. split; [reflexivity|].
  rewrite <- (firstn_skipn n s) in Srt. revert Srt. generalize (skipn n s). intros t. induction (firstn n s) as [|x m IH]; intros Srt; cbn in *.
  - split; [constructor|]. intros x y [].
  - inversion Srt as [|? ? Srt' F]; subst. destruct (IH Srt') as [A B]. rewrite Forall_forall in F. split.
    + constructor; [exact A|]. apply Forall_forall. intros y Hy. apply F, in_or_app. auto.
    + intros u v [<-|Hu] Hv; [apply F, in_or_app; auto|auto].
Qed.
(** it is sorted(iterable, reverse=True)[:n], as documented *)
Theorem C141_sorted n l : nlargest_heap n l = nlargest n l.
Proof. apply nlargest_heap_spec. Qed.
(** second_largest_component_size with it *)
Theorem C141_second_largest {N W} `{EqDec N} (g : graph N W) f : undirected g ->
  exists sizes s, component_sizes g f = Ok sizes /\ second_largest_heap g f = Ok s /\ second_largest sizes s.
Proof.
  intros U. destruct (second_largest_spec g U f) as (sizes & s & E1 & E2 & E3). exists sizes, s. split; [exact E1|]. split; [|exact E3].
  unfold second_largest_heap. unfold second_largest_component_size in E2. rewrite E1 in *. cbn [bind] in *. rewrite nlargest_heap_spec. exact E2.
Qed.

Print Assumptions C139_heapify.
Print Assumptions C139_heapreplace.
Print Assumptions C139_least.
Print Assumptions C140_entries.
Print Assumptions C140_full_entries.
Print Assumptions C140_nn_descent.
Print Assumptions C140_nn_descent_full.
Print Assumptions C141_nlargest.
Print Assumptions C141_sorted.
Print Assumptions C141_second_largest.

(** ** Examples, whose values are those of CPython *)
Example heapify_nat : heapify Nat.ltb [9; 4; 7; 1; 8; 2; 6; 3; 5; 0] = [0; 1; 2; 3; 4; 7; 6; 9; 5; 8].
Proof. vm_compute. reflexivity. Qed.
Example heapreplace_nat : heapreplace Nat.ltb [0; 1; 2; 3; 4; 7; 6; 9; 5; 8] 10 = [1; 3; 2; 5; 4; 7; 6; 9; 10; 8].
Proof. vm_compute. reflexivity. Qed.
Example not_sorted : heapify Nat.ltb [3; 1; 2] = [1; 3; 2].
Proof. vm_compute. reflexivity. Qed.
Example compares_nat : compares Nat.ltb Nat.le.
Proof. split; intros; rewrite ?Nat.ltb_lt, ?Nat.ltb_ge in *; lia. Qed.
Example a_heap : heap Nat.le [1; 3; 2] /\ ~ heap Nat.le [2; 3; 1].
Proof.
  split.
  - change [1; 3; 2] with (heapify Nat.ltb [3; 1; 2]). apply (C139_heapify _ _ compares_nat).
  - intros Hh. specialize (C139_least _ _ compares_nat _ _ Hh) as F. inversion F as [|? ? _ F2]; subst. inversion F2; subst. lia.
Qed.
Example nlargest_two : nlargest_heap 2 [3; 5; 1; 5; 4] = [5; 5] /\ nlargest_heap 1 [3; 5; 1] = [5] /\ nlargest_heap 3 [2; 1] = [2; 1] /\ nlargest_heap 2 [] = [].
Proof. vm_compute. auto. Qed.
(** test/clustering/nn_descent_test.py with the draws of Random(123) and the heaps of heapq *)
Example nn_heapq : nn_descent_seeded (fun l => l) (heapify entry_lt) (heapreplace entry_lt) None (Some lev_distance) nn_data 100 100 10 123 (Some 1) 1 2 None "connected_components" =
  nn_descent_seeded (fun l => l) sort_entries replace_least None (Some lev_distance) nn_data 100 100 10 123 (Some 1) 1 2 None "connected_components".
Proof. vm_compute. reflexivity. Qed.
