(** C207: how long floatsam_sparsification can be waited for *)
From Coq Require Import QArith Lia Lqa.
From Verif Require Import Base ClustersSpec ClustersProofs GraphModel GraphSpec GraphProofs GraphProps FloatsamBoundProofs.
Notation length := List.length.
Open Scope list_scope.
Open Scope nat_scope.

Section Bound.
Context {N : Type} `{EqDec N}.
Variable g : graph N Q.
Hypothesis Hg : undirected g.
Variable int_log : nat -> nat.
Hypothesis Hedge : exists a b w, edge g a b w.

(** a rate of 0 or more: it ends within K turns or never, when the K-th threshold is above all the weights *)
Theorem C207_up start rate m remove K fuel : (0 <= rate)%Q -> 1 <= K -> (forall a b w, edge g a b w -> (w < scaled start rate K)%Q) -> K <= fuel ->
  floatsam_sparsification int_log fuel g start rate m remove = floatsam_sparsification int_log K g start rate m remove.
Proof.
  intros R L1 W L. apply (settled g Hg int_log Hedge); [exact L1 | exact L|]. intros k Lk a b w Hw. pose proof (W a b w Hw). pose proof (scaled_up start rate K k R Lk). split; intros; lra.
Qed.

(** a rate of 0 or less: the same, when the K-th threshold is below all the weights *)
Theorem C207_down start rate m remove K fuel : (rate <= 0)%Q -> 1 <= K -> (forall a b w, edge g a b w -> (scaled start rate K <= w)%Q) -> K <= fuel ->
  floatsam_sparsification int_log fuel g start rate m remove = floatsam_sparsification int_log K g start rate m remove.
Proof.
  intros R L1 W L. apply (settled g Hg int_log Hedge); [exact L1 | exact L|]. intros k Lk a b w Hw. pose proof (W a b w Hw). pose proof (scaled_down start rate K k R Lk). split; intros; lra.
Qed.

(** a null rate: the first turn tells *)
Theorem C207_zero start rate m remove fuel : (rate == 0)%Q -> 1 <= fuel ->
  floatsam_sparsification int_log fuel g start rate m remove = floatsam_sparsification int_log 1 g start rate m remove.
Proof.
  intros R L. apply (settled g Hg int_log Hedge); [lia | exact L|]. intros k Lk a b w Hw. unfold scaled. rewrite !R. split; intros; lra.
Qed.

(** hence a connected graph whose weights are all above the start never comes back with a rate of 0 or less *)
Theorem C207_connected start rate m remove : (rate <= 0)%Q -> (forall a b w, edge g a b w -> (start <= w)%Q) ->
  (forall a b, In a (map fst g) -> In b (map fst g) -> connected (fun x y => exists w, edge g x y w) a b) -> 1 <= drifter g int_log m ->
  forall fuel, floatsam_sparsification int_log fuel g start rate m remove = Err OutOfFuel.
Proof.
  intros R W C Hm fuel. rewrite (floatsam_run g Hg int_log _ start rate m remove Hedge). pose proof (floatsam_loop_spec g Hg rate (drifter g int_log m) fuel start) as S.
  destruct (floatsam_loop fuel g rate (drifter g int_log m) start) as [r|e]; [|destruct S as [-> _]; reflexivity].
  exfalso. destruct S as (k & _ & _ & (c & c' & Cc & Cc' & I & D & L & L') & _).
  destruct c as [|x c]; [cbn in L; lia|]. destruct c' as [|y c']; [cbn in L'; lia|].
  assert (Hxy : connected (heavy g (scaled start rate (Datatypes.S k))) x y).
  { apply (conn_mono (fun x y => exists w, edge g x y w)).
    - intros a b (w & Hw). apply Relation_Operators.rst_step. exists w. split; [exact Hw|]. pose proof (W a b w Hw). pose proof (scaled_down start rate 0 (Datatypes.S k) R ltac:(lia)) as Sd.
      assert (S0 : (scaled start rate 0 == start)%Q) by (unfold scaled; change (inject_Z (Z.of_nat 0)) with 0%Q; ring). lra.
    - apply C; apply I; apply in_or_app; [left | right]; left; reflexivity. }
  destruct Cc as (_ & x0 & _ & Ex). apply (D y); [|left; reflexivity]. apply Ex. apply (Relation_Operators.rst_trans _ _ _ x); [apply Ex; left; reflexivity | exact Hxy].
Qed.
End Bound.

(** two edges of weights 1 and 3: not connected *)
Definition two_edges : graph nat Q := [(0, [(1, 1%Q)]); (1, [(0, 1%Q)]); (2, [(3, 3%Q)]); (3, [(2, 3%Q)])].
Example C207_ex : let run := fun fuel start rate m => match floatsam_sparsification (fun _ => 1) fuel two_edges start rate (Some m) false with Ok r => Ok (Qred (fst r)) | Err e => Err e end in
  run 4 0%Q 1%Q 3 = Err OutOfFuel /\ run 1 0%Q 1%Q 2 = Ok 0%Q /\ run 9 4%Q (-1)%Q 2 = Ok 2%Q /\ run 3 4%Q (-1)%Q 2 = Ok 2%Q /\ run 2 4%Q (-1)%Q 2 = Err OutOfFuel /\ run 5 4%Q 0%Q 2 = Err OutOfFuel.
Proof. vm_compute. repeat split. Qed.

Print Assumptions C207_up.
Print Assumptions C207_down.
Print Assumptions C207_zero.
Print Assumptions C207_connected.
