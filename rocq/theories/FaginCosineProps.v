(** C196, C197, C198: fagin.py with the cosine it computes *)
From Coq Require Import QArith Reals Qreals Lra.
From Verif Require Import Base BaseFacts PairwiseModel PairwiseProofs MetricsModel FaginModel FaginSpec FaginProofs FaginCosineModel FaginCosineSpec FaginCosineProofs FaginCosineMoreProofs FaginCosineSqrtProofs.
Open Scope nat_scope.

Section Props.
Context {D : Type} `{EqDec D}.
Implicit Types vectors : list (vector D).

(** C196: the pairs that are not yielded have a null cosine, if any *)
Theorem C196_complete vectors i j x : well_formed vectors -> i < length vectors -> j < i ->
  cosine false (nth i vectors []) (nth j vectors []) = Ok x -> x <> 0%R -> In (i, j) (naive_cosine_pairs vectors).
Proof.
  intros W Li Lj E Nx. apply (naive_cosine_pairs_spec vectors W). split; [exact Li|]. split; [exact Lj|].
  destruct (List.existsb (fun d => memb d (dkeys (nth j vectors []))) (dkeys (nth i vectors []))) eqn:Ex.
  - apply existsb_exists in Ex. destruct Ex as (d & Hd & M). exists d. split; [exact Hd|]. apply memb_true in M. exact M.
  - exfalso. apply Nx. eapply cosine_zero; [|exact E]. intros d Hd Hj. assert (K : existsb (fun d => memb d (dkeys (nth j vectors []))) (dkeys (nth i vectors [])) = true).
    { apply existsb_exists. exists d. split; [exact Hd | apply memb_true; exact Hj]. }
    congruence.
Qed.

(** C196: with positive weights, they are exactly the pairs of positive cosine *)
Theorem C196_exact vectors : well_formed vectors -> Forall positive vectors -> forall i j,
  In (i, j) (naive_cosine_pairs vectors) <->
  i < length vectors /\ j < i /\ exists x, cosine false (nth i vectors []) (nth j vectors []) = Ok x /\ (0 < x)%R.
Proof.
  intros W P i j. split.
  - intros Hin. apply (naive_cosine_pairs_spec vectors W) in Hin. destruct Hin as (Li & Lj & S). split; [exact Li|]. split; [exact Lj|].
    rewrite Forall_forall in P. apply cosine_some; [apply P, nth_In; lia | apply P, nth_In; lia | exact S].
  - intros (Li & Lj & x & E & L). apply (C196_complete vectors i j x W Li Lj E). lra.
Qed.

(** C197: without null weights, threshold_algorithm_k1 raises nothing and finds another vector that shares a dimension, if any *)
Theorem C197_sound same vectors : well_formed vectors -> Forall no_zero vectors ->
  (forall i j, same i j = true -> nth i vectors [] = nth j vectors []) ->
  exists out, threshold_cosine same vectors = (out, None) /\ map fst out = seq 0 (length vectors) /\
  forall i j, In (i, j) out ->
    ((j <> i /\ j < length vectors /\ share_dimension vectors i j) \/
     (j = i /\ forall k, k < length vectors -> k <> i -> ~ share_dimension vectors i k)).
Proof.
  intros W Z S. destruct (threshold_spec signed vectors W) as (out & E & K). exists out. split; [|exact K].
  apply threshold_signed; assumption.
Qed.

(** C197: with positive weights, the vector found has a positive cosine, and is the vector itself when there is none *)
Theorem C197_positive same vectors : well_formed vectors -> Forall positive vectors ->
  (forall i j, same i j = true -> nth i vectors [] = nth j vectors []) ->
  exists out, threshold_cosine same vectors = (out, None) /\ map fst out = seq 0 (length vectors) /\
  forall i j, In (i, j) out ->
    ((j <> i /\ j < length vectors /\ exists x, cosine false (nth i vectors []) (nth j vectors []) = Ok x /\ (0 < x)%R) \/
     (j = i /\ forall k, k < length vectors -> k <> i -> cosine false (nth i vectors []) (nth k vectors []) = Ok 0%R)).
Proof.
  intros W P S. pose proof P as P'. rewrite Forall_forall in P'.
  destruct (C197_sound same vectors W) as (out & E & F & K); [eapply Forall_impl; [|exact P]; apply positive_no_zero | exact S|].
  exists out. split; [exact E|]. split; [exact F|]. intros i j Hin.
  assert (Li : i < length vectors). { apply (in_map fst) in Hin. cbn in Hin. rewrite F in Hin. apply in_seq in Hin. lia. }
  destruct (K i j Hin) as [(K1 & K2 & K3)|(-> & K2)].
  - left. split; [exact K1|]. split; [exact K2|]. apply cosine_some; [apply P', nth_In; exact Li | apply P', nth_In; exact K2 | exact K3].
  - right. split; [reflexivity|]. intros k Lk Nk. specialize (K2 k Lk Nk).
    destruct (cosine_signed (nth i vectors []) (nth k vectors [])) as (x & Ex & _); [apply positive_no_zero, P', nth_In; exact Li | apply positive_no_zero, P', nth_In; exact Lk|].
    rewrite Ex. f_equal. eapply cosine_zero; [|exact Ex]. intros d Hd Hk. apply K2. exists d. split; assumption.
Qed.

(** C198: the cosine of two dicts that are not the same object fails exactly when none is empty and one has only null weights *)
Theorem C198_fails same (u v : vector D) e : cosine same u v = Err e <->
  same = false /\ u <> [] /\ v <> [] /\ (null u \/ null v) /\ e = ZeroDivisionError.
Proof. exact (cosine_fails same u v e). Qed.

(** C198: sqrt_indexation_pairs stops at the first vector whose cosine with a leader fails; until there, each vector comes with
    the leader of largest cosine, the first one in case of a tie, and the earlier vectors that have the same leader *)
Theorem C198_leaders same indices vectors : Permutation indices (seq 0 (length vectors)) ->
  exists leader k,
    sqrt_cosine same indices vectors = (flat_map (around leader) (seq 0 k), if Nat.eqb k (length vectors) then None else Some ZeroDivisionError) /\
    k <= length vectors /\
    (forall i, i < k -> exists l1 l2 c, firstn (Nat.sqrt (length vectors)) indices = l1 ++ leader i :: l2 /\
       cosine (same i (leader i)) (nth i vectors []) (nth (leader i) vectors []) = Ok c /\
       (forall x, In x (firstn (Nat.sqrt (length vectors)) indices) -> exists c', cosine (same i x) (nth i vectors []) (nth x vectors []) = Ok c' /\ (c' <= c)%R) /\
       forall x c', In x l1 -> cosine (same i x) (nth i vectors []) (nth x vectors []) = Ok c' -> (c' < c)%R) /\
    (k < length vectors -> exists x, In x (firstn (Nat.sqrt (length vectors)) indices) /\
       cosine (same k x) (nth k vectors []) (nth x vectors []) = Err ZeroDivisionError).
Proof. exact (sqrt_cosine_spec same vectors indices). Qed.
End Props.

Definition near : list (vector nat) := [[(1, 2%Q)]; [(0, 1%Q); (1, 1%Q)]; [(0, 1%Q); (1, 3%Q)]].
Example near_well_formed : well_formed near /\ Forall positive near.
Proof.
  split; repeat constructor; cbn; try (intuition discriminate); intros d w; cbn; intuition; repeat match goal with K : (_, _) = (_, _) |- _ => injection K as <- <- end; reflexivity.
Qed.

Lemma near_signed : threshold_cosine Nat.eqb near = ([(0, 2); (1, 2); (2, 1)], None).
Proof.
  destruct near_well_formed as [W P]. apply threshold_signed; [exact W | eapply Forall_impl; [|exact P]; apply positive_no_zero | |].
  - intros i j E. apply Nat.eqb_eq in E. subst. reflexivity.
  - vm_compute. reflexivity.
Qed.

(** C197: the vector found is not the one of largest cosine: the third vector is closer to the first one than to the second one *)
Theorem C197_nearest_refuted : exists out x y,
  threshold_cosine Nat.eqb near = (out, None) /\ In (2, 1) out /\
  cosine false (nth 2 near []) (nth 1 near []) = Ok x /\ cosine false (nth 2 near []) (nth 0 near []) = Ok y /\ (x < y)%R.
Proof.
  destruct near_well_formed as [_ P]. rewrite Forall_forall in P.
  assert (N : forall i, i < 3 -> no_zero (nth i near [])) by (intros i L; apply positive_no_zero, P, nth_In; exact L).
  destruct (cosine_signed (nth 2 near []) (nth 1 near [])) as (x & Ex & Rx); [apply N; lia | apply N; lia|].
  destruct (cosine_signed (nth 2 near []) (nth 0 near [])) as (y & Ey & Ry); [apply N; lia | apply N; lia|].
  exists [(0, 2); (1, 2); (2, 1)], x, y. split; [exact near_signed|]. split; [right; right; left; reflexivity|]. split; [exact Ex|]. split; [exact Ey|].
  apply Rnot_le_lt. intros L. apply (represents_le _ _ _ _ Ry Rx) in L. vm_compute in L. apply L. reflexivity.
Qed.

(** C197: a null weight makes threshold_algorithm_k1 fail, even if no vector is null *)
Theorem C197_zero_refuted : exists vectors : list (vector nat),
  well_formed vectors /\ Forall (fun v => ~ null v) vectors /\ threshold_cosine Nat.eqb vectors = ([], Some ZeroDivisionError).
Proof.
  set (u := [(0, 1%Q)] : vector nat). set (v := [(0, 0%Q); (1, 1%Q)] : vector nat). exists [u; v]. split; [|split].
  - repeat constructor; cbn; intuition discriminate.
  - repeat constructor; intros N; [specialize (N 0 1%Q (or_introl eq_refl)) | specialize (N 1 1%Q (or_intror (or_introl eq_refl)))]; discriminate.
  - assert (E1 : exists x, cosine false u v = Ok x).
    { destruct (cosine false u v) as [x|e] eqn:E; [exists x; reflexivity|]. apply cosine_fails in E. destruct E as (_ & _ & _ & [N|N] & _).
      - specialize (N 0 1%Q (or_introl eq_refl)). discriminate.
      - specialize (N 1 1%Q (or_intror (or_introl eq_refl))). discriminate. }
    destruct E1 as (x & E1).
    assert (E2 : cosine false u [(0, 0%Q)] = Err ZeroDivisionError).
    { apply cosine_fails. split; [reflexivity|]. split; [discriminate|]. split; [discriminate|]. split; [right|reflexivity].
      intros d w [[= <- <-]|[]]. reflexivity. }
    assert (Es : sorted_lists [u; v] = [(0, [(0%Q, 1); (1%Q, 0)]); (1, [(1%Q, 1)])]) by (vm_compute; reflexivity).
    unfold threshold_cosine. rewrite Es. change (enumerate [u; v]) with [(0, u); (1, v)]. change (while_fuel [u; v]) with 4.
    cbn -[cosine u v]. change (map fst u) with [0]. cbn -[cosine u v]. rewrite E1. cbn -[cosine u v]. rewrite E2. reflexivity.
Qed.

(** C198: a vector of null weight is met *)
Example C198_null : sqrt_cosine Nat.eqb [0; 1] [[(0, 1%Q)]; [(0, 0%Q)]] = ([(0, 0)], Some ZeroDivisionError).
Proof.
  assert (E : cosine false [(0, 0%Q)] [(0, 1%Q)] = Err ZeroDivisionError).
  { apply cosine_fails. split; [reflexivity|]. split; [discriminate|]. split; [discriminate|]. split; [left|reflexivity]. intros d w [[= <- <-]|[]]. reflexivity. }
  unfold sqrt_cosine. change (firstn (Nat.sqrt (length [[(0, 1%Q)]; [(0, 0%Q)]])) [0; 1]) with [0].
  change (enumerate [[(0, 1%Q)]; [(0, 0%Q)]]) with [(0, [(0, 1%Q)]); (1, [(0, 0%Q)])].
  cbn [sqrt_cosine_loop leader_cosine Nat.eqb nth]. rewrite E. reflexivity.
Qed.

(** C196: the pairs of the example have positive cosines *)
Example C196_near : naive_cosine_pairs near = [(1, 0); (2, 1); (2, 0)].
Proof. vm_compute. reflexivity. Qed.

Print Assumptions C196_complete.
Print Assumptions C196_exact.
Print Assumptions C197_sound.
Print Assumptions C197_positive.
Print Assumptions C197_nearest_refuted.
Print Assumptions C197_zero_refuted.
Print Assumptions C198_fails.
Print Assumptions C198_leaders.
