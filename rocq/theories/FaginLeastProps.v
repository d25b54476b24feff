(** C200: what threshold_algorithm_k1 is sure to find *)
From Coq Require Import QArith Reals Qreals Lqa.
From Verif Require Import Base BaseFacts PairwiseModel PairwiseProofs MetricsModel FaginModel FaginSpec FaginProofs FaginCosineModel FaginCosineSpec FaginCosineProofs FaginCosineMoreProofs FaginLeastSpec FaginLeastProofs.
Open Scope nat_scope.

Section Props.
Context {D : Type} `{EqDec D}.
Implicit Types vectors : list (vector D).

(** C200: the vector found is at least as similar as the one of least weight in each dimension *)
Theorem C200_least similarity vectors out : well_formed vectors -> threshold_algorithm_k1 similarity vectors = Ok out ->
  forall i j d k, In (i, j) out -> In d (dims vectors i) -> least_other vectors i d k ->
  (similarity (nth i vectors []) (nth k vectors []) <= similarity (nth i vectors []) (nth j vectors []))%Q.
Proof. exact (threshold_least similarity vectors out). Qed.

(** C200: it is the most similar one when each dimension is shared with at most one other vector *)
Theorem C200_nearest similarity vectors out : well_formed vectors -> threshold_algorithm_k1 similarity vectors = Ok out ->
  forall i j, In (i, j) out ->
  (forall d k k', In d (dims vectors i) -> k <> i -> k' <> i -> In d (dims vectors k) -> In d (dims vectors k') -> k = k') ->
  forall k, k < length vectors -> k <> i -> share_dimension vectors i k ->
  (similarity (nth i vectors []) (nth k vectors []) <= similarity (nth i vectors []) (nth j vectors []))%Q.
Proof.
  intros W E i j Hin U k Lk Nk (d & Hd & Hk). apply (threshold_least similarity vectors out W E i j d k Hin Hd).
  split; [exact Lk|]. split; [exact Nk|]. pose proof Hk as Hw. unfold dims in Hw. apply dget_In_keys in Hw. destruct Hw as [w Hw]. exists w. split; [exact Hw|].
  intros k' w' Lk' Nk' Ek'. right. assert (k' = k) as ->; [|split; [assert (w' = w) by congruence; subst; apply Qeq_refl | lia]].
  apply (U d k' k Hd Nk' Nk); [|exact Hk]. apply dget_In_keys. exists w'. exact Ek'.
Qed.

(** C200: the same for the cosines, without null weights *)
Theorem C200_cosine same vectors : well_formed vectors -> Forall no_zero vectors ->
  (forall i j, same i j = true -> nth i vectors [] = nth j vectors []) ->
  exists out, threshold_cosine same vectors = (out, None) /\
  forall i j d k, In (i, j) out -> In d (dims vectors i) -> least_other vectors i d k ->
  exists x y, cosine false (nth i vectors []) (nth k vectors []) = Ok x /\ cosine false (nth i vectors []) (nth j vectors []) = Ok y /\ (x <= y)%R.
Proof.
  intros W Z S. destruct (threshold_spec signed vectors W) as (out & E & F & K). exists out. split; [apply threshold_signed; assumption|].
  intros i j d k Hin Hd Hl. pose proof (threshold_least signed vectors out W E i j d k Hin Hd Hl) as L.
  assert (Zn : forall n, no_zero (nth n vectors [])).
  { intros n. destruct (Nat.lt_ge_cases n (length vectors)) as [Ln|Ln]; [rewrite Forall_forall in Z; apply Z, nth_In, Ln|].
    rewrite nth_overflow by exact Ln. intros a b []. }
  destruct (cosine_signed (nth i vectors []) (nth k vectors []) (Zn i) (Zn k)) as (x & Ex & Rx).
  destruct (cosine_signed (nth i vectors []) (nth j vectors []) (Zn i) (Zn j)) as (y & Ey & Ry).
  exists x, y. split; [exact Ex|]. split; [exact Ey|]. apply (represents_le _ _ _ _ Rx Ry). exact L.
Qed.
End Props.

Definition pick (u v : vector nat) : Q := fold_left (fun s dw => (s + snd dw * match dget v (fst dw) with Some w => w | None => 0 end)%Q) u 0%Q.

(** two dimensions, and a vector of least weight for each *)
Definition few : list (vector nat) := [[(0, 1%Q); (1, 5%Q)]; [(0, 2%Q)]; [(1, 1%Q)]; [(0, 3%Q)]].
Example few_found : threshold_algorithm_k1 pick few = Ok [(0, 2); (1, 0); (2, 0); (3, 0)].
Proof. vm_compute. reflexivity. Qed.

Example few_least : least_other few 0 0 1 /\ least_other few 0 1 2.
Proof.
  split; (split; [cbn; lia|]; split; [lia|]; eexists; split; [reflexivity|]); intros [|[|[|[|k']]]] w'; cbn; intros L N E; try lia; try discriminate;
    injection E as <-; [right; split; [reflexivity | lia] | left; reflexivity | right; split; [reflexivity | lia]].
Qed.

Print Assumptions C200_least.
Print Assumptions C200_nearest.
Print Assumptions C200_cosine.
