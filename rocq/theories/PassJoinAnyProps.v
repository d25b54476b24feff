(** C208: passjoin with thresholds that are any integers *)
From Coq Require Import String ZArith.
From Verif Require Import Base LevModel ClustersModel PassJoinModel PassJoinAnyModel.
Notation length := List.length.
Open Scope Z_scope.
Open Scope list_scope.

Lemma range_nat n : range_of 0 (Z.of_nat n) = map Z.of_nat (seq 0 n).
Proof. unfold range_of. rewrite Z.sub_0_r, Nat2Z.id. apply map_ext. intros t. apply Z.add_0_l. Qed.

Definition inj3 (x : nat * nat * nat) : Z * Z * Z := let '(i, s, l) := x in (Z.of_nat i, Z.of_nat s, Z.of_nat l).

(** the lengths looked up are those within k, and there are some exactly when k >= 0 *)
Theorem C208_lengths sort k s l : 0 <= s ->
  (In l (lengths_z sort k s) <-> (if sort then s <= l else 0 <= l /\ s - k <= l) /\ l <= s + k) /\
  (lengths_z sort k s = [] <-> k < 0).
Proof.
  intros Hs. unfold lengths_z, range_of. split.
  - rewrite in_map_iff. split.
    + intros (t & <- & Ht). apply in_seq in Ht. destruct sort; lia.
    + intros (Hl & Hk). exists (Z.to_nat (l - (if sort then s else Z.max 0 (s - k)))). destruct sort; rewrite in_seq; lia.
  - split.
    + intros E. apply map_eq_nil in E. apply (f_equal (@List.length nat)) in E. rewrite seq_length in E. cbn [List.length] in E. destruct sort; lia.
    + intros L. replace (Z.to_nat _) with O; [reflexivity|]. destruct sort; lia.
Qed.

(** the parts of a length: those of C11 from k = 0 on; a division by zero for k = -1, an unbound variable below *)
Theorem C208_partition k l : 0 <= l ->
  (0 <= k -> partition_z k l = inl (map inj3 (partition (Z.to_nat k) (Z.to_nat l)))) /\
  (k = -1 -> partition_z k l = inr Division) /\
  (k < -1 -> partition_z k l = inr Unbound).
Proof.
  intros Hl. split; [|split].
  - intros Hk. rewrite <- (Z2Nat.id k Hk) at 1. rewrite <- (Z2Nat.id l Hl) at 1. generalize (Z.to_nat k) as n, (Z.to_nat l) as q. clear. intros n q. unfold partition_z, partition.
    destruct (Z.eqb_spec (Z.of_nat n + 1) 0); [lia|]. replace (Z.of_nat n + 1) with (Z.of_nat (n + 1)) by lia. rewrite <- Nat2Z.inj_div.
    pose proof (Nat.div_mod q (n + 1) ltac:(lia)) as D. pose proof (Nat.mod_upper_bound q (n + 1) ltac:(lia)) as B. set (a := (q / (n + 1))%nat) in *.
    replace (Z.of_nat q - Z.of_nat a * Z.of_nat (n + 1)) with (Z.of_nat (q - a * (n + 1))) by nia.
    assert (Lg : (q - a * (n + 1) < n + 1)%nat) by nia. set (large := (q - a * (n + 1))%nat) in *.
    replace (Z.of_nat (n + 1) - Z.of_nat large) with (Z.of_nat (n + 1 - large)) by lia.
    remember (n + 1 - large)%nat as small eqn:Es. destruct small as [|i]; [lia|]. rewrite !range_nat.
    assert (R : rev (map Z.of_nat (seq 0 (Datatypes.S i))) = Z.of_nat i :: rev (map Z.of_nat (seq 0 i))) by (rewrite seq_S, map_app, rev_app_distr; reflexivity).
    rewrite R. f_equal. rewrite !map_app, !map_map. replace (Datatypes.S i - 1)%nat with i by lia. f_equal.
    + apply map_ext. intros t. unfold inj3. f_equal. f_equal. lia.
    + apply map_ext. intros t. unfold inj3. f_equal; [f_equal|]; lia.
  - intros ->. reflexivity.
  - intros Hk. unfold partition_z. destruct (Z.eqb_spec (k + 1) 0); [lia|].
    pose proof (Z.div_mod l (k + 1) ltac:(lia)) as D. pose proof (Z.mod_neg_bound l (k + 1) ltac:(lia)) as B.
    unfold range_of. replace (Z.to_nat (k + 1 - (l - l / (k + 1) * (k + 1)) - 0)) with O by lia. reflexivity.
Qed.

(** k >= 0: the model of C09 and C10 *)
Theorem C208_natural distance set_order k data sort lo hi mode :
  passjoin_z distance set_order (Z.of_nat k) data sort lo hi mode = inl (passjoin k distance set_order data sort lo hi mode).
Proof.
  unfold passjoin_z, passjoin. generalize (if sort then sorted data else data) as d. intros d.
  assert (G : forall d L, passjoin_pairs_z distance sort (Z.of_nat k) d L = inl (passjoin_pairs k distance sort d L)).
  { clear. induction d as [|A d IH]; intros L; [reflexivity|]. cbn [passjoin_pairs_z passjoin_pairs]. rewrite Nat2Z.id, IH.
    destruct (C208_partition (Z.of_nat k) (Z.of_nat (length A)) ltac:(lia)) as (P & _). rewrite P by lia.
    destruct (lengths_z sort (Z.of_nat k) (Z.of_nat (length A))) eqn:E; [|reflexivity].
    apply (C208_lengths sort (Z.of_nat k) (Z.of_nat (length A)) 0 ltac:(lia)) in E. lia. }
  rewrite G. reflexivity.
Qed.

(** k < 0: it fails on the first string, whatever the rest and the mode; only without data does it end *)
Theorem C208_negative distance set_order k data sort lo hi mode : k < 0 ->
  passjoin_z distance set_order k data sort lo hi mode =
  match data with
  | [] => inl (clusters_from_pairs set_order [] lo hi mode false)
  | _ => inr (if k =? -1 then Division else Unbound)
  end.
Proof.
  intros Hk. unfold passjoin_z.
  assert (E : forall d, d <> [] -> passjoin_pairs_z distance sort k d [] = inr (if k =? -1 then Division else Unbound)).
  { intros [|A d] N; [contradiction|]. cbn [passjoin_pairs_z]. destruct (C208_partition k (Z.of_nat (length A)) ltac:(lia)) as (_ & P1 & P2).
    destruct (Z.eqb_spec k (-1)) as [E|E]; [rewrite P1 by exact E | rewrite P2 by lia]; reflexivity. }
  destruct data as [|A d]; [destruct sort; reflexivity|]. rewrite E; [reflexivity|].
  destruct sort; [|discriminate]. cbn [sorted fold_right]. destruct (fold_right insert_sorted [] d) as [|x l]; cbn [insert_sorted]; [discriminate|]. destruct (sort_le A x); discriminate.
Qed.

Example C208_ex : let run := fun k data => passjoin_z (fun _ _ => 1%nat) (fun l => l) k data true 2 None "connected_components" in
  run 1 [[97%N]; [98%N]] = inl (Ok [[[98%N]; [97%N]]]) /\ run 0 [[97%N]; [98%N]] = inl (Ok []) /\ run (-1) [[97%N]; [98%N]] = inr Division /\ run (-2) [[97%N]] = inr Unbound /\ run (-2) [] = inl (Ok []).
Proof. vm_compute. repeat split. Qed.

Print Assumptions C208_lengths.
Print Assumptions C208_partition.
Print Assumptions C208_natural.
Print Assumptions C208_negative.
