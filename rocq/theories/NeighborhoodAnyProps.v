(** C204: adaptive_sorted_neighborhood with windows of any size *)
From Coq Require Import String.
From Verif Require Import Base BaseFacts ClustersModel PairwiseModel SortModel SortSpec SortFacts NeighborhoodModel NeighborhoodAnyModel NeighborhoodAnyProofs.
Open Scope Z_scope.
Open Scope list_scope.
Notation length := List.length.

Section Any.
Context {A : Type} `{EqDec A}.
Variable set_order : list A -> list A.
Variable similarity : A -> A -> bool.

(** windows from 1 on: the model of C22 and C60 *)
Theorem C204_natural fuel once (data : list A) key keys step lo hi mode :
  adaptive_z set_order similarity fuel once data key keys (Z.of_nat step + 1) lo hi mode =
  adaptive_sorted_neighborhood set_order similarity fuel once data key keys step lo hi mode.
Proof.
  unfold adaptive_z, adaptive_sorted_neighborhood.
  assert (E : forall l, mapM (adaptive_pairs_z similarity fuel (Z.of_nat step + 1)) l = mapM (adaptive_pairs similarity fuel step) l).
  { induction l as [|S l IH]; [reflexivity|]. cbn [mapM]. rewrite adaptive_pairs_z_nat, IH. reflexivity. }
  rewrite E. reflexivity.
Qed.

(** a negative window makes it raise IndexError, for all data, empty or not, and all similarities *)
Theorem C204_negative once (data : list A) key keys window lo hi mode fuel : window < 0 -> keys <> Some [] -> (length data + 3 <= fuel)%nat ->
  adaptive_z set_order similarity fuel once data key keys window lo hi mode = Err IndexError.
Proof.
  intros W K L. unfold adaptive_z.
  assert (G : forall k ks, mapM (adaptive_pairs_z similarity fuel window) (sorted_passes once data (k :: ks)) = Err IndexError).
  { intros k ks. cbn [sorted_passes mapM]. unfold adaptive_pairs_z. rewrite (aa_down similarity _ window W); [reflexivity | lia | lia|]. rewrite sort_by_length. lia. }
  destruct keys as [[|k ks]|]; [contradiction | rewrite G; reflexivity | rewrite G; reflexivity].
Qed.

(** a null window never makes it return: it fails or does not end *)
Theorem C204_zero once (data : list A) key keys lo hi mode fuel : keys <> Some [] ->
  exists e, adaptive_z set_order similarity fuel once data key keys 0 lo hi mode = Err e.
Proof.
  intros K. unfold adaptive_z.
  assert (G : forall k ks, exists e, mapM (adaptive_pairs_z similarity fuel 0) (sorted_passes once data (k :: ks)) = Err e).
  { intros k ks. cbn [sorted_passes mapM]. unfold adaptive_pairs_z. destruct (aa_zero similarity (sort_by k data) fuel 0 ltac:(lia)) as (e & ->). exists e. reflexivity. }
  destruct keys as [[|k ks]|]; [contradiction | destruct (G k ks) as (e & ->); exists e; reflexivity | destruct (G key []) as (e & ->); exists e; reflexivity].
Qed.
(** it does not end when the first and the last sorted records are not similar *)
Theorem C204_zero_endless once (data : list A) key s a b l lo hi mode : total_preorder key -> stably_sorted key data s ->
  s = a :: l -> last s a = b -> similarity a b = false ->
  forall fuel, adaptive_z set_order similarity fuel once data key None 0 lo hi mode = Err OutOfFuel.
Proof.
  intros T Hs E Eb Ns fuel. assert (Es : sort_by key data = s) by (eapply stably_sorted_unique; [exact T | apply sort_by_stable; exact T | exact Hs]).
  unfold adaptive_z. cbn [sorted_passes mapM]. unfold adaptive_pairs_z. rewrite Es, (aa_zero_endless similarity s a b); [reflexivity | rewrite E; reflexivity | | exact Ns].
  assert (Hl : s <> []) by (rewrite E; discriminate). pose proof (app_removelast_last a Hl) as E2. rewrite Eb in E2. revert E2. generalize (removelast s) as r. intros r ->.
  rewrite app_length. cbn [length]. rewrite nth_error_app2 by lia. replace (length r + 1 - 1 - length r)%nat with O by lia. reflexivity.
Qed.

(** a window of 1 finds nothing when no record is similar to itself *)
Theorem C204_one once (data : list A) key keys lo hi fuel : (forall x, In x data -> similarity x x = false) -> (length data < fuel)%nat ->
  adaptive_z set_order similarity fuel once data key keys 1 lo hi "connected_components" = Ok [].
Proof.
  intros Hs L. unfold adaptive_z.
  assert (P : forall S, (forall x, In x S -> similarity x x = false) -> (length S < fuel)%nat -> adaptive_pairs_z similarity fuel 1 S = Ok []).
  { intros S HS LS. change 1 with (Z.of_nat 0 + 1). rewrite adaptive_pairs_z_nat. unfold adaptive_pairs, full_AA_SNM. rewrite aa_one; [|exact HS | lia | lia]. cbn [bind]. f_equal.
    generalize (seq 0 (length S - 0)) as l. induction l as [|i l IH]; [reflexivity|]. cbn [map flat_map]. rewrite IH. unfold interval_pairs. rewrite Nat.sub_diag. reflexivity. }
  assert (G : forall ks d, (forall x, In x d -> similarity x x = false) -> (length d < fuel)%nat -> exists ps, mapM (adaptive_pairs_z similarity fuel 1) (sorted_passes once d ks) = Ok ps /\ List.concat ps = []).
  { induction ks as [|k ks IH]; intros d Hd Ld; [exists []; split; reflexivity|]. cbn [sorted_passes mapM]. rewrite P.
    - cbn [bind]. destruct (IH (if once then [] else d)) as (ps & -> & Ep); [destruct once; [intros x [] | exact Hd] | destruct once; [cbn; lia | exact Ld]|].
      exists ([] :: ps). split; [reflexivity | exact Ep].
    - intros x Hx. apply sort_by_In in Hx. exact (Hd x Hx).
    - rewrite sort_by_length. exact Ld. }
  destruct (G (match keys with Some ks => ks | None => [key] end) data Hs L) as (ps & -> & Ep). cbn [bind]. rewrite Ep. reflexivity.
Qed.
(** and does not end when one is *)
Theorem C204_one_endless once (data : list A) key keys x lo hi mode : In x data -> similarity x x = true -> keys <> Some [] ->
  forall fuel, adaptive_z set_order similarity fuel once data key keys 1 lo hi mode = Err OutOfFuel.
Proof.
  intros Hx Hs K fuel. unfold adaptive_z.
  assert (G : forall k ks, mapM (adaptive_pairs_z similarity fuel 1) (sorted_passes once data (k :: ks)) = Err OutOfFuel).
  { intros k ks. cbn [sorted_passes mapM]. change 1 with (Z.of_nat 0 + 1). rewrite adaptive_pairs_z_nat. unfold adaptive_pairs, full_AA_SNM.
    apply (sort_by_In k) in Hx. apply In_nth_error in Hx. destruct Hx as (i & Hi). rewrite (aa_one_endless similarity _ i x Hi Hs); [reflexivity | lia]. }
  destruct keys as [[|k ks]|]; [contradiction | rewrite G; reflexivity | rewrite G; reflexivity].
Qed.
End Any.

Example C204_ex : let run := fun window similarity data => adaptive_z (fun l => l) similarity 20 false data Nat.leb None window 2 None "connected_components" in
  run (-1) Nat.eqb [1; 2; 3]%nat = Err IndexError /\ run (-1) Nat.eqb [] = Err IndexError /\ run 0 Nat.eqb [1; 2; 3]%nat = Err OutOfFuel /\ run 0 Nat.eqb [1; 1]%nat = Err IndexError /\
  run 1 Nat.ltb [1; 2; 3]%nat = Ok [] /\ run 1 Nat.eqb [1; 2; 3]%nat = Err OutOfFuel /\ run 2 Nat.eqb [1; 2; 3]%nat = Ok [].
Proof. vm_compute. repeat split. Qed.

Print Assumptions C204_natural.
Print Assumptions C204_negative.
Print Assumptions C204_zero.
Print Assumptions C204_zero_endless.
Print Assumptions C204_one.
Print Assumptions C204_one_endless.
