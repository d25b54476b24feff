(** Lemmas behind C206 *)
From Coq Require Import ZArith.
From Verif Require Import Base BaseFacts ClustersModel PairwiseModel ChunksAnyModel.
Open Scope Z_scope.
Open Scope list_scope.
Notation length := List.length.

Lemma range_nat n : range_of (Z.of_nat n) = map Z.of_nat (seq 0 n).
Proof. unfold range_of. rewrite Nat2Z.id. reflexivity. Qed.

Lemma range_neg n : n <= 0 -> range_of n = [].
Proof. intros L. unfold range_of. replace (Z.to_nat n) with O by lia. reflexivity. Qed.

Lemma slice_min {A} (data : list A) i j : slice (Nat.min (length data) i) (Nat.min (length data) j) data = slice i j data.
Proof.
  unfold slice. destruct (Nat.le_gt_cases i (length data)) as [L|L].
  - rewrite (Nat.min_r (length data) i) by lia. destruct (Nat.le_gt_cases j (length data)) as [M|M].
    + rewrite (Nat.min_r (length data) j) by lia. reflexivity.
    + rewrite (Nat.min_l (length data) j) by lia. rewrite !firstn_all2; [reflexivity| |]; rewrite skipn_length; lia.
  - rewrite (Nat.min_l (length data) i) by lia. rewrite !skipn_all2 by lia. rewrite !firstn_nil. reflexivity.
Qed.

Lemma slice_z_nat {A} (data : list A) i j : slice_z (Z.of_nat i) (Z.of_nat j) data = slice i j data.
Proof.
  unfold slice_z. destruct (Z.ltb_spec (Z.of_nat i) 0); [lia|]. destruct (Z.ltb_spec (Z.of_nat j) 0); [lia|].
  rewrite <- !Nat2Z.inj_min, !Nat2Z.id. apply slice_min.
Qed.

Lemma ceil_nat n m : (0 < m)%nat -> ceil_z (Z.of_nat n) (Z.of_nat m) = Z.of_nat ((n + m - 1) / m).
Proof.
  intros Hm. unfold ceil_z. rewrite Nat2Z.inj_div. replace (Z.of_nat (n + m - 1)) with (Z.of_nat n + Z.of_nat m - 1) by lia.
  pose proof (Z.div_mod (- Z.of_nat n) (Z.of_nat m) ltac:(lia)) as D. pose proof (Z.mod_pos_bound (- Z.of_nat n) (Z.of_nat m) ltac:(lia)) as B.
  apply (Z.div_unique_pos _ _ _ (Z.of_nat m - 1 - (- Z.of_nat n) mod Z.of_nat m)); [lia|]. nia.
Qed.

Lemma ceil_neg n c : 0 <= n -> c < 0 -> ceil_z n c <= 0.
Proof. intros Hn Hc. unfold ceil_z. rewrite <- (Z.opp_involutive c), Z.div_opp_opp by lia. pose proof (Z.div_pos n (- c) Hn ltac:(lia)). lia. Qed.

Definition both_z {A} (x : list A * list A * nat * nat) : list A * list A * Z * Z :=
  let '(rows, cols, i, j) := x in (rows, cols, Z.of_nat i, Z.of_nat j).

Lemma flat_map_map {A B C} (f : B -> list C) (g : A -> B) l : flat_map f (map g l) = flat_map (fun x => f (g x)) l.
Proof. induction l as [|x l IH]; [reflexivity|]. cbn [map flat_map]. rewrite IH. reflexivity. Qed.

Lemma map_flat_map {A B C} (f : B -> C) (g : A -> list B) l : map f (flat_map g l) = flat_map (fun x => map f (g x)) l.
Proof. induction l as [|x l IH]; [reflexivity|]. cbn [flat_map]. rewrite map_app, IH. reflexivity. Qed.

Lemma chunks_z_nat {A} (data : list A) m :
  chunks_z data (Z.of_nat m) = match upper_triangular_matrix_chunk_iter data m with Ok l => Ok (map both_z l) | Err e => Err e end.
Proof.
  unfold chunks_z, upper_triangular_matrix_chunk_iter. destruct m as [|m']; [reflexivity|]. set (m := Datatypes.S m').
  destruct (Z.eqb_spec (Z.of_nat m) 0); [lia|]. rewrite (ceil_nat (length data) m) by lia. f_equal.
  rewrite range_nat, flat_map_map, map_flat_map. apply flat_map_ext. intros j.
  replace (Z.min (Z.of_nat j + 1) (Z.of_nat ((length data + m - 1) / m))) with (Z.of_nat (Nat.min (j + 1) ((length data + m - 1) / m))) by lia.
  rewrite range_nat, !map_map. apply map_ext. intros i. unfold both_z.
  rewrite <- !Nat2Z.inj_mul, <- !Nat2Z.inj_add, !slice_z_nat.
  destruct (Z.eqb_spec (Z.of_nat (i * m)) (Z.of_nat (j * m))); destruct (Nat.eqb_spec (i * m) (j * m)); try lia; reflexivity.
Qed.

Lemma chunks_z_neg {A} (data : list A) c : c < 0 -> chunks_z data c = Ok [].
Proof.
  intros L. unfold chunks_z. destruct (Z.eqb_spec c 0); [lia|]. rewrite (range_neg (ceil_z _ c)); [reflexivity|]. apply ceil_neg; lia.
Qed.

Lemma worker_z_nat {K} (similarity : K -> K -> bool) l : map (worker_z similarity) (map both_z l) = map (pairwise_worker similarity) l.
Proof. rewrite map_map. apply map_ext. intros (((rows & cols) & i) & j). unfold both_z, worker_z. rewrite !Nat2Z.id. reflexivity. Qed.

(** ** nothing has been united *)
Lemma filter_one n l : (l < n)%nat -> filter (fun i => Nat.eqb (nth i (seq 0 n) 0%nat) l) (seq 0 n) = [l].
Proof.
  intros L. assert (E : seq 0 n = seq 0 l ++ l :: seq (Datatypes.S l) (n - l - 1)) by (replace n with (l + Datatypes.S (n - l - 1))%nat at 1 by lia; rewrite seq_app; reflexivity).
  transitivity (filter (fun i => Nat.eqb (nth i (seq 0 n) 0%nat) l) (seq 0 l ++ l :: seq (Datatypes.S l) (n - l - 1))); [f_equal; exact E|]. clear E.
  rewrite filter_app. cbn [filter]. rewrite (seq_nth 0 0 L). cbn [Nat.add]. rewrite Nat.eqb_refl.
  assert (G : forall s k, (s + k <= n)%nat -> (l < s \/ s + k <= l)%nat -> filter (fun i => Nat.eqb (nth i (seq 0 n) 0%nat) l) (seq s k) = []).
  { intros s k. revert s. induction k as [|k IH]; intros s Hs Hl; [reflexivity|]. cbn [seq filter]. rewrite seq_nth by lia. cbn [Nat.add].
    destruct (Nat.eqb_spec s l); [lia|]. apply IH; lia. }
  rewrite (G 0%nat l), (G (Datatypes.S l)) by lia. reflexivity.
Qed.

Lemma alone n lo hi : uf_components (uf_make n) lo hi = if Nat.leb lo 1 && le_max 1 hi then map (fun i => [i]) (seq 0 n) else [].
Proof.
  unfold uf_components, uf_make, uf_find. rewrite seq_length, set_of_NoDup_id by apply seq_NoDup.
  rewrite (map_ext_in _ (fun i => [i])); [|intros l Hl; apply in_seq in Hl; apply filter_one; lia].
  destruct (Nat.leb lo 1 && le_max 1 hi) eqn:E.
  - induction (seq 0 n) as [|i l IH]; [reflexivity|]. cbn [map filter length]. rewrite E, IH. reflexivity.
  - induction (seq 0 n) as [|i l IH]; [reflexivity|]. cbn [map filter length]. rewrite E. exact IH.
Qed.

Lemma read_alone {A} (data : list A) : mapM (mapM (index data)) (map (fun i => [i]) (seq 0 (length data))) = Ok (map (fun x => [x]) data).
Proof.
  assert (G : forall pre l, mapM (mapM (index (pre ++ l))) (map (fun i => [i]) (seq (length pre) (length l))) = Ok (map (fun x : A => [x]) l)).
  { intros pre l. revert pre. induction l as [|x l IH]; intros pre; [reflexivity|]. cbn [length seq map mapM]. unfold index at 1.
    rewrite nth_error_app2 by lia. rewrite Nat.sub_diag. cbn [nth_error bind].
    specialize (IH (pre ++ [x])). rewrite app_length, <- app_assoc in IH. cbn [length app] in IH. replace (length pre + 1)%nat with (Datatypes.S (length pre)) in IH by lia. rewrite IH. reflexivity. }
  exact (G [] data).
Qed.
