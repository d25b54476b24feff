(** Lemmas behind C209 *)
From Coq Require Import ZArith QArith String Lia.
From Verif Require Import Base BaseFacts LevModel MetricsModel ClustersModel ClustersSpec ClustersProofs PairwiseModel BitsModel MinHashModel ChunksAnyModel ChunksAnyProofs MinHashAnyModel.
Open Scope Z_scope.
Open Scope list_scope.
Notation length := List.length.

Lemma range_mul b r : r <> 0 -> range_step (b * r) r = map (fun i => Z.of_nat i * r) (seq 0 (Z.to_nat b)).
Proof. intros Hr. unfold range_step, ceil_z. rewrite <- Z.mul_opp_l, Z.div_mul, Z.opp_involutive by exact Hr. reflexivity. Qed.

Section Clustering.
Context {A T : Type} `{EqDec A} `{EqDec T}.
Variable crc32 : T -> N.
Variable token_order : list N -> list N.
Variable key : A -> sequence T.

(** ** natural numbers *)
Definition place (k : nat * str) : Z * str := (Z.of_nat (fst k), snd k).
Definition places (d : dict (nat * str) (list A)) : dict (Z * str) (list A) := map (fun kv => (place (fst kv), snd kv)) d.

Lemma places_modify d k v f : dmodify (places d) (place k) v f = places (dmodify d k v f).
Proof.
  induction d as [|[k' x] d IH]; [reflexivity|]. cbn [places map dmodify fst snd].
  destruct (eq_dec (place k) (place k')) as [E|E]; destruct (eq_dec k k') as [E'|E'].
  - reflexivity.
  - exfalso. apply E'. destruct k as [i s], k' as [i' s']. unfold place in E. cbn [fst snd] in E. injection E as E1 E2. apply Nat2Z.inj in E1. congruence.
  - exfalso. apply E. rewrite E'. reflexivity.
  - cbn [places map fst snd]. f_equal. exact IH.
Qed.

Lemma fill_z_nat params h bands rows : forall data d, (bands <> 0)%nat ->
  fill_z crc32 token_order key params (Z.of_nat h) (Z.of_nat bands * Z.of_nat rows) (Z.of_nat rows) data (places d) =
  match fill_buckets crc32 token_order key params h bands rows data d with Ok d => Ok (places d) | Err e => Err e end.
Proof.
  induction data as [|item data IH]; intros d Hb; [reflexivity|]. cbn [fill_z fill_buckets]. rewrite Nat2Z.id.
  destruct (create_signature crc32 token_order params h (key item)) as [sg|e]; [|reflexivity]. cbn [bind].
  destruct (Z.eqb_spec (Z.of_nat rows) 0) as [E|E]; destruct (Nat.eqb_spec rows 0) as [E'|E']; try lia; [reflexivity|].
  rewrite range_mul, Nat2Z.id by exact E. rewrite <- IH by exact Hb. f_equal. unfold band_starts. revert d. generalize (seq 0 bands) as l.
  induction l as [|i l IHl]; intros d; [reflexivity|]. cbn [map fold_left].
  replace (band_key_z sg (Z.of_nat rows) (Z.of_nat i * Z.of_nat rows)) with (place (band_key sg rows (i * rows))).
  - rewrite places_modify. apply IHl.
  - unfold place, band_key, band_key_z. cbn [fst snd]. rewrite <- Nat2Z.inj_mul, <- Nat2Z.inj_add, slice_z_nat. reflexivity.
Qed.

(** ** no band *)
Lemma fill_none params h upper rows : rows <> 0 -> range_step upper rows = [] -> forall data d,
  (forall x, In x data -> exists sg, create_signature crc32 token_order params (Z.to_nat h) (key x) = Ok sg) ->
  fill_z crc32 token_order key params h upper rows data d = Ok d.
Proof.
  intros R E. induction data as [|item data IH]; intros d Hs; [reflexivity|]. cbn [fill_z].
  destruct (Hs item (or_introl eq_refl)) as (sg & ->). cbn [bind]. destruct (Z.eqb_spec rows 0); [contradiction|]. rewrite E. cbn [fold_left]. apply IH. intros x Hx. apply Hs. right. exact Hx.
Qed.

(** ** a negative size: all the items in all the bands *)
Lemma signature_none params x : create_signature crc32 token_order params 0 x = Ok [].
Proof. unfold create_signature. destruct (Nat.eqb _ 0); reflexivity. Qed.

Lemma slice_none i j : slice_z i j (@nil N) = [].
Proof. unfold slice_z, slice. rewrite skipn_nil, firstn_nil. reflexivity. Qed.

Definition full (starts : list Z) (items : list A) : dict (Z * str) (list A) := map (fun band => ((band, []), items)) starts.

Lemma modify_after pre (k : Z * str) (v : list A) d f dflt : ~ In k (map fst pre) -> dmodify (pre ++ (k, v) :: d) k dflt f = pre ++ (k, f v) :: d.
Proof.
  induction pre as [|[k' x] pre IH]; intros N; cbn [app dmodify].
  - destruct (eq_dec k k); [reflexivity | contradiction].
  - destruct (eq_dec k k') as [E|E]; [exfalso; apply N; left; symmetry; exact E|]. rewrite IH; [reflexivity|]. intros I. apply N. right. exact I.
Qed.

Lemma modify_new (d : dict (Z * str) (list A)) k f dflt : ~ In k (map fst d) -> dmodify d k dflt f = d ++ [(k, f dflt)].
Proof.
  induction d as [|[k' x] d IH]; intros N; cbn [app dmodify]; [reflexivity|].
  destruct (eq_dec k k') as [E|E]; [exfalso; apply N; left; symmetry; exact E|]. rewrite IH; [reflexivity|]. intros I. apply N. right. exact I.
Qed.

Lemma full_keys starts items : map fst (full starts items) = map (fun band => (band, [])) starts.
Proof. unfold full. rewrite map_map. reflexivity. Qed.

Lemma key_in band starts : In (band, @nil N) (map (fun b : Z => (b, @nil N)) starts) -> In band starts.
Proof. intros I. apply in_map_iff in I as (b & E & I). injection E as <-. exact I. Qed.

Lemma bands_first item rows : forall starts pre, NoDup (pre ++ starts) ->
  fold_left (fun d band => dmodify d (band_key_z [] rows band) [] (fun l => l ++ [item])) starts (full pre [item]) = full (pre ++ starts) [item].
Proof.
  induction starts as [|b starts IH]; intros pre N; [rewrite app_nil_r; reflexivity|]. cbn [fold_left]. unfold band_key_z at 2. rewrite slice_none. cbn [map percent_join].
  rewrite modify_new.
  - cbn [app]. specialize (IH (pre ++ [b])). rewrite <- app_assoc in IH. cbn [app] in IH. rewrite <- IH by exact N. f_equal. unfold full. rewrite map_app. reflexivity.
  - rewrite full_keys. intros I. apply key_in in I. apply NoDup_remove_2 in N. apply N. apply in_or_app. left. exact I.
Qed.

Lemma bands_next item rows items : forall starts pre, NoDup (pre ++ starts) ->
  fold_left (fun d band => dmodify d (band_key_z [] rows band) [] (fun l => l ++ [item])) starts (full pre (items ++ [item]) ++ full starts items) = full (pre ++ starts) (items ++ [item]).
Proof.
  induction starts as [|b starts IH]; intros pre N; [rewrite !app_nil_r; reflexivity|]. cbn [fold_left]. unfold band_key_z at 2. rewrite slice_none. cbn [map percent_join full].
  rewrite modify_after.
  - specialize (IH (pre ++ [b])). rewrite <- app_assoc in IH. cbn [app] in IH. rewrite <- IH by exact N. f_equal. unfold full. rewrite map_app. cbn [map]. rewrite <- app_assoc. reflexivity.
  - rewrite full_keys. intros I. apply key_in in I. apply NoDup_remove_2 in N. apply N. apply in_or_app. left. exact I.
Qed.

Lemma fill_full params h upper rows starts : h <= 0 -> rows <> 0 -> range_step upper rows = starts -> NoDup starts -> forall data items, items <> [] ->
  fill_z crc32 token_order key params h upper rows data (full starts items) = Ok (full starts (items ++ data)).
Proof.
  intros L R E N. induction data as [|item data IH]; intros items Hi; [rewrite app_nil_r; reflexivity|]. cbn [fill_z].
  replace (Z.to_nat h) with O by lia. rewrite signature_none. cbn [bind]. destruct (Z.eqb_spec rows 0); [contradiction|]. rewrite E.
  pose proof (bands_next item rows items starts [] N) as B. change (full [] (items ++ [item]) ++ full starts items) with (full starts items) in B. change ([] ++ starts) with starts in B. rewrite B. rewrite IH; [rewrite <- app_assoc; reflexivity|]. destruct items; discriminate.
Qed.

Lemma fill_all params h upper rows starts : h <= 0 -> rows <> 0 -> range_step upper rows = starts -> NoDup starts -> forall data, data <> [] ->
  fill_z crc32 token_order key params h upper rows data [] = Ok (full starts data).
Proof.
  intros L R E N [|item data] Hd; [contradiction|]. cbn [fill_z].
  replace (Z.to_nat h) with O by lia. rewrite signature_none. cbn [bind]. destruct (Z.eqb_spec rows 0); [contradiction|]. rewrite E.
  pose proof (bands_first item rows starts [] N) as B. change (full [] [item]) with (@nil ((Z * str) * list A)) in B. change ([] ++ starts) with starts in B. etransitivity; [apply f_equal; exact B|]. rewrite (fill_full params h upper rows starts L R E N); [reflexivity | discriminate].
Qed.

Lemma starts_once n r : r <> 0 -> NoDup (map (fun i => Z.of_nat i * r) (seq 0 n)).
Proof. intros R. apply FinFun.Injective_map_NoDup; [|apply seq_NoDup]. intros i j E. apply Nat2Z.inj. nia. Qed.
End Clustering.
