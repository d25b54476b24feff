(** C209: minhash with sizes and numbers of bands that are any integers *)
From Coq Require Import ZArith QArith String Lia.
From Verif Require Import Base BaseFacts LevModel MetricsModel ClustersModel ClustersSpec ClustersProofs PairwiseModel BitsModel MinHashModel ChunksAnyModel MinHashAnyModel MinHashAnyProofs.
Open Scope Z_scope.
Open Scope list_scope.
Notation length := List.length.

Section Clustering.
Context {A T : Type} `{EqDec A} `{EqDec T}.
Variable crc32 : T -> N.
Variable letter : N -> T.
Variable token_order : list N -> list N.
Variable set_order : list A -> list A.
Hypothesis set_order_perm : forall l, Permutation (set_order l) l.
Variable key : A -> sequence T.
Variable same : A -> A -> bool.

(** from 0 on, the model of C30, C82 and C83 *)
Theorem C209_natural params (data : list A) h radius bands :
  minhash_z crc32 letter token_order set_order key same params data (Z.of_nat h) radius (option_map Z.of_nat bands) =
  minhash crc32 letter token_order set_order key same params data h radius bands.
Proof.
  unfold minhash_z, minhash. set (b := match bands with Some b => b | None => guess_bands h radius end).
  replace (match option_map Z.of_nat bands with Some b => b | None => guess_bands_z (Z.of_nat h) radius end) with (Z.of_nat b).
  2:{ unfold b, guess_bands_z. rewrite Nat2Z.id. destruct bands; reflexivity. }
  destruct (Z.eqb_spec (Z.of_nat b) 0) as [E|E]; destruct (Nat.eqb_spec b 0) as [E'|E']; try lia; [reflexivity|].
  rewrite <- Nat2Z.inj_div. change (@nil ((Z * str) * list A)) with (places (A := A) []). rewrite (fill_z_nat crc32 token_order key params h b (h / b) data [] E').
  destruct (fill_buckets crc32 token_order key params h b (h / b) data []) as [d|e]; [|reflexivity]. cbn [bind]. unfold places, dvalues. rewrite map_map. reflexivity.
Qed.

(** a negative number of bands: nothing is found, and no error tells it *)
Theorem C209_negative_bands params (data : list A) h radius bands : bands < 0 -> 0 < h -> (Z.to_nat h <= length params)%nat ->
  minhash_z crc32 letter token_order set_order key same params data h radius (Some bands) = Ok [].
Proof.
  intros B L P. unfold minhash_z. destruct (Z.eqb_spec bands 0); [lia|].
  assert (R : h / bands <> 0). { pose proof (Z.div_mod h bands ltac:(lia)). pose proof (Z.mod_neg_bound h bands B). intros E. rewrite E in *. lia. }
  rewrite (fill_none crc32 token_order key params h (bands * (h / bands)) (h / bands) R).
  - reflexivity.
  - rewrite range_mul by exact R. replace (Z.to_nat bands) with O by lia. reflexivity.
  - intros x _. unfold create_signature. destruct (Nat.eqb _ 0); [eauto|].
    assert (G : forall m s, (s + m <= length params)%nat -> exists sg, mapM (fun s => let! param := index params s in Ok (min_hash param (token_set crc32 token_order (key x)))) (seq s m) = Ok sg).
    { induction m as [|m IH]; intros s Ls; [exists []; reflexivity|]. cbn [seq mapM]. unfold index at 1. destruct (nth_error params s) eqn:E; [|apply nth_error_None in E; lia]. cbn [bind].
      destruct (IH (Datatypes.S s) ltac:(lia)) as (sg & ->). eexists. reflexivity. }
    apply (G (Z.to_nat h) 0%nat). lia.
Qed.

(** a negative size: the signatures are empty, all the items share all the bands, and the clusters are exact: those of the pairs of items
    whose jaccard similarity reaches the radius *)
Theorem C209_negative_size params (data : list A) h radius bands : h < 0 -> match bands with Some b => 0 < b | None => True end ->
  exists out, minhash_z crc32 letter token_order set_order key same params data h radius bands = Ok out /\
    is_components (fun x => exists y, bucket_link [data] (Some (double_check letter key same radius)) x y \/ bucket_link [data] (Some (double_check letter key same radius)) y x)
      (bucket_link [data] (Some (double_check letter key same radius))) 2 None out.
Proof.
  intros L B. unfold minhash_z. set (b := match bands with Some b => b | None => guess_bands_z h radius end).
  assert (Hb : 0 < b). { unfold b. destruct bands as [b'|]; [exact B|]. unfold guess_bands_z. replace (Z.to_nat h) with O by lia. reflexivity. }
  destruct (Z.eqb_spec b 0); [lia|]. assert (R : h / b <> 0). { pose proof (Z.div_lt_upper_bound h b 0 Hb ltac:(lia)). lia. }
  destruct data as [|x data].
  - cbn [fill_z bind dvalues map]. destruct (clusters_from_buckets_components set_order set_order_perm [] 2 None (Some (double_check letter key same radius)) false) as (out & E & C).
    exists out. split; [exact E|]. eapply is_components_ext; [| |exact C].
    + assert (No : forall u v bs, (bs = [] \/ bs = [@nil A]) -> ~ bucket_link bs (Some (double_check letter key same radius)) u v).
      { intros u v bs [->| ->] ((l & l1 & l2 & l3 & I & I') & _); [destruct I|]. destruct I as [<-|[]]. destruct l1; discriminate. }
      intros u. split; intros (v & [K|K]); exfalso; revert K; apply No; auto.
    + intros u v. split; apply conn_mono; intros s t ((l & l1 & l2 & l3 & I & I') & _); [destruct I|]. destruct I as [<-|[]]. destruct l1; discriminate.
  - rewrite (fill_all crc32 token_order key params h (b * (h / b)) (h / b) _ ltac:(lia) R eq_refl); [|rewrite range_mul by exact R; apply starts_once; exact R | discriminate].
    cbn [bind]. rewrite range_mul by exact R. set (items := x :: data).
    destruct (clusters_from_buckets_components set_order set_order_perm (dvalues (full (map (fun i => Z.of_nat i * (h / b)) (seq 0 (Z.to_nat b))) items)) 2 None (Some (double_check letter key same radius)) false) as (out & E & C).
    exists out. split; [exact E|].
    assert (G : forall u v, bucket_link (dvalues (full (map (fun i => Z.of_nat i * (h / b)) (seq 0 (Z.to_nat b))) items)) (Some (double_check letter key same radius)) u v <-> bucket_link [items] (Some (double_check letter key same radius)) u v).
    { intros u v. unfold dvalues, full. rewrite !map_map. cbn [snd]. split; intros ((l & l1 & l2 & l3 & I & I') & D); (split; [exists l, l1, l2, l3|exact D]); (split; [|exact I']).
      - apply in_map_iff in I as (i & <- & _). left. reflexivity.
      - destruct I as [<-|[]]. apply in_map_iff. exists 0%nat. split; [reflexivity|]. apply in_seq. lia. }
    eapply is_components_ext; [| |exact C].
    + intros u. split; intros (v & K); exists v; rewrite !G in *; exact K.
    + intros u v. split; apply conn_mono; intros s t K; apply Relation_Operators.rst_step; apply G; exact K.
Qed.
End Clustering.

Example C209_ex : let run := fun h bands => minhash_z (fun t : N => t) (fun n => n) (fun l => l) (fun l => l) (fun s : str => Text s) (fun _ _ => false) [(1, 0); (3, 1)]%N [[97; 98]; [98; 97; 97]; [99]]%N h (1 # 2)%Q bands in
  run 2 (Some 1) = Ok [[[97; 98]; [98; 97; 97]]]%N /\ run 2 (Some (-1)) = Ok [] /\ run (-1) None = Ok [[[97; 98]; [98; 97; 97]]]%N /\ run 2 (Some 0) = Err ZeroDivisionError /\ run 0 None = Err ValueError.
Proof. vm_compute. repeat split. Qed.

Print Assumptions C209_natural.
Print Assumptions C209_negative_bands.
Print Assumptions C209_negative_size.
