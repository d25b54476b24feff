(** Proofs about the calls of the key in minhash. *)
From Coq Require Import String QArith.
From Verif Require Import Base BaseFacts ClustersModel PairwiseModel BlockingModel BlockingSpec BlockingProofs MinHashModel MinHashSpec
  MinHashProofs MinHashClusterProofs MetricsModel LevModel CallsModel CallsSpec CallsProofs CallsMoreProofs KeyCallsModel KeyCallsSpec
  KeyCallsProofs.
Open Scope nat_scope.
Open Scope string_scope.
Open Scope list_scope.
Notation length := List.length.
Notation concat := List.concat.

Section MinHash.
Context {A T : Type} `{EqDec A} `{EqDec T}.
Variable crc32 : T -> N.
Variable letter : N -> T.
Variable token_order : list N -> list N.
Hypothesis token_order_perm : forall l, Permutation (token_order l) l.
Variable set_order : list A -> list A.
Hypothesis set_order_perm : forall l, Permutation (set_order l) l.
Variable same : A -> A -> bool.
Variable params : list (N * N).
Variable h : nat.
Notation fill_prog := (fill_prog crc32 token_order params h).
Notation check_prog := (check_prog letter same).
Notation minhash_prog := (minhash_prog crc32 letter token_order set_order same params).

Lemma fill_run (key : A -> sequence T) bands rows {C} data : forall d,
  run (pure key) tt (for_each data d (fun buckets item => Call item (fun k =>
    do signature <- lift (create_signature crc32 token_order params h k);
    if Nat.eqb rows 0 then Raise ValueError
    else Ret (fold_left (fun buckets band => dmodify buckets (band_key signature rows band) [] (fun l => l ++ [item]))
                (band_starts bands rows) buckets))) : prog A (sequence T) C _) =
  match fill_buckets crc32 token_order key params h bands rows data d with
  | Ok d => (map Asked data, tt, Ok d)
  | Err e => (run (pure key) tt (for_each data d (fun buckets item => Call item (fun k =>
    do signature <- lift (create_signature crc32 token_order params h k);
    if Nat.eqb rows 0 then Raise ValueError
    else Ret (fold_left (fun buckets band => dmodify buckets (band_key signature rows band) [] (fun l => l ++ [item]))
                (band_starts bands rows) buckets))) : prog A (sequence T) C _))
  end.
Proof.
  induction data as [|x data IH]; intros d; [reflexivity|]. cbn [for_each fill_buckets].
  destruct (create_signature crc32 token_order params h (key x)) as [s|e] eqn:E; cbn [bind]; [|reflexivity].
  destruct (Nat.eqb rows 0) eqn:Er; [reflexivity|].
  destruct (fill_buckets _ _ _ _ _ _ _ data _) as [d'|e] eqn:Ef; [|reflexivity].
  cbn [pbind run pure]. rewrite E. cbn [lift pbind]. rewrite IH, Ef. reflexivity.
Qed.

Lemma check_run (key : A -> sequence T) radius pairs : forall acc,
  run (pure key) tt (for_each pairs acc (check_prog radius)) =
  (map Asked (flat_map (fun ab => [fst ab; snd ab]) pairs), tt,
   Ok (acc ++ filter (fun p => double_check letter key same radius (fst p) (snd p)) pairs)).
Proof.
  induction pairs as [|[a b] pairs IH]; intros acc; [cbn; rewrite app_nil_r; reflexivity|].
  cbn [for_each check_prog pbind run pure fst snd flat_map filter app map]. rewrite IH. unfold double_check at 2.
  destruct (Qle_bool radius _); [rewrite <- app_assoc|]; reflexivity.
Qed.

Hypothesis params_len : h <= length params.

Lemma minhash_run (key : A -> sequence T) data radius bands :
  let b := match bands with Some b => b | None => guess_bands h radius end in 0 < b <= h ->
  exists out, minhash crc32 letter token_order set_order key same params data h radius bands = Ok out /\
    run (pure key) tt (minhash_prog data h radius bands) =
    (map Asked (data ++ flat_map (fun ab => [fst ab; snd ab])
       (pairs_from_buckets (dvalues (collect (item_keys crc32 token_order key params h b (h / b)) data [])))) ++ map Gave out, tt, Ok tt).
Proof.
  intros b Hb.
  destruct (minhash_components crc32 letter token_order token_order_perm set_order set_order_perm key same params h params_len data radius bands Hb)
    as [out [E _]]. exists out. split; [exact E|]. revert E. unfold minhash, minhash_prog. fold b. destruct (Nat.eqb_spec b 0); [lia|].
  assert (R : 0 < h / b) by (apply Nat.div_str_pos; lia).
  assert (F : fill_buckets crc32 token_order key params h b (h / b) data [] =
    Ok (collect (item_keys crc32 token_order key params h b (h / b)) data [])) by (apply (fill_buckets_eq crc32 token_order token_order_perm (fun l => l) (fun l => Permutation_refl l) key same); assumption).
  rewrite F. cbn [bind]. rewrite run_bind. unfold KeyCallsModel.fill_prog. rewrite fill_run, F. cbn [then_].
  unfold clusters_prog, clusters_from_buckets. rewrite run_bind, check_run. cbn [then_ app]. rewrite run_bind, run_lift. cbn [then_].
  intros E. rewrite E. rewrite run_yields. cbn [app].
  rewrite map_app, <- app_assoc. reflexivity.
Qed.

(** two items are compared once for each band that they share *)
Lemma minhash_count (dec : forall x y : A * A, {x = y} + {x <> y}) (key : A -> sequence T) bands rows data x y n :
  0 < rows -> bands * rows <= h -> NoDup data -> precedes data x y ->
  card (fun i => i < bands /\ forall j, i * rows <= j < S i * rows ->
    nth_error (sig crc32 token_order key params h x) j = nth_error (sig crc32 token_order key params h y) j) n ->
  count_occ dec (pairs_from_buckets (dvalues (collect (item_keys crc32 token_order key params h bands rows) data []))) (x, y) = n.
Proof.
  intros R L ND P Hc. set (ks := item_keys crc32 token_order key params h bands rows).
  assert (NDk : forall x, NoDup (ks x)) by (intros z; apply (item_keys_NoDup crc32 token_order key same); assumption).
  assert (E : collect ks data [] = buckets_of (fun l => l) (inr ks) data).
  { unfold buckets_of, dispatch_blocks, collect. clear -NDk. generalize (@nil (nat * str * list A)). induction data as [|z data IH]; intros d; [reflexivity|].
    cbn [fold_left]. rewrite set_of_NoDup_id by apply NDk. apply IH. }
  rewrite E. apply (blocking_count (fun l => l)); [intros l; reflexivity|exact ND|exact P|]. cbn [blocks_of].
  destruct Hc as (lb & Hlb & HIn & <-).
  exists (map (fun i => band_key (sig crc32 token_order key params h x) rows (i * rows)) lb). split; [|split; [|apply map_length]].
  - apply FinFun.Injective_map_NoDup; [|exact Hlb]. intros i i' Ei. injection Ei as Ei _. nia.
  - intros k. unfold ks, item_keys, band_starts. rewrite !map_map, !in_map_iff. split.
    + intros (i & <- & Hi). apply HIn in Hi as [Hi Hj]. split; exists i; (split; [|apply in_seq; lia]); [reflexivity|].
      symmetry. apply band_key_eq; [exact R|rewrite sig_len; nia|rewrite sig_len; nia|]. intros j Hj'. apply Hj. nia.
    + intros [(i & <- & Hi) (i' & Ei & Hi')]. apply in_seq in Hi, Hi'. assert (i' = i) as -> by (injection Ei as Ei _; nia).
      exists i. split; [reflexivity|]. apply HIn. split; [lia|]. intros j Hj. symmetry.
      apply (proj1 (band_key_eq (sig crc32 token_order key params h y) (sig crc32 token_order key params h x) rows (i * rows) R
        ltac:(rewrite sig_len; nia) ltac:(rewrite sig_len; nia)) Ei). nia.
Qed.
End MinHash.
