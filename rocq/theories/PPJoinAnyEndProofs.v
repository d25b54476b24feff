From Coq Require Import QArith Qround String ZArith Lia Lqa Sorted.
From Verif Require Import Base BaseFacts BlockingSpec LevModel SortModel PairwiseModel GraphModel PPJoinModel PPJoinSpec PPJoinOrderProofs PPJoinProofs PPJoinHelperProofs
  PPJoinEndProofs PPJoinAnyModel PPJoinAnySpec PPJoinAnyProofs.
Open Scope nat_scope.
Open Scope list_scope.
Notation length := List.length.

Lemma foldM_app {S A} (f : S -> A -> res S) l l' s : foldM f (l ++ l') s = bind (foldM f l s) (foldM f l').
Proof. revert s. induction l as [|a l IH]; intros s; [reflexivity|]. cbn [app foldM]. destruct (f s a) as [s'|e]; cbn [bind]; [apply IH|reflexivity]. Qed.

Lemma zset_result {A} (l : list A) i x : zset l i x = Err IndexError \/ exists l', zset l i x = Ok l'.
Proof. unfold zset. destruct (_ || _); [left; reflexivity|right; eauto]. Qed.
Lemma requires_result h n m : (forall i, exists r, any_require_overlap h n i = Ok r) ->
  require_overlaps h n m = Err IndexError \/ exists L, require_overlaps h n m = Ok L.
Proof.
  intros Hr. unfold require_overlaps. generalize (repeat 0%Z (n + 1)). generalize (zrange m (Z.of_nat n + 1)).
  induction l as [|i l IH]; intros L; cbn [foldM]; [right; eauto|]. destruct (Hr i) as [r ->]. cbn [bind].
  destruct (zset_result L i r) as [->|[L' ->]]; cbn [bind]; [left; reflexivity|apply IH].
Qed.

Section Any.
Context {T : Type} `{EqDec T}.
Variable leb : T -> T -> bool.
Variable h : any_helper.
Variable threshold : Q.
Variable algo : algorithm.
Variable records : list (list T).

(** the first record meets no candidate *)
Lemma probe_alone mn ix L k t : NoDup (record_of records k) -> t <= length (record_of records k) ->
  exists idx, foldM (any_probe leb threshold algo records mn ix L k (record_of records k)) (seq 0 t) ([], []) = Ok (idx, []) /\
    forall w, ~ In w (firstn t (record_of records k)) -> dget idx w = None.
Proof.
  intros HD. set (record := record_of records k) in *. induction t as [|t IH]; intros Ht.
  - exists []. split; [reflexivity|]. intros w _. reflexivity.
  - destruct IH as (idx & E & HI); [lia|]. rewrite seq_S, foldM_app, E. cbn [bind foldM plus].
    destruct (nth_error record t) as [w|] eqn:EW; [|apply nth_error_None in EW; lia].
    assert (HW : ~ In w (firstn t record)).
    { intros Hin. rewrite <- (firstn_skipn t record) in HD. apply NoDup_app_iff in HD as (_ & _ & HD). apply (HD w Hin).
      rewrite <- (firstn_skipn t record) in EW. rewrite nth_error_app2 in EW by (rewrite firstn_length; lia). rewrite firstn_length, Nat.min_l in EW by lia.
      apply nth_error_In in EW. exact EW. }
    unfold any_probe. unfold index. rewrite EW. cbn [bind]. rewrite (HI w HW). cbn [skipn any_advance foldM bind plus].
    eexists. split; [reflexivity|]. intros v Hv. rewrite (firstn_snoc record t w EW) in Hv. rewrite in_app_iff in Hv.
    rewrite dget_dset_other; [apply HI; tauto|]. intros ->. apply Hv. right. left. reflexivity.
Qed.
Lemma probe_overrun mn ix L k p : NoDup (record_of records k) -> length (record_of records k) < p ->
  foldM (any_probe leb threshold algo records mn ix L k (record_of records k)) (seq 0 p) ([], []) = Err IndexError.
Proof.
  intros HD Hp. set (n := length (record_of records k)) in *. replace p with (n + S (p - n - 1)) by lia. rewrite seq_app, foldM_app.
  destruct (probe_alone mn ix L k n HD) as (idx & -> & _); [lia|]. cbn [bind seq plus foldM]. unfold any_probe at 1. unfold index.
  replace (nth_error (record_of records k) n) with (@None T) by (symmetry; apply nth_error_None; lia). reflexivity.
Qed.

Lemma first_record k l e : argsort records = k :: l -> any_join_record leb h threshold algo records ([], []) k = Err e ->
  any_join leb h threshold algo records = Err e.
Proof. intros E Hk. unfold any_join. rewrite E. cbn [foldM]. rewrite Hk. reflexivity. Qed.

Lemma join_overrun k l mn p ix : argsort records = k :: l -> NoDup (record_of records k) ->
  let n := length (record_of records k) in
  any_min_length h n = Ok mn -> any_probe_length h n = Ok p -> any_index_length h n = Ok ix -> (Z.of_nat n < p)%Z ->
  (require_overlaps h n mn = Err IndexError \/ exists L, require_overlaps h n mn = Ok L) ->
  any_join leb h threshold algo records = Err IndexError.
Proof.
  intros EK HD n Em Ep Ei Hp Hr. apply (first_record k l); [exact EK|]. unfold any_join_record. fold n. rewrite Em, Ep, Ei. cbn [bind].
  destruct Hr as [-> |[L ->]]; cbn [bind]; [reflexivity|]. rewrite probe_overrun; [reflexivity|exact HD|]. fold n. lia.
Qed.

(** nothing is put in the index *)
Lemma join_nothing : 
  (forall r, In r records -> r <> [] /\ exists mn p ix L, any_min_length h (length r) = Ok mn /\ any_probe_length h (length r) = Ok p /\
    any_index_length h (length r) = Ok ix /\ require_overlaps h (length r) mn = Ok L /\ (p <= 1)%Z /\ (inject_Z ix <= threshold)%Q) ->
  any_join leb h threshold algo records = Ok [].
Proof.
  intros Hr. unfold any_join.
  destruct (foldM_prefix (any_join_record leb h threshold algo records)
    (fun _ s => (forall w, match dget (fst s) w with Some (_, ids) => ids = [] | None => True end) /\ snd s = []) (argsort records) ([], []))
    as ([idx out] & -> & _ & Hout).
  - split; [intros w; exact I|reflexivity].
  - intros d k r [idx out] E [Hidx Hout]. simpl in Hidx, Hout. subst out.
    assert (Hk : In (record_of records k) records) by (apply rec_In; apply argsort_In; rewrite E; apply in_app_iff; right; left; auto).
    destruct (Hr _ Hk) as (Hne & mn & p & ix & L & Em & Ep & Ei & EL & Hp & Hix). unfold any_join_record. rewrite Em, Ep, Ei. cbn [bind]. rewrite EL. cbn [bind].
    assert (HP : Z.to_nat p = 0 \/ Z.to_nat p = 1) by lia. destruct HP as [-> | ->]; cbn [seq foldM bind mapM concat app].
    + eexists. split; [reflexivity|]. cbn [fst snd]. auto.
    + unfold any_probe. destruct (record_of records k) as [|w x] eqn:Ex; [congruence|]. unfold index. cbn [nth_error]. rewrite bind_Ok.
      assert (Hids : match dget idx w with Some item => item | None => (0, []) end = (match dget idx w with Some item => fst item | None => 0 end, [])).
      { specialize (Hidx w). destruct (dget idx w) as [[pos ids]|]; [subst ids|]; reflexivity. }
      rewrite Hids. cbv iota beta. rewrite !skipn_nil. apply Qle_bool_iff in Hix. rewrite Hix. cbn [negb foldM bind mapM concat app].
      eexists. split; [reflexivity|]. cbn [fst snd]. split; [|reflexivity]. intros v. destruct (eq_dec w v) as [->|Hwv].
      * rewrite dget_dset_same. reflexivity.
      * rewrite dget_dset_other by auto. apply Hidx.
  - simpl in Hout. subst out. reflexivity.
Qed.

(** no pair when the index of the candidates is over their length *)
Lemma join_beyond out : (forall n, exists ix, any_index_length h n = Ok ix /\ (Z.of_nat n < ix)%Z) ->
  any_join leb h threshold algo records = Ok out -> out = [].
Proof.
  intros Hi. unfold any_join.
  assert (G : forall l idx s, foldM (any_join_record leb h threshold algo records) l (idx, []) = Ok s -> snd s = []).
  { induction l as [|k l IH]; intros idx s E; cbn [foldM] in E; [injection E as <-; reflexivity|].
    destruct (any_join_record leb h threshold algo records (idx, []) k) as [[idx' out']|e] eqn:EK; cbn [bind] in E; [|discriminate E].
    assert (HO : out' = []).
    { unfold any_join_record in EK. destruct (any_min_length h _) as [mn|]; cbn [bind] in EK; [|discriminate EK]. destruct (any_probe_length h _) as [p|]; cbn [bind] in EK; [|discriminate EK].
      destruct (any_index_length h _) as [ix|]; cbn [bind] in EK; [|discriminate EK]. destruct (require_overlaps h _ _) as [L|]; cbn [bind] in EK; [|discriminate EK].
      destruct (foldM (any_probe leb threshold algo records mn ix L k (record_of records k)) (seq 0 (Z.to_nat p)) (idx, [])) as [[idx2 occ]|]; cbn [bind] in EK; [|discriminate EK].
      destruct (mapM (any_verify leb h records p L k (record_of records k)) occ) as [found|] eqn:EM; cbn [bind] in EK; [|discriminate EK]. injection EK as _ <-. cbn [app].
      clear - Hi EM. revert found EM. induction occ as [|[c v] occ IHo]; intros found EM; cbn [mapM] in EM; [injection EM as <-; reflexivity|].
      destruct (any_verify leb h records p L k (record_of records k) (c, v)) as [x|] eqn:EV; cbn [bind] in EM; [|discriminate EM].
      destruct (mapM (any_verify leb h records p L k (record_of records k)) occ) as [found'|] eqn:EM'; cbn [bind] in EM; [|discriminate EM]. injection EM as <-. cbn [concat]. rewrite (IHo found' eq_refl), app_nil_r.
      unfold any_verify in EV. destruct v as [count|]; [|injection EV as <-; reflexivity]. exfalso.
      destruct (zindex L _) as [r|]; cbn [bind] in EV; [|discriminate EV]. destruct (Hi (length (record_of records c))) as (i & Ei & Li). rewrite Ei in EV. cbn [bind] in EV.
      assert (EZ : zindex (record_of records c) (i - 1) = Err IndexError).
      { unfold zindex. destruct (Z.ltb_spec (i - 1) 0); [lia|]. unfold index. replace (nth_error (record_of records c) (Z.to_nat (i - 1))) with (@None T); [reflexivity|]. symmetry. apply nth_error_None. lia. }
      rewrite EZ in EV. discriminate EV. }
    subst out'. eapply IH. exact E. }
  destruct (foldM (any_join_record leb h threshold algo records) (argsort records) ([], [])) as [[idx out']|e] eqn:E; cbn [bind]; [|discriminate]. intros EO. injection EO as <-. apply G in E. exact E.
Qed.
End Any.

Open Scope Q_scope.
Lemma ceil_sqrt_total t n i : (0 <= i)%Z -> exists r, any_require_overlap (any_binary_cosine t) n i = Ok r.
Proof. intros Hi. cbn. destruct (Z.ltb_spec (Z.of_nat n * i) 0); [nia|]. eauto. Qed.

(** the lengths at which the prefix is longer than the record *)
Lemma overrun_lengths m t n : overrun m t n -> ~ divides_by_zero m t -> exists mn p ix,
  any_min_length (any_helper_of m t) n = Ok mn /\ any_probe_length (any_helper_of m t) n = Ok p /\ any_index_length (any_helper_of m t) n = Ok ix /\ (Z.of_nat n < p)%Z /\
  (require_overlaps (any_helper_of m t) n mn = Err IndexError \/ exists L, require_overlaps (any_helper_of m t) n mn = Ok L).
Proof.
  intros Ho Hd. pose proof (qn_nonneg n) as Hn. change natq with qn in *.
  assert (HT : forall q, qn n + 1 <= q -> (Z.of_nat n < truncate q)%Z).
  { intros q Hq. assert (Z.of_nat n + 1 <= truncate q)%Z; [|lia]. apply truncate_ge; [lia|]. rewrite inject_Z_plus. exact Hq. }
  destruct m; cbn [overrun divides_by_zero any_helper_of] in *; unfold natq in *; change (inject_Z (Z.of_nat n)) with (qn n) in *.
  - assert (D : ~ 1 + t == 0) by (intros E; apply Hd; lra).
    cbn [any_jaccard any_min_length any_probe_length any_index_length]. rewrite (divide_ok _ _ D). cbn [bind].
    do 3 eexists. split; [reflexivity|]. split; [reflexivity|]. split; [reflexivity|]. split; [apply HT; unfold EPSILON; lra|].
    apply requires_result. intros i. cbn. rewrite (divide_ok _ _ D). cbn [bind]. eauto.
  - assert (D : ~ 2 - t == 0) by (intros E; apply Hd; lra).
    cbn [any_dice any_min_length any_probe_length any_index_length]. rewrite !(divide_ok _ _ D). cbn [bind].
    do 3 eexists. split; [reflexivity|]. split; [reflexivity|]. split; [reflexivity|]. split.
    + apply HT. assert (t / (2 - t) * qn n <= EPSILON); [|lra]. destruct (Qlt_le_dec 2 t) as [L|L].
      * assert (t / (2 - t) <= 0); [|unfold EPSILON; nra]. assert (E : t / (2 - t) == - (t / (t - 2))) by (field; split; [intros E; lra|intros E; lra]).
        rewrite E. assert (0 <= t / (t - 2)) by (apply Qle_shift_div_l; lra). lra.
      * assert (L' : t < 2) by (destruct (Qlt_le_dec t 2); [assumption|exfalso; apply Hd; lra]). destruct Ho as [Ho|Ho]; [lra|].
        assert (E : t / (2 - t) * qn n == (t * qn n) / (2 - t)) by (field; intros E; lra). rewrite E. apply Qle_shift_div_r; [lra|]. unfold EPSILON. lra.
    + apply requires_result. intros i. cbn. eauto.
  - cbn [any_binary_cosine any_min_length any_probe_length any_index_length].
    do 3 eexists. split; [reflexivity|]. split; [reflexivity|]. split; [reflexivity|]. split; [apply HT; unfold EPSILON; lra|].
    rewrite ceiling_nonneg by (unfold EPSILON; assert (0 <= t * t) by nra; nra).
    right. destruct (requires_ok (any_binary_cosine t) n (fun l => ceil_sqrt t (Z.to_nat (Z.of_nat n * Z.of_nat l)))) with (m := ceil (qn n * t * t - EPSILON)) as (L & E & _).
    { intros l _. cbn. destruct (Z.ltb_spec (Z.of_nat n * Z.of_nat l) 0); [nia|reflexivity]. }
    exists L. exact E.
Qed.

Lemma overrun_shorter m t n n' : overrun m t n -> (n' <= n)%nat -> overrun m t n'.
Proof.
  intros Ho Hn. apply qn_le in Hn. pose proof (qn_nonneg n'). change natq with qn in *. destruct m; cbn [overrun] in *; unfold natq in *; change (inject_Z (Z.of_nat n)) with (qn n) in *; change (inject_Z (Z.of_nat n')) with (qn n') in *.
  - destruct (Qlt_le_dec t 0); nra.
  - destruct Ho as [Ho|Ho]; [left; exact Ho|]. destruct (Qlt_le_dec 2 t); [left; assumption|right]. destruct (Qlt_le_dec t 0); nra.
  - assert (0 <= t * t) by nra. nra.
Qed.
Lemma overrun_low m t n : t <= 0 -> (m = BinaryCosine -> t == 0) -> overrun m t n.
Proof.
  intros Ht Hc. pose proof (qn_nonneg n). destruct m; cbn [overrun]; unfold natq; change (inject_Z (Z.of_nat n)) with (qn n).
  - nra.
  - right. nra.
  - rewrite (Hc eq_refl). lra.
Qed.

Section Joins.
Context {T : Type} `{EqDec T}.
Variable leb : T -> T -> bool.
Variable algo : algorithm.
Variable rs : list (list T).

Lemma shortest_first r : In r rs -> exists k l, argsort rs = k :: l /\ (length (record_of rs k) <= length r)%nat /\ In (record_of rs k) rs.
Proof.
  intros Hr. apply In_nth_error in Hr as [i Hi]. assert (Li : (i < length rs)%nat) by (apply nth_error_Some; congruence).
  pose proof (argsort_sorted rs) as HS. pose proof (proj2 (argsort_In rs i) Li) as Hin.
  destruct (argsort rs) as [|k l] eqn:E; [destruct Hin|]. exists k, l. split; [reflexivity|].
  assert (ER : record_of rs i = r) by (unfold record_of; apply nth_error_nth; exact Hi).
  split.
  - destruct Hin as [->|Hin]; [rewrite ER; lia|]. inversion HS as [|? ? _ HF]; subst. rewrite Forall_forall in HF. specialize (HF i Hin). unfold before in HF. lia.
  - apply rec_In. apply argsort_In. rewrite E. left. reflexivity.
Qed.

Lemma any_join_overrun m t : (forall r, In r rs -> NoDup r) -> ~ divides_by_zero m t -> (exists r, In r rs /\ overrun m t (length r)) ->
  any_join leb (any_helper_of m t) t algo rs = Err IndexError.
Proof.
  intros HD Hz (r & Hr & Ho). destruct (shortest_first r Hr) as (k & l & E & HL & HI).
  destruct (overrun_lengths m t (length (record_of rs k))) as (mn & p & ix & Em & Ep & Ei & Hp & HR); [eapply overrun_shorter; eauto|exact Hz|].
  eapply join_overrun; eauto.
Qed.
Lemma any_join_division m t : divides_by_zero m t -> rs <> [] -> any_join leb (any_helper_of m t) t algo rs = Err ZeroDivisionError.
Proof.
  intros Hz Hne. destruct rs as [|r l] eqn:ER; [congruence|]. rewrite <- ER. destruct (shortest_first r) as (k & l' & E & _); [rewrite ER; left; reflexivity|].
  apply (first_record leb _ t algo rs k l' _ E). unfold any_join_record. destruct m; cbn [divides_by_zero any_helper_of] in *.
  - cbn [any_jaccard any_min_length any_probe_length any_index_length bind]. rewrite divide_zero by lra. reflexivity.
  - cbn [any_dice any_min_length]. rewrite divide_zero by lra. reflexivity.
  - destruct Hz.
Qed.
Lemma any_join_high m t : (forall r, In r rs -> r <> []) -> too_high m t -> any_join leb (any_helper_of m t) t algo rs = Ok [].
Proof.
  intros Hne [Ht Hm]. apply join_nothing. intros r Hr. split; [apply Hne; exact Hr|]. set (n := length r). pose proof (qn_nonneg n) as Hn.
  assert (HT : forall q, q <= 1 + EPSILON -> (truncate q <= 1)%Z) by (intros q Hq; apply truncate_le; [lia|]; change (inject_Z (1 + 1)) with 2; unfold EPSILON in Hq; lra).
  assert (HI : forall q, q <= 1 + EPSILON -> inject_Z (truncate q) <= t).
  { intros q Hq. apply HT in Hq. eapply Qle_trans; [|exact Ht]. change 1 with (inject_Z 1). rewrite <- Zle_Qle. exact Hq. }
  assert (HR : forall f mn, (forall l, any_require_overlap (any_helper_of m t) n (Z.of_nat l) = Ok (f l)) -> exists L, require_overlaps (any_helper_of m t) n (Z.of_nat mn) = Ok L).
  { intros f mn Hf. destruct (requires_ok (any_helper_of m t) n f) with (m := mn) as (L & E & _); [intros; apply Hf|]. eauto. }
  assert (S : forall c, c <= 0 -> c * qn n + 1 + EPSILON <= 1 + EPSILON) by (intros c Hc; nra).
  destruct m; cbn [any_helper_of] in *.
  - assert (S1 : 1 <= 2 * t / (1 + t)) by (apply Qle_shift_div_l; lra).
    cbn [any_jaccard any_min_length any_probe_length any_index_length]. rewrite divide_ok by lra. cbn [bind]. rewrite ceiling_nonneg by (unfold EPSILON; nra).
    destruct (HR (fun l => Qceiling (t / (1 + t) * inject_Z (Z.of_nat n + Z.of_nat l) - EPSILON)) (ceil (qn n * t - EPSILON))) as [L EL].
    { intros l. cbn. rewrite divide_ok by lra. reflexivity. }
    do 4 eexists. split; [reflexivity|]. split; [reflexivity|]. split; [reflexivity|]. split; [exact EL|]. split; [apply HT; apply S; lra|apply HI; apply S; lra].
  - assert (S1 : 1 <= t / (2 - t)) by (apply Qle_shift_div_l; lra).
    cbn [any_dice any_min_length any_probe_length any_index_length]. rewrite !divide_ok by lra. cbn [bind].
    assert (0 <= qn n * t / (2 - t)) by (apply Qle_shift_div_l; nra). rewrite ceiling_nonneg by (unfold EPSILON; lra).
    destruct (HR (fun l => Qceiling (inject_Z (Z.of_nat n + Z.of_nat l) * t / 2 - EPSILON)) (ceil (qn n * t / (2 - t) - EPSILON))) as [L EL]; [intros l; reflexivity|].
    do 4 eexists. split; [reflexivity|]. split; [reflexivity|]. split; [reflexivity|]. split; [exact EL|]. split; [apply HT; apply S; lra|apply HI; apply S; lra].
  - cbn [any_binary_cosine any_min_length any_probe_length any_index_length]. assert (1 <= t * t) by nra. rewrite ceiling_nonneg by (unfold EPSILON; nra).
    destruct (HR (fun l => ceil_sqrt t (Z.to_nat (Z.of_nat n * Z.of_nat l))) (ceil (qn n * t * t - EPSILON))) as [L EL].
    { intros l. cbn. destruct (Z.ltb_spec (Z.of_nat n * Z.of_nat l) 0); [nia|reflexivity]. }
    do 4 eexists. split; [reflexivity|]. split; [reflexivity|]. split; [reflexivity|]. split; [exact EL|]. split; [apply HT; apply S; lra|apply HI; apply S; lra].
Qed.
Lemma any_join_none m t out : (forall r, In r rs -> NoDup r) -> t <= 0 \/ 1 <= t -> any_join leb (any_helper_of m t) t algo rs = Ok out -> out = [].
Proof.
  intros HD Ht E.
  assert (HZ : divides_by_zero m t \/ ~ divides_by_zero m t).
  { destruct m; cbn [divides_by_zero]; [destruct (Qeq_dec t (-1 # 1)); auto|destruct (Qeq_dec t 2); auto|auto]. }
  destruct rs as [|r0 rs0] eqn:ER; [cbv in E; injection E as <-; reflexivity|]. rewrite <- ER in *.
  assert (Hin : In r0 rs) by (rewrite ER; left; reflexivity).
  destruct HZ as [HZ|HZ].
  { rewrite any_join_division in E; [discriminate|exact HZ|rewrite ER; discriminate]. }
  assert (HO : overrun m t (length r0) -> out = []).
  { intros Ho. rewrite any_join_overrun in E; [discriminate|exact HD|exact HZ|]. exists r0. auto. }
  destruct Ht as [Ht|Ht].
  - destruct m; try (apply HO; apply overrun_low; [exact Ht|discriminate]).
    destruct (Qeq_dec t 0) as [E0|E0]; [apply HO; apply overrun_low; auto|].
    apply (join_beyond leb (any_binary_cosine t) t algo rs); [|exact E]. intros n. eexists. split; [reflexivity|].
    assert (Z.of_nat n + 1 <= truncate ((1 - t) * qn n + 1 + EPSILON))%Z; [|lia]. apply truncate_ge; [lia|]. rewrite inject_Z_plus. change (inject_Z (Z.of_nat n)) with (qn n).
    pose proof (qn_nonneg n). change (inject_Z 1) with 1. unfold EPSILON. nra.
  - assert (HE : (exists r, In r rs /\ r = []) \/ forall r, In r rs -> r <> []).
    { clear. induction rs as [|r l IH]; [right; intros r []|]. destruct r as [|w r]; [left; exists []; split; [left; reflexivity|reflexivity]|].
      destruct IH as [(r' & Hr' & E)|IH]; [left; exists r'; split; [right; exact Hr'|exact E]|right]. intros r' [<-|Hr']; [discriminate|apply IH; exact Hr']. }
    assert (H2 : (m = Dice /\ 2 < t) \/ too_high m t).
    { destruct m; cbn [divides_by_zero] in HZ; unfold too_high; auto. destruct (Qlt_le_dec 2 t); [left; auto|right]. split; [exact Ht|].
      destruct (Qlt_le_dec t 2); [assumption|]. exfalso. apply HZ. lra. }
    destruct H2 as [[-> H2]|H2]; [apply HO; left; exact H2|].
    destruct HE as [(r & Hr & ->)|HE].
    + rewrite any_join_overrun in E; [discriminate|exact HD|exact HZ|]. exists []. split; [exact Hr|]. cbn [length].
      destruct H2 as [H2 H3]. destruct m; cbn [overrun]; unfold natq; change (inject_Z (Z.of_nat 0)) with 0; [lra|right; lra|lra].
    + rewrite (any_join_high m t HE H2) in E. injection E as <-. reflexivity.
Qed.
End Joins.
