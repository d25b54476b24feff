From Coq Require Import QArith Qround String ZArith Lia Lqa Sorted.
From Verif Require Import Base BaseFacts BlockingSpec LevModel SortModel PairwiseModel GraphModel PPJoinModel PPJoinSpec PPJoinOrderProofs PPJoinProofs PPJoinHelperProofs
  PPJoinEndProofs PPJoinAnyModel PPJoinAnySpec.
Open Scope nat_scope.
Open Scope list_scope.
Notation length := List.length.

Definition any_helper_of (m : metric) (t : Q) : any_helper :=
  match m with Jaccard => any_jaccard t | Dice => any_dice t | BinaryCosine => any_binary_cosine t end.
Lemma make_any_helper_name m t : make_any_helper (metric_name m) t = Ok (any_helper_of m t).
Proof. destruct m; reflexivity. Qed.

Lemma ppjoin_any_positions {R T} `{EqDec T} (leb : T -> T -> bool) crc32 (items : R -> list T) records tokenizer token_ordering m t algo :
  ordering_ok crc32 items records tokenizer token_ordering ->
  ppjoin_any leb crc32 items records t (metric_name m) tokenizer algo token_ordering =
  read records (position_pairs leb crc32 items records tokenizer token_ordering (fun U _ leb' rs => any_join leb' (any_helper_of m t) t algo rs)).
Proof.
  intros Hord. unfold ppjoin_any. rewrite make_any_helper_name. unfold read, position_pairs.
  destruct token_ordering as [o|]; [|reflexivity].
  destruct (string_dec o "freq"); [reflexivity|]. destruct (string_dec o "crc32"); [reflexivity|].
  exfalso. simpl in Hord. tauto.
Qed.

(** ** numbers *)
Lemma truncate_nonneg q : (0 <= q)%Q -> truncate q = Z.of_nat (int q).
Proof.
  intros Hq. unfold truncate, int. apply Qle_bool_iff in Hq as E. rewrite E. rewrite Z2Nat.id; [reflexivity|].
  change 0%Z with (Qfloor 0). apply Qfloor_resp_le. exact Hq.
Qed.
Lemma truncate_ge z q : (0 <= z)%Z -> (inject_Z z <= q)%Q -> (z <= truncate q)%Z.
Proof.
  intros Hz Hq. unfold truncate. assert (0 <= q)%Q by (eapply Qle_trans; [|exact Hq]; change 0%Q with (inject_Z 0); rewrite <- Zle_Qle; exact Hz).
  apply Qle_bool_iff in H as E. rewrite E. rewrite <- (Qfloor_Z z). apply Qfloor_resp_le. exact Hq.
Qed.
Lemma truncate_le z q : (0 <= z)%Z -> (q < inject_Z (z + 1))%Q -> (truncate q <= z)%Z.
Proof.
  intros Hz Hq. unfold truncate. destruct (Qle_bool 0 q) eqn:E.
  - assert (inject_Z (Qfloor q) < inject_Z (z + 1))%Q by (eapply Qle_lt_trans; [apply Qfloor_le|exact Hq]). rewrite <- Zlt_Qlt in H. lia.
  - assert (q <= 0)%Q by (destruct (Qlt_le_dec 0 q) as [L|L]; [apply Qlt_le_weak in L; apply Qle_bool_iff in L; congruence|exact L]).
    apply Qceiling_resp_le in H. change (Qceiling 0) with 0%Z in H. lia.
Qed.
Lemma ceiling_nonneg q : (-1 # 1 < q)%Q -> Qceiling q = Z.of_nat (ceil q).
Proof.
  intros Hq. unfold ceil. rewrite Z2Nat.id; [reflexivity|].
  assert (inject_Z (-1) < inject_Z (Qceiling q))%Q by (eapply Qlt_le_trans; [exact Hq|apply Qle_ceiling]). rewrite <- Zlt_Qlt in H. lia.
Qed.
Lemma divide_ok a b : ~ (b == 0)%Q -> divide a b = Ok (a / b)%Q.
Proof. intros Hb. unfold divide. destruct (Qeq_bool b 0) eqn:E; [apply Qeq_bool_iff in E; tauto|reflexivity]. Qed.
Lemma divide_zero a b : (b == 0)%Q -> divide a b = Err ZeroDivisionError.
Proof. intros Hb. unfold divide. apply Qeq_bool_iff in Hb. rewrite Hb. reflexivity. Qed.

(** ** foldM *)
Lemma foldM_same {S A} (f g : S -> A -> res S) (P : S -> Prop) l : forall s, P s ->
  (forall s a, In a l -> P s -> f s a = g s a /\ forall s', g s a = Ok s' -> P s') ->
  foldM f l s = foldM g l s /\ forall s', foldM g l s = Ok s' -> P s'.
Proof.
  induction l as [|a l IH]; intros s Hs Hfg; cbn [foldM]; [split; [reflexivity|]; intros s' E; injection E as <-; exact Hs|].
  destruct (Hfg s a (or_introl eq_refl) Hs) as [E Hn]. rewrite E. destruct (g s a) as [s'|e]; cbn [bind]; [|split; [reflexivity|discriminate]].
  apply IH; [apply Hn; reflexivity|]. intros. apply Hfg; auto. right; auto.
Qed.
Lemma mapM_same {A B} (f g : A -> res B) l : (forall a, In a l -> f a = g a) -> mapM f l = mapM g l.
Proof. induction l as [|a l IH]; intros E; simpl; [reflexivity|]. rewrite E by (left; auto). rewrite IH; [reflexivity|]. intros; apply E; right; auto. Qed.

(** ** the list of required overlaps *)
Lemma zset_ok {A} (l : list A) i x : i < length l -> zset l (Z.of_nat i) x = Ok (upd l i x).
Proof.
  intros Hi. unfold zset. destruct (Z.ltb_spec (Z.of_nat i) 0); [lia|]. destruct (Z.ltb_spec (Z.of_nat i) 0); [lia|].
  destruct (Z.leb_spec (Z.of_nat (length l)) (Z.of_nat i)); [lia|]. simpl. rewrite Nat2Z.id. reflexivity.
Qed.
Lemma upd_len {A} (l : list A) i x : length (upd l i x) = length l.
Proof. revert i. induction l as [|a l IH]; intros [|i]; simpl; auto. Qed.
Lemma nth_upd {A} (l : list A) i j x : i < length l -> nth_error (upd l i x) j = if Nat.eqb i j then Some x else nth_error l j.
Proof. revert i j. induction l as [|a l IH]; intros [|i] [|j] Hi; simpl in *; try lia; auto. apply IH. lia. Qed.

Lemma zrange_nat a b : zrange (Z.of_nat a) (Z.of_nat b) = map Z.of_nat (seq a (b - a)).
Proof.
  unfold zrange. replace (Z.to_nat (Z.of_nat b - Z.of_nat a)) with (b - a) by lia.
  replace (seq a (b - a)) with (map (fun i => a + i) (seq 0 (b - a))).
  - rewrite map_map. apply map_ext. intros i. lia.
  - generalize (b - a). intros n. clear. revert a. induction n as [|n IH]; intros a; [reflexivity|]. cbn [seq map]. f_equal; [lia|].
    rewrite <- seq_shift, map_map. rewrite <- (IH (S a)). apply map_ext. intros i. lia.
Qed.

Section Requires.
Variable h : any_helper.
Variable n : nat.
Variable f : nat -> Z.
Hypothesis Hf : forall l, l <= n -> any_require_overlap h n (Z.of_nat l) = Ok (f l).

Lemma requires_fill k : forall m L, length L = n + 1 -> m + k <= n + 1 ->
  exists L', foldM (fun l i => let! r := any_require_overlap h n i in zset l i r) (map Z.of_nat (seq m k)) L = Ok L' /\ length L' = n + 1 /\
    forall l, nth_error L' l = if Nat.leb m l && Nat.ltb l (m + k) then Some (f l) else nth_error L l.
Proof.
  induction k as [|k IH]; intros m L HL Hm; cbn [seq map foldM].
  - exists L. split; [reflexivity|]. split; [exact HL|]. intros l. destruct (Nat.leb_spec m l), (Nat.ltb_spec l (m + 0)); try lia; reflexivity.
  - rewrite Hf by lia. cbn [bind]. rewrite zset_ok by lia. cbn [bind].
    destruct (IH (S m) (upd L m (f m))) as (L' & E & HL' & HN); [rewrite upd_len; exact HL|lia|].
    exists L'. split; [exact E|]. split; [exact HL'|]. intros l. rewrite HN, nth_upd by lia.
    destruct (Nat.eqb_spec m l) as [->|Hml].
    + destruct (Nat.leb_spec (S l) l); [lia|]. destruct (Nat.leb_spec l l); [|lia]. destruct (Nat.ltb_spec l (l + S k)); [|lia]. reflexivity.
    + destruct (Nat.leb_spec (S m) l), (Nat.leb_spec m l); try lia; cbn [andb]; [|reflexivity].
      replace (S m + k) with (m + S k) by lia. reflexivity.
Qed.
Lemma requires_ok m : exists L, require_overlaps h n (Z.of_nat m) = Ok L /\ length L = n + 1 /\
  forall l, l <= n -> nth_error L l = Some (if Nat.leb m l then f l else 0%Z).
Proof.
  unfold require_overlaps. replace (Z.of_nat n + 1)%Z with (Z.of_nat (n + 1)) by lia. rewrite zrange_nat.
  destruct (Nat.le_gt_cases m (n + 1)) as [L|L].
  - destruct (requires_fill (n + 1 - m) m (repeat 0%Z (n + 1))) as (L' & E & HL & HN); [apply repeat_length|lia|].
    exists L'. split; [exact E|]. split; [exact HL|]. intros l Hl. rewrite HN. replace (m + (n + 1 - m)) with (n + 1) by lia.
    destruct (Nat.ltb_spec l (n + 1)); [|lia]. rewrite andb_true_r. destruct (Nat.leb_spec m l); [reflexivity|]. apply nth_error_repeat. lia.
  - replace (n + 1 - m) with 0 by lia. exists (repeat 0%Z (n + 1)). split; [reflexivity|]. split; [apply repeat_length|].
    intros l Hl. destruct (Nat.leb_spec m l); [lia|]. apply nth_error_repeat. lia.
Qed.
End Requires.

(** ** agreement *)
Record agrees (h : helper) (a : any_helper) : Prop := {
  a_index : forall l, any_index_length a l = Ok (Z.of_nat (index_length h l)) /\ 1 <= index_length h l;
  a_probe : forall l, any_probe_length a l = Ok (Z.of_nat (probe_length h l)) /\ 1 <= probe_length h l;
  a_require : forall l1 l2, any_require_overlap a l1 (Z.of_nat l2) = Ok (Z.of_nat (require_overlap h l1 l2));
  a_reaches : forall l1 l2 o, 1 <= l1 -> 1 <= l2 -> o <= l1 -> any_reaches a l1 l2 o = Ok (reaches h l1 l2 o);
  a_min : forall l, any_min_length a l = Ok (Z.of_nat (min_possible_length h l))
}.

Section Agree.
Context {T : Type} `{EqDec T}.
Variable leb : T -> T -> bool.
Variables (h : helper) (a : any_helper).
Hypothesis HA : agrees h a.
Variable threshold : Q.
Variable algo : algorithm.
Variable records : list (list T).

Lemma any_overlap_loop_same fuel : forall x y cur r, any_overlap_loop leb fuel x y cur (Z.of_nat r) = overlap_loop leb fuel x y cur r.
Proof.
  induction fuel as [|fuel IH]; intros x y cur r; [reflexivity|]. cbn [any_overlap_loop overlap_loop]. destruct x as [|u x], y as [|v y]; try reflexivity.
  assert (E : forall p q, (Z.of_nat p <? Z.of_nat q)%Z = Nat.ltb p q) by (intros p q; destruct (Z.ltb_spec (Z.of_nat p) (Z.of_nat q)), (Nat.ltb_spec p q); lia).
  rewrite !E. destruct (_ || _); [reflexivity|]. destruct (eq_dec u v); [apply IH|]. destruct (ltb leb u v); apply IH.
Qed.
Lemma overlap_loop_le fuel : forall x y cur r n, overlap_loop leb fuel x y cur r = Some n -> n <= cur + length x.
Proof.
  induction fuel as [|fuel IH]; intros x y cur r n; cbn [overlap_loop]; [intros E; injection E as <-; lia|].
  destruct x as [|u x]; [intros E; injection E as <-; lia|]. destruct y as [|v y]; [intros E; injection E as <-; lia|].
  destruct (_ || _); [discriminate|]. destruct (eq_dec u v); [intros E; apply IH in E; simpl; lia|].
  destruct (ltb leb u v); intros E; apply IH in E; simpl in *; lia.
Qed.
Lemma zindex_pred (l : list T) i : 1 <= i -> zindex l (Z.of_nat i - 1) = index l (i - 1).
Proof. intros Hi. unfold zindex. destruct (Z.ltb_spec (Z.of_nat i - 1) 0); [lia|]. f_equal. lia. Qed.
Lemma zltb p q : (Z.of_nat p <? Z.of_nat q)%Z = Nat.ltb p q.
Proof. destruct (Z.ltb_spec (Z.of_nat p) (Z.of_nat q)), (Nat.ltb_spec p q); lia. Qed.

Section Record.
Variable k : nat.
Notation record := (record_of records k).
Notation n := (length record).
Variable L : list Z.
Hypothesis HL : length L = n + 1.
Hypothesis HN : forall l, l <= n -> nth_error L l = Some (Z.of_nat (required h n l)).
Definition short_id (id : nat) : Prop := length (record_of records id) <= n.
Definition short_occ (occ : occurrences) : Prop := forall id v, In (id, v) occ -> short_id id.

Lemma zindex_L l : l <= n -> zindex L (Z.of_nat l) = Ok (Z.of_nat (required h n l)).
Proof. intros Hl. unfold zindex. destruct (Z.ltb_spec (Z.of_nat l) 0); [lia|]. rewrite Nat2Z.id. unfold index. rewrite HN by exact Hl. reflexivity. Qed.

Lemma dmodify_In {K V} `{EqDec K} (d : dict K V) key dflt (f : V -> V) x : In x (dmodify d key dflt f) -> In x d \/ fst x = key.
Proof.
  induction d as [|[k' v'] d IH]; simpl; [intros [<-|[]]; auto|]. destruct (eq_dec key k') as [->|]; simpl; intros [<-|Hx]; auto. apply IH in Hx as [|]; auto.
Qed.
Lemma dset_In {K V} `{EqDec K} (d : dict K V) key (v : V) x : In x (dset d key v) -> In x d \/ x = (key, v).
Proof.
  unfold dset. induction d as [|[k' v'] d IH]; simpl; [intros [<-|[]]; auto|]. destruct (eq_dec key k') as [->|]; simpl; intros [<-|Hx]; auto. apply IH in Hx as [|]; auto.
Qed.
Lemma dget_In {K V} `{EqDec K} (d : dict K V) key v : dget d key = Some v -> In (key, v) d.
Proof. induction d as [|[k' v'] d IH]; simpl; [discriminate|]. destruct (eq_dec key k') as [->|]; [intros E; injection E as ->; auto|auto]. Qed.

Lemma filtered_same t occ id : short_id (fst id) -> snd id <= length (record_of records (fst id)) ->
  any_filtered leb threshold algo records L record t occ (fst id) (snd id) = filtered leb h threshold algo records record t occ (fst id) (snd id).
Proof.
  intros Hid Hpos. unfold any_filtered, filtered. rewrite zindex_L by exact Hid. cbn [bind].
  assert (EC : forall r, (Z.of_nat (length (record_of records (fst id))) - Z.of_nat (snd id) <? Z.of_nat r)%Z = Nat.ltb (length (record_of records (fst id)) - snd id) r)
    by (intros r; rewrite <- zltb; f_equal; lia).
  assert (EV : forall v r, (Z.of_nat v + (Z.of_nat (length (record_of records (fst id))) - Z.of_nat (snd id)) <? Z.of_nat r)%Z =
    Nat.ltb (v + (length (record_of records (fst id)) - snd id)) r) by (intros v r; rewrite <- zltb; f_equal; lia).
  destruct (dget occ (fst id)) as [[v|]|]; [|reflexivity|].
  - rewrite EV. reflexivity.
  - rewrite EC. reflexivity.
Qed.
Lemma filtered_short t occ id occ' : short_occ occ -> short_id (fst id) -> filtered leb h threshold algo records record t occ (fst id) (snd id) = Ok occ' -> short_occ occ'.
Proof.
  intros Ho Hid.
  assert (HS : forall v occ', Ok (dset occ (fst id) v) = Ok occ' -> short_occ occ').
  { intros v o E. injection E as <-. intros i u Hi. apply dset_In in Hi as [Hi|Hi]; [eapply Ho; eauto|]. injection Hi as -> _. exact Hid. }
  assert (HO : forall occ', Ok occ = Ok occ' -> short_occ occ') by (intros o E; injection E as <-; exact Ho).
  unfold filtered. set (P := match algo with AllPairs | PPJoin => Ok false | PPJoinPlus => _ end). clearbody P.
  destruct (dget occ (fst id)) as [[v|]|]; [|apply HO|]; destruct P as [b|]; cbn [bind]; try discriminate; destruct b; try apply HS; try apply HO; destruct (_ || _); first [apply HS|apply HO].
Qed.
Lemma consider_same t occ id : short_occ occ -> short_id (fst id) -> snd id <= length (record_of records (fst id)) ->
  any_consider leb threshold algo records L record t occ id = consider leb h threshold algo records record t occ id /\
  forall occ', consider leb h threshold algo records record t occ id = Ok occ' -> short_occ occ'.
Proof.
  intros Ho Hid Hpos. unfold any_consider, consider. rewrite filtered_same by assumption.
  split; [reflexivity|]. intros occ'. destruct algo eqn:EA; [|rewrite <- EA; apply filtered_short; assumption|rewrite <- EA; apply filtered_short; assumption].
  intros E. injection E as <-. intros i u Hi. apply dmodify_In in Hi as [Hi|Hi]; [eapply Ho; eauto|]. cbn [fst] in Hi. subst i. exact Hid.
Qed.
Lemma advance_same m ids : any_advance records (Z.of_nat m) ids = advance records m ids.
Proof. induction ids as [|id ids IH]; [reflexivity|]. cbn [any_advance advance]. rewrite zltb, IH. reflexivity. Qed.

Definition good_idx (idx : inverted (T := T)) : Prop :=
  forall w item, In (w, item) idx -> Forall (fun id => short_id (fst id) /\ snd id <= length (record_of records (fst id))) (snd item).

Lemma probe_same idx occ t : good_idx idx -> short_occ occ ->
  any_probe leb threshold algo records (Z.of_nat (min_possible_length h n)) (Z.of_nat (index_length h n)) L k record (idx, occ) t =
  probe leb h threshold algo records k record (idx, occ) t /\
  forall s, probe leb h threshold algo records k record (idx, occ) t = Ok s -> good_idx (fst s) /\ short_occ (snd s).
Proof.
  intros Hi Ho. unfold any_probe, probe. destruct (index record t) as [token|e] eqn:ET; cbn [bind]; [|split; [reflexivity|discriminate]].
  assert (Ht : t < n) by (unfold index in ET; destruct (nth_error record t) eqn:EN; [apply nth_error_Some; congruence|discriminate]).
  set (item := match dget idx token with Some item => item | None => (0, []) end).
  assert (HI : Forall (fun id => short_id (fst id) /\ snd id <= length (record_of records (fst id))) (snd item)).
  { unfold item. destruct (dget idx token) as [it|] eqn:EG; [|constructor]. apply dget_In in EG. apply (Hi _ _ EG). }
  destruct item as [pos ids]. cbn [snd] in HI. rewrite advance_same. set (pos' := pos + _).
  assert (HI' : Forall (fun id => short_id (fst id) /\ snd id <= length (record_of records (fst id))) (skipn pos' ids)).
  { rewrite <- (firstn_skipn pos' ids) in HI. apply Forall_app in HI. tauto. }
  destruct (foldM_same (any_consider leb threshold algo records L record t) (consider leb h threshold algo records record t) short_occ (skipn pos' ids) occ Ho) as [E HP].
  { intros s id Hin Hs. rewrite Forall_forall in HI'. destruct (HI' id Hin). apply consider_same; assumption. }
  rewrite E. split; [reflexivity|]. intros s ES. destruct (foldM (consider leb h threshold algo records record t) (skipn pos' ids) occ) as [occ'|e]; cbn [bind] in ES; [|discriminate ES]. injection ES as <-. cbn [fst snd].
  split; [|apply HP; reflexivity]. intros w it Hin. apply dset_In in Hin as [Hin|Hin]; [eapply Hi; eauto|]. injection Hin as -> ->. cbn [snd].
  change (qn (index_length h n)) with (inject_Z (Z.of_nat (index_length h n))).
  destruct (negb _); [|exact HI]. apply Forall_app. split; [exact HI|]. constructor; [|constructor]. cbn [fst snd]. split; [unfold short_id; lia|lia].
Qed.

Lemma index_length_pos (l : list T) i x : index l i = Ok x -> 1 <= length l.
Proof. unfold index. destruct l as [|? l]; [destruct i; discriminate|simpl; lia]. Qed.

Lemma verify_same entry : short_id (fst entry) ->
  any_verify leb a records (Z.of_nat (probe_length h n)) L k record entry = verify leb h records k record entry.
Proof.
  destruct entry as [c [count|]]; [|reflexivity]. intros Hid. cbn [fst] in Hid. unfold any_verify, verify. rewrite zindex_L by exact Hid. cbn [bind].
  destruct (a_index h a HA (length (record_of records c))) as [-> HI]. cbn [bind]. rewrite !zindex_pred by (first [exact HI|apply (a_probe h a HA)]).
  destruct (index (record_of records c) _) as [x|] eqn:EX; cbn [bind]; [|reflexivity]. destruct (index record _) as [y|] eqn:EY; cbn [bind]; [|reflexivity].
  assert (E1 : 1 <= length (record_of records c)) by (eapply index_length_pos; exact EX).
  assert (E2 : 1 <= n) by (eapply index_length_pos; exact EY).
  assert (EL : forall p q r, (Z.of_nat p - Z.of_nat q <? Z.of_nat r)%Z = Nat.ltb p (r + q)) by (intros p q r; destruct (Z.ltb_spec (Z.of_nat p - Z.of_nat q) (Z.of_nat r)), (Nat.ltb_spec p (r + q)); lia).
  rewrite !EL. destruct (if ltb leb x y then _ else _); [reflexivity|]. unfold any_compute_overlap, compute_overlap. rewrite any_overlap_loop_same.
  destruct (overlap_loop leb _ record (record_of records c) 0 _) as [o|] eqn:EO; [|reflexivity].
  rewrite (a_reaches h a HA) by (first [exact E1|exact E2|apply overlap_loop_le in EO; exact EO]). reflexivity.
Qed.
End Record.

Lemma join_record_same k idx out : good_idx k idx ->
  any_join_record leb a threshold algo records (idx, out) k = join_record leb h threshold algo records (idx, out) k /\
  forall s, join_record leb h threshold algo records (idx, out) k = Ok s -> good_idx k (fst s).
Proof.
  intros Hi. unfold any_join_record, join_record. set (record := record_of records k).
  rewrite (a_min h a HA), (proj1 (a_probe h a HA _)), (proj1 (a_index h a HA _)). cbn [bind].
  destruct (requires_ok a (length record) (fun l => Z.of_nat (require_overlap h (length record) l)) (fun l _ => a_require h a HA _ l) (min_possible_length h (length record))) as (L & -> & HL & HN).
  cbn [bind]. rewrite Nat2Z.id.
  assert (HN' : forall l, l <= length record -> nth_error L l = Some (Z.of_nat (required h (length record) l))).
  { intros l Hl. rewrite HN by exact Hl. unfold required. destruct (Nat.leb _ l); reflexivity. }
  destruct (foldM_same (any_probe leb threshold algo records (Z.of_nat (min_possible_length h (length record))) (Z.of_nat (index_length h (length record))) L k record)
    (probe leb h threshold algo records k record) (fun s => good_idx k (fst s) /\ short_occ k (snd s)) (seq 0 (probe_length h (length record))) (idx, [])) as [E HP].
  { split; [exact Hi|]. intros id v []. }
  { intros [i o] t _ [G1 G2]. apply probe_same; assumption. }
  rewrite E. destruct (foldM (probe leb h threshold algo records k record) (seq 0 (probe_length h (length record))) (idx, [])) as [[idx' occ]|e]; cbn [bind]; [|split; [reflexivity|discriminate]].
  destruct (HP _ eq_refl) as [G1 G2]. cbn [fst snd] in G1, G2.
  rewrite (mapM_same (any_verify leb a records (Z.of_nat (probe_length h (length record))) L k record) (verify leb h records k record)).
  - split; [reflexivity|]. intros s. destruct (mapM _ occ); cbn [bind]; [|discriminate]. intros ES. injection ES as <-. exact G1.
  - intros [id v] Hin. apply verify_same; [exact HL|exact HN'|]. eapply G2; exact Hin.
Qed.

Theorem any_join_same : any_join leb a threshold algo records = join leb h threshold algo records.
Proof.
  unfold any_join, join. pose proof (argsort_sorted records) as HS.
  assert (G : forall l idx out, StronglySorted (before records) l -> (forall k, In k l -> good_idx k idx) ->
    foldM (any_join_record leb a threshold algo records) l (idx, out) = foldM (join_record leb h threshold algo records) l (idx, out)).
  { induction l as [|k l IH]; intros idx out Hs Hg; [reflexivity|]. cbn [foldM]. inversion Hs as [|? ? Hs' Hf]; subst.
    destruct (join_record_same k idx out (Hg k (or_introl eq_refl))) as [E HP]. rewrite E.
    destruct (join_record _ _ _ _ _ _ k) as [[idx' out']|e]; cbn [bind]; [|reflexivity]. apply IH; [exact Hs'|].
    intros k' Hk' w item Hin. specialize (HP _ eq_refl w item Hin). rewrite Forall_forall in Hf. specialize (Hf k' Hk').
    eapply Forall_impl; [|exact HP]. intros id [H1 H2]. split; [|exact H2]. unfold short_id in *. unfold before in Hf. lia. }
  rewrite G; [reflexivity|exact HS|]. intros k _ w item [].
Qed.
End Agree.

(** ** the helpers for thresholds above 0 and up to 1 *)
Lemma least_above_more fuel fuel' t p : forall n, (exists b, (t * t * qn p <= (qn b + EPSILON) * (qn b + EPSILON))%Q /\ n <= b <= n + fuel) -> fuel <= fuel' ->
  least_above fuel' t p n = least_above fuel t p n.
Proof.
  revert fuel'. induction fuel as [|fuel IH]; intros fuel' n (b & Hb & Hn) Hf.
  - assert (b = n) by lia. subst b. destruct fuel'; [reflexivity|]. simpl. apply Qle_bool_iff in Hb. rewrite Hb. reflexivity.
  - destruct fuel' as [|fuel']; [lia|]. cbn [least_above]. destruct (Qle_bool _ _) eqn:E; [reflexivity|].
    apply IH; [|lia]. exists b. split; [exact Hb|]. destruct (Nat.eq_dec b n) as [->|]; [|lia]. apply Qle_bool_iff in Hb. congruence.
Qed.

Open Scope Q_scope.
Lemma qn_inject l1 l2 : inject_Z (Z.of_nat l1 + Z.of_nat l2) = qn (l1 + l2).
Proof. unfold qn. rewrite Nat2Z.inj_add. reflexivity. Qed.
Lemma share_jaccard t : 0 < t -> 0 < t / (1 + t) /\ (t <= 1 -> 2 * t / (1 + t) <= 1).
Proof.
  intros Ht. split; [apply Qlt_shift_div_l; lra|]. intros H1. apply Qle_shift_div_r; lra.
Qed.
Lemma share_dice t : 0 < t -> t <= 1 -> 0 < t / (2 - t) /\ t / (2 - t) <= 1.
Proof. intros Ht H1. split; [apply Qlt_shift_div_l; lra|apply Qle_shift_div_r; lra]. Qed.
Lemma eps : 0 < EPSILON /\ EPSILON < 1. Proof. unfold EPSILON. lra. Qed.

Lemma agrees_of m t : 0 < t -> t <= 1 -> agrees (helper_of m t) (any_helper_of m t).
Proof.
  intros Ht H1. pose proof eps as [He1 He2]. destruct m; constructor; cbn [helper_of any_helper_of jaccard_helper any_jaccard dice_helper any_dice binary_cosine_helper any_binary_cosine
    index_length any_index_length probe_length any_probe_length require_overlap any_require_overlap reaches any_reaches min_possible_length any_min_length].
  - intros l. destruct (share_jaccard t Ht) as [_ S]. specialize (S H1). pose proof (qn_nonneg l). rewrite divide_ok by lra. cbn [bind].
    split; [|apply prefix_ge_1; lra]. rewrite truncate_nonneg by nra. reflexivity.
  - intros l. pose proof (qn_nonneg l). split; [|apply prefix_ge_1; lra]. rewrite truncate_nonneg by nra. reflexivity.
  - intros l1 l2. destruct (share_jaccard t Ht) as [S _]. rewrite divide_ok by lra. cbn [bind]. rewrite qn_inject, ceiling_nonneg; [reflexivity|].
    pose proof (qn_nonneg (l1 + l2)). nra.
  - intros l1 l2 o L1 L2 Lo. assert (E : qn l1 + qn l2 - qn o == qn (l1 + l2 - o)) by (rewrite qn_minus by lia; rewrite qn_plus; reflexivity).
    assert (P : 1 <= qn (l1 + l2 - o)) by (change 1 with (qn 1); apply qn_le; lia). rewrite divide_ok by lra. cbn [bind]. f_equal. 
    assert (E' : qn o / (qn l1 + qn l2 - qn o) == qn o / qn (l1 + l2 - o)) by (rewrite E; reflexivity). rewrite E'. reflexivity.
  - intros l. rewrite ceiling_nonneg; [reflexivity|]. pose proof (qn_nonneg l). nra.
  - intros l. pose proof (qn_nonneg l). split; [|apply prefix_ge_1; lra]. rewrite truncate_nonneg by nra. reflexivity.
  - intros l. destruct (share_dice t Ht H1) as [_ S]. pose proof (qn_nonneg l). rewrite divide_ok by lra. cbn [bind].
    split; [|apply prefix_ge_1; lra]. rewrite truncate_nonneg by nra. reflexivity.
  - intros l1 l2. rewrite qn_inject, ceiling_nonneg; [reflexivity|]. pose proof (qn_nonneg (l1 + l2)).
    assert (0 <= qn (l1 + l2) * t / 2) by (apply Qle_shift_div_l; nra). lra.
  - intros l1 l2 o L1 L2 Lo. assert (E : qn l1 + qn l2 == qn (l1 + l2)) by (rewrite qn_plus; reflexivity).
    assert (P : 1 <= qn (l1 + l2)) by (change 1 with (qn 1); apply qn_le; lia). rewrite divide_ok by lra. cbn [bind]. f_equal.
    assert (E' : 2 * qn o / (qn l1 + qn l2) == 2 * qn o / qn (l1 + l2)) by (rewrite E; reflexivity). rewrite E'. reflexivity.
  - intros l. rewrite divide_ok by lra. cbn [bind]. rewrite ceiling_nonneg; [reflexivity|]. pose proof (qn_nonneg l).
    assert (0 <= qn l * t / (2 - t)) by (apply Qle_shift_div_l; nra). lra.
  - intros l. pose proof (qn_nonneg l). split; [|apply prefix_ge_1; lra]. rewrite truncate_nonneg by nra. reflexivity.
  - intros l. pose proof (qn_nonneg l). split; [|apply prefix_ge_1; nra]. rewrite truncate_nonneg; [reflexivity|]. assert (0 <= 1 - t * t) by nra. nra.
  - intros l1 l2. destruct (Z.ltb_spec (Z.of_nat l1 * Z.of_nat l2) 0) as [L|L]; [lia|]. replace (Z.to_nat (Z.of_nat l1 * Z.of_nat l2)) with (l1 * l2)%nat by lia.
    unfold ceil_sqrt. assert (E : Qle_bool 0 t = true) by (apply Qle_bool_iff; lra). rewrite E. do 2 f_equal.
    apply least_above_more; [|lia]. exists (l1 * l2)%nat. split; [|lia].
    destruct (l1 * l2)%nat as [|p] eqn:EP; [|].
    + assert (qn 0 == 0) by reflexivity. rewrite H. nra.
    + assert (1 <= qn (S p)) by (change 1 with (qn 1); apply qn_le; lia). assert (t * t <= 1) by nra. nra.
  - intros l1 l2 o L1 L2 Lo. destruct (Nat.eqb_spec (l1 * l2) 0); [nia|]. reflexivity.
  - intros l. rewrite ceiling_nonneg; [reflexivity|]. pose proof (qn_nonneg l). assert (0 <= t * t) by nra. nra.
Qed.
