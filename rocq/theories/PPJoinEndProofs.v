(** From the tokens to the pairs: preprocessing and the whole join. *)
From Coq Require Import QArith String Sorted.
From Verif Require Import Base BaseFacts PairwiseModel GraphModel SortModel SortSpec SortFacts BlockingSpec BlockingProofs
  PPJoinModel PPJoinSpec PPJoinOrderProofs PPJoinProofs PPJoinAcceptProofs PPJoinHelperProofs.
Open Scope nat_scope.
Open Scope list_scope.
Notation length := List.length.

(** ** Preprocessing *)
Section Uniq.
Context {T : Type} `{EqDec T}.
Variable leb : T -> T -> bool.
Hypothesis order : total_preorder leb.
Hypothesis antisym : forall a b, leb a b = true -> leb b a = true -> a = b.

Lemma uniq_In (l : list T) v : In v (uniq l) <-> In v l.
Proof.
  induction l as [|a [|b l] IH]; [reflexivity|reflexivity|]. cbn [uniq].
  change (In v (if eq_dec a b then uniq (b :: l) else a :: uniq (b :: l)) <-> In v (a :: b :: l)).
  destruct (eq_dec a b) as [->|Hab].
  - rewrite IH. simpl. tauto.
  - simpl In at 1. rewrite IH. reflexivity.
Qed.
Lemma uniq_increasing (l : list T) : StronglySorted (fun a b => leb a b = true) l -> increasing leb (uniq l).
Proof.
  induction l as [|a [|b l] IH]; intros Hs; [constructor|repeat constructor|].
  inversion Hs as [|? ? Hs' Ha]; subst. specialize (IH Hs').
  change (increasing leb (if eq_dec a b then uniq (b :: l) else a :: uniq (b :: l))).
  destruct (eq_dec a b) as [->|Hab]; [exact IH|]. apply increasing_cons. split; [exact IH|].
  intros v Hv. apply (uniq_In (b :: l)) in Hv. rewrite Forall_forall in Ha.
  assert (Lab : ltb leb a b = true).
  { unfold ltb. destruct (leb b a) eqn:E; [|reflexivity]. destruct Hab. apply antisym; auto. apply Ha. left. auto. }
  destruct Hv as [<-|Hv]; [exact Lab|].
  inversion Hs' as [|? ? _ Hb]; subst. rewrite Forall_forall in Hb. specialize (Hb v Hv).
  unfold ltb. destruct (leb v a) eqn:E; [|reflexivity]. unfold ltb in Lab.
  rewrite (leb_trans leb order b v a Hb E) in Lab. discriminate.
Qed.
Lemma sorted_uniq_In (l : list T) v : In v (sorted_uniq leb l) <-> In v l.
Proof. unfold sorted_uniq. rewrite uniq_In, sort_by_In. reflexivity. Qed.
Lemma sorted_uniq_increasing l : increasing leb (sorted_uniq leb l).
Proof. apply uniq_increasing. apply sort_by_sorted. exact order. Qed.
End Uniq.

Lemma nat_order : total_preorder Nat.leb.
Proof. constructor; intros; rewrite ?Nat.leb_le in *; lia. Qed.
Lemma nat_antisym a b : Nat.leb a b = true -> Nat.leb b a = true -> a = b.
Proof. rewrite !Nat.leb_le. lia. Qed.

Lemma N_order : total_preorder N.leb.
Proof. constructor; intros; rewrite ?N.leb_le in *; lia. Qed.
Lemma N_antisym a b : N.leb a b = true -> N.leb b a = true -> a = b.
Proof. rewrite !N.leb_le. lia. Qed.

Lemma sort_increasing {U} (leb : U -> U -> bool) (order : total_preorder leb)
    (antisym : forall a b, leb a b = true -> leb b a = true -> a = b) l : NoDup l -> increasing leb (sort_by leb l).
Proof.
  intros Hl. apply (Permutation_NoDup (l' := sort_by leb l)) in Hl; [|symmetry; apply sort_by_perm].
  pose proof (sort_by_sorted leb order l) as Hs. revert Hl. induction Hs as [|a s Hs IH Ha]; intros Hl; [constructor|].
  apply NoDup_cons_iff in Hl as [Na Hl]. constructor; [apply IH; auto|]. rewrite Forall_forall in *.
  intros b Hb. specialize (Ha b Hb). unfold ltb. apply negb_true_iff. destruct (leb b a) eqn:E; [|reflexivity].
  assert (a <> b) by congruence. destruct H. auto.
Qed.

(** the record is made of the images of the tokens *)
Definition encodes {T U} (leb : U -> U -> bool) (f : T -> U) (toks : list T) (r : list U) : Prop :=
  increasing leb r /\ forall u, In u r <-> exists w, In w toks /\ f w = u.
Definition injective_on {T U} (f : T -> U) (l : list T) : Prop := forall v w, In v l -> In w l -> f v = f w -> v = w.

Section Encode.
Context {T : Type} `{EqDec T}.
Variable leb : T -> T -> bool.
Hypothesis order : total_preorder leb.
Hypothesis antisym : forall a b, leb a b = true -> leb b a = true -> a = b.

Lemma encodes_plain l : encodes leb (fun w => w) l (sorted_uniq leb l).
Proof.
  split; [apply sorted_uniq_increasing; auto|]. intros u. rewrite sorted_uniq_In. split; [eauto|]. intros (w & Hw & ->). exact Hw.
Qed.
Lemma map_NoDup_inj {U} (f : T -> U) l : NoDup l -> injective_on f l -> NoDup (map f l).
Proof.
  induction 1 as [|a l Ha Hl IH]; intros Hf; simpl; [constructor|]. constructor.
  - rewrite in_map_iff. intros (b & E & Hb). apply Hf in E; [|right; auto|left; auto]. congruence.
  - apply IH. intros v w Hv Hw. apply Hf; right; auto.
Qed.
Lemma encodes_sorted {U} (leb' : U -> U -> bool) (f : T -> U) l : total_preorder leb' ->
  (forall a b, leb' a b = true -> leb' b a = true -> a = b) -> injective_on f l ->
  encodes leb' f l (sort_by leb' (map f (sorted_uniq leb l))).
Proof.
  intros O1 O2 Hf. split.
  - apply sort_increasing; auto. apply map_NoDup_inj.
    + eapply increasing_NoDup; [exact order|]. apply sorted_uniq_increasing; auto.
    + intros v w Hv Hw. rewrite sorted_uniq_In in Hv, Hw. apply Hf; auto.
  - intros u. rewrite sort_by_In, in_map_iff. split.
    + intros (w & E & Hw). rewrite sorted_uniq_In in Hw. eauto.
    + intros (w & Hw & E). exists w. rewrite sorted_uniq_In. auto.
Qed.

(** labels *)
Lemma frequencies_keys (l : list T) : dkeys (frequencies l) = set_of l.
Proof.
  unfold frequencies, set_of. change (@nil T) with (dkeys (@nil (T * nat))). generalize (@nil (T * nat)) as d.
  induction l as [|a l IH]; intros d; simpl; [reflexivity|]. rewrite IH, dkeys_dmodify. reflexivity.
Qed.
Lemma labels_loop (L : list (T * nat)) (d : dict T nat) a : NoDup (map fst L) ->
  forall w, dget (fold_left (fun d '(i, (token, _)) => dset d token i) (combine (seq a (length L)) L) d) w =
    match pos_of w (map fst L) with Some p => Some (a + p) | None => dget d w end.
Proof.
  revert d a. induction L as [|[v c] L IH]; intros d a Hn w; simpl; [reflexivity|].
  simpl in Hn. apply NoDup_cons_iff in Hn as [Nv Hn]. rewrite IH by exact Hn.
  destruct (eq_dec w v) as [->|Hwv].
  - rewrite (proj2 (pos_of_None v (map fst L)) Nv), dget_dset_same. f_equal. lia.
  - destruct (pos_of w (map fst L)); simpl; [f_equal; lia|]. apply dget_dset_other. congruence.
Qed.
Lemma labels_spec (toks : list T) : exists f : T -> nat,
  (forall w, In w toks -> dget (labels leb (frequencies toks)) w = Some (f w)) /\ injective_on f toks.
Proof.
  set (cmp := fun a b : T * nat => Nat.ltb (snd a) (snd b) || (Nat.eqb (snd a) (snd b) && leb (fst a) (fst b))).
  set (L := sort_by cmp (frequencies toks)).
  assert (P : Permutation (map fst L) (set_of toks)) by (rewrite <- frequencies_keys; apply Permutation_map, sort_by_perm).
  assert (N : NoDup (map fst L)) by (eapply Permutation_NoDup; [symmetry; exact P|apply set_of_NoDup]).
  assert (G : forall w, dget (labels leb (frequencies toks)) w = pos_of w (map fst L)).
  { intros w. unfold labels. fold cmp. fold L. unfold enumerate. rewrite labels_loop by exact N.
    destruct (pos_of w (map fst L)); reflexivity. }
  assert (I : forall w, In w toks -> exists p, pos_of w (map fst L) = Some p).
  { intros w Hw. destruct (pos_of w (map fst L)) eqn:E; [eauto|]. apply pos_of_None in E. destruct E.
    eapply Permutation_in; [symmetry; exact P|]. apply set_of_In. exact Hw. }
  exists (fun w => match pos_of w (map fst L) with Some p => p | None => 0 end). split.
  - intros w Hw. rewrite G. destruct (I w Hw) as [p ->]. reflexivity.
  - intros v w Hv Hw. destruct (I v Hv) as [p Ep], (I w Hw) as [q Eq]. rewrite Ep, Eq. intros ->.
    apply pos_of_Some in Ep. apply pos_of_Some in Eq. congruence.
Qed.

Lemma preprocess_freq_ok (tokens : list (list T)) : exists f rs, injective_on f (concat tokens) /\
  preprocess_freq leb true tokens = Ok rs /\ Forall2 (encodes Nat.leb f) tokens rs.
Proof.
  destruct (labels_spec (concat tokens)) as (f & Hf & Hinj). exists f.
  exists (map (fun l => sort_by Nat.leb (map f (sorted_uniq leb l))) tokens). split; [exact Hinj|]. split.
  - unfold preprocess_freq. apply mapM_total. intros l Hl.
    rewrite (mapM_total _ f); [reflexivity|]. intros w Hw. rewrite sorted_uniq_In in Hw.
    rewrite Hf; [reflexivity|]. apply in_concat. eauto.
  - assert (G : forall l, In l tokens -> injective_on f l).
    { intros l Hl v w Hv Hw. apply Hinj; apply in_concat; eauto. }
    clear - order antisym G. induction tokens as [|l tokens IH]; simpl; constructor.
    + apply encodes_sorted; [apply nat_order|apply nat_antisym|]. apply G. left. auto.
    + apply IH. intros; apply G; right; auto.
Qed.
Lemma preprocess_crc32_ok crc32 (tokens : list (list T)) : injective_on crc32 (concat tokens) ->
  Forall2 (encodes N.leb crc32) tokens (preprocess_crc32 leb crc32 tokens).
Proof.
  intros Hinj. unfold preprocess_crc32.
  assert (G : forall l, In l tokens -> injective_on crc32 l).
  { intros l Hl v w Hv Hw. apply Hinj; apply in_concat; eauto. }
  clear - order antisym G. induction tokens as [|l tokens IH]; simpl; constructor.
  + apply encodes_sorted; [apply N_order|apply N_antisym|]. apply G. left. auto.
  + apply IH. intros; apply G; right; auto.
Qed.
Lemma plain_ok (tokens : list (list T)) : Forall2 (encodes leb (fun w => w)) tokens (map (sorted_uniq leb) tokens).
Proof. induction tokens; simpl; constructor; auto. apply encodes_plain. Qed.
End Encode.

(** ** Sizes *)
Section Sizes.
Context {T U : Type} `{EqDec T} `{EqDec U}.
Variable leb : U -> U -> bool.
Hypothesis order : total_preorder leb.
Variable f : T -> U.

Lemma encodes_card a r : encodes leb f a r -> injective_on f a -> card (fun w => In w a) (length r).
Proof.
  intros [Hr Er] Hf. exists (set_of a). split; [apply set_of_NoDup|]. split; [apply set_of_In|].
  rewrite <- (map_length f). apply NoDup_same_length.
  - apply map_NoDup_inj; [apply set_of_NoDup|]. intros v w. rewrite !set_of_In. apply Hf.
  - eapply increasing_NoDup; eauto.
  - intros u. rewrite in_map_iff, Er. split; intros (w & E1 & E2); exists w; rewrite set_of_In in *; auto.
Qed.
Lemma encodes_common a r b s : encodes leb f a r -> encodes leb f b s -> injective_on f (a ++ b) ->
  card (fun w => In w a /\ In w b) (common r s).
Proof.
  intros [Hr Er] [Hs Es] Hf. exists (filter (fun w => memb w b) (set_of a)).
  split; [apply NoDup_filter, set_of_NoDup|]. split.
  { intros w. rewrite filter_In, set_of_In, memb_true. reflexivity. }
  unfold common. rewrite <- (map_length f). apply NoDup_same_length.
  - apply map_NoDup_inj; [apply NoDup_filter, set_of_NoDup|]. intros v w. rewrite !filter_In, !set_of_In. intros [Hv _] [Hw _].
    apply Hf; apply in_app_iff; auto.
  - apply NoDup_filter. eapply increasing_NoDup; eauto.
  - intros u. rewrite in_map_iff, filter_In, memb_true, Er, Es. split.
    + intros (w & <- & Hw). rewrite filter_In, set_of_In, memb_true in Hw. destruct Hw. split; eauto.
    + intros [(w & Hw & E) (w' & Hw' & E')]. exists w. split; [auto|]. rewrite filter_In, set_of_In, memb_true.
      split; [auto|]. replace w with w'; [auto|]. apply Hf; [apply in_app_iff; auto..|congruence].
Qed.
End Sizes.

Lemma sim_sym m q a b o : sim_at_least m q a b o -> sim_at_least m q b a o.
Proof. destruct m; simpl; rewrite ?(Nat.add_comm b a), ?(Nat.mul_comm b a); auto. Qed.
(** ** The join *)
Lemma room_false t r n : (0 < t < 1)%Q -> Qle_bool (qn r) (qn n - t) = false <-> n <= r.
Proof.
  intros Ht. split; intros E.
  - destruct (Nat.le_gt_cases n r) as [|G]; [auto|]. exfalso. assert (G' : r + 1 <= n) by lia. apply qn_le in G'.
    rewrite qn_plus, qn_1 in G'. assert (L : (qn r <= qn n - t)%Q) by Lqa.lra. apply Qle_bool_iff in L. congruence.
  - destruct (Qle_bool _ _) eqn:L; [|reflexivity]. apply Qle_bool_iff in L. apply qn_le in E. Lqa.lra.
Qed.

Section Whole.
Context {T U : Type} `{EqDec T} `{EqDec U}.
Variable leb : U -> U -> bool.
Hypothesis order : total_preorder leb.
Hypothesis antisym : forall a b, leb a b = true -> leb b a = true -> a = b.
Variable f : T -> U.
Variable tokens : list (list T).
Variable rs : list (list U).
Hypothesis Hf : injective_on f (concat tokens).
Hypothesis Henc : Forall2 (encodes leb f) tokens rs.
Hypothesis Hne : forall l, In l tokens -> l <> [].
(** any helper: [wanted lx ly o] pairs are found by its bounds, those that reach the threshold are [allowed] *)
Variable h : helper.
Variable t : Q.
Hypothesis HB : helper_bounds h t.
Hypothesis Ht : (0 < t < 1)%Q.
Variable size_ok : nat -> Prop.
Hypothesis sizes : forall r, In r rs -> size_ok (length r).
Variables W A : nat -> nat -> nat -> Prop.
Hypothesis W_sym : forall a b o, W a b o -> W b a o.
Hypothesis Hfinds : forall lx ly o, 1 <= ly -> ly <= lx -> o <= ly -> size_ok lx -> W lx ly o -> finds h lx ly o.
Hypothesis Hsound : forall lx ly o, 1 <= ly -> ly <= lx -> o <= ly -> size_ok lx -> reaches h lx ly o = true -> A lx ly o.

(** the sizes of two lists of tokens and of what they share *)
Definition counts (P : nat -> nat -> nat -> Prop) (a b : list T) : Prop :=
  exists x y o, card (fun w => In w a) x /\ card (fun w => In w b) y /\ card (fun w => In w a /\ In w b) o /\ P x y o.
(** the same tokens, all of them being required *)
Definition all_required (a b : list T) : Prop :=
  (forall w, In w a <-> In w b) /\ exists n, card (fun w => In w a) n /\ n <= require_overlap h n n.
Lemma card_swap (P Q : T -> Prop) n : card (fun w => P w /\ Q w) n -> card (fun w => Q w /\ P w) n.
Proof. intros (l & N & E & L). exists l. split; [auto|]. split; [|auto]. intros w. rewrite E. tauto. Qed.
Lemma counts_sym a b : counts W a b -> counts W b a.
Proof. intros (x & y & o & Hx & Hy & Ho & Hw). exists y, x, o. split; [auto|]. split; [auto|]. split; [apply card_swap; auto|apply W_sym; auto]. Qed.
Lemma all_required_sym a b : all_required a b -> all_required b a.
Proof.
  intros (E & n & (l & N & El & L) & Hs). split; [intros w; rewrite E; tauto|]. exists n. split; [|auto].
  exists l. split; [auto|]. split; [|auto]. intros w. rewrite El. apply E.
Qed.

Lemma rs_spec i a : nth_error tokens i = Some a -> In a tokens /\ i < length rs /\ In (record_of rs i) rs /\ encodes leb f a (record_of rs i).
Proof.
  intros Hi. assert (E : exists r, nth_error rs i = Some r /\ encodes leb f a r).
  { clear - Henc Hi. revert i Hi. induction Henc as [|x y l l' Hxy HF IH]; intros [|i] Hi; simpl in *; try discriminate; eauto.
    injection Hi as ->. eauto. }
  destruct E as (r & Er & E). unfold record_of. rewrite (nth_error_nth rs i [] Er).
  split; [eapply nth_error_In; eauto|]. split; [apply nth_error_Some; congruence|]. split; [eapply nth_error_In; eauto|exact E].
Qed.
Lemma rs_In r : In r rs -> increasing leb r /\ r <> [].
Proof.
  intros Hr. clear Hf sizes. induction Henc as [|x y l l' Hxy HF IH]; [destruct Hr|].
  destruct Hr as [<-|Hr]; [|apply IH; auto; intros; apply Hne; right; auto].
  destruct Hxy as [Hinc E]. split; [exact Hinc|]. intros ->. destruct x as [|w x]; [apply (Hne []); [left|]; auto|].
  destruct (proj2 (E (f w))). exists w. split; [left|]; auto.
Qed.
Lemma inj_on a b : In a tokens -> In b tokens -> injective_on f (a ++ b).
Proof.
  intros Ha Hb v w Hv Hw. apply Hf; apply in_concat; [apply in_app_iff in Hv as [|]|apply in_app_iff in Hw as [|]]; eauto.
Qed.

(** two records, the second one not being longer *)
Lemma accept_pair algo i j a b : nth_error tokens i = Some a -> nth_error tokens j = Some b ->
  length (record_of rs j) <= length (record_of rs i) ->
  (accepted leb h t algo (record_of rs i) (record_of rs j) = true -> counts A a b) /\
  (counts W a b -> algo = AllPairs \/ ~ all_required a b -> accepted leb h t algo (record_of rs i) (record_of rs j) = true) /\
  (algo <> AllPairs -> all_required a b -> accepted leb h t algo (record_of rs i) (record_of rs j) = false).
Proof.
  intros Hi Hj Hle. apply rs_spec in Hi as (Ha & Hi & Hri & Ea). apply rs_spec in Hj as (Hb & Hj & Hrj & Eb).
  set (x := record_of rs i) in *. set (y := record_of rs j) in *.
  destruct (rs_In _ Hri) as [Ix Nx]. destruct (rs_In _ Hrj) as [Iy Ny]. pose proof (sizes _ Hri) as Sx.
  pose proof (encodes_card leb order f a x Ea) as Ca. pose proof (encodes_card leb order f b y Eb) as Cb.
  pose proof (encodes_common leb order f a x b y Ea Eb (inj_on a b Ha Hb)) as Co.
  assert (Ja : injective_on f a) by (intros v w Hv Hw; apply (inj_on a b Ha Hb); apply in_app_iff; auto).
  assert (Jb : injective_on f b) by (intros v w Hv Hw; apply (inj_on a b Ha Hb); apply in_app_iff; auto).
  specialize (Ca Ja). specialize (Cb Jb).
  assert (Ly : 1 <= length y) by (destruct y; simpl; [congruence|lia]).
  assert (Lo : common x y <= length y) by (apply common_le_r; eapply increasing_NoDup; eauto).
  split; [|split].
  - intros Ac. apply accepted_sound in Ac; auto. exists (length x), (length y), (common x y).
    split; [auto|]. split; [auto|]. split; [auto|]. apply Hsound; auto.
  - intros (na & nb & no & Da & Db & Do & Hs) Halgo.
    rewrite (card_unique _ _ _ Da Ca), (card_unique _ _ _ Db Cb), (card_unique _ _ _ Do Co) in Hs.
    destruct (Hfinds (length x) (length y) (common x y) Ly Hle Lo Sx Hs) as [F1 F2 F3 F4 F5].
    apply accepted_complete; auto. destruct Halgo as [->|Hl]; [auto|right].
    destruct (Qle_bool _ _) eqn:E; [reflexivity|]. exfalso. apply (room_false t) in E; [|exact Ht].
    assert (E1 : length x = length y) by lia. assert (E2 : common x y = length y) by lia.
    apply Hl. split; [|exists (length x); split; [auto|rewrite E1 in E at 2; rewrite <- E1 in E; exact E]].
    assert (Sub : forall c d : list T, card (fun w => In w c) (length y) -> card (fun w => In w c /\ In w d) (length y) -> incl c d).
    { intros c d (l & Nl & El & Ll) (l' & Nl' & El' & Ll') w Hw. apply El in Hw.
      apply (NoDup_length_incl Nl') in Hw; [apply El' in Hw; tauto|lia|]. intros v Hv. apply El' in Hv. apply El. tauto. }
    rewrite E2 in Co. rewrite E1 in Ca. intros w. split; [apply (Sub a b); auto|apply (Sub b a); auto]. apply card_swap. exact Co.
  - intros Halgo [Hsame (n & Cn & Hshort)]. apply accepted_lost; auto. apply (room_false t); [exact Ht|].
    rewrite (card_unique _ _ _ Cn Ca) in Hshort.
    assert (E1 : length x = length y).
    { apply (card_unique (fun w => In w a)); auto. destruct Cb as (l & Nl & El & Ll). exists l. split; [auto|]. split; [|auto].
      intros w. rewrite El. symmetry. apply Hsame. }
    rewrite <- E1. exact Hshort.
Qed.

Definition found algo (P : nat -> nat -> nat -> Prop) (a b : list T) : Prop := counts P a b /\ (algo = AllPairs \/ ~ all_required a b).

Lemma join_pairs algo : exists pairs, join leb h t algo rs = Ok pairs /\ NoDup pairs /\
  (forall i j, In (i, j) pairs -> i < length tokens /\ j < length tokens /\ i <> j /\ ~ In (j, i) pairs) /\
  (forall i j a b, i <> j -> nth_error tokens i = Some a -> nth_error tokens j = Some b -> found algo W a b ->
    In (i, j) pairs \/ In (j, i) pairs) /\
  (forall i j a b, In (i, j) pairs -> nth_error tokens i = Some a -> nth_error tokens j = Some b -> found algo A a b).
Proof.
  destruct (join_ok leb order antisym h t HB algo rs) as (pairs & Hj & Hnd & Hp).
  { intros r Hr. apply rs_In; auto. } { intros r Hr. apply rs_In; auto. }
  assert (Hlen : length tokens = length rs) by (clear - Henc; induction Henc; simpl; auto).
  exists pairs. split; [exact Hj|]. split; [exact Hnd|]. split; [|split].
  - intros i j Hij. apply Hp in Hij as (H1 & H2 & H3 & _). rewrite Hlen. split; [auto|]. split; [auto|].
    unfold before in H3. split; [intros ->; lia|]. intros Hji. apply Hp in Hji as (_ & _ & H4 & _). unfold before in H4. lia.
  - intros i j a b Hij Hi Hj' [Hs Hl]. pose proof (rs_spec _ _ Hi) as (_ & Li & _). pose proof (rs_spec _ _ Hj') as (_ & Lj & _).
    assert (B : before rs j i \/ before rs i j) by (unfold before; lia).
    destruct B as [B|B]; [left|right]; apply Hp; (split; [auto|split; [auto|split; [auto|]]]).
    + apply (accept_pair algo i j a b); auto. unfold before in B. lia.
    + apply (accept_pair algo j i b a); auto; [unfold before in B; lia|apply counts_sym; auto|].
      destruct Hl as [|Hl]; [auto|right]. intros L. apply Hl. apply all_required_sym. exact L.
  - intros i j a b Hij Hi Hj'. apply Hp in Hij as (_ & _ & B & Ac).
    assert (Hle : length (record_of rs j) <= length (record_of rs i)) by (unfold before in B; lia).
    destruct (accept_pair algo i j a b Hi Hj' Hle) as (S1 & S2 & S3). split; [auto|].
    destruct algo; [left; reflexivity|right; intros L; rewrite S3 in Ac by (auto; discriminate); discriminate..].
Qed.

(** the filters only remove pairs *)
Lemma join_subset algo : exists pairs all, join leb h t algo rs = Ok pairs /\ join leb h t AllPairs rs = Ok all /\ incl pairs all.
Proof.
  destruct (join_ok leb order antisym h t HB algo rs) as (pairs & Hj & _ & Hp);
    [intros r Hr; apply rs_In; auto..|].
  destruct (join_ok leb order antisym h t HB AllPairs rs) as (all & Hj' & _ & Hp');
    [intros r Hr; apply rs_In; auto..|].
  exists pairs, all. split; [exact Hj|]. split; [exact Hj'|]. intros [i j] Hij. apply Hp in Hij as (H1 & H2 & H3 & H4).
  apply Hp'. split; [auto|]. split; [auto|]. split; [auto|]. eapply accepted_all_pairs; eauto.
Qed.
End Whole.

Lemma make_helper_name m t : make_helper (metric_name m) t = Ok (helper_of m t).
Proof. destruct m; reflexivity. Qed.

(** what is asked of the ordering of the tokens *)
Definition ordering_ok {R T : Type} (crc32 : T -> N) (items : R -> list T) (records : list R) (tokenizer : option (R -> list T))
    (token_ordering : option string) : Prop :=
  match token_ordering with
  | None => True
  | Some o => (o = "freq"%string /\ tokenizer <> None) \/
      (o = "crc32"%string /\ injective_on crc32 (flat_map (match tokenizer with Some f => f | None => items end) records))
  end.

Section Top.
Context {R T : Type} `{EqDec T}.
Variable leb : T -> T -> bool.
Hypothesis order : total_preorder leb.
Hypothesis antisym : forall a b, leb a b = true -> leb b a = true -> a = b.
Variable crc32 : T -> N.
Variable items : R -> list T.
Variable records : list R.
Variable tokenizer : option (R -> list T).
Variable token_ordering : option string.
Hypothesis Hord : ordering_ok crc32 items records tokenizer token_ordering.
Notation tokens := (match tokenizer with Some f => f | None => items end).
Hypothesis Hne : forall r, In r records -> tokens r <> [].

(** ppjoin.py:298 and 304-426 for a given join *)
Definition position_pairs (J : forall U : Type, EqDec U -> (U -> U -> bool) -> list (list U) -> res (list (nat * nat))) : res (list (nat * nat)) :=
  match token_ordering with
  | None => J T _ leb (map (sorted_uniq leb) (map tokens records))
  | Some o =>
    if string_dec o "freq" then
      let! rs := preprocess_freq leb (match tokenizer with Some _ => true | None => false end) (map tokens records) in
      J nat _ Nat.leb rs
    else J N _ N.leb (preprocess_crc32 leb crc32 (map tokens records))
  end.
Definition read (pairs : res (list (nat * nat))) : res (list (R * R)) :=
  let! pairs := pairs in
  mapM (fun '(k, c) => let! a := index records k in let! b := index records c in Ok (a, b)) pairs.

Lemma ppjoin_positions m t algo : ppjoin leb crc32 items records t (metric_name m) tokenizer algo token_ordering =
  read (position_pairs (fun U _ leb' rs => join leb' (helper_of m t) t algo rs)).
Proof.
  clear Hne. unfold ppjoin. rewrite make_helper_name. unfold read, position_pairs.
  destruct token_ordering as [o|]; [|reflexivity].
  destruct (string_dec o "freq"); [reflexivity|]. destruct (string_dec o "crc32"); [reflexivity|].
  exfalso. simpl in Hord. tauto.
Qed.

Lemma tokens_nonempty l : In l (map tokens records) -> l <> [].
Proof. rewrite in_map_iff. intros (r & <- & Hr). apply Hne. exact Hr. Qed.

Lemma position_pairs_encoded : exists (U : Type) (eqU : EqDec U) (leb' : U -> U -> bool) (f : T -> U) (rs : list (list U)),
  total_preorder leb' /\ (forall a b, leb' a b = true -> leb' b a = true -> a = b) /\
  injective_on f (concat (map tokens records)) /\ Forall2 (encodes leb' f) (map tokens records) rs /\
  forall J, position_pairs J = J U eqU leb' rs.
Proof.
  clear Hne. unfold position_pairs. destruct token_ordering as [o|].
  - simpl in Hord. destruct Hord as [[-> Htok]|[-> Hcrc]].
    + destruct tokenizer as [tk|]; [|congruence].
      destruct (preprocess_freq_ok leb order antisym (map tk records)) as (f & rs & Hf & Hrs & Henc).
      exists nat, EqDec_nat, Nat.leb, f, rs. split; [apply nat_order|]. split; [apply nat_antisym|]. split; [exact Hf|]. split; [exact Henc|].
      intros J. simpl. rewrite Hrs. reflexivity.
    + rewrite flat_map_concat_map in Hcrc.
      exists N, EqDec_N, N.leb, crc32, (preprocess_crc32 leb crc32 (map tokens records)).
      split; [apply N_order|]. split; [apply N_antisym|]. split; [exact Hcrc|]. split; [|reflexivity].
      apply preprocess_crc32_ok; auto.
  - exists T, H, leb, (fun w => w), (map (sorted_uniq leb) (map tokens records)). split; [auto|]. split; [auto|].
    split; [intros v w _ _; auto|]. split; [|reflexivity]. apply plain_ok; auto.
Qed.

Lemma read_pairs pairs : (forall i j, In (i, j) pairs -> i < length records /\ j < length records) ->
  exists out, mapM (fun '(k, c) => let! a := index records k in let! b := index records c in Ok (a, b)) pairs = Ok out /\
    Forall2 (fun p q => nth_error records (fst p) = Some (fst q) /\ nth_error records (snd p) = Some (snd q)) pairs out.
Proof.
  induction pairs as [|[i j] pairs IH]; intros Hp; simpl; [exists []; split; auto|].
  destruct (Hp i j (or_introl eq_refl)) as [Hi Hj].
  destruct (nth_error records i) as [a|] eqn:Ei; [|apply nth_error_None in Ei; lia].
  destruct (nth_error records j) as [b|] eqn:Ej; [|apply nth_error_None in Ej; lia].
  unfold index at 1 2. rewrite Ei, bind_Ok, Ej, !bind_Ok.
  destruct IH as (out & -> & HF); [intros; apply Hp; right; auto|]. rewrite bind_Ok. exists ((a, b) :: out). split; [reflexivity|].
  constructor; auto.
Qed.

(** the join with any helper *)
Section Helper.
Variable h : helper.
Variable t : Q.
Hypothesis HB : helper_bounds h t.
Hypothesis Ht : (0 < t < 1)%Q.
Variable size_ok : nat -> Prop.
Hypothesis sizes : forall r n, In r records -> card (fun w => In w (tokens r)) n -> size_ok n.
Variables W A : nat -> nat -> nat -> Prop.
Hypothesis W_sym : forall a b o, W a b o -> W b a o.
Hypothesis Hfinds : forall lx ly o, 1 <= ly -> ly <= lx -> o <= ly -> size_ok lx -> W lx ly o -> finds h lx ly o.
Hypothesis Hsound : forall lx ly o, 1 <= ly -> ly <= lx -> o <= ly -> size_ok lx -> reaches h lx ly o = true -> A lx ly o.
Variable J : algorithm -> forall U : Type, EqDec U -> (U -> U -> bool) -> list (list U) -> res (list (nat * nat)).
Hypothesis HJ : forall algo U eqU leb' rs, (forall r, In r rs -> size_ok (length r) /\ r <> []) -> J algo U eqU leb' rs = join leb' h t algo rs.

Lemma encoded_sizes {U} `{EqDec U} (leb' : U -> U -> bool) f rs : total_preorder leb' -> injective_on f (concat (map tokens records)) ->
  Forall2 (encodes leb' f) (map tokens records) rs -> forall r, In r rs -> size_ok (length r) /\ r <> [].
Proof.
  intros O1 Hf Henc r Hr. split; [|apply (rs_In leb' f (map tokens records) rs Henc tokens_nonempty r Hr)].
  assert (E : exists a, In a (map tokens records) /\ encodes leb' f a r).
  { clear - Henc Hr. induction Henc as [|x y l l' Hxy HF IH]; [destruct Hr|]. destruct Hr as [<-|Hr]; [exists x; split; [left|]; auto|].
    destruct IH as (a & Ha & E); auto. exists a. split; [right|]; auto. }
  destruct E as (a & Ha & E). apply in_map_iff in Ha as (rec & <- & Hrec). apply (sizes rec); auto.
  apply (encodes_card leb' O1 f); auto. intros v w Hv Hw. apply Hf; apply in_concat; exists (tokens rec); split; auto; apply in_map; auto.
Qed.

Theorem any_joins algo : exists out,
  read (position_pairs (J algo)) = Ok out /\ joins tokens (found h algo W) (found h algo A) records out.
Proof.
  destruct position_pairs_encoded as (U & eqU & leb' & f & rs & O1 & O2 & Hf & Henc & Hpos).
  pose proof (encoded_sizes leb' f rs O1 Hf Henc) as Hs.
  destruct (join_pairs leb' O1 O2 f (map tokens records) rs Hf Henc tokens_nonempty h t HB Ht size_ok (fun r Hr => proj1 (Hs r Hr)) W A W_sym Hfinds Hsound algo)
    as (pairs & Hj & Hnd & Hr & Hw & Ha).
  rewrite Hpos, HJ, Hj by exact Hs. unfold read. rewrite bind_Ok.
  destruct (read_pairs pairs) as (out & -> & HF).
  { intros i j Hij. apply Hr in Hij. rewrite map_length in Hij. tauto. }
  exists out. split; [reflexivity|]. exists pairs. split; [exact Hnd|]. split; [exact HF|].
  split; [intros i j Hij; apply Hr in Hij; tauto|]. split.
  - intros i j a b Hij Ei Ej Wt. apply (Hw i j (tokens a) (tokens b)); auto; rewrite nth_error_map; [rewrite Ei|rewrite Ej]; reflexivity.
  - intros i j a b Hij Ei Ej. apply (Ha i j); auto; rewrite nth_error_map; [rewrite Ei|rewrite Ej]; reflexivity.
Qed.

Theorem any_subset algo : exists out all,
  read (position_pairs (J algo)) = Ok out /\ read (position_pairs (J AllPairs)) = Ok all /\ incl out all.
Proof.
  destruct position_pairs_encoded as (U & eqU & leb' & f & rs & O1 & O2 & Hf & Henc & Hpos).
  pose proof (encoded_sizes leb' f rs O1 Hf Henc) as Hs.
  destruct (join_pairs leb' O1 O2 f (map tokens records) rs Hf Henc tokens_nonempty h t HB Ht size_ok (fun r Hr => proj1 (Hs r Hr)) W A W_sym Hfinds Hsound algo)
    as (pairs & Hj & _ & Hr & _).
  destruct (join_pairs leb' O1 O2 f (map tokens records) rs Hf Henc tokens_nonempty h t HB Ht size_ok (fun r Hr => proj1 (Hs r Hr)) W A W_sym Hfinds Hsound AllPairs)
    as (all & Hj' & _ & Hr' & _).
  destruct (join_subset leb' O1 O2 f (map tokens records) rs Henc tokens_nonempty h t HB algo) as (p1 & a1 & J1 & J2 & Hincl).
  rewrite Hj in J1. rewrite Hj' in J2. injection J1 as <-. injection J2 as <-.
  rewrite !Hpos, !HJ, Hj, Hj' by exact Hs. unfold read. rewrite !bind_Ok.
  destruct (read_pairs pairs) as (out & -> & HF); [intros i j Hij; apply Hr in Hij; rewrite map_length in Hij; tauto|].
  destruct (read_pairs all) as (out' & -> & HF'); [intros i j Hij; apply Hr' in Hij; rewrite map_length in Hij; tauto|].
  exists out, out'. split; [reflexivity|]. split; [reflexivity|].
  assert (G : forall p q, In (p, q) (combine all out') -> In q out').
  { intros p q. apply in_combine_r. }
  assert (G1 : forall q, In q out -> exists p, In p pairs /\ nth_error records (fst p) = Some (fst q) /\ nth_error records (snd p) = Some (snd q)).
  { clear - HF. induction HF as [|p q l l' Hpq HF IH]; intros u [].
    - subst u. exists p. split; [left|]; auto.
    - destruct (IH u) as (p' & Hp' & E); [auto|]. exists p'. split; [right|]; auto. }
  assert (G2 : forall p, In p all -> exists q, In q out' /\ nth_error records (fst p) = Some (fst q) /\ nth_error records (snd p) = Some (snd q)).
  { clear - HF'. induction HF' as [|p q l l' Hpq HF IH]; intros u [].
    - subst u. exists q. split; [left|]; auto.
    - destruct (IH u) as (p' & Hp' & E); [auto|]. exists p'. split; [right|]; auto. }
  intros [a b] Hq. destruct (G1 _ Hq) as (p & Hp & E1 & E2). destruct (G2 p (Hincl p Hp)) as ([a' b'] & Hq' & E1' & E2').
  simpl in *. replace (a, b) with (a', b'); [exact Hq'|]. congruence.
Qed.
End Helper.

(** the exact helpers *)
Section Exact.
Variable m : metric.
Variable t : Q.
Hypothesis Ht : threshold_ok m t.
Definition wanted algo (a b : list T) : Prop := similar m t a b /\ (algo = AllPairs \/ ~ lost m t a b).
Definition allowed algo (a b : list T) : Prop := similar m (t - EPSILON) a b /\ (algo = AllPairs \/ ~ lost m t a b).

Lemma same_similar l : 1 <= l -> sim_at_least m t l l l.
Proof.
  intros Hl. pose proof (threshold_pos m t Ht) as [T0 T1]. pose proof (qn_nonneg l) as Q0. destruct m; simpl; change natq with qn.
  - replace (l + l - l) with l by lia. Lqa.nra.
  - rewrite qn_plus. Lqa.nra.
  - right. rewrite qn_mult. assert (E : (t * t * (qn l * qn l) == (t * qn l) * (t * qn l))%Q) by ring.
    rewrite E. assert (V : (0 <= t * qn l)%Q) by Lqa.nra. assert (W : (t * qn l <= qn l)%Q) by Lqa.nra.
    clear - V W Q0. Lqa.nra.
Qed.
Lemma lost_required (a b : list T) : a <> [] -> (lost m t a b <-> all_required (helper_of m t) a b).
Proof.
  intros Ha. assert (G : forall n, card (fun w => In w a) n -> (too_short m t n <-> n <= require_overlap (helper_of m t) n n)).
  { intros n (l & Nl & El & Ll). assert (N1 : 1 <= n).
    { destruct a as [|w a]; [congruence|]. destruct l as [|v l]; [|simpl in Ll; lia]. destruct (proj2 (El w)). left. auto. }
    rewrite <- (room_false t _ n (threshold_pos m t Ht)).
    rewrite (helper_of_lost m t n n n Ht N1 (le_n n) (le_n n) (same_similar n N1)). tauto. }
  unfold lost, all_required. split; intros [E (n & Cn & Hn)]; (split; [exact E|]); exists n; (split; [exact Cn|]); apply (G n Cn); exact Hn.
Qed.
Lemma exact_sides algo (a b : list T) : a <> [] ->
  (wanted algo a b <-> found (helper_of m t) algo (sim_at_least m t) a b) /\
  (allowed algo a b <-> found (helper_of m t) algo (sim_at_least m (t - EPSILON)) a b).
Proof. intros Ha. unfold wanted, allowed, found. rewrite (lost_required a b Ha). split; reflexivity. Qed.

Theorem ppjoin_joins algo : exists out,
  ppjoin leb crc32 items records t (metric_name m) tokenizer algo token_ordering = Ok out /\
  joins tokens (wanted algo) (allowed algo) records out.
Proof.
  destruct (any_joins (helper_of m t) t (helper_of_bounds m t Ht) (threshold_pos m t Ht) (fun _ => True) (fun _ _ _ _ => Logic.I)
    (sim_at_least m t) (sim_at_least m (t - EPSILON)) (fun a b o => sim_sym m t a b o) (fun lx ly o H1 H2 H3 _ => helper_of_finds m t lx ly o Ht H1 H2 H3) (fun lx ly o H1 H2 H3 _ => helper_of_sound m t lx ly o Ht H1 H2 H3)
    (fun algo U _ leb' rs => join leb' (helper_of m t) t algo rs) (fun _ _ _ _ _ _ => eq_refl) algo) as (out & E & pairs & P1 & P2 & P3 & P4 & P5).
  exists out. rewrite ppjoin_positions. split; [exact E|]. exists pairs. split; [exact P1|]. split; [exact P2|]. split; [exact P3|].
  split; intros i j a b Hij Ei Ej.
  - intros Hw. apply (P4 i j a b); auto. apply exact_sides; auto. apply Hne. eapply nth_error_In; eauto.
  - apply exact_sides; [|apply (P5 i j a b); auto]. apply Hne. eapply nth_error_In; eauto.
Qed.
Theorem ppjoin_subset algo : exists out all,
  ppjoin leb crc32 items records t (metric_name m) tokenizer algo token_ordering = Ok out /\
  ppjoin leb crc32 items records t (metric_name m) tokenizer AllPairs token_ordering = Ok all /\ incl out all.
Proof.
  rewrite !ppjoin_positions.
  apply (any_subset (helper_of m t) t (helper_of_bounds m t Ht) (threshold_pos m t Ht) (fun _ => True) (fun _ _ _ _ => Logic.I)
    (sim_at_least m t) (sim_at_least m (t - EPSILON)) (fun a b o => sim_sym m t a b o) (fun lx ly o H1 H2 H3 _ => helper_of_finds m t lx ly o Ht H1 H2 H3) (fun lx ly o H1 H2 H3 _ => helper_of_sound m t lx ly o Ht H1 H2 H3)
    (fun algo U _ leb' rs => join leb' (helper_of m t) t algo rs) (fun _ _ _ _ _ _ => eq_refl) algo).
Qed.
End Exact.
End Top.
