(** ppjoin with floats: the filters decide as with exact numbers *)
From Coq Require Import QArith Qround String ZArith Lia Lqa.
From Verif Require Import Base PairwiseModel GraphModel SortModel SortSpec BlockingSpec PPJoinModel PPJoinSpec FloatModel FloatSpec FloatProofs
  PPJoinOrderProofs PPJoinProofs PPJoinHelperProofs PPJoinAcceptProofs PPJoinEndProofs FloatPPJoinModel FloatPPJoinSpec FloatPPJoinHelperProofs.
Open Scope nat_scope.
Open Scope list_scope.
Notation length := List.length.

Section Room.
Local Open Scope Q_scope.
Variable t : Q.
Hypothesis T0 : (1 # 100000) <= t.
Hypothesis T1 : t < 1.

Definition few (r : nat) : Prop := (r <= N.to_nat 4194304)%nat.
Lemma few_max r : few r -> qn r <= 4194304.
Proof.
  intros Hr. unfold qn. change 4194304 with (inject_Z 4194304). rewrite <- Zle_Qle. unfold few in Hr. apply Nat2Z.inj_le in Hr.
  rewrite N_nat_Z in Hr. exact Hr.
Qed.
Lemma few_float r : few r -> float53 (qn r).
Proof.
  intros Hr. apply float53_qn. unfold few in Hr. apply Nat2Z.inj_le in Hr. rewrite N_nat_Z in Hr.
  assert (Z.of_N 4194304 = 4194304%Z) by reflexivity. lia.
Qed.

Lemma minus_t n : (1 <= n)%nat -> small n -> qn n - 1 <= fsub (qn n) t /\ fsub (qn n) t <= qn n - (9 # 1000000).
Proof.
  intros N1 Hn. pose proof (qn_max n Hn) as NM. assert (QN : 1 <= qn n) by (rewrite <- qn_1; apply qn_le; auto).
  unfold fsub. split.
  - rewrite <- qn_1, <- qn_minus by auto. apply fl_ge; [apply few_float; unfold few, small in *; lia|].
    rewrite qn_minus, qn_1 by auto. lra.
  - pose proof (fl_in (qn n - t) 1048576 ltac:(lra) ltac:(lra)) as [_ B]. lra.
Qed.

(** the number still possible at the first token of a candidate *)
Lemma room_first n r : (1 <= n)%nat -> small n -> Qle_bool (qn r) (fsub (qn n) t) = Qle_bool (qn r) (qn n - t).
Proof.
  intros N1 Hn. destruct (minus_t n N1 Hn) as [A B]. apply eq_true_iff_eq. rewrite !Qle_bool_iff. split; intros L.
  - assert (L' : (r < n)%nat) by (apply Nat.lt_nge; intros G; apply qn_le in G; lra).
    assert (L2 : (r + 1 <= n)%nat) by lia. apply qn_le in L2. rewrite qn_plus, qn_1 in L2. lra.
  - assert (L' : (r < n)%nat) by (apply Nat.lt_nge; intros G; apply qn_le in G; lra).
    assert (L2 : (r + 1 <= n)%nat) by lia. apply qn_le in L2. rewrite qn_plus, qn_1 in L2. lra.
Qed.
(** and at the next ones *)
Lemma room_next n r v : (1 <= n)%nat -> small n -> few r ->
  Qle_bool (qn r) (fadd (qn v) (fsub (qn n) t)) = Qle_bool (qn r) (qn v + (qn n - t)).
Proof.
  intros N1 Hn Hr. destruct (minus_t n N1 Hn) as [A B]. pose proof (few_float r Hr) as Fr. pose proof (few_max r Hr) as Mr.
  assert (QN : 1 <= qn n) by (rewrite <- qn_1; apply qn_le; auto). pose proof (qn_max n Hn) as NM. pose proof (qn_nonneg v) as V0.
  apply eq_true_iff_eq. rewrite !Qle_bool_iff. unfold fadd.
  destruct (Nat.le_gt_cases r v) as [G|G].
  - apply qn_le in G. split; intros _; [lra|]. apply fl_ge; [auto|lra].
  - assert (GV : qn v <= 4194304) by (apply Nat.lt_le_incl in G; apply qn_le in G; lra).
    split; intros L.
    + assert (L' : (r < v + n)%nat).
      { apply Nat.lt_nge. intros G'. apply qn_le in G'. rewrite qn_plus in G'.
        pose proof (fl_in (qn v + fsub (qn n) t) 8388608 ltac:(lra) ltac:(lra)) as [_ U]. lra. }
      assert (L2 : (r + 1 <= v + n)%nat) by lia. apply qn_le in L2. rewrite !qn_plus, qn_1 in L2. lra.
    + assert (L' : (r < v + n)%nat) by (apply Nat.lt_nge; intros G'; apply qn_le in G'; rewrite qn_plus in G'; lra).
      assert (L2 : (r + 1 <= v + n)%nat) by lia. apply qn_le in L2. rewrite !qn_plus, qn_1 in L2. apply fl_ge; [auto|lra].
Qed.
End Room.

Lemma foldM_same {S B} (f g : S -> B -> res S) l : (forall s b, In b l -> f s b = g s b) -> forall s, foldM f l s = foldM g l s.
Proof.
  intros Hfg. induction l as [|b l IH]; intros s; [reflexivity|]. simpl. rewrite Hfg by (left; auto).
  destruct (g s b); simpl; [apply IH; intros; apply Hfg; right; auto|reflexivity].
Qed.

Section Join.
Context {T : Type} `{EqDec T}.
Variable leb : T -> T -> bool.
Variable h : helper.
Variable t : Q.
Hypothesis T0 : ((1 # 100000) <= t)%Q.
Hypothesis T1 : (t < 1)%Q.
Hypothesis Hh : forall a b, small a -> small b -> few (require_overlap h a b).
Variable algo : algorithm.
Variable rs : list (list T).
Hypothesis Hrs : forall r, In r rs -> small (length r) /\ r <> [].

Lemma small_record i : small (length (record_of rs i)).
Proof.
  unfold record_of. destruct (nth_in_or_default i rs []) as [Hi| ->]; [apply Hrs; auto|]. unfold small. simpl. lia.
Qed.
Lemma filtered_same record k occ c p : small (length record) -> record <> [] ->
  filtered_float leb h t algo rs record k occ c p = filtered leb h t algo rs record k occ c p.
Proof.
  intros Hs Hne. assert (N1 : 1 <= length record) by (destruct record; [congruence|simpl; lia]).
  assert (Hr : few (required h (length record) (length (record_of rs c)))).
  { unfold required. destruct (Nat.leb _ _); [apply Hh; auto; apply small_record|unfold few; lia]. }
  unfold filtered_float, filtered. destruct (dget occ c) as [[v|]|]; [|reflexivity|].
  - rewrite (room_next t T0 T1 _ _ v N1 Hs Hr). reflexivity.
  - rewrite (room_first t T0 T1 _ _ N1 Hs). reflexivity.
Qed.
Theorem join_same : join_float leb h t algo rs = join leb h t algo rs.
Proof.
  unfold join_float, join. rewrite (foldM_same (join_record_float leb h t algo rs) (join_record leb h t algo rs)); [reflexivity|].
  intros [idx out] k Hk. apply argsort_In in Hk. destruct (Hrs (record_of rs k)) as [Hs Hne]; [apply rec_In; exact Hk|].
  unfold join_record_float, join_record.
  rewrite (foldM_same (probe_float leb h t algo rs k (record_of rs k)) (probe leb h t algo rs k (record_of rs k))); [reflexivity|].
  intros [idx' occ] p _. unfold probe_float, probe. destruct (index _ p); [|reflexivity]. simpl.
  destruct (match dget idx' _ with Some item => item | None => _ end) as [pos ids].
  rewrite (foldM_same (consider_float leb h t algo rs (record_of rs k) p) (consider leb h t algo rs (record_of rs k) p)); [reflexivity|].
  intros o [c q] _. unfold consider_float, consider. pose proof (filtered_same (record_of rs k) p o c q Hs Hne) as F. destruct algo; [reflexivity|exact F..].
Qed.
End Join.

Lemma make_helper_float_name m t : make_helper_float (metric_name m) t = Ok (helper_float_of m t).
Proof. destruct m; reflexivity. Qed.

Section Top.
Context {R T : Type} `{EqDec T}.
Variable leb : T -> T -> bool.
Hypothesis order : total_preorder leb.
Hypothesis antisym : forall a b, leb a b = true -> leb b a = true -> a = b.
Variable crc32 : T -> N.
Variable items : R -> list T.
Variable records : list R.
Variable tokenizer : option (R -> list T).
Variable token_ordering : option string.
Hypothesis Hord : ordering_ok crc32 items records tokenizer token_ordering.
Notation tokens := (match tokenizer with Some f => f | None => items end).
Hypothesis Hne : forall r, In r records -> tokens r <> [].
Hypothesis Hsmall : forall r n, In r records -> card (fun w => In w (tokens r)) n -> small n.
Variable m : metric.
Variable t : Q.
Hypothesis Ht : threshold_ok_float m t.
Notation h := (helper_float_of m t).
Notation lower := (t - (1000001 # 1000000000000))%Q.

Definition J algo U (eqU : EqDec U) (leb' : U -> U -> bool) rs := join_float leb' h t algo rs.
Lemma ppjoin_float_positions algo : ppjoin_float leb crc32 items records t (metric_name m) tokenizer algo token_ordering =
  read records (position_pairs leb crc32 items records tokenizer token_ordering (J algo)).
Proof.
  clear Hne Hsmall. unfold ppjoin_float. rewrite make_helper_float_name. unfold read, position_pairs, J.
  destruct token_ordering as [o|]; [|reflexivity].
  destruct (string_dec o "freq"); [reflexivity|]. destruct (string_dec o "crc32"); [reflexivity|].
  exfalso. simpl in Hord. tauto.
Qed.
Lemma J_same algo U (eqU : EqDec U) leb' rs : (forall r, In r rs -> small (length r) /\ r <> []) -> J algo U eqU leb' rs = join leb' h t algo rs.
Proof.
  intros Hrs. destruct (threshold_float_pos m t Ht) as (_ & A & B). apply join_same; auto.
  intros a b Ha Hb. apply require_float_le; auto.
Qed.
Lemma t_range : (0 < t < 1)%Q.
Proof. destruct (threshold_float_pos m t Ht) as (_ & A & B). split; lra. Qed.

Theorem float_joins algo : exists out,
  ppjoin_float leb crc32 items records t (metric_name m) tokenizer algo token_ordering = Ok out /\
  joins tokens (found h algo (sim_at_least m t)) (found h algo (sim_at_least m lower)) records out.
Proof.
  rewrite ppjoin_float_positions.
  exact (any_joins leb order antisym crc32 items records tokenizer token_ordering Hord Hne h t (helper_float_bounds m t Ht) t_range small Hsmall
    (sim_at_least m t) (sim_at_least m lower) (fun a b o => sim_sym m t a b o)
    (fun lx ly o H1 H2 H3 H4 => helper_float_finds m t lx ly o Ht H1 H2 H3 H4) (fun lx ly o H1 H2 H3 H4 => helper_float_sound m t lx ly o Ht H1 H2 H3 H4) J J_same algo).
Qed.
Theorem float_subset algo : exists out all,
  ppjoin_float leb crc32 items records t (metric_name m) tokenizer algo token_ordering = Ok out /\
  ppjoin_float leb crc32 items records t (metric_name m) tokenizer AllPairs token_ordering = Ok all /\ incl out all.
Proof.
  rewrite !ppjoin_float_positions.
  exact (any_subset leb order antisym crc32 items records tokenizer token_ordering Hord Hne h t (helper_float_bounds m t Ht) t_range small Hsmall
    (sim_at_least m t) (sim_at_least m lower) (fun a b o => sim_sym m t a b o)
    (fun lx ly o H1 H2 H3 H4 => helper_float_finds m t lx ly o Ht H1 H2 H3 H4) (fun lx ly o H1 H2 H3 H4 => helper_float_sound m t lx ly o Ht H1 H2 H3 H4) J J_same algo).
Qed.

(** the equal records that are lost *)
Lemma card_pos (a : list T) n : a <> [] -> card (fun w => In w a) n -> 1 <= n.
Proof.
  intros Ha (l & _ & E & <-). destruct a as [|w a]; [congruence|]. destruct l; [|simpl; lia]. destruct (proj2 (E w)). left. auto.
Qed.
Lemma lost_between r b : In r records ->
  (lost_at (101 # 100000000) m t (tokens r) b -> all_required h (tokens r) b) /\
  (all_required h (tokens r) b -> lost_at (99 # 100000000) m t (tokens r) b).
Proof.
  intros Hr. split; intros [E (n & Cn & Hn)]; (split; [exact E|]); exists n; (split; [exact Cn|]).
  - apply require_float_lost; eauto using card_pos.
  - apply require_float_lost in Hn; eauto using card_pos.
Qed.
End Top.
