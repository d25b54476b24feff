(** Proofs about PassJoin *)
From Coq Require Import String Sorted Relations.
From Verif Require Import Base BaseFacts EditSpec EditFacts LevModel LevProofs LevKeysProofs
  ClustersModel ClustersSpec ClustersProofs PassJoinModel PassJoinSpec.
Notation length := List.length.
Notation concat := List.concat.
Open Scope nat_scope.
Open Scope list_scope.

(** ** The partition *)
Definition small (k l : nat) : nat := k + 1 - (l - l / (k + 1) * (k + 1)).
Definition pos (k l t : nat) : nat := t * (l / (k + 1)) + (t - small k l).
Definition size (k l t : nat) : nat := if Nat.ltb t (small k l) then l / (k + 1) else l / (k + 1) + 1.

Lemma small_bounds k l : 1 <= small k l <= k + 1.
Proof.
  unfold small. pose proof (Nat.div_mod l (k + 1) ltac:(lia)) as E.
  pose proof (Nat.mod_upper_bound l (k + 1) ltac:(lia)). nia.
Qed.

Lemma pos_S k l t : pos k l (S t) = pos k l t + size k l t.
Proof. unfold pos, size. destruct (Nat.ltb_spec t (small k l)); cbn [Nat.mul]; lia. Qed.

Lemma pos_0 k l : pos k l 0 = 0.
Proof. reflexivity. Qed.

Lemma pos_end k l : pos k l (k + 1) = l.
Proof.
  unfold pos, small. pose proof (Nat.div_mod l (k + 1) ltac:(lia)) as E.
  pose proof (Nat.mod_upper_bound l (k + 1) ltac:(lia)).
  set (a := l / (k + 1)) in *. set (r := l mod (k + 1)) in *. clearbody a r.
  rewrite (Nat.mul_comm a (k + 1)).
  replace (l - (k + 1) * a) with r by lia. lia.
Qed.

Lemma pos_mono k l t u : t <= u -> pos k l t <= pos k l u.
Proof. induction 1; [lia|]. rewrite pos_S. lia. Qed.

Lemma seq_shift_map {A} (g : nat -> A) n m : map g (seq n m) = map (fun j => g (n + j)) (seq 0 m).
Proof.
  assert (G : forall m z, map g (seq (n + z) m) = map (fun j => g (n + j)) (seq z m)).
  { clear m. induction m as [|m IH]; intros z; [reflexivity|]. simpl. f_equal.
    rewrite <- IH. do 2 f_equal. lia. }
  rewrite <- G. do 2 f_equal. lia.
Qed.

Lemma partition_eq k l : partition k l = map (fun t => (t, pos k l t, size k l t)) (seq 0 (k + 1)).
Proof.
  unfold partition. fold (small k l). pose proof (small_bounds k l) as Hs.
  set (a := l / (k + 1)). set (large := l - a * (k + 1)).
  assert (El : k + 1 = small k l + large) by (unfold small, large, a in *; lia).
  replace (seq 0 (k + 1)) with (seq 0 (small k l + large)) by (f_equal; lia). rewrite seq_app, map_app. f_equal.
  - apply map_ext_in. intros t Ht. apply in_seq in Ht. unfold pos, size. fold a.
    destruct (Nat.ltb_spec t (small k l)); [|lia]. f_equal. f_equal. lia.
  - simpl. rewrite (seq_shift_map _ (small k l) large). apply map_ext_in. intros j Hj. unfold pos, size. fold a.
    destruct (Nat.ltb_spec (small k l + j) (small k l)); [lia|].
    f_equal. f_equal; [lia|].
    replace (small k l + j - small k l) with j by lia.
    rewrite <- Nat.mul_succ_l. replace (S (small k l - 1)) with (small k l) by lia. lia.
Qed.

Definition seg (k : nat) (s : str) (t : nat) : str :=
  slice (pos k (length s) t) (pos k (length s) (S t)) s.

Lemma segments_eq k s : segments k s = map (fun t => (t, seg k s t)) (seq 0 (k + 1)).
Proof.
  unfold segments. rewrite partition_eq, map_map. apply map_ext. intros t.
  unfold seg. rewrite pos_S. reflexivity.
Qed.

Lemma concat_segs k s t : t <= k + 1 ->
  concat (map (seg k s) (seq 0 t)) = firstn (pos k (length s) t) s.
Proof.
  induction t as [|t IH]; intros Ht; [reflexivity|].
  rewrite seq_S, map_app, concat_app, IH by lia. simpl. rewrite app_nil_r.
  unfold seg, slice. pose proof (pos_mono k (length s) t (S t) ltac:(lia)).
  set (p := pos k (length s) t) in *. set (p' := pos k (length s) (S t)) in *.
  assert (Hp' : p' <= length s).
  { unfold p'. rewrite <- (pos_end k (length s)) at 2. apply pos_mono. lia. }
  transitivity (firstn p' (firstn p s ++ skipn p s)); [|rewrite firstn_skipn; reflexivity].
  rewrite firstn_app, firstn_length, Nat.min_l by lia.
  rewrite (firstn_all2 (n := p')) by (rewrite firstn_length; lia). reflexivity.
Qed.

Lemma concat_all_segs k s : concat (map (seg k s) (seq 0 (k + 1))) = s.
Proof. rewrite concat_segs by lia. rewrite pos_end. apply firstn_all. Qed.

Lemma seg_length k s t : t <= k -> length (seg k s t) = size k (length s) t.
Proof.
  intros Ht. unfold seg. rewrite slice_length, pos_S.
  assert (pos k (length s) (S t) <= length s).
  { rewrite <- (pos_end k (length s)) at 2. apply pos_mono. lia. }
  rewrite pos_S in H. lia.
Qed.

(** ** The pigeonhole *)
Lemma al_split_r {A} n (a b1 b2 : list A) : al n a (b1 ++ b2) ->
  exists a1 a2 n1 n2, a = a1 ++ a2 /\ n1 + n2 = n /\ al n1 a1 b1 /\ al n2 a2 b2.
Proof.
  remember (b1 ++ b2) as b eqn:E. intros H. revert b1 E.
  induction H as [|n x a b H IH|n x y a b H IH|n y a b H IH|n x a b H IH]; intros b1 E.
  - symmetry in E. apply app_eq_nil in E as [-> ->]. exists [], [], 0, 0. repeat split; constructor.
  - destruct b1 as [|z b1]; simpl in E.
    + exists [], (x :: a), 0, n. subst b2. repeat split; constructor; auto.
    + injection E as <- E. destruct (IH b1 E) as (a1 & a2 & n1 & n2 & -> & <- & H1 & H2).
      exists (x :: a1), a2, n1, n2. repeat split; auto. constructor; auto.
  - destruct b1 as [|z b1]; simpl in E.
    + exists [], (x :: a), 0, (S n). subst b2. repeat split; [constructor|]. apply al_sub; auto.
    + injection E as <- E. destruct (IH b1 E) as (a1 & a2 & n1 & n2 & -> & <- & H1 & H2).
      exists (x :: a1), a2, (S n1), n2. repeat split; auto. apply al_sub; auto.
  - destruct b1 as [|z b1]; simpl in E.
    + exists [], a, 0, (S n). subst b2. repeat split; [constructor|]. apply al_ins; auto.
    + injection E as <- E. destruct (IH b1 E) as (a1 & a2 & n1 & n2 & -> & <- & H1 & H2).
      exists a1, a2, (S n1), n2. repeat split; auto. apply al_ins; auto.
  - destruct (IH b1 E) as (a1 & a2 & n1 & n2 & -> & <- & H1 & H2).
    exists (x :: a1), a2, (S n1), n2. repeat split; auto. apply al_del; auto.
Qed.

Lemma pigeonhole {A} (segs : list (list A)) : forall n c a, al n a (concat segs) -> n + c + 1 <= length segs ->
  exists i sg u w e1 e2, nth_error segs i = Some sg /\ a = u ++ sg ++ w /\
    al e1 u (concat (firstn i segs)) /\ al e2 w (concat (skipn (S i) segs)) /\
    e1 + c = i /\ e1 + e2 = n.
Proof.
  induction segs as [|sg segs IH]; intros n c a Ha Hn; [simpl in Hn; lia|].
  simpl in Ha. apply al_split_r in Ha as (a1 & a2 & e & n' & -> & <- & H1 & H2).
  cbn [length] in Hn.
  destruct (Nat.eq_dec (c + e) 0) as [E0|E0].
  - assert (c = 0) by lia. assert (e = 0) by lia. subst c e. apply al_0_eq in H1. subst a1.
    exists 0, sg, [], a2, 0, n'. repeat split; simpl; auto; try constructor.
  - destruct (IH n' (c + e - 1) a2 H2 ltac:(lia)) as (i & sg' & u & w & e1 & e2 & G1 & -> & G2 & G3 & G4 & G5).
    exists (S i), sg', (a1 ++ u), w, (e + e1), e2. split; [exact G1|]. split; [rewrite app_assoc; reflexivity|].
    split; [simpl; apply al_app; assumption|]. split; [exact G3|]. lia.
Qed.

Lemma firstn_map_seq {A} (f : nat -> A) i n : i <= n -> firstn i (map f (seq 0 n)) = map f (seq 0 i).
Proof.
  intros H. replace n with (i + (n - i)) by lia. rewrite seq_app, map_app.
  replace i with (length (map f (seq 0 i))) at 1 by (rewrite map_length, seq_length; reflexivity).
  apply firstn_length_app.
Qed.

(** a segment of B sits in A near its place *)
Lemma common_segment k (A B : str) : lev_le k A B ->
  exists i u w, i <= k /\ A = u ++ seg k B i ++ w /\
    let pi := Z.of_nat (pos k (length B) i) in
    let delta := (Z.of_nat (length A) - Z.of_nat (length B))%Z in
    (Z.abs (Z.of_nat (length u) - pi) <= Z.of_nat i)%Z /\
    (Z.abs (Z.of_nat (length u) - (pi + delta)) <= Z.of_nat k - Z.of_nat i)%Z.
Proof.
  rewrite lev_le_ale. intros (n & Hn & Ha).
  rewrite <- (concat_all_segs k B) in Ha.
  destruct (pigeonhole _ n 0 A Ha) as (i & sg & u & w & e1 & e2 & G1 & EA & G2 & G3 & G4 & G5).
  { rewrite map_length, seq_length. lia. }
  assert (Hi : i < k + 1).
  { pose proof (proj1 (nth_error_Some (map (seg k B) (seq 0 (k + 1))) i)) as G.
    unfold str in *. rewrite G1, map_length, seq_length in G. apply G. discriminate. }
  assert (Esg : sg = seg k B i).
  { rewrite nth_error_map, (nth_error_nth' _ 0) in G1 by (rewrite seq_length; lia).
    rewrite seq_nth in G1 by lia. simpl in G1. congruence. }
  exists i, u, w. split; [lia|]. split; [congruence|]. cbv zeta.
  rewrite firstn_map_seq, concat_segs in G2 by lia.
  pose proof (al_length _ _ _ G2) as L1. pose proof (al_length _ _ _ G3) as L2.
  assert (Hpos : pos k (length B) (S i) <= length B).
  { rewrite <- (pos_end k (length B)) at 2. apply pos_mono. lia. }
  rewrite pos_S in Hpos.
  rewrite firstn_length, Nat.min_l in L1 by lia.
  assert (L3 : length (concat (skipn (S i) (map (seg k B) (seq 0 (k + 1))))) =
     length B - (pos k (length B) i + size k (length B) i)).
  { pose proof (concat_all_segs k B) as E. apply (f_equal (@length N)) in E.
    rewrite <- (firstn_skipn (S i) (map (seg k B) (seq 0 (k + 1)))), concat_app, app_length in E.
    rewrite firstn_map_seq, concat_segs, firstn_length, pos_S in E by lia. lia. }
  unfold str in *. rewrite L3 in L2. apply (f_equal (@length N)) in EA. rewrite !app_length, Esg, seg_length in EA by lia.
  lia.
Qed.

(** ** Substrings *)
Lemma substrings_loop_In string li js current sub : In sub (substrings_loop string li js current) \/ Some sub = current <->
  (exists j, In j js /\ sub = slice j (j + li) string) \/ Some sub = current.
Proof.
  revert current. induction js as [|j js IH]; intros current; simpl.
  - split; [intros [[]|E]; auto|intros [(j & [] & _)|E]; auto].
  - destruct (eqb (Some (slice j (j + li) string)) current) eqn:E.
    + rewrite eqb_true in E. rewrite IH. split.
      * intros [(j' & Hj & Es)|Es]; [left; eauto|auto].
      * intros [(j' & [<-|Hj] & Es)|Es]; [right; rewrite Es; exact E|left; eauto|auto].
    + specialize (IH (Some (slice j (j + li) string))). split.
      * intros [[<-|Hs]|Es]; [left; eauto| |auto].
        assert (G := proj1 IH (or_introl Hs)). destruct G as [(j' & Hj & Es)|Es]; [left; eauto|].
        injection Es as ->. left. eauto.
      * intros [(j' & [<-|Hj] & Es)|Es]; [left; left; symmetry; exact Es| |auto].
        assert (G := proj2 IH (or_introl (ex_intro _ j' (conj Hj Es)))).
        destruct G as [G|G]; [left; right; exact G|]. injection G as ->. left. left. reflexivity.
Qed.

Lemma substrings_In k A l i pi li sub : In sub (multi_match_aware_substrings k A l i pi li) <->
  exists j : nat, sub = slice j (j + li) A /\
    let s := Z.of_nat (length A) in
    let delta := (s - Z.of_nat l)%Z in
    let z := Z.of_nat j in
    (Z.abs (z - Z.of_nat pi) <= Z.of_nat i)%Z /\
    (Z.abs (z - (Z.of_nat pi + delta)) <= Z.of_nat k - Z.of_nat i)%Z /\
    (z <= s - Z.of_nat li)%Z.
Proof.
  unfold multi_match_aware_substrings, multi_match_aware_interval. cbv zeta.
  match goal with |- In _ (substrings_loop _ _ ?js _) <-> _ => set (l0 := js) end.
  assert (E : In sub (substrings_loop A li l0 None) <-> exists j, In j l0 /\ sub = slice j (j + li) A).
  { pose proof (substrings_loop_In A li l0 None sub) as G.
    split; [intros H; destruct (proj1 G (or_introl H)) as [?|]; [assumption|discriminate]|].
    intros H; destruct (proj2 G (or_introl H)) as [?|]; [assumption|discriminate]. }
  rewrite E. split.
  - intros (j & Hj & Es). exists j. split; [exact Es|]. unfold l0 in Hj. apply in_seq in Hj. lia.
  - intros (j & Es & Hj). exists j. split; [|exact Es]. unfold l0. apply in_seq. lia.
Qed.

(** ** The index *)
Definition looked (L : index_t) (l : nat) (key : nat * str) : list str :=
  match dget L l with
  | None => []
  | Some Ll => match dget Ll key with None => [] | Some c => c end
  end.

Lemma index_fold (A : str) (keys : list (nat * str)) (Ll : dict (nat * str) (list str)) key B :
  In B (match dget (fold_left (fun Ll key => dmodify Ll key [] (fun c => c ++ [A])) keys Ll) key with
        | None => [] | Some c => c end) <->
  In B (match dget Ll key with None => [] | Some c => c end) \/ (B = A /\ In key keys).
Proof.
  revert Ll. induction keys as [|key' keys IH]; intros Ll; simpl; [tauto|].
  rewrite IH. destruct (eq_dec key' key) as [->|Hn].
  - rewrite dget_dmodify_same, in_app_iff. simpl.
    destruct (dget Ll key); simpl; intuition.
  - rewrite dget_dmodify_other by exact Hn. intuition.
Qed.

Lemma looked_index k L A l key B :
  In B (looked (index_string k L A) l key) <->
  In B (looked L l key) \/ (B = A /\ length A = l /\ In key (segments k A)).
Proof.
  unfold looked, index_string. destruct (Nat.eq_dec (length A) l) as [E|E].
  - rewrite <- E. rewrite dget_dmodify_same. rewrite index_fold.
    destruct (dget L (length A)); simpl; tauto.
  - rewrite dget_dmodify_other by exact E. tauto.
Qed.

Section PassJoin.
Variable k : nat.
Variable distance : str -> str -> nat.
(** the strings on which [distance] can be trusted *)
Variable good : str -> Prop.
Hypothesis distance_ok : forall a b, good a -> good b -> (distance a b <= k <-> lev_le k a b).

Lemma match_string_In sort L A P B : In (P, B) (match_string k distance sort L A) <->
  P = A /\ exists l i start len sub,
    (if sort then length A else length A - k) <= l /\ l < length A + k + 1 /\
    In (i, start, len) (partition k l) /\ In sub (multi_match_aware_substrings k A l i start len) /\
    In B (looked L l (i, sub)) /\
    ((length A <= k /\ l <= k) \/ distance A B <= k).
Proof.
  unfold match_string. cbv zeta.
  set (lo := if sort then length A else length A - k).
  assert (Hlo : lo <= length A) by (unfold lo; destruct sort; lia).
  rewrite in_flat_map. split.
  - intros (l & Hl & H). apply in_seq in Hl. unfold looked.
    destruct (dget L l) as [Ll|] eqn:EL; [|destruct H].
    apply in_flat_map in H as ([[i start] len] & Hp & H).
    apply in_flat_map in H as (sub & Hs & H).
    destruct (dget Ll (i, sub)) as [cand|] eqn:Ec; [|destruct H].
    apply in_flat_map in H as (B' & HB & H).
    destruct ((length A <=? k) && (l <=? k) || (distance A B' <=? k)) eqn:Et; [|destruct H].
    destruct H as [H|[]]. injection H as <- <-. split; [reflexivity|].
    exists l, i, start, len, sub. split; [lia|]. split; [lia|]. split; [exact Hp|]. split; [exact Hs|].
    rewrite EL, Ec. split; [exact HB|].
    apply orb_true_iff in Et as [Et|Et].
    + left. apply andb_true_iff in Et as [E1 E2]. apply Nat.leb_le in E1, E2. auto.
    + right. apply Nat.leb_le. exact Et.
  - intros (-> & l & i & start & len & sub & H1 & H2 & Hp & Hs & HB & Ht).
    exists l. split; [apply in_seq; lia|]. unfold looked in HB.
    destruct (dget L l) as [Ll|]; [|destruct HB].
    apply in_flat_map. exists (i, start, len). split; [exact Hp|].
    apply in_flat_map. exists sub. split; [exact Hs|].
    destruct (dget Ll (i, sub)) as [cand|]; [|destruct HB].
    apply in_flat_map. exists B. split; [exact HB|].
    replace ((length A <=? k) && (l <=? k) || (distance A B <=? k)) with true; [left; reflexivity|].
    symmetry. apply orb_true_iff. destruct Ht as [[E1 E2]|Ht].
    + left. apply andb_true_iff. rewrite !Nat.leb_le. auto.
    + right. apply Nat.leb_le, Ht.
Qed.

Definition indexes (L : index_t) (done : list str) : Prop :=
  forall l key B, In B (looked L l key) <-> In B done /\ length B = l /\ In key (segments k B).

Lemma indexes_nil : indexes [] [].
Proof. intros l key B. simpl. tauto. Qed.

Lemma indexes_snoc L done A : indexes L done -> indexes (index_string k L A) (done ++ [A]).
Proof.
  intros H l key B. rewrite looked_index, (H l key B), in_app_iff. simpl. split.
  - intros [(H1 & H2 & H3)|(-> & H2 & H3)]; auto.
  - intros ([H1|[<-|[]]] & H2 & H3); auto.
Qed.

Lemma match_string_correct sort L done A P B : indexes L done -> good A -> Forall good done ->
  (sort = true -> forall B, In B done -> length A <= length B) ->
  (In (P, B) (match_string k distance sort L A) <-> P = A /\ In B done /\ lev_le k A B).
Proof.
  intros HL HgA Hgood Hsort. rewrite Forall_forall in Hgood. rewrite match_string_In. split.
  - intros (-> & l & i & start & len & sub & H1 & H2 & Hp & Hs & HB & Ht).
    apply HL in HB as (HB & El & _). split; [reflexivity|]. split; [exact HB|].
    destruct Ht as [[E1 E2]|Ht]; [|apply distance_ok; auto].
    apply lev_le_lev. pose proof (lev_le_max A B). lia.
  - intros (-> & HB & Hlev). split; [reflexivity|].
    assert (Hlen : length A - length B <= k /\ length B - length A <= k).
    { apply lev_le_lev in Hlev. pose proof (lev_length A B). lia. }
    destruct (common_segment k A B Hlev) as (i & u & w & Hi & EA & Hu1 & Hu2).
    exists (length B), i, (pos k (length B) i), (size k (length B) i), (seg k B i).
    split; [destruct sort; [apply Hsort; auto|lia]|]. split; [lia|].
    split; [rewrite partition_eq; apply in_map_iff; exists i; split; [reflexivity|apply in_seq; lia]|].
    split; [|split; [|right; apply distance_ok; auto]].
    + apply substrings_In. exists (length u). split.
      * rewrite EA. unfold slice. rewrite skipn_length_app.
        replace (length u + size k (length B) i - length u) with (length (seg k B i))
          by (rewrite seg_length by exact Hi; lia).
        rewrite firstn_length_app. reflexivity.
      * cbv zeta in *. split; [exact Hu1|]. split; [exact Hu2|].
        rewrite EA at 1. rewrite !app_length, seg_length by exact Hi. lia.
    + apply HL. split; [exact HB|]. split; [reflexivity|].
      rewrite segments_eq. apply in_map_iff. exists i. split; [reflexivity|apply in_seq; lia].
Qed.

Lemma pairs_In sort rest : forall L done P B, indexes L done -> Forall good (done ++ rest) ->
  (sort = true -> StronglySorted (fun x y : str => length y <= length x) (done ++ rest)) ->
  (In (P, B) (passjoin_pairs k distance sort rest L) <->
   exists r1 r2, rest = r1 ++ P :: r2 /\ In B (done ++ r1) /\ lev_le k P B).
Proof.
  induction rest as [|A rest IH]; intros L done P B HL Hgood Hsort; simpl.
  - split; [tauto|]. intros (r1 & r2 & E & _). destruct r1; discriminate.
  - assert (Hg := Hgood). apply Forall_app in Hg as [Hg1 Hg2]. inversion Hg2 as [|? ? HgA Hg3]; subst.
    rewrite in_app_iff, (match_string_correct sort L done A P B HL HgA Hg1), (IH (index_string k L A) (done ++ [A]) P B).
    + split.
      * intros [(-> & HB & Hl)|(r1 & r2 & -> & HB & Hl)].
        -- exists [], rest. rewrite app_nil_r. auto.
        -- exists (A :: r1), r2. rewrite <- app_assoc in HB. auto.
      * intros (r1 & r2 & E & HB & Hl). destruct r1 as [|A' r1]; simpl in E; injection E as <- E.
        -- left. rewrite app_nil_r in HB. auto.
        -- right. exists r1, r2. rewrite <- app_assoc. auto.
    + apply indexes_snoc, HL.
    + rewrite <- app_assoc. exact Hgood.
    + rewrite <- app_assoc. exact Hsort.
    + intros Es B' HB'. specialize (Hsort Es). clear - Hsort HB'.
      apply in_split in HB' as (l1 & l2 & ->). rewrite <- app_assoc in Hsort.
      induction l1 as [|x l1 IH]; simpl in Hsort.
      * inversion Hsort as [|? ? _ Hf]; subst. rewrite Forall_forall in Hf. apply Hf.
        apply in_app_iff. right. left. reflexivity.
      * inversion Hsort; subst. auto.
Qed.

(** ** Sorting *)
Lemma insert_sorted_perm x l : Permutation (insert_sorted x l) (x :: l).
Proof.
  induction l as [|y l IH]; simpl; [reflexivity|]. destruct (sort_le x y); [reflexivity|].
  rewrite IH. apply perm_swap.
Qed.

Lemma sorted_perm l : Permutation (sorted l) l.
Proof. induction l as [|x l IH]; simpl; [constructor|]. rewrite insert_sorted_perm. constructor. exact IH. Qed.

Lemma sort_le_length x y : sort_le x y = true -> length y <= length x.
Proof. unfold sort_le. lia. Qed.
Lemma sort_le_length_false x y : sort_le x y = false -> length x <= length y.
Proof. unfold sort_le. lia. Qed.

Lemma insert_sorted_sorted x l : StronglySorted (fun x y : str => length y <= length x) l ->
  StronglySorted (fun x y : str => length y <= length x) (insert_sorted x l).
Proof.
  induction 1 as [|y l Hl IH Hf]; simpl; [repeat constructor|].
  destruct (sort_le x y) eqn:E.
  - apply sort_le_length in E. constructor; [constructor; assumption|]. constructor; [exact E|].
    eapply Forall_impl; [|exact Hf]. simpl. intros; lia.
  - apply sort_le_length_false in E. constructor; [exact IH|].
    apply Forall_forall. intros z Hz. apply (Permutation_in _ (insert_sorted_perm x l)) in Hz.
    destruct Hz as [<-|Hz]; [exact E|]. rewrite Forall_forall in Hf. apply Hf, Hz.
Qed.

Lemma sorted_sorted l : StronglySorted (fun x y : str => length y <= length x) (sorted l).
Proof. induction l; simpl; [constructor|]. apply insert_sorted_sorted. assumption. Qed.

Definition order (sort : bool) (data : list str) : list str := if sort then sorted data else data.

Lemma order_perm sort data : Permutation (order sort data) data.
Proof. destruct sort; [apply sorted_perm|reflexivity]. Qed.

Lemma passjoin_pairs_exact sort data A B : Forall good data ->
  (In (A, B) (passjoin_pairs k distance sort (order sort data) []) <->
   before (order sort data) B A /\ lev_le k A B).
Proof.
  intros Hgood. rewrite (pairs_In sort (order sort data) [] [] A B indexes_nil).
  - simpl. split.
    + intros (r1 & r2 & E & HB & Hl). split; [|exact Hl]. apply in_split in HB as (l1 & l2 & ->).
      exists l1, l2, r2. rewrite E, <- app_assoc. reflexivity.
    + intros ((l1 & l2 & l3 & E) & Hl). exists (l1 ++ B :: l2), l3. rewrite E, <- app_assoc. split; [reflexivity|].
      split; [apply in_app_iff; simpl; auto|exact Hl].
  - simpl. rewrite Forall_forall in *. intros x Hx. apply Hgood.
    apply (Permutation_in _ (order_perm sort data)). exact Hx.
  - intros ->. simpl. apply sorted_sorted.
Qed.

Lemma before_perm_or {A} (l m : list A) x y : Permutation l m -> x <> y -> In x m -> In y m ->
  before l x y \/ before l y x.
Proof.
  intros Hp Hn Hx Hy. symmetry in Hp. apply (Permutation_in _ Hp) in Hx, Hy. clear Hp m.
  apply in_split in Hx as (l1 & l2 & ->). apply in_app_iff in Hy as [Hy|[Hy|Hy]].
  - apply in_split in Hy as (a & b & ->). right. exists a, b, l2. rewrite <- app_assoc. reflexivity.
  - contradiction.
  - apply in_split in Hy as (a & b & ->). left. exists l1, a, b. reflexivity.
Qed.

Lemma before_In {A} (l : list A) x y : before l x y -> In x l /\ In y l.
Proof.
  intros (l1 & l2 & l3 & ->). split; apply in_app_iff; right; [left; reflexivity|].
  right. apply in_app_iff. right. left. reflexivity.
Qed.

(** every close pair is found, one way or the other *)
Lemma passjoin_pairs_complete sort data A B : Forall good data -> close_strings k data A B ->
  neighbour (passjoin_pairs k distance sort (order sort data) []) A B.
Proof.
  intros Hgood (HA & HB & Hn & Hl). unfold neighbour. rewrite !passjoin_pairs_exact by exact Hgood.
  destruct (before_perm_or (order sort data) data A B (order_perm sort data) Hn HA HB) as [H|H].
  - right. split; [exact H|]. apply lev_le_lev. rewrite lev_sym. apply lev_le_lev. exact Hl.
  - left. auto.
Qed.

Lemma lev_le_sym' (a b : str) : lev_le k a b -> lev_le k b a.
Proof. rewrite !lev_le_lev. rewrite lev_sym. auto. Qed.

Lemma passjoin_pairs_sound sort data A B : Forall good data -> In (A, B) (passjoin_pairs k distance sort (order sort data) []) ->
  In A data /\ In B data /\ lev_le k A B.
Proof.
  intros Hgood. rewrite passjoin_pairs_exact by exact Hgood. intros (Hb & Hl). apply before_In in Hb as [H1 H2].
  split; [|split; [|exact Hl]]; apply (Permutation_in _ (order_perm sort data)); assumption.
Qed.

Variable set_order : list str -> list str.
Hypothesis set_order_perm : forall l, Permutation (set_order l) l.

Lemma passjoin_components data sort lo hi : Forall good data -> 2 <= lo ->
  exists out, passjoin k distance set_order data sort lo hi "connected_components" = Ok out /\
    is_components (fun x => In x data) (close_strings k data) lo hi out.
Proof.
  intros Hgood Hlo. unfold passjoin. fold (order sort data).
  set (pairs := passjoin_pairs k distance sort (order sort data) []).
  destruct (clusters_from_pairs_components set_order set_order_perm pairs lo hi false) as (out & E & C).
  exists out. split; [exact E|].
  apply (is_components_vertex (pair_vertex pairs)); [exact Hlo| | |].
  - intros x y Hc. apply (passjoin_pairs_complete sort data _ _ Hgood) in Hc. fold pairs in Hc.
    unfold pair_vertex, neighbour in *. split; [exists y|exists x]; tauto.
  - intros x y (H1 & H2 & _). auto.
  - eapply is_components_ext; [reflexivity| |exact C].
    intros x y. split; revert x y; apply conn_mono; intros x y H.
    + destruct (list_eq_dec N.eq_dec x y) as [->|Hn]; [apply conn_refl|].
      apply (passjoin_pairs_sound sort data _ _ Hgood) in H as (H1 & H2 & H3).
      apply rst_step. repeat split; assumption.
    + apply (passjoin_pairs_complete sort data _ _ Hgood) in H. apply neighbour_conn. exact H.
Qed.
End PassJoin.

(** ** Number of substrings *)
Fixpoint zsum (n : nat) (f : nat -> Z) : Z := match n with O => 0%Z | S n' => (zsum n' f + f n')%Z end.

Lemma zsum_ext n f g : (forall i, i < n -> f i = g i) -> zsum n f = zsum n g.
Proof. induction n; simpl; intros H; [reflexivity|]. rewrite IHn by (intros; apply H; lia). rewrite H by lia. reflexivity. Qed.
Lemma zsum_le n f g : (forall i, i < n -> (f i <= g i)%Z) -> (zsum n f <= zsum n g)%Z.
Proof.
  induction n; simpl; intros H; [lia|]. pose proof (H n ltac:(lia)).
  assert (zsum n f <= zsum n g)%Z by (apply IHn; intros; apply H; lia). lia.
Qed.
Lemma zsum_plus n f g : (zsum n (fun i => f i + g i) = zsum n f + zsum n g)%Z.
Proof. induction n; simpl; lia. Qed.
Lemma zsum_const n c : (zsum n (fun _ => c) = Z.of_nat n * c)%Z.
Proof. induction n; cbn [zsum]; [lia|]. rewrite IHn. lia. Qed.

Lemma zsum_low n c : (2 * Z.of_nat n <= c + 2)%Z ->
  (2 * zsum n (fun i => Z.min (Z.of_nat i) (c - Z.of_nat i)) = Z.of_nat n * (Z.of_nat n - 1))%Z.
Proof. induction n as [|n IH]; intros H; cbn [zsum]; [lia|]. specialize (IH ltac:(lia)). nia. Qed.

Lemma zsum_even n e : e <= n ->
  let c := (2 * Z.of_nat e)%Z in
  (2 * zsum (S n) (fun i => Z.min (Z.of_nat i) (c - Z.of_nat i)) =
   Z.of_nat n * (Z.of_nat n + 1) - 2 * ((Z.of_nat n - Z.of_nat e) * (Z.of_nat n - Z.of_nat e + 1)))%Z.
Proof.
  intros H c. induction H as [|n H IH].
  - pose proof (zsum_low (S e) c ltac:(lia)) as E. rewrite E. nia.
  - cbn [zsum] in *. nia.
Qed.

Lemma zsum_odd n e : e <= n ->
  let c := (2 * Z.of_nat e + 1)%Z in
  (2 * zsum (S n) (fun i => Z.min (Z.of_nat i) (c - Z.of_nat i)) =
   Z.of_nat n * (Z.of_nat n + 1) - 2 * ((Z.of_nat n - Z.of_nat e) * (Z.of_nat n - Z.of_nat e)))%Z.
Proof.
  intros H c. induction H as [|n H IH].
  - pose proof (zsum_low (S e) c ltac:(lia)) as E. rewrite E. nia.
  - cbn [zsum] in *. nia.
Qed.

Lemma zsum_count k (d : Z) : (Z.abs d <= Z.of_nat k)%Z ->
  (zsum (S k) (fun i => Z.min (Z.of_nat i) (d + Z.of_nat k - Z.of_nat i) +
                        Z.min (Z.of_nat i) (Z.of_nat k - d - Z.of_nat i) + 1) =
   (Z.of_nat k ^ 2 - Z.abs d ^ 2) / 2 + Z.of_nat k + 1)%Z.
Proof.
  intros Hd. rewrite (zsum_plus (S k) _ (fun _ => 1%Z)), zsum_const, zsum_plus.
  replace (Z.abs d ^ 2)%Z with (d * d)%Z by (rewrite Z.pow_2_r; lia). rewrite Z.pow_2_r.
  destruct (Z.Even_or_Odd (d + Z.of_nat k)) as [[e He]|[e He]].
  - pose proof (zsum_even k (Z.to_nat e) ltac:(lia)) as E1. pose proof (zsum_even k (k - Z.to_nat e) ltac:(lia)) as E2.
    cbv zeta in E1, E2.
    replace (2 * Z.of_nat (Z.to_nat e))%Z with (d + Z.of_nat k)%Z in E1 by lia.
    replace (2 * Z.of_nat (k - Z.to_nat e))%Z with (Z.of_nat k - d)%Z in E2 by lia.
    replace (Z.of_nat (Z.to_nat e)) with e in E1 by lia.
    replace (Z.of_nat (k - Z.to_nat e)) with (Z.of_nat k - e)%Z in E2 by lia.
    rewrite Nat2Z.inj_succ.
    set (s1 := zsum _ _) in *. set (s2 := zsum (S k) (fun i => Z.min _ (Z.of_nat k - d - _))) in *.
    clearbody s1 s2. assert (d = 2 * e - Z.of_nat k)%Z by lia. subst d. generalize dependent (Z.of_nat k). intros K; intros.
    replace (K * K - (2 * e - K) * (2 * e - K))%Z with ((2 * e * (K - e)) * 2)%Z by ring.
    rewrite Z.div_mul by lia. clear Hd. lia.
  - assert (0 <= e)%Z by lia. assert (e < Z.of_nat k)%Z by lia.
    pose proof (zsum_odd k (Z.to_nat e) ltac:(lia)) as E1. pose proof (zsum_odd k (k - 1 - Z.to_nat e) ltac:(lia)) as E2.
    cbv zeta in E1, E2.
    replace (2 * Z.of_nat (Z.to_nat e) + 1)%Z with (d + Z.of_nat k)%Z in E1 by lia.
    replace (2 * Z.of_nat (k - 1 - Z.to_nat e) + 1)%Z with (Z.of_nat k - d)%Z in E2 by lia.
    replace (Z.of_nat (Z.to_nat e)) with e in E1 by lia.
    replace (Z.of_nat (k - 1 - Z.to_nat e)) with (Z.of_nat k - 1 - e)%Z in E2 by lia.
    rewrite Nat2Z.inj_succ.
    set (s1 := zsum _ _) in *. set (s2 := zsum (S k) (fun i => Z.min _ (Z.of_nat k - d - _))) in *.
    clearbody s1 s2. assert (d = 2 * e + 1 - Z.of_nat k)%Z by lia. subst d. generalize dependent (Z.of_nat k). intros K; intros.
    replace (K * K - (2 * e + 1 - K) * (2 * e + 1 - K))%Z
      with (1 + (2 * e * (K - e) - 2 * e + K - 1) * 2)%Z by ring.
    rewrite Z.div_add by lia. change (1 / 2)%Z with 0%Z. clear Hd. lia.
Qed.

Lemma substrings_loop_length string li js current : length (substrings_loop string li js current) <= length js.
Proof.
  revert current. induction js as [|j js IH]; intros current; cbn [substrings_loop length]; [lia|].
  destruct (eqb _ _); cbn [length]; [specialize (IH current)|specialize (IH (Some (slice j (j + li) string)))]; lia.
Qed.

Lemma flat_map_length {A B} (f : A -> list B) l :
  length (flat_map f l) = fold_right (fun x n => length (f x) + n) 0 l.
Proof. induction l; simpl; [reflexivity|]. rewrite app_length. lia. Qed.

Lemma fold_right_seq_zsum (f : nat -> nat) n a :
  Z.of_nat (fold_right (fun x m => f x + m) 0 (seq a n)) = zsum n (fun i => Z.of_nat (f (a + i))).
Proof.
  revert a. induction n as [|n IH]; intros a; [reflexivity|].
  rewrite seq_S, fold_right_app. cbn [fold_right zsum]. rewrite <- IH.
  assert (G : forall l c, fold_right (fun x m => f x + m) c l = fold_right (fun x m => f x + m) 0 l + c).
  { clear. induction l; simpl; intros; [lia|]. rewrite IHl. lia. }
  rewrite G. lia.
Qed.

Lemma substrings_count (k : nat) (s : str) (l : nat) :
  (Z.abs (Z.of_nat (length s) - Z.of_nat l) <= Z.of_nat k)%Z ->
  (Z.of_nat (length (flat_map (fun '(i, start, len) => multi_match_aware_substrings k s l i start len)
      (partition k l))) <= count_substrings_l (Z.of_nat k) (Z.of_nat (length s)) (Z.of_nat l))%Z.
Proof.
  intros Hd. unfold count_substrings_l. set (d := (Z.of_nat (length s) - Z.of_nat l)%Z) in *.
  rewrite <- zsum_count by exact Hd. rewrite partition_eq.
  rewrite flat_map_concat_map, map_map, <- flat_map_concat_map, flat_map_length.
  rewrite fold_right_seq_zsum, Nat.add_1_r. apply zsum_le. intros i Hi. simpl (0 + i).
  unfold multi_match_aware_substrings, multi_match_aware_interval. fold d.
  match goal with |- (Z.of_nat (length (substrings_loop ?a ?b ?c ?e)) <= _)%Z =>
    pose proof (substrings_loop_length a b c e) as G end.
  rewrite seq_length in G.
  generalize dependent (Z.of_nat (pos k l i)). intros p G. lia.
Qed.

(** ** The partition, as a whole *)
Lemma partition_length k l : length (partition k l) = k + 1.
Proof. rewrite partition_eq, map_length, seq_length. reflexivity. Qed.

Lemma segments_concat k s : concat (map snd (segments k s)) = s.
Proof. rewrite segments_eq, map_map. simpl. apply concat_all_segs. Qed.

Lemma segments_index k s : map fst (segments k s) = seq 0 (k + 1).
Proof. rewrite segments_eq, map_map. simpl. apply map_id. Qed.

Lemma nth_map_seq {A} (f : nat -> A) n t x : nth_error (map f (seq 0 n)) t = Some x -> t < n /\ x = f t.
Proof.
  intros H. assert (Ht : t < n).
  { pose proof (proj1 (nth_error_Some (map f (seq 0 n)) t)) as G. rewrite H, map_length, seq_length in G.
    apply G. discriminate. }
  split; [exact Ht|]. rewrite nth_error_map, (nth_error_nth' _ 0) in H by (rewrite seq_length; lia).
  rewrite seq_nth in H by lia. simpl in H. congruence.
Qed.

Lemma segments_partition k s t i sg i' start len :
  nth_error (segments k s) t = Some (i, sg) -> nth_error (partition k (length s)) t = Some (i', start, len) ->
  i = t /\ i' = t /\ start = length (concat (map snd (firstn t (segments k s)))) /\ len = length sg.
Proof.
  rewrite segments_eq, partition_eq. intros H1 H2.
  apply nth_map_seq in H1 as [Ht H1]. apply nth_map_seq in H2 as [_ H2].
  injection H1 as -> ->. injection H2 as -> -> ->. split; [reflexivity|]. split; [reflexivity|].
  rewrite firstn_map_seq, map_map by lia. simpl. rewrite concat_segs, firstn_length, seg_length by lia.
  split; [|reflexivity]. rewrite Nat.min_l; [reflexivity|].
  rewrite <- (pos_end k (length s)) at 2. apply pos_mono. lia.
Qed.

Lemma segments_balanced k s : balanced (map (fun x => length (snd x)) (segments k s)).
Proof.
  intros i j a b Hij H1 H2. rewrite segments_eq, map_map in H1, H2. simpl in H1, H2.
  apply nth_map_seq in H1 as [Hi ->]. apply nth_map_seq in H2 as [Hj ->].
  rewrite !seg_length by lia. unfold size.
  destruct (Nat.ltb_spec i (small k (length s))), (Nat.ltb_spec j (small k (length s))); lia.
Qed.

Lemma limited_decides k (A B : str) : bmp A -> bmp B -> (limited_levenshtein_distance k A B <= k <-> lev_le k A B).
Proof.
  intros HA HB. rewrite (limited_exact k A B (lev A B) HA HB (proj2 (is_lev_lev A B _) eq_refl)). rewrite lev_le_lev.
  destruct (Nat.leb_spec (lev A B) k); lia.
Qed.

Lemma passjoin_sort_independent k (distance : str -> str -> nat) (good : str -> Prop)
  (Hd : forall a b, good a -> good b -> (distance a b <= k <-> lev_le k a b))
  so1 (H1 : forall l : list str, Permutation (so1 l) l) so2 (H2 : forall l : list str, Permutation (so2 l) l)
  data s1 s2 lo hi o1 o2 : Forall good data -> 2 <= lo ->
  passjoin k distance so1 data s1 lo hi "connected_components" = Ok o1 ->
  passjoin k distance so2 data s2 lo hi "connected_components" = Ok o2 -> same_clusters o1 o2.
Proof.
  intros Hg Hlo E1 E2.
  destruct (passjoin_components k distance good Hd so1 H1 data s1 lo hi Hg Hlo) as (o1' & E1' & C1).
  destruct (passjoin_components k distance good Hd so2 H2 data s2 lo hi Hg Hlo) as (o2' & E2' & C2).
  rewrite E1 in E1'. rewrite E2 in E2'. injection E1' as <-. injection E2' as <-.
  eapply is_components_unique; eassumption.
Qed.
