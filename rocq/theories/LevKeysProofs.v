(** Proofs about the keys and blocks of fog/key/levenshtein.py *)
From Verif Require Import Base BaseFacts EditSpec EditFacts LevModel LevProofs LevKeysModel LevKeysSpec.

(** ** Keys *)
Lemma nth_middle0 (p : str) c s : nth (length p) (p ++ c :: s) 0%N = c.
Proof. apply nth_middle. Qed.

Lemma firstn_length_app {A} (p s : list A) : firstn (length p) (p ++ s) = p.
Proof. rewrite firstn_app, Nat.sub_diag, firstn_all. apply app_nil_r. Qed.

Lemma skipn_length_app {A} (p s : list A) : skipn (length p) (p ++ s) = s.
Proof. rewrite skipn_app, Nat.sub_diag, skipn_all. reflexivity. Qed.

Lemma skipn_length_S {A} (p : list A) c s : skipn (length p + 1) (p ++ c :: s) = s.
Proof.
  change (p ++ c :: s) with (p ++ [c] ++ s). rewrite app_assoc.
  replace (length p + 1) with (length (p ++ [c])) by (rewrite app_length; reflexivity).
  apply skipn_length_app.
Qed.

Lemma keys_at_0 c s tr flag : keys_at (c :: s) tr flag 0 = [flag :: s; flag :: c :: s].
Proof. reflexivity. Qed.

Lemma keys_at_S p d c s tr flag : keys_at ((p ++ [d]) ++ c :: s) tr flag (length (p ++ [d])) =
  [(p ++ [d]) ++ flag :: s] ++
  (if N.eqb d c then [] else (if tr then [p ++ c :: d :: s] else []) ++ [(p ++ [d]) ++ flag :: c :: s]).
Proof.
  unfold keys_at. rewrite nth_middle0, firstn_length_app, skipn_length_S, skipn_length_app.
  rewrite app_length. simpl (length [d]). replace (length p + 1 - 1) with (length p) by lia.
  rewrite <- !app_assoc. simpl app. rewrite nth_middle0, firstn_length_app.
  replace (0 <? length p + 1) with true by (symmetry; apply Nat.ltb_lt; lia). simpl andb.
  destruct (N.eqb d c), tr; reflexivity.
Qed.

Lemma In_keys_at string tr flag k : In k (levenshtein_1d_keys string tr flag) <->
  k = string \/ k = string ++ [flag] \/
  exists p c s, string = p ++ c :: s /\ In k (keys_at string tr flag (length p)).
Proof.
  unfold levenshtein_1d_keys. simpl. rewrite in_app_iff, in_flat_map. simpl.
  split.
  - intros [E|[(i & Hi & Hk)|[E|[]]]]; auto. right. right. apply in_seq in Hi.
    destruct (nth_split string 0%N (n := i)) as (p & s & E & Hl); [lia|].
    exists p, (nth i string 0%N), s. rewrite Hl. auto.
  - intros [E|[E|(p & c & s & E & Hk)]]; auto. right. left. exists (length p). split; [|exact Hk].
    apply in_seq. rewrite E, app_length. simpl. lia.
Qed.

(** no equal letters on both sides of the cut *)
Definition clean_cut (p s : str) : Prop := forall p' y s', p = p' ++ [y] -> s = y :: s' -> False.

Lemma keys_inv string tr flag k : In k (levenshtein_1d_keys string tr flag) <->
  k = string \/
  (exists p c s, string = p ++ c :: s /\ k = p ++ flag :: s) \/
  (exists p s, string = p ++ s /\ clean_cut p s /\ k = p ++ flag :: s) \/
  (tr = true /\ exists p x y s, x <> y /\ string = p ++ x :: y :: s /\ k = p ++ y :: x :: s).
Proof.
  rewrite In_keys_at. split.
  - intros [E|[E|(p & c & s & E & Hk)]]; [auto| |].
    + right. right. left. exists string, []. rewrite app_nil_r. split; [reflexivity|]. split; [|exact E].
      intros p' y s' _ E'. discriminate.
    + subst string. destruct p as [|d p _] using rev_ind.
      * change (In k [flag :: s; flag :: c :: s]) in Hk. simpl in Hk. destruct Hk as [<-|[<-|[]]].
        -- right. left. exists [], c, s. auto.
        -- right. right. left. exists [], (c :: s). repeat split; auto. intros [|] y s' E; discriminate.
      * rewrite keys_at_S in Hk. simpl in Hk. destruct Hk as [<-|Hk].
        -- right. left. exists (p ++ [d]), c, s. auto.
        -- destruct (N.eqb_spec d c) as [|Hn]; [destruct Hk|]. rewrite in_app_iff in Hk.
           destruct Hk as [Hk|[<-|[]]].
           ++ destruct tr; [|destruct Hk]. destruct Hk as [<-|[]]. right. right. right. split; [reflexivity|].
              exists p, d, c, s. rewrite <- app_assoc. auto.
           ++ right. right. left. exists (p ++ [d]), (c :: s). repeat split; auto.
              intros p' y s' E1 E2. apply app_inj_tail in E1 as [_ ->]. congruence.
  - intros [E|[(p & c & s & E & Ek)|[(p & s & E & Hc & Ek)|(-> & p & x & y & s & Hn & E & Ek)]]]; [auto| | |].
    + right. right. exists p, c, s. split; [exact E|]. subst. destruct p as [|d p _] using rev_ind.
      * simpl. auto.
      * rewrite keys_at_S. left. reflexivity.
    + destruct s as [|c s].
      * right. left. rewrite app_nil_r in E. subst. reflexivity.
      * right. right. exists p, c, s. split; [exact E|]. subst. destruct p as [|d p _] using rev_ind.
        -- simpl. auto.
        -- rewrite keys_at_S. right. destruct (N.eqb_spec d c) as [->|]; [exfalso; eapply Hc; eauto|].
           apply in_or_app. right. apply in_or_app. right. left. reflexivity.
    + right. right. exists (p ++ [x]), y, s. split; [rewrite <- app_assoc; exact E|]. subst.
      change (p ++ x :: y :: s) with (p ++ [x] ++ y :: s). rewrite app_assoc, keys_at_S. right.
      destruct (N.eqb_spec x y); [contradiction|]. left. reflexivity.
Qed.

Lemma keys_insertion p x s tr flag :
  share (levenshtein_1d_keys (p ++ s) tr flag) (levenshtein_1d_keys (p ++ x :: s) tr flag) \/
  splits_double (p ++ s) (p ++ x :: s).
Proof.
  remember (length p) as n eqn:En. revert p s En. induction n as [|n IH]; intros p s En.
  - destruct p; [|discriminate]. left. exists (flag :: s). rewrite !keys_inv. split.
    + right. right. left. exists [], s. repeat split. intros [|] y s' E; discriminate.
    + right. left. exists [], x, s. auto.
  - destruct p as [|d p _] using rev_ind; [discriminate|].
    rewrite app_length in En. simpl in En.
    destruct (N.eq_dec d x) as [->|Hn].
    + destruct (IH p (x :: s)) as [Hs|Hs]; [lia| |]; rewrite <- !app_assoc; auto.
    + destruct s as [|c s].
      * left. exists ((p ++ [d]) ++ [flag]). rewrite !keys_inv. split.
        -- right. right. left. exists (p ++ [d]), []. repeat split. intros p' y s' _ E; discriminate.
        -- right. left. exists (p ++ [d]), x, []. auto.
      * destruct (N.eq_dec d c) as [->|Hc].
        -- right. exists p, x, c, s. rewrite <- !app_assoc. auto.
        -- left. exists ((p ++ [d]) ++ flag :: c :: s). rewrite !keys_inv. split.
           ++ right. right. left. exists (p ++ [d]), (c :: s). repeat split.
              intros p' y s' E1 E2. apply app_inj_tail in E1 as [_ ->]. congruence.
           ++ right. left. exists (p ++ [d]), x, (c :: s). auto.
Qed.

Lemma share_sym {A} (l m : list A) : share l m -> share m l.
Proof. intros (k & H1 & H2). exists k. auto. Qed.

Lemma ale_step {A} n (a b : list A) : ale (S n) a b ->
  exists u x y a' b', a = u ++ x ++ a' /\ b = u ++ y ++ b' /\ length x <= 1 /\ length y <= 1 /\ ale n a' b'.
Proof.
  intros (m & Hm & Ha). revert n Hm. induction Ha as [|m x a b H IH|m x y a b H IH|m y a b H IH|m x a b H IH]; intros n Hm.
  - exists [], [], [], [], []. simpl. repeat split; auto. exists 0. split; [lia|constructor].
  - destruct (IH n Hm) as (u & v & w & a' & b' & -> & -> & H1 & H2 & H3).
    exists (x :: u), v, w, a', b'. auto.
  - exists [], [x], [y], a, b. simpl. repeat split; auto. exists m. split; [lia|exact H].
  - exists [], [], [y], a, b. simpl. repeat split; auto. exists m. split; [lia|exact H].
  - exists [], [x], [], a, b. simpl. repeat split; auto. exists m. split; [lia|exact H].
Qed.

Lemma lev_le_1_split {A} (a b : list A) : lev_le 1 a b ->
  exists u x y v, a = u ++ x ++ v /\ b = u ++ y ++ v /\ length x <= 1 /\ length y <= 1.
Proof.
  rewrite lev_le_ale. intros H. apply ale_step in H as (u & x & y & a' & b' & -> & -> & H1 & H2 & m & Hm & H3).
  assert (m = 0) by lia. subst. apply al_0_eq in H3. subst. exists u, x, y, b'. auto.
Qed.

Lemma lev_le_2_split {A} (a b : list A) : lev_le 2 a b ->
  exists u x y v z t w, a = u ++ x ++ v ++ z ++ w /\ b = u ++ y ++ v ++ t ++ w /\
    length x <= 1 /\ length y <= 1 /\ length z <= 1 /\ length t <= 1.
Proof.
  rewrite lev_le_ale. intros H. apply ale_step in H as (u & x & y & a' & b' & -> & -> & H1 & H2 & H3).
  rewrite <- lev_le_ale in H3. apply lev_le_1_split in H3 as (v & z & t & w & -> & -> & H4 & H5).
  exists u, x, y, v, z, t, w. auto 10.
Qed.

Lemma length_le_1 {A} (x : list A) : length x <= 1 -> x = [] \/ exists c, x = [c].
Proof. destruct x as [|c [|]]; simpl; intros; [auto|eauto|lia]. Qed.

Lemma keys_complete_lev A B tr flag : lev_le 1 A B ->
  share (levenshtein_1d_keys A tr flag) (levenshtein_1d_keys B tr flag) \/
  splits_double A B \/ splits_double B A.
Proof.
  intros H. apply lev_le_1_split in H as (u & x & y & v & -> & -> & H1 & H2).
  apply length_le_1 in H1, H2. destruct H1 as [->|(c & ->)], H2 as [->|(d & ->)]; simpl.
  - left. exists (u ++ v). split; apply keys_inv; auto.
  - destruct (keys_insertion u d v tr flag); auto.
  - destruct (keys_insertion u c v tr flag); auto. left. apply share_sym. assumption.
  - left. exists (u ++ flag :: v). rewrite !keys_inv. split; right; left; [exists u, c, v|exists u, d, v]; auto.
Qed.

Lemma keys_complete_swap A B flag : swap1 A B ->
  share (levenshtein_1d_keys A true flag) (levenshtein_1d_keys B true flag).
Proof.
  intros [l x y r]. destruct (N.eq_dec x y) as [->|Hn].
  - exists (l ++ y :: y :: r). rewrite !keys_inv. auto.
  - exists (l ++ y :: x :: r). rewrite !keys_inv. split; [|auto].
    right. right. right. split; [reflexivity|]. exists l, x, y, r. auto.
Qed.

(** the flag cuts a key in a unique way *)
Lemma flag_split (flag : N) p q s t : ~ In flag p -> ~ In flag q -> p ++ flag :: s = q ++ flag :: t ->
  p = q /\ s = t.
Proof.
  revert q. induction p as [|c p IH]; intros [|d q] Hp Hq E; simpl in *.
  - injection E as <-. auto.
  - injection E as <- _. intuition.
  - injection E as -> _. intuition.
  - injection E as <- E. destruct (IH q) as [-> ->]; auto.
Qed.

Lemma al_swap1 {A} (a b : list A) : swap1 a b -> damerau_le 1 a b.
Proof. intros H. apply damerau_le_1. auto. Qed.

Lemma damerau_le_sym {A} n (a b : list A) : damerau_le n a b -> damerau_le n b a.
Proof.
  intros (m & Hm & Hs). exists m. split; [exact Hm|]. clear Hm.
  set (R := fun a b : list A => edit1 a b \/ swap1 a b) in *.
  assert (Rs : forall a b, R a b -> R b a).
  { intros x y [He|Hw]; [left|right; apply swap1_sym; exact Hw]. destruct He; constructor. }
  assert (Hsnoc : forall m x y z, steps R m x y -> R y z -> steps R (S m) x z).
  { intros m' x y z H. induction H; intros Hz; [econstructor; [exact Hz|constructor]|].
    econstructor; [eassumption|auto]. }
  induction Hs; [constructor|]. eapply Hsnoc; [exact IHHs|apply Rs; assumption].
Qed.

Lemma damerau_le_trans {A} n m (a b c : list A) : damerau_le n a b -> damerau_le m b c -> damerau_le (n + m) a c.
Proof.
  intros (n' & Hn & H1) (m' & Hm & H2). exists (n' + m'). split; [lia|].
  clear Hn Hm. induction H1; simpl; [exact H2|]. econstructor; eauto.
Qed.

Lemma damerau_le_refl {A} n (a : list A) : damerau_le n a a.
Proof. exists 0. split; [lia|constructor]. Qed.

Lemma lev_damerau {A} n (a b : list A) : lev_le n a b -> damerau_le n a b.
Proof.
  intros (m & Hm & Hs). exists m. split; [exact Hm|]. clear Hm.
  induction Hs; [constructor|]. econstructor; [left; eassumption|auto].
Qed.

(** a key with the flag *)
Definition flagged (flag : N) (string k : str) : Prop :=
  exists p c s, length c <= 1 /\ string = p ++ c ++ s /\ k = p ++ flag :: s.

Lemma keys_cases string tr flag k : In k (levenshtein_1d_keys string tr flag) ->
  flagged flag string k \/ k = string \/ (tr = true /\ swap1 string k).
Proof.
  rewrite keys_inv.
  intros [E|[(p & c & s & E & Ek)|[(p & s & E & Hc & Ek)|(-> & p & x & y & s & Hn & E & Ek)]]]; [auto| | |].
  - left. exists p, [c], s. auto.
  - left. exists p, [], s. auto.
  - right. right. split; [reflexivity|]. subst. constructor.
Qed.

Lemma flagged_flagged flag (A B : str) k : ~ In flag A -> ~ In flag B -> flagged flag A k -> flagged flag B k ->
  lev_le 1 A B.
Proof.
  intros HA HB (p & c & s & H1 & E1 & E2) (q & d & t & H2 & E3 & E4). rewrite E2 in E4.
  apply flag_split in E4 as [<- <-].
  - subst. rewrite lev_le_lev, lev_app_l, lev_app_r.
    pose proof (lev_le_max c d). lia.
  - intros Hi. apply HA. rewrite E1. apply in_app_iff. auto.
  - intros Hi. apply HB. rewrite E3. apply in_app_iff. auto.
Qed.

Lemma flagged_In flag A k : flagged flag A k -> In flag k.
Proof. intros (p & c & s & _ & _ & ->). apply in_app_iff. right. left. reflexivity. Qed.

Lemma unflagged_notin flag (A k : str) (tr : bool) : ~ In flag A -> k = A \/ (tr = true /\ swap1 A k) -> ~ In flag k.
Proof.
  intros HA [->|[_ Hw]]; [exact HA|]. destruct Hw as [l x y r]. intros Hi. apply HA.
  rewrite in_app_iff in *. simpl in *. tauto.
Qed.

Lemma keys_sound (A B : str) tr flag : ~ In flag A -> ~ In flag B ->
  share (levenshtein_1d_keys A tr flag) (levenshtein_1d_keys B tr flag) ->
  lev_le 1 A B \/ (tr = true /\ exists k, (k = A \/ swap1 A k) /\ (k = B \/ swap1 k B)).
Proof.
  intros HA HB (k & H1 & H2). apply keys_cases in H1, H2.
  destruct H1 as [H1|H1], H2 as [H2|H2].
  - left. eapply flagged_flagged; eassumption.
  - exfalso. eapply unflagged_notin; [exact HB|exact H2|]. eapply flagged_In; eassumption.
  - exfalso. eapply unflagged_notin; [exact HA|exact H1|]. eapply flagged_In; eassumption.
  - destruct H1 as [->|[-> H1]].
    + destruct H2 as [->|[-> H2]]; [left; exists 0; split; [lia|constructor]|].
      right. split; [reflexivity|]. exists A. split; [auto|]. right. apply swap1_sym, H2.
    + right. split; [reflexivity|]. exists k. split; [auto|].
      destruct H2 as [->|[_ H2]]; [auto|]. right. apply swap1_sym, H2.
Qed.

Lemma keys_sound_lev (A B : str) flag : ~ In flag A -> ~ In flag B ->
  share (levenshtein_1d_keys A false flag) (levenshtein_1d_keys B false flag) -> lev_le 1 A B.
Proof. intros HA HB Hs. apply keys_sound in Hs; [|assumption..]. destruct Hs as [?|[? _]]; [assumption|discriminate]. Qed.

Lemma keys_sound_damerau (A B : str) flag : ~ In flag A -> ~ In flag B ->
  share (levenshtein_1d_keys A true flag) (levenshtein_1d_keys B true flag) -> damerau_le 2 A B.
Proof.
  intros HA HB Hs. apply keys_sound in Hs; [|assumption..]. destruct Hs as [(m & Hm & H)|(_ & k & H1 & H2)].
  - apply lev_damerau. exists m. split; [lia|exact H].
  - apply (damerau_le_trans 1 1 A k B).
    + destruct H1 as [->|H1]; [apply damerau_le_refl|apply al_swap1, H1].
    + destruct H2 as [->|H2]; [apply damerau_le_refl|apply al_swap1, H2].
Qed.

(** In the missed case there is no key in common. *)
Lemma keys_missed (A B : str) tr flag : ~ In flag A -> ~ In flag B -> splits_double A B ->
  ~ share (levenshtein_1d_keys A tr flag) (levenshtein_1d_keys B tr flag).
Proof.
  intros HA HB (p & x & y & s & Hxy & EA & EB) (k & H1 & H2).
  assert (Hlen : length B = S (length A)) by (subst; rewrite !app_length; simpl; lia).
  apply keys_inv in H2.
  assert (Hin : forall q t, A = q ++ t -> ~ In flag q /\ ~ In flag t).
  { intros q t ->. rewrite in_app_iff in HA. tauto. }
  assert (HinB : forall q t, B = q ++ t -> ~ In flag q /\ ~ In flag t).
  { intros q t ->. rewrite in_app_iff in HB. tauto. }
  assert (HkB : In flag k \/ length k = length B).
  { destruct H2 as [->|[(q & c & t & E & ->)|[(q & t & E & Hc & ->)|(-> & q & u & v & t & Hn & E & ->)]]].
    - auto.
    - left. rewrite in_app_iff. simpl. auto.
    - left. rewrite in_app_iff. simpl. auto.
    - right. rewrite E, !app_length. reflexivity. }
  apply keys_inv in H1.
  destruct H1 as [->|[(q & c & t & E & Ek)|[(q & t & E & Hc & Ek)|(-> & q & u & v & t & Hn & E & Ek)]]].
  - destruct HkB as [HkB|HkB]; [contradiction|lia].
  - (* substitution key of A: same length as A *)
    assert (Hl : length k = length A) by (rewrite Ek, E, !app_length; reflexivity).
    destruct HkB as [HkB|HkB]; [|lia].
    destruct H2 as [->|[(q' & c' & t' & E' & Ek')|[(q' & t' & E' & Hc' & Ek')|(-> & q' & u' & v' & t' & Hn' & E' & Ek')]]].
    + lia.
    + assert (length k = length B) by (rewrite Ek', E', !app_length; reflexivity). lia.
    + assert (length k = S (length B)) by (rewrite Ek', E', !app_length; simpl; lia). lia.
    + assert (length k = length B) by (rewrite Ek', E', !app_length; reflexivity). lia.
  - (* addition key of A *)
    assert (Hl : length k = S (length A)) by (rewrite Ek, E, !app_length; simpl; lia).
    assert (Hf : In flag k) by (rewrite Ek, in_app_iff; simpl; auto).
    destruct H2 as [->|[(q' & c' & t' & E' & Ek')|[(q' & t' & E' & Hc' & Ek')|(-> & q' & u' & v' & t' & Hn' & E' & Ek')]]].
    + contradiction.
    + rewrite Ek in Ek'. apply flag_split in Ek' as [<- <-]; [|apply (Hin q t E)|apply (HinB _ _ E')].
      (* A = q ++ t, B = q ++ c' :: t = p ++ y :: x :: y :: s *)
      rewrite EB in E'. rewrite EA in E.
      assert (Hpos : length q = length p + 1).
      { destruct (lt_eq_lt_dec (length q) (length p + 1)) as [[Hlt|]|Hgt]; [|assumption|]; exfalso.
        - (* q is a prefix of p *)
          assert (Hq : exists r, p = q ++ r).
          { exists (skipn (length q) p).
            assert (Ef : firstn (length q) p = q).
            { apply (f_equal (firstn (length q))) in E. rewrite firstn_length_app in E.
              rewrite firstn_app in E. replace (length q - length p) with 0 in E by lia.
              rewrite firstn_O, app_nil_r in E. exact E. }
            rewrite <- (firstn_skipn (length q) p) at 1. rewrite Ef. reflexivity. }
          destruct Hq as (r & ->). rewrite <- app_assoc in E, E'. apply app_inv_head in E, E'.
          subst t. clear - E' Hxy.
          revert c' E'. induction r as [|d r IH]; intros c' E'; simpl in E'.
          + injection E' as E1 E2. congruence.
          + injection E' as E1 E2. eapply IH. exact E2.
        - (* q extends p ++ [y; x]... *)
          assert (Hq : exists r, q = p ++ y :: y :: r \/ (q = p ++ [y; y] /\ r = [])).
          { exists (skipn (length p + 2) q). left.
            assert (Ef : firstn (length p + 2) q = p ++ [y; y]).
            { apply (f_equal (firstn (length p + 2))) in E.
              rewrite (firstn_app _ q) in E. replace (length p + 2 - length q) with 0 in E by lia.
              rewrite firstn_O, app_nil_r in E. rewrite <- E. rewrite firstn_app.
              rewrite firstn_all2 by lia. replace (length p + 2 - length p) with 2 by lia. reflexivity. }
            rewrite <- (firstn_skipn (length p + 2) q) at 1. rewrite Ef, <- app_assoc. reflexivity. }
          destruct Hq as (r & [->|[-> ->]]); rewrite <- app_assoc in E'; apply app_inv_head in E';
            simpl in E'; injection E' as E1 _; congruence. }
      assert (Eq : q = p ++ [y]).
      { apply (f_equal (firstn (length q))) in E. rewrite firstn_length_app, Hpos in E. rewrite <- E.
        rewrite firstn_app, firstn_all2 by lia. replace (length p + 1 - length p) with 1 by lia. reflexivity. }
      subst q. rewrite <- app_assoc in E. apply app_inv_head in E. simpl in E. injection E as <-.
      eapply Hc; reflexivity.
    + assert (length k = S (length B)) by (rewrite Ek', E', !app_length; simpl; lia). lia.
    + assert (~ In flag k).
      { rewrite Ek'. destruct (HinB _ _ E') as [G1 G2]. rewrite in_app_iff. simpl in *. tauto. }
      contradiction.
  - assert (Hl : length k = length A) by (rewrite Ek, E, !app_length; reflexivity).
    assert (~ In flag k).
    { rewrite Ek. destruct (Hin _ _ E) as [G1 G2]. rewrite in_app_iff. simpl in *. tauto. }
    destruct HkB; [contradiction|lia].
Qed.

Lemma share_key_iff (A B : str) flag : ~ In flag A -> ~ In flag B ->
  (share (levenshtein_1d_keys A false flag) (levenshtein_1d_keys B false flag) <->
   lev_le 1 A B /\ ~ splits_double A B /\ ~ splits_double B A).
Proof.
  intros HA HB. split.
  - intros Hs. split; [eapply keys_sound_lev; eassumption|]. split; intros Hd.
    + eapply keys_missed; [exact HA|exact HB|exact Hd|exact Hs].
    + eapply keys_missed; [exact HB|exact HA|exact Hd|apply share_sym; exact Hs].
  - intros (Hl & H1 & H2). destruct (keys_complete_lev A B false flag Hl) as [?|[?|?]]; [assumption|contradiction..].
Qed.

(** number of keys *)
Lemma keys_at_length string tr flag i :
  length (keys_at string tr flag i) <= 2 + if tr && Nat.ltb 0 i then 1 else 0.
Proof.
  unfold keys_at. rewrite !app_length. destruct (Nat.ltb 0 i), tr; cbn [andb];
    repeat match goal with |- context [N.eqb ?x ?y] => destruct (N.eqb x y) end; simpl; lia.
Qed.

Lemma keys_length string tr flag :
  length (levenshtein_1d_keys string tr flag) <=
    2 * length string + 2 + if tr then length string - 1 else 0.
Proof.
  unfold levenshtein_1d_keys. cbn [length]. rewrite app_length. cbn [length].
  assert (G : forall n i, length (flat_map (keys_at string tr flag) (seq i n)) <=
    2 * n + if tr then (if Nat.eqb i 0 then n - 1 else n) else 0).
  { induction n as [|n IH]; intros i; [destruct tr, (Nat.eqb i 0); simpl; lia|].
    cbn [seq flat_map]. rewrite app_length. specialize (IH (S i)). pose proof (keys_at_length string tr flag i) as K.
    destruct tr; cbn [andb] in K; simpl Nat.eqb in IH; cbv iota in *; [|lia].
    destruct i as [|i]; simpl Nat.eqb.
    - change (0 <? 0) with false in K. cbv iota in *. lia.
    - change (0 <? S i) with true in K. cbv iota in *. lia. }
  specialize (G (length string) 0). simpl Nat.eqb in G. destruct tr; lia.
Qed.

(** ** Blocks *)
Lemma firstn_app_le {A} n (u v : list A) : n <= length u -> firstn n (u ++ v) = firstn n u.
Proof. intros H. rewrite firstn_app. replace (n - length u) with 0 by lia. rewrite firstn_O. apply app_nil_r. Qed.

Lemma skipn_app_ge {A} n (u v : list A) : length u <= n -> skipn n (u ++ v) = skipn (n - length u) v.
Proof. intros H. rewrite skipn_app, skipn_all2 by lia. reflexivity. Qed.

(** common prefixes and suffixes of u ++ x ++ v and u ++ y ++ v *)
Lemma same_prefix {A} n (u x y : list A) : n <= length u -> firstn n (u ++ x) = firstn n (u ++ y).
Proof. intros H. rewrite !firstn_app_le by exact H. reflexivity. Qed.

Lemma same_suffix {A} n m (x y v : list A) : length x <= n -> length y <= m -> n - length x = m - length y ->
  skipn n (x ++ v) = skipn m (y ++ v).
Proof. intros H1 H2 H3. rewrite !skipn_app_ge by assumption. rewrite H3. reflexivity. Qed.

Lemma same_slice {A} i j i' j' (x y v z t : list A) :
  length x <= i -> length y <= i' -> i - length x = i' - length y -> j - i = j' - i' ->
  j <= length x + length v ->
  slice i j (x ++ v ++ z) = slice i' j' (y ++ v ++ t).
Proof.
  intros H1 H2 H3 H4 H5. unfold slice. rewrite (skipn_app_ge i x), (skipn_app_ge i' y) by assumption. rewrite H3, H4.
  destruct (Nat.le_gt_cases (i' - length y) (length v)) as [Hc|Hc].
  - rewrite !skipn_app. replace (i' - length y - length v) with 0 by lia. cbn [skipn].
    apply same_prefix. rewrite skipn_length. lia.
  - replace (j' - i') with 0 by lia. reflexivity.
Qed.

(** blocks by parity *)
Lemma even_odd n : (exists h, n = 2 * h) \/ (exists h, n = 2 * h + 1).
Proof.
  destruct (Nat.Even_or_Odd n) as [[h E]|[h E]]; eauto.
Qed.

Lemma blocks_even string tr flag h : length string = 2 * h ->
  incl [flag :: firstn h string; skipn h string ++ [flag]] (levenshtein_1d_blocks string tr flag).
Proof.
  intros E. unfold levenshtein_1d_blocks. rewrite E.
  destruct (Nat.eqb_spec (2 * h) 1); [lia|].
  replace ((2 * h) mod 2) with 0 by (rewrite Nat.mul_comm, Nat.mod_mul; lia).
  replace (2 * h / 2) with h by (rewrite Nat.mul_comm, Nat.div_mul; lia).
  simpl Nat.eqb. cbv iota zeta. intros k Hk. destruct tr; [|exact Hk].
  simpl in Hk |- *. tauto.
Qed.

Lemma div2_odd h : (2 * h + 1) / 2 = h.
Proof. symmetry. apply (Nat.div_unique _ _ _ 1); lia. Qed.
Lemma mod2_odd h : (2 * h + 1) mod 2 = 1.
Proof. symmetry. apply (Nat.mod_unique _ _ h 1); lia. Qed.

Lemma blocks_odd string tr flag h : length string = 2 * h + 1 -> 1 <= h ->
  incl [flag :: firstn h string; skipn h string ++ [flag];
        flag :: firstn (h + 1) string; skipn (h + 1) string ++ [flag]] (levenshtein_1d_blocks string tr flag).
Proof.
  intros E Hh. unfold levenshtein_1d_blocks. rewrite E.
  destruct (Nat.eqb_spec (2 * h + 1) 1); [lia|].
  rewrite mod2_odd, div2_odd. apply incl_refl.
Qed.

Lemma blocks_one c tr flag : levenshtein_1d_blocks [c] tr flag = [[flag; c]; [c; flag]; [flag]].
Proof. reflexivity. Qed.

Lemma share_incl {A} (l l' m m' : list A) : incl l l' -> incl m m' -> share l m -> share l' m'.
Proof. intros H1 H2 (k & Hk & Hk'). exists k. auto. Qed.

Lemma blocks_insertion u d v tr flag :
  share (levenshtein_1d_blocks (u ++ v) tr flag) (levenshtein_1d_blocks (u ++ d :: v) tr flag).
Proof.
  change (d :: v) with ([d] ++ v).
  assert (Hl : length (u ++ [d] ++ v) = S (length (u ++ v))) by (rewrite !app_length; simpl; lia).
  assert (HA : length (u ++ v) = length u + length v) by apply app_length.
  assert (Hsuf : forall n, length u < n -> skipn n (u ++ [d] ++ v) = skipn (n - 1) (u ++ v)).
  { intros n Hn. rewrite app_assoc. rewrite !skipn_app_ge; rewrite ?app_length; simpl; try lia.
    f_equal. lia. }
  assert (Hpre : forall n, n <= length u -> firstn n (u ++ [d] ++ v) = firstn n (u ++ v)).
  { intros n Hn. apply same_prefix. exact Hn. }
  set (A := u ++ v) in *. set (B := u ++ [d] ++ v) in *.
  destruct (even_odd (length A)) as [[m Hm]|[m Hm]].
  - assert (HB : length B = 2 * m + 1) by lia.
    destruct m as [|m].
    + destruct A as [|] eqn:EA; [|simpl in Hm; lia]. destruct B as [|e [|]]; simpl in HB; try lia.
      exists [flag]. split; [|rewrite blocks_one; simpl; auto].
      apply (blocks_even [] tr flag 0 eq_refl). simpl. auto.
    + eapply share_incl; [apply (blocks_even A tr flag (S m)); lia|apply (blocks_odd B tr flag (S m)); lia|].
      destruct (Nat.le_gt_cases (S m) (length u)) as [Hc|Hc].
      * exists (flag :: firstn (S m) A). split; [left; reflexivity|]. left. rewrite Hpre by exact Hc. reflexivity.
      * exists (skipn (S m) A ++ [flag]). split; [right; left; reflexivity|].
        do 3 right. left. rewrite Hsuf by lia. do 2 f_equal. lia.
  - assert (HB : length B = 2 * (m + 1)) by lia.
    destruct m as [|m].
    + destruct A as [|c [|]] eqn:EA; simpl in Hm; try lia.
      eapply share_incl; [apply incl_refl|apply (blocks_even B tr flag 1); lia|].
      rewrite blocks_one.
      destruct (Nat.le_gt_cases 1 (length u)) as [Hc|Hc].
      * exists [flag; c]. split; [simpl; auto|]. left. rewrite Hpre by exact Hc. reflexivity.
      * exists [c; flag]. split; [simpl; auto|]. right. left. rewrite Hsuf by lia. reflexivity.
    + eapply share_incl; [apply (blocks_odd A tr flag (S m)); lia|apply (blocks_even B tr flag (S m + 1)); lia|].
      destruct (Nat.le_gt_cases (S m + 1) (length u)) as [Hc|Hc].
      * exists (flag :: firstn (S m + 1) A). split; [do 2 right; left; reflexivity|].
        left. rewrite Hpre by exact Hc. reflexivity.
      * exists (skipn (S m) A ++ [flag]). split; [right; left; reflexivity|].
        right. left. rewrite Hsuf by lia. do 2 f_equal. lia.
Qed.

(** a replacement of a part of x letters by another at the same place, not over the cut h *)
Lemma blocks_replace u x y v tr flag : length x = length y ->
  (forall h, length (u ++ x ++ v) = 2 * h -> length u + length x <= h \/ h <= length u) ->
  (forall h, length (u ++ x ++ v) = 2 * h + 1 -> 1 <= h -> length x <= 2) ->
  (length (u ++ x ++ v) <> 1 \/ length x <= 1) ->
  share (levenshtein_1d_blocks (u ++ x ++ v) tr flag) (levenshtein_1d_blocks (u ++ y ++ v) tr flag).
Proof.
  intros Hxy Heven Hodd Hone.
  assert (Hl : length (u ++ y ++ v) = length (u ++ x ++ v)) by (rewrite !app_length; lia).
  assert (HA : length (u ++ x ++ v) = length u + (length x + length v)) by (rewrite !app_length; lia).
  assert (Hsuf : forall n, length u + length x <= n -> skipn n (u ++ y ++ v) = skipn n (u ++ x ++ v)).
  { intros n Hn. rewrite !(app_assoc u). apply same_suffix; rewrite ?app_length; lia. }
  assert (Hpre : forall n, n <= length u -> firstn n (u ++ y ++ v) = firstn n (u ++ x ++ v)).
  { intros n Hn. apply same_prefix. exact Hn. }
  set (A := u ++ x ++ v) in *. set (B := u ++ y ++ v) in *.
  destruct (even_odd (length A)) as [[m Hm]|[m Hm]].
  - eapply share_incl; [apply (blocks_even A tr flag m); lia|apply (blocks_even B tr flag m); lia|].
    destruct (Heven m Hm) as [Hc|Hc].
    + exists (skipn m A ++ [flag]). split; [right; left; reflexivity|]. right. left. rewrite Hsuf by exact Hc. reflexivity.
    + exists (flag :: firstn m A). split; [left; reflexivity|]. left. rewrite Hpre by exact Hc. reflexivity.
  - destruct m as [|m].
    + destruct A as [|c [|]] eqn:EA; simpl in Hm; try lia. destruct B as [|e [|]]; simpl in Hl; try lia.
      rewrite !blocks_one. exists [flag]. simpl. auto.
    + eapply share_incl; [apply (blocks_odd A tr flag (S m)); lia|apply (blocks_odd B tr flag (S m)); lia|].
      specialize (Hodd (S m) Hm ltac:(lia)).
      destruct (Nat.le_gt_cases (S m + 1) (length u)) as [H1|H1];
        [|destruct (Nat.le_gt_cases (S m) (length u)) as [H2|H2];
          [|destruct (Nat.le_gt_cases (length u + length x) (S m)) as [H3|H3]]].
      * exists (flag :: firstn (S m) A). split; [left; reflexivity|]. left. rewrite Hpre by lia. reflexivity.
      * exists (flag :: firstn (S m) A). split; [left; reflexivity|]. left. rewrite Hpre by lia. reflexivity.
      * exists (skipn (S m) A ++ [flag]). split; [right; left; reflexivity|]. right. left.
        rewrite Hsuf by lia. reflexivity.
      * exists (skipn (S m + 1) A ++ [flag]). split; [do 3 right; left; reflexivity|]. do 3 right. left.
        rewrite Hsuf by lia. reflexivity.
Qed.

Lemma blocks_nonempty string tr flag : exists k, In k (levenshtein_1d_blocks string tr flag).
Proof.
  unfold levenshtein_1d_blocks. cbv zeta. destruct (Nat.eqb _ 1); [eexists; left; reflexivity|].
  destruct (Nat.eqb _ 0); [destruct tr|]; eexists; left; reflexivity.
Qed.

Lemma blocks_complete_lev A B tr flag : lev_le 1 A B ->
  share (levenshtein_1d_blocks A tr flag) (levenshtein_1d_blocks B tr flag).
Proof.
  intros H. apply lev_le_1_split in H as (u & x & y & v & -> & -> & H1 & H2).
  apply length_le_1 in H1, H2. destruct H1 as [->|(c & ->)], H2 as [->|(d & ->)]; simpl app.
  - destruct (blocks_nonempty (u ++ v) tr flag) as (k & Hk). exists k. auto.
  - apply blocks_insertion.
  - apply share_sym, blocks_insertion.
  - apply (blocks_replace u [c] [d] v); [reflexivity| |simpl; lia|simpl; lia].
    simpl. intros h _. lia.
Qed.

Lemma blocks_even_transposed string flag h : length string = 2 * h -> 1 <= h ->
  levenshtein_1d_blocks string true flag =
  [flag :: firstn h string; skipn h string ++ [flag];
   flag :: firstn (h - 1) string ++ [nth h string 0%N];
   nth (h - 1) string 0%N :: skipn (h + 1) string ++ [flag]].
Proof.
  intros E Hh. unfold levenshtein_1d_blocks. rewrite E.
  destruct (Nat.eqb_spec (2 * h) 1); [lia|].
  replace ((2 * h) mod 2) with 0 by (rewrite Nat.mul_comm, Nat.mod_mul; lia).
  replace (2 * h / 2) with h by (rewrite Nat.mul_comm, Nat.div_mul; lia).
  simpl Nat.eqb. cbv iota zeta.
  destruct (nth_split string 0%N (n := h)) as (p & s & Es & Hp); [lia|].
  assert (E0 : nth 0 (skipn h string ++ [flag]) 0%N = nth h string 0%N).
  { rewrite Es at 1. rewrite <- Hp at 1. rewrite skipn_length_app. reflexivity. }
  rewrite E0.
  assert (E1 : last (flag :: firstn h string) 0%N = nth (h - 1) string 0%N).
  { destruct (nth_split string 0%N (n := h - 1)) as (p' & s' & Es' & Hp'); [lia|].
    rewrite Es' at 1.
    change (p' ++ nth (h - 1) string 0%N :: s') with (p' ++ [nth (h - 1) string 0%N] ++ s').
    rewrite app_assoc. rewrite firstn_app_le by (rewrite app_length; simpl; lia).
    rewrite firstn_all2 by (rewrite app_length; simpl; lia).
    rewrite app_comm_cons. apply last_last. }
  rewrite E1. reflexivity.
Qed.

Lemma blocks_complete_swap A B flag : swap1 A B ->
  share (levenshtein_1d_blocks A true flag) (levenshtein_1d_blocks B true flag).
Proof.
  intros [l x y r].
  destruct (Nat.eq_dec (length (l ++ x :: y :: r)) (2 * (length l + 1))) as [E|E].
  - (* over the middle *)
    rewrite (blocks_even_transposed (l ++ x :: y :: r) flag (length l + 1)); [|lia|lia].
    rewrite (blocks_even_transposed (l ++ y :: x :: r) flag (length l + 1));
      [|rewrite app_length in *; simpl in *; lia|lia].
    exists (flag :: firstn (length l + 1) (l ++ x :: y :: r)). split; [left; reflexivity|].
    do 2 right. left. f_equal. replace (length l + 1 - 1) with (length l) by lia.
    rewrite firstn_length_app.
    change (l ++ y :: x :: r) with (l ++ [y] ++ x :: r). change (l ++ x :: y :: r) with (l ++ [x] ++ y :: r).
    rewrite !app_assoc. replace (length l + 1) with (length (l ++ [x])) at 2 by (rewrite app_length; reflexivity).
    rewrite firstn_length_app.
    replace (length l + 1) with (length (l ++ [y])) by (rewrite app_length; reflexivity).
    rewrite nth_middle. reflexivity.
  - apply (blocks_replace l [x; y] [y; x] r); [reflexivity| |simpl; lia|].
    + intros h Hh. simpl in Hh. simpl. lia.
    + left. rewrite !app_length. simpl. lia.
Qed.

Lemma blocks_complete_damerau A B flag : damerau_le 1 A B ->
  share (levenshtein_1d_blocks A true flag) (levenshtein_1d_blocks B true flag).
Proof.
  intros H. apply damerau_le_1 in H as [H|H]; [apply blocks_complete_lev|apply blocks_complete_swap]; exact H.
Qed.

Lemma blocks_count string tr flag : length (levenshtein_1d_blocks string tr flag) <= 4.
Proof.
  unfold levenshtein_1d_blocks. cbv zeta. destruct (Nat.eqb _ 1); [simpl; lia|].
  destruct (Nat.eqb _ 0); [destruct tr|]; simpl; lia.
Qed.

(** ** Blocks for two edits *)
Inductive part := First | Middle | Last.

Definition geometry (n : nat) : list (part * nat * nat) :=
  let h1 := n / 3 in
  let h := h1 + 1 in
  match n mod 3 with
  | 0 => [(First, 0, h1); (Middle, h1, h1 * 2); (Last, h1 * 2, n)]
  | 2 => [(First, 0, h); (Middle, h, h * 2); (Last, h * 2, n);
          (First, 0, h1); (Middle, h1, h + h1); (Last, h + h1, n); (Middle, h, h + h1)]
  | _ => [(First, 0, h); (Middle, h, h + h1); (Last, h + h1, n);
          (First, 0, h1); (Middle, h1, h1 + h); (Middle, h1, h1 * 2); (Last, h1 * 2, n)]
  end.

(** sizes of the three common parts and of both pairs of differing parts *)
Definition covered (p0 a1 b1 p1 a2 b2 p2 n m : nat) : Prop :=
  exists k i j i' j', In (k, i, j) (geometry n) /\ In (k, i', j') (geometry m) /\
   match k with
   | First => i = 0 /\ i' = 0 /\ j = j' /\ j <= p0
   | Last => j = n /\ j' = m /\ n - i = m - i' /\ i <= n /\ i' <= m /\ n - i <= p2
   | Middle => p0 + a1 <= i /\ p0 + b1 <= i' /\ i - (p0 + a1) = i' - (p0 + b1) /\ j - i = j' - i' /\
               i <= j /\ i' <= j' /\ j <= p0 + a1 + p1
   end.

Lemma geometry_0 h n : n = 3 * h -> geometry n = [(First, 0, h); (Middle, h, h * 2); (Last, h * 2, n)].
Proof.
  intros E. unfold geometry.
  rewrite <- (Nat.div_unique n 3 h 0), <- (Nat.mod_unique n 3 h 0) by lia. reflexivity.
Qed.
Lemma geometry_1 h n : n = 3 * h + 1 -> geometry n =
  [(First, 0, h + 1); (Middle, h + 1, h + 1 + h); (Last, h + 1 + h, n);
   (First, 0, h); (Middle, h, h + (h + 1)); (Middle, h, h * 2); (Last, h * 2, n)].
Proof.
  intros E. unfold geometry.
  rewrite <- (Nat.div_unique n 3 h 1), <- (Nat.mod_unique n 3 h 1) by lia. reflexivity.
Qed.
Lemma geometry_2 h n : n = 3 * h + 2 -> geometry n =
  [(First, 0, h + 1); (Middle, h + 1, (h + 1) * 2); (Last, (h + 1) * 2, n);
   (First, 0, h); (Middle, h, h + 1 + h); (Last, h + 1 + h, n); (Middle, h + 1, h + 1 + h)].
Proof.
  intros E. unfold geometry.
  rewrite <- (Nat.div_unique n 3 h 2), <- (Nat.mod_unique n 3 h 2) by lia. reflexivity.
Qed.

Lemma thirds n : exists h, n = 3 * h \/ n = 3 * h + 1 \/ n = 3 * h + 2.
Proof. exists (n / 3). pose proof (Nat.div_mod n 3). pose proof (Nat.mod_upper_bound n 3). lia. Qed.

Ltac find_in := (left; reflexivity) + (right; find_in).
Ltac try_part k :=
  exists k; do 4 eexists; split; [find_in|]; split; [find_in|]; cbv beta iota; repeat split; lia.

Ltac finish c p0 p2 a1 b1 :=
  destruct (le_lt_dec c p0); [solve [try_part First]|];
  destruct (le_lt_dec c p2); [solve [try_part Last]|];
  destruct (lt_eq_lt_dec a1 b1) as [[?|?]|?];
  destruct (Nat.eq_dec (p0 + 1) c); destruct (Nat.eq_dec (p2 + 1) c); first [lia | solve [try_part Middle]].

Lemma covered_le p0 a1 b1 p1 a2 b2 p2 n m : a1 <= 1 -> b1 <= 1 -> a2 <= 1 -> b2 <= 1 ->
  n = p0 + a1 + p1 + a2 + p2 -> m = p0 + b1 + p1 + b2 + p2 -> n <= m ->
  (n = m -> n mod 3 = 0 -> a1 = b1) ->
  covered p0 a1 b1 p1 a2 b2 p2 n m.
Proof.
  intros Ha1 Hb1 Ha2 Hb2 En Em Hnm Hbad.
  assert (Hbad' : forall h, n = 3 * h -> n = m -> a1 = b1).
  { intros h E1 E2. apply Hbad; [exact E2|]. rewrite E1, Nat.mul_comm. apply Nat.mod_mul. lia. }
  clear Hbad. unfold covered.
  destruct (thirds n) as [h Hn].
  assert (Hm : m = n \/ m = n + 1 \/ m = n + 2) by lia.
  destruct Hn as [Hn|[Hn|Hn]]; destruct Hm as [Hm|[Hm|Hm]].
  all: clear Hnm.
  all: [> specialize (Hbad' h Hn ltac:(lia)) | clear Hbad' ..].
  - rewrite (geometry_0 h n Hn), (geometry_0 h m) by lia. finish h p0 p2 a1 b1.
  - rewrite (geometry_0 h n Hn), (geometry_1 h m) by lia. finish h p0 p2 a1 b1.
  - rewrite (geometry_0 h n Hn), (geometry_2 h m) by lia. finish h p0 p2 a1 b1.
  - rewrite (geometry_1 h n Hn), (geometry_1 h m) by lia. finish h p0 p2 a1 b1.
  - rewrite (geometry_1 h n Hn), (geometry_2 h m) by lia. finish h p0 p2 a1 b1.
  - rewrite (geometry_1 h n Hn), (geometry_0 (h + 1) m) by lia. finish (h + 1) p0 p2 a1 b1.
  - rewrite (geometry_2 h n Hn), (geometry_2 h m) by lia. finish h p0 p2 a1 b1.
  - rewrite (geometry_2 h n Hn), (geometry_0 (h + 1) m) by lia. finish (h + 1) p0 p2 a1 b1.
  - rewrite (geometry_2 h n Hn), (geometry_1 (h + 1) m) by lia. finish (h + 1) p0 p2 a1 b1.
Qed.

Definition block (string : str) (flag1 flag2 flag3 : N) (g : part * nat * nat) : str :=
  let '(k, i, j) := g in
  (match k with First => flag1 | Middle => flag2 | Last => flag3 end) :: slice i j string.

Lemma slice_0 {A} j (l : list A) : slice 0 j l = firstn j l.
Proof. unfold slice. rewrite Nat.sub_0_r. reflexivity. Qed.
Lemma slice_end {A} i (l : list A) : slice i (length l) l = skipn i l.
Proof. unfold slice. apply firstn_all2. rewrite skipn_length. lia. Qed.

Lemma char_at_Ok string i : i < length string -> exists c, char_at string i = Ok c.
Proof.
  intros H. unfold char_at. apply nth_error_Some in H. destruct (nth_error string i); [eauto|contradiction].
Qed.

Lemma blocks2_total string tr f1 f2 f3 : (tr = true -> string <> []) ->
  exists l, levenshtein_2d_blocks string tr f1 f2 f3 = Ok l.
Proof.
  intros H. unfold levenshtein_2d_blocks. cbv zeta.
  destruct (Nat.eqb_spec (length string mod 3) 0) as [E|E]; [|destruct (Nat.eqb _ 2); eauto].
  destruct tr; [|eauto].
  assert (Hn : length string <> 0) by (intros G; apply length_zero_iff_nil in G; apply H; auto).
  pose proof (Nat.div_mod (length string) 3 ltac:(lia)) as Ed. set (h := length string / 3) in *.
  destruct (char_at_Ok string h) as (c1 & ->); [lia|].
  destruct (char_at_Ok string (h - 1)) as (c2 & ->); [lia|].
  destruct (char_at_Ok string (h * 2 - 1)) as (c3 & ->); [lia|].
  simpl. eauto.
Qed.

Lemma blocks2_geometry string tr f1 f2 f3 l : levenshtein_2d_blocks string tr f1 f2 f3 = Ok l ->
  incl (map (block string f1 f2 f3) (geometry (length string))) l.
Proof.
  unfold levenshtein_2d_blocks, geometry. cbv zeta.
  pose proof (Nat.mod_upper_bound (length string) 3 ltac:(lia)) as Hq.
  destruct (length string mod 3) as [|[|[|q]]]; [| | |lia]; simpl Nat.eqb; cbv iota.
  - assert (G : map (block string f1 f2 f3)
        [(First, 0, length string / 3); (Middle, length string / 3, length string / 3 * 2);
         (Last, length string / 3 * 2, length string)] =
        [f1 :: firstn (length string / 3) string; f2 :: slice (length string / 3) (length string / 3 * 2) string;
         f3 :: skipn (length string / 3 * 2) string]).
    { cbn [map block]. rewrite slice_0, slice_end. reflexivity. }
    rewrite G. destruct tr.
    + destruct (char_at _ _) as [c1|]; [|discriminate]. destruct (char_at _ _) as [c2|]; [|discriminate].
      destruct (char_at _ _) as [c3|]; [|discriminate]. cbn [bind]. intros E. injection E as <-.
      intros k Hk. simpl in Hk |- *. tauto.
    + intros E. injection E as <-. apply incl_refl.
  - intros E. injection E as <-. cbn [map block]. rewrite !slice_0, !slice_end. apply incl_refl.
  - intros E. injection E as <-. cbn [map block]. rewrite !slice_0, !slice_end. apply incl_refl.
Qed.

Lemma covered_sym p0 a1 b1 p1 a2 b2 p2 n m : n = p0 + a1 + p1 + a2 + p2 -> m = p0 + b1 + p1 + b2 + p2 ->
  covered p0 b1 a1 p1 b2 a2 p2 m n -> covered p0 a1 b1 p1 a2 b2 p2 n m.
Proof.
  intros En Em (k & i & j & i' & j' & H1 & H2 & H3). exists k, i', j', i, j. split; [exact H2|]. split; [exact H1|].
  destruct k; lia.
Qed.

Lemma covered_share (u x y v z t w : str) tr f1 f2 f3 l m :
  let A := u ++ x ++ v ++ z ++ w in
  let B := u ++ y ++ v ++ t ++ w in
  covered (length u) (length x) (length y) (length v) (length z) (length t) (length w) (length A) (length B) ->
  levenshtein_2d_blocks A tr f1 f2 f3 = Ok l -> levenshtein_2d_blocks B tr f1 f2 f3 = Ok m -> share l m.
Proof.
  intros A B (k & i & j & i' & j' & H1 & H2 & H3) EA EB.
  apply blocks2_geometry in EA, EB.
  exists (block A f1 f2 f3 (k, i, j)). split; [apply EA, in_map, H1|].
  replace (block A f1 f2 f3 (k, i, j)) with (block B f1 f2 f3 (k, i', j')); [apply EB, in_map, H2|].
  unfold block. f_equal. destruct k.
  - destruct H3 as (-> & -> & -> & Hj). rewrite !slice_0. apply same_prefix. exact Hj.
  - destruct H3 as (G1 & G2 & G3 & G4 & G5 & G6 & G7). symmetry.
    unfold A, B. rewrite !(app_assoc u).
    apply same_slice; rewrite ?app_length; lia.
  - destruct H3 as (-> & -> & G3 & G4 & G5 & G6). rewrite !slice_end.
    unfold A, B in *. rewrite !app_length in *. rewrite !app_assoc.
    apply same_suffix; rewrite !app_length; lia.
Qed.

Lemma hamming_split {A} n (a b : list A) : hamming_le (S n) a b ->
  exists u x y v w, a = u ++ x ++ v /\ b = u ++ y ++ w /\ length x <= 1 /\ length x = length y /\ hamming_le n v w.
Proof.
  remember (S n) as m eqn:E. intros H. revert n E. induction H as [m|m x a b H IH|m x y a b H IH]; intros n E.
  - exists [], [], [], [], []. simpl. repeat split; auto. constructor.
  - destruct (IH n E) as (u & c & d & v & w & -> & -> & H1 & H2 & H3). exists (x :: u), c, d, v, w. auto.
  - injection E as ->. exists [], [x], [y], a, b. simpl. auto.
Qed.

Lemma hamming_0 {A} (a b : list A) : hamming_le 0 a b -> a = b.
Proof. remember 0 as n. induction 1; try discriminate; [reflexivity|]. f_equal. auto. Qed.

Lemma blocks2_split (A B : str) : lev_le 2 A B ->
  (length A <> length B \/ length A mod 3 <> 0 \/ hamming_le 2 A B) ->
  exists u x y v z t w, A = u ++ x ++ v ++ z ++ w /\ B = u ++ y ++ v ++ t ++ w /\
    length x <= 1 /\ length y <= 1 /\ length z <= 1 /\ length t <= 1 /\
    (length A = length B -> length A mod 3 = 0 -> length x = length y).
Proof.
  intros Hl Hc.
  assert (Hd : hamming_le 2 A B \/ (length A <> length B \/ length A mod 3 <> 0)) by tauto.
  destruct Hd as [Hh|Hn].
  - apply hamming_split in Hh as (u & x & y & v' & w' & -> & -> & H1 & H2 & H3).
    apply hamming_split in H3 as (v & z & t & w & ww & -> & -> & H4 & H5 & H6).
    apply hamming_0 in H6. subst ww. exists u, x, y, v, z, t, w. repeat split; auto; lia.
  - apply lev_le_2_split in Hl as (u & x & y & v & z & t & w & EA & EB & H1 & H2 & H3 & H4).
    exists u, x, y, v, z, t, w. do 6 (split; [assumption|]). intros E1 E2.
    destruct Hn; contradiction.
Qed.

Lemma blocks2_complete (A B : str) tr f1 f2 f3 l m : lev_le 2 A B ->
  (length A <> length B \/ length A mod 3 <> 0 \/ hamming_le 2 A B) ->
  levenshtein_2d_blocks A tr f1 f2 f3 = Ok l -> levenshtein_2d_blocks B tr f1 f2 f3 = Ok m -> share l m.
Proof.
  intros Hl Hc EA EB.
  destruct (blocks2_split A B Hl Hc) as (u & x & y & v & z & t & w & -> & -> & H1 & H2 & H3 & H4 & H5).
  eapply covered_share; [|exact EA|exact EB].
  set (n := length (u ++ x ++ v ++ z ++ w)) in *. set (p := length (u ++ y ++ v ++ t ++ w)) in *.
  assert (En : n = length u + length x + length v + length z + length w) by (unfold n; rewrite !app_length; lia).
  assert (Ep : p = length u + length y + length v + length t + length w) by (unfold p; rewrite !app_length; lia).
  destruct (Nat.le_ge_cases n p).
  - apply covered_le; auto.
  - apply covered_sym; auto. apply covered_le; auto.
    intros E1 E2. symmetry. apply H5; [auto|rewrite <- E1; exact E2].
Qed.

Lemma blocks2_count string tr f1 f2 f3 l : levenshtein_2d_blocks string tr f1 f2 f3 = Ok l -> length l <= 7.
Proof.
  unfold levenshtein_2d_blocks. cbv zeta.
  destruct (Nat.eqb _ 0); [|destruct (Nat.eqb _ 2); intros E; injection E as <-; simpl; lia].
  destruct tr; [|intros E; injection E as <-; simpl; lia].
  destruct (char_at _ _) as [c1|]; [|discriminate]. destruct (char_at _ _) as [c2|]; [|discriminate].
  destruct (char_at _ _) as [c3|]; [|discriminate]. intros E; injection E as <-; simpl; lia.
Qed.

(** ** Statements of LevKeysProps *)
Lemma share_dec_false {A} `{EqDec A} (l m : list A) : existsb (fun k => memb k m) l = false -> ~ share l m.
Proof.
  intros E (k & H1 & H2). assert (existsb (fun k => memb k m) l = true); [|congruence].
  apply existsb_exists. exists k. split; [exact H1|]. apply memb_true. exact H2.
Qed.

Lemma keys_complete_refuted : exists A B, lev_le 1 A B /\ forall tr,
  ~ share (levenshtein_1d_keys A tr 0%N) (levenshtein_1d_keys B tr 0%N).
Proof.
  exists [97; 97]%N, [97; 98; 97]%N. split; [rewrite lev_le_lev; vm_compute; lia|].
  intros tr. apply share_dec_false. destruct tr; vm_compute; reflexivity.
Qed.

Lemma keys_complete_lev' A B tr flag : lev_le 1 A B -> ~ splits_double A B -> ~ splits_double B A ->
  share (levenshtein_1d_keys A tr flag) (levenshtein_1d_keys B tr flag).
Proof. intros H H1 H2. destruct (keys_complete_lev A B tr flag H) as [?|[?|?]]; [assumption|contradiction..]. Qed.

Lemma keys_complete_damerau' A B flag : damerau_le 1 A B -> ~ splits_double A B -> ~ splits_double B A ->
  share (levenshtein_1d_keys A true flag) (levenshtein_1d_keys B true flag).
Proof.
  intros H H1 H2. apply damerau_le_1 in H as [H|H]; [apply keys_complete_lev'; assumption|].
  apply keys_complete_swap. exact H.
Qed.

Lemma keys_exception (A B : str) tr flag : ~ In flag A -> ~ In flag B -> splits_double A B ->
  lev_le 1 A B /\
  ~ share (levenshtein_1d_keys A tr flag) (levenshtein_1d_keys B tr flag) /\
  ~ share (levenshtein_1d_keys B tr flag) (levenshtein_1d_keys A tr flag).
Proof.
  intros HA HB Hd. split; [|split].
  - destruct Hd as (p & x & y & s & _ & -> & ->). exists 1. split; [lia|].
    change (p ++ y :: y :: s) with (p ++ [y] ++ y :: s). change (p ++ y :: x :: y :: s) with (p ++ [y] ++ x :: y :: s).
    rewrite !app_assoc. econstructor; [apply edit_ins|constructor].
  - apply keys_missed; assumption.
  - intros Hs. eapply keys_missed; [exact HA|exact HB|exact Hd|apply share_sym; exact Hs].
Qed.

Lemma damerau_le_1_dec_false (A B : str) : transposition_loop A B false = false -> length A = length B ->
  ~ damerau_le 1 A B.
Proof.
  intros E Hl H. apply damerau_le_1 in H. rewrite lev_le_lev in H.
  apply transposition_loop_false in H; [congruence|exact Hl].
Qed.

Lemma keys_sound_refuted : exists A B, ~ In 0%N A /\ ~ In 0%N B /\
  share (levenshtein_1d_keys A true 0%N) (levenshtein_1d_keys B true 0%N) /\ ~ damerau_le 1 A B.
Proof.
  exists [97; 98; 99; 100]%N, [98; 97; 100; 99]%N. split; [|split; [|split]].
  - simpl. intuition discriminate.
  - simpl. intuition discriminate.
  - exists [98; 97; 99; 100]%N. vm_compute. tauto.
  - apply damerau_le_1_dec_false; reflexivity.
Qed.

Lemma blocks2_complete_refuted : exists A B l m, lev_le 2 A B /\
  levenshtein_2d_blocks A false 0 1 2 = Ok l /\ levenshtein_2d_blocks B false 0 1 2 = Ok m /\ ~ share l m.
Proof.
  exists [97; 98; 99; 100; 101; 102]%N, [98; 99; 100; 101; 102; 103]%N. do 2 eexists.
  split; [rewrite lev_le_lev; vm_compute; lia|]. split; [reflexivity|]. split; [reflexivity|].
  apply share_dec_false. vm_compute. reflexivity.
Qed.

Lemma blocks2_damerau_refuted : exists A B l m, damerau_le 2 A B /\
  levenshtein_2d_blocks A true 0 1 2 = Ok l /\ levenshtein_2d_blocks B true 0 1 2 = Ok m /\ ~ share l m.
Proof.
  exists [97; 98; 99; 100]%N, [98; 97; 100; 99]%N. do 2 eexists. split; [|split; [reflexivity|split; [reflexivity|]]].
  - exists 2. split; [lia|]. econstructor; [right; exact (swap_adj [] 97 98 [99; 100])%N|].
    econstructor; [right; exact (swap_adj [98; 97] 99 100 [])%N|constructor].
  - apply share_dec_false. vm_compute. reflexivity.
Qed.

Lemma blocks2_total_count string (tr : bool) f1 f2 f3 : (tr = true -> string <> []) ->
  exists l, levenshtein_2d_blocks string tr f1 f2 f3 = Ok l /\ length l <= 7.
Proof.
  intros H. destruct (blocks2_total string tr f1 f2 f3 H) as (l & E). exists l.
  split; [exact E|eapply blocks2_count; exact E].
Qed.
