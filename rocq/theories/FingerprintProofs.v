(** Proofs about the fingerprint tokenizers *)
From Coq Require Import Sorting.Sorted.
From Verif Require Import Base BaseFacts LevModel SortModel SortSpec SortFacts PassJoinModel StringsModel StringsSpec
  StringsProofs FingerprintModel FingerprintSpec.
Open Scope nat_scope.

(** ** the order of strings *)
Lemma str_le_lex a : forall b, str_le a b = true <-> a = b \/ lex_lt a b.
Proof.
  induction a as [|x a IH]; intros [|y b]; cbn [str_le].
  - split; auto.
  - split; auto. intros _. right. constructor.
  - split; [discriminate|]. intros [H|H]; [discriminate|inversion H].
  - rewrite orb_true_iff, andb_true_iff, N.ltb_lt, N.eqb_eq, IH. split.
    + intros [H|[-> [->|H]]]; [right; constructor 2; auto|auto|right; constructor 3; auto].
    + intros [H|H]; [injection H as -> ->; auto|]. inversion H; subst; auto.
Qed.

Lemma lex_trans a : forall b c, lex_lt a b -> lex_lt b c -> lex_lt a c.
Proof.
  induction a as [|x a IH]; intros b c H1 H2; inversion H1; subst; inversion H2; subst.
  - constructor.
  - constructor.
  - constructor; lia.
  - constructor; auto.
  - constructor; auto.
  - constructor 3. eauto.
Qed.

Lemma lex_irrefl a : ~ lex_lt a a.
Proof. induction a; intros H; inversion H; subst; auto. lia. Qed.

Lemma lex_total a : forall b, a = b \/ lex_lt a b \/ lex_lt b a.
Proof.
  induction a as [|x a IH]; intros [|y b].
  - auto.
  - right. left. constructor.
  - right. right. constructor.
  - destruct (N.lt_trichotomy x y) as [H|[->|H]].
    + right. left. constructor. auto.
    + destruct (IH b) as [->|[H|H]]; [auto|right; left|right; right]; constructor 3; auto.
    + right. right. constructor. auto.
Qed.

Lemma str_le_preorder : total_preorder str_le.
Proof.
  split.
  - intros a b. rewrite !str_le_lex. destruct (lex_total a b) as [H|[H|H]]; auto.
  - intros a b c. rewrite !str_le_lex. intros [->|H1] [->|H2]; auto. right. eapply lex_trans; eauto.
Qed.

Lemma sort_set_strict l : NoDup l -> StronglySorted lex_lt (sort_by str_le l).
Proof.
  intros Hn. pose proof (sort_by_sorted str_le str_le_preorder l) as Hs.
  assert (Hd : NoDup (sort_by str_le l)).
  { eapply Permutation_NoDup; [apply Permutation_sym, sort_by_perm|auto]. }
  induction Hs as [|x s Hs IH Hf]; constructor; inversion Hd; subst; auto.
  rewrite Forall_forall in *. intros y Hy. specialize (Hf y Hy). rewrite str_le_lex in Hf.
  destruct Hf as [->|Hf]; [contradiction|auto].
Qed.

Lemma strict_unique l : forall m, StronglySorted lex_lt l -> StronglySorted lex_lt m ->
  (forall x, In x l <-> In x m) -> l = m.
Proof.
  induction l as [|x l IH]; intros [|y m] Hl Hm H; auto.
  - exfalso. apply (proj2 (H y)). cbn. auto.
  - exfalso. apply (proj1 (H x)). cbn. auto.
  - inversion Hl; subst. inversion Hm; subst. rewrite Forall_forall in *.
    assert (x = y) as ->.
    { destruct (proj1 (H x)) as [E|E]; [cbn; auto|auto|]. destruct (proj2 (H y)) as [E'|E']; [cbn; auto|auto|].
      exfalso. apply (lex_irrefl x). eapply lex_trans; eauto. }
    f_equal. apply IH; auto. intros z. split; intros Hz.
    + destruct (proj1 (H z)) as [E|E]; [cbn; auto| |auto]. subst z. exfalso. apply (lex_irrefl y). auto.
    + destruct (proj2 (H z)) as [E|E]; [cbn; auto| |auto]. subst z. exfalso. apply (lex_irrefl y). auto.
Qed.

Lemma find_none_iff {A} (p : A -> bool) l : (forall x, In x l -> p x = false) -> find p l = None.
Proof. induction l; cbn; intros H; auto. rewrite H by auto. apply IHl. auto. Qed.

Section Fingerprint.
Variable set_order : list str -> list str.
Variable is_space is_digit is_word : N -> bool.
Variable same_ci : N -> N -> bool.
Variable lower unidecode : str -> str.
Hypothesis Hperm : forall l, Permutation (set_order l) l.

Local Notation nospace := (Forall (fun c => is_space c = false)).

(** the non-empty pieces *)
Fixpoint words (cur s : str) : list str :=
  match s with
  | [] => if Nat.eqb (length cur) 0 then [] else [cur]
  | c :: s' =>
    if is_space c then if Nat.eqb (length cur) 0 then words [] s' else cur :: words [] s'
    else words (cur ++ [c]) s'
  end.

Lemma words_pieces s : forall (b : bool) cur, (b = true -> cur = []) ->
  filter (fun p => negb (Nat.eqb (length p) 0)) (re_split is_space b cur s) = words cur s.
Proof.
  clear Hperm set_order. induction s as [|c s IH]; intros b cur Hb; cbn [re_split words].
  - cbn [filter]. destruct cur; reflexivity.
  - destruct (is_space c).
    + destruct b.
      * rewrite Hb by auto. cbn [length Nat.eqb]. apply IH. auto.
      * cbn [filter]. rewrite (IH true []) by auto. destruct cur; reflexivity.
    + apply IH. discriminate.
Qed.

Lemma words_nospace a : nospace a -> forall cur s, words cur (a ++ s) = words (cur ++ a) s.
Proof.
  clear Hperm set_order. induction 1 as [|c a Hc Ha IH]; intros cur s; cbn [app words]; [rewrite app_nil_r; auto|].
  rewrite Hc, IH, <- app_assoc. reflexivity.
Qed.

Lemma words_local c a b : is_space c = true -> forall cur, words cur (a ++ c :: b) = words cur a ++ words [] b.
Proof.
  clear Hperm set_order. intros Hc. induction a as [|d a IH]; intros cur; cbn [app words].
  - rewrite Hc. destruct cur; reflexivity.
  - destruct (is_space d); [|apply IH]. rewrite IH. destruct (Nat.eqb (length cur) 0); reflexivity.
Qed.

Lemma words_In s : forall cur t, nospace cur -> In t (words cur s) ->
  t <> [] /\ nospace t /\ exists p q, cur ++ s = p ++ t ++ q /\
    (p = [] \/ exists p' c, p = p' ++ [c] /\ is_space c = true) /\
    (q = [] \/ exists c q', q = c :: q' /\ is_space c = true).
Proof.
  clear Hperm set_order. induction s as [|c s IH]; intros cur t Hcur Hin; cbn [words] in Hin.
  - destruct cur as [|x cur]; [destruct Hin|]. destruct Hin as [<-|[]]. split; [discriminate|]. split; auto.
    exists [], []. auto.
  - destruct (is_space c) eqn:Hc.
    + assert (K : In t (words [] s) -> t <> [] /\ nospace t /\ (exists p q, cur ++ c :: s = p ++ t ++ q /\
        (p = [] \/ exists p' c, p = p' ++ [c] /\ is_space c = true) /\
        (q = [] \/ exists c q', q = c :: q' /\ is_space c = true))).
      { intros K. apply IH in K; [|constructor]. destruct K as [K1 [K2 [p [q [E [Hp Hq]]]]]].
        split; auto. split; auto. cbn [app] in E. exists (cur ++ c :: p), q. split.
        - rewrite E, <- app_assoc. reflexivity.
        - split; auto. right. destruct Hp as [->|[p' [d [-> Hd]]]].
          + exists cur, c. auto.
          + exists (cur ++ c :: p'), d. split; auto. rewrite <- app_assoc. reflexivity. }
      destruct cur as [|x cur]; cbn [length Nat.eqb] in Hin; auto.
      destruct Hin as [<-|Hin]; auto. split; [discriminate|]. split; auto.
      exists [], (c :: s). split; auto. split; auto. right. eauto.
    + apply IH in Hin; [|apply Forall_app; split; auto]. rewrite <- app_assoc in Hin. exact Hin.
Qed.

Lemma words_token s t : In t (words [] s) <-> token_of is_space s t.
Proof.
  clear Hperm set_order. split.
  - intros H. apply words_In in H; [|constructor]. exact H.
  - intros [H1 [H2 [p [q [-> [Hp Hq]]]]]].
    assert (K : In t (words [] (t ++ q))).
    { rewrite words_nospace by auto. cbn [app]. destruct t as [|x t]; [congruence|].
      destruct Hq as [->|[c [q' [-> Hc]]]]; cbn [words length Nat.eqb]; [|rewrite Hc]; cbn; auto. }
    destruct Hp as [->|[p' [c [-> Hc]]]]; auto.
    rewrite <- app_assoc. cbn [app]. rewrite words_local by auto. apply in_or_app. auto.
Qed.

(** *** strip *)
Lemma lstrip_split s : exists p, s = p ++ lstrip is_space s /\ Forall (fun c => is_space c = true) p /\
  match lstrip is_space s with [] => True | c :: _ => is_space c = false end.
Proof.
  clear Hperm set_order. induction s as [|c s [p [E [Hp H]]]]; cbn [lstrip]; [exists []; auto|].
  destruct (is_space c) eqn:Hc.
  - exists (c :: p). cbn. rewrite <- E. auto.
  - exists []. auto.
Qed.

Lemma strip_split s : exists p q, s = p ++ strip is_space s ++ q /\ Forall (fun c => is_space c = true) p /\
  Forall (fun c => is_space c = true) q /\
  (strip is_space s = [] \/
    (exists c r, strip is_space s = c :: r /\ is_space c = false) /\
    (exists r c, strip is_space s = r ++ [c] /\ is_space c = false)).
Proof.
  clear Hperm set_order. unfold strip. destruct (lstrip_split s) as [p [E [Hp H]]].
  set (m := lstrip is_space s) in *. clearbody m. subst s.
  destruct (lstrip_split (rev m)) as [q [E' [Hq H']]]. set (k := lstrip is_space (rev m)) in *. clearbody k.
  assert (E'' : m = rev k ++ rev q) by (rewrite <- rev_app_distr, <- E', rev_involutive; reflexivity).
  exists p, (rev q). rewrite <- E''. split; auto. split; auto. split; [apply Forall_rev; auto|].
  destruct k as [|c k]; [left; reflexivity|right]. cbn [rev]. split.
  - rewrite E'' in H. cbn [rev] in H. destruct (rev k) as [|d r]; cbn [app] in *; eauto.
  - eauto.
Qed.

Lemma words_spaces p : Forall (fun c => is_space c = true) p -> forall s, words [] (p ++ s) = words [] s.
Proof. clear Hperm set_order. induction 1; intros s; cbn [app words]; auto. rewrite H. apply IHForall. Qed.

Lemma words_spaces_end p s : Forall (fun c => is_space c = true) p -> words [] (s ++ p) = words [] s.
Proof.
  clear Hperm set_order. destruct 1 as [|c p Hc Hp]; [rewrite app_nil_r; reflexivity|].
  rewrite words_local by auto. rewrite <- (app_nil_r p), words_spaces by auto. apply app_nil_r.
Qed.

Lemma words_strip s : words [] (strip is_space s) = words [] s.
Proof.
  clear Hperm set_order. destruct (strip_split s) as [p [q [E [Hp [Hq _]]]]]. rewrite E at 2.
  rewrite words_spaces by auto. rewrite words_spaces_end by auto. reflexivity.
Qed.

(** *** squeeze *)
Lemma squeeze_sub_space g c a r : ~ In c a -> forall m, m <> Some c ->
  squeeze_sub g m (a ++ c :: r) = squeeze_sub g m a ++ c :: squeeze_sub g (if g c then Some c else None) r.
Proof.
  clear Hperm set_order. induction a as [|d a IH]; intros Hc m Hm; cbn [app squeeze_sub].
  - destruct (eq_dec m (Some c)); congruence.
  - cbn [In] in Hc. destruct (eq_dec m (Some d)).
    + apply IH; auto.
    + cbn [app]. rewrite IH; auto. intros E. destruct (g d); [|discriminate]. injection E as ->. tauto.
Qed.

Lemma squeeze_sub_word g c a : nospace a -> is_space c = true -> squeeze_sub g (Some c) a = squeeze_sub g None a.
Proof.
  clear Hperm set_order. intros Ha Hc. destruct Ha as [|d a Hd Ha]; auto. cbn [squeeze_sub].
  destruct (eq_dec (Some c) (Some d)) as [E|]; [congruence|].
  destruct (eq_dec None (Some d)) as [E|]; [congruence|]. reflexivity.
Qed.

Lemma squeeze_nospace g a : nospace a -> forall m, nospace (squeeze_sub g m a).
Proof.
  clear Hperm set_order. intros Ha m. rewrite Forall_forall in *. intros c Hc. apply Ha.
  eapply squeeze_sub_In; eauto.
Qed.

Lemma words_squeeze g s : forall a m, nospace a -> (m = None \/ exists c, m = Some c /\ is_space c = true) ->
  words [] (squeeze_sub g m (a ++ s)) = map (squeeze_sub g None) (words a s).
Proof.
  clear Hperm set_order. induction s as [|c s IH]; intros a m Ha Hm.
  - assert (squeeze_sub g m (a ++ []) = squeeze_sub g None a) as ->.
    { rewrite app_nil_r. destruct Hm as [->|[c [-> Hc]]]; auto. apply squeeze_sub_word; auto. }
    rewrite <- (app_nil_r (squeeze_sub g None a)). rewrite words_nospace by (apply squeeze_nospace; auto).
    cbn [app words]. destruct a as [|x a]; [reflexivity|].
    assert (E : squeeze_sub g None (x :: a) = x :: squeeze_sub g (if g x then Some x else None) a) by
      (cbn [squeeze_sub]; destruct (eq_dec None (Some x)); [congruence|reflexivity]).
    cbn [length Nat.eqb map]. rewrite E. reflexivity.
  - cbn [words]. destruct (is_space c) eqn:Hc.
    + assert (Hca : ~ In c a) by (rewrite Forall_forall in Ha; intros H; apply Ha in H; congruence).
      destruct a as [|x a].
      * cbn [app length Nat.eqb squeeze_sub]. destruct (eq_dec m (Some c)) as [->|].
        -- apply (IH [] (Some c)); eauto.
        -- cbn [words]. rewrite Hc. cbn [length Nat.eqb]. apply (IH []); auto. destruct (g c); eauto.
      * assert (E : squeeze_sub g m ((x :: a) ++ c :: s) = squeeze_sub g None ((x :: a) ++ c :: s)).
        { inversion Ha; subst. destruct Hm as [->|[d [-> Hd]]]; auto. cbn [app squeeze_sub].
          destruct (eq_dec (Some d) (Some x)) as [E|]; [congruence|].
          destruct (eq_dec None (Some x)) as [E|]; [congruence|]. reflexivity. }
        rewrite E, squeeze_sub_space by (auto; discriminate).
        rewrite words_local by auto. cbn [length Nat.eqb map].
        rewrite <- (app_nil_r (squeeze_sub g None (x :: a))) at 1.
        rewrite words_nospace by (apply squeeze_nospace; auto). cbn [app words].
        assert (E' : squeeze_sub g None (x :: a) = x :: squeeze_sub g (if g x then Some x else None) a) by
          (cbn [squeeze_sub]; destruct (eq_dec None (Some x)); [congruence|reflexivity]).
        assert (L : Nat.eqb (length (squeeze_sub g None (x :: a))) 0 = false) by (rewrite E'; reflexivity).
        rewrite L. cbn [app]. apply f_equal.
        apply (IH []); auto. destruct (g c); eauto.
    + replace (a ++ c :: s) with ((a ++ [c]) ++ s) by (rewrite <- app_assoc; reflexivity).
      apply IH; auto. apply Forall_app. auto.
Qed.

(** *** tokens of the tokenizer *)
Definition finish (o : options) : str -> str := if squeeze_tokens o then fun t => squeeze t false else fun t => t.

Lemma words_trim o s : words [] (trim is_space o s) = map (finish o) (words [] s).
Proof.
  clear Hperm set_order. unfold trim, finish. destruct (squeeze_tokens o).
  - unfold squeeze. cbv iota. pose proof (words_squeeze dot_matches (strip is_space s) [] None) as W. cbn [app] in W.
    rewrite W by auto. rewrite words_strip. reflexivity.
  - rewrite words_strip, map_id. reflexivity.
Qed.

Lemma re_split_no_empty s0 d : is_space d = false -> forall b cur, b = true \/ cur <> [] ->
  ~ In [] (re_split is_space b cur (s0 ++ [d])).
Proof.
  clear Hperm set_order. intros Hd. induction s0 as [|c s0 IH]; intros b cur Hb; cbn [app re_split].
  - rewrite Hd. cbn. intros [E|[]]. destruct cur; discriminate.
  - destruct (is_space c).
    + destruct b; [apply IH; auto|]. intros [E|E]; [destruct Hb; congruence|]. revert E. apply IH. auto.
    + apply IH. right. destruct cur; discriminate.
Qed.

Definition trimmed (s : str) : Prop := s = [] \/
    (exists c r, s = c :: r /\ is_space c = false) /\ (exists r c, s = r ++ [c] /\ is_space c = false).

Lemma re_split_trimmed s t : trimmed s ->
  (In t (re_split is_space false [] s) <-> In t (words [] s) \/ t = [] /\ words [] s = []).
Proof.
  clear Hperm set_order. intros Ht. rewrite <- (words_pieces s false []) by discriminate. rewrite filter_In.
  destruct Ht as [->|[[c [r [E Hc]]] [r' [c' [E' Hc']]]]].
  - cbn. split; [intros [<-|[]]; auto|]. intros [[[<-|[]] H]|[-> _]]; auto.
  - assert (~ In [] (re_split is_space false [] s)) as Hn.
    { destruct r' as [|x r'].
      - cbn [app] in E'. rewrite E'. cbn [re_split]. rewrite Hc'. cbn. intros [H|[]]. discriminate.
      - cbn [app] in E'. rewrite E in E'. injection E' as <- E'. rewrite E. cbn [re_split]. rewrite Hc. subst r. cbn [app].
        apply re_split_no_empty; auto. right. discriminate. }
    split.
    + intros H. left. split; auto. destruct t; [contradiction|]. reflexivity.
    + intros [H|[-> H]]; [tauto|]. exfalso. clear E'. subst s. cbn [re_split] in *. rewrite Hc in *. cbn [app] in *.
      assert (exists t, In t (re_split is_space false [c] r)) as [t H'].
      { clear. generalize false, [c]. induction r as [|d r IH]; intros b cur; cbn [re_split]; [eexists; cbn; eauto|].
        destruct (is_space d); [destruct b|]; eauto. eexists. cbn. eauto. }
      assert (In t []) as []. rewrite <- H. apply filter_In. split; auto. destruct t; [contradiction|reflexivity].
Qed.

Lemma squeeze_last g r c : forall m, m <> Some c -> exists r', squeeze_sub g m (r ++ [c]) = r' ++ [c].
Proof.
  clear Hperm set_order. intros m Hm.
  assert (L : forall m, (exists r', squeeze_sub g m (r ++ [c]) = r' ++ [c]) \/
      squeeze_sub g m (r ++ [c]) = [] /\ m = Some c).
  { clear m Hm. induction r as [|d r IH]; intros m; cbn [app squeeze_sub].
    - destruct (eq_dec m (Some c)); auto. left. exists []. reflexivity.
    - destruct (eq_dec m (Some d)).
      + apply IH.
      + left. destruct (IH (if g d then Some d else None)) as [[r' ->]|[-> E]].
        * exists (d :: r'). reflexivity.
        * destruct (g d); [|discriminate]. injection E as ->. exists []. reflexivity. }
  destruct (L m) as [H|[_ H]]; [auto|congruence].
Qed.

Lemma trim_trimmed o s : trimmed (trim is_space o s).
Proof.
  clear Hperm set_order. unfold trim. destruct (strip_split s) as [_ [_ [_ [_ [_ H]]]]].
  set (k := strip is_space s) in *. clearbody k. destruct (squeeze_tokens o); [|exact H].
  destruct H as [->|[[c [r [E Hc]]] [r' [c' [E' Hc']]]]]; [left; reflexivity|right]. split.
  - subst k. exists c. unfold squeeze. cbn [squeeze_sub]. destruct (eq_dec None (Some c)); [congruence|]. eauto.
  - rewrite E'. unfold squeeze. destruct (squeeze_last dot_matches r' c' None) as [r0 E0]; [discriminate|].
    cbv iota. rewrite E0. eauto.
Qed.

Local Notation normalize := (normalize is_space is_digit is_word same_ci lower unidecode).
Local Notation tokenize := (tokenize set_order is_space is_digit is_word same_ci lower unidecode).
Local Notation key := (key set_order is_space is_digit is_word same_ci lower unidecode).
Local Notation ngrams_tokenize := (ngrams_tokenize set_order is_space is_digit is_word same_ci lower unidecode).

Definition token_words (o : options) (s : str) : list str := map (finish o) (words [] (normalize o s)).

Lemma tokenize_In o s t : In t (tokenize o s) <-> In t (token_words o s) \/ t = [] /\ token_words o s = [].
Proof.
  unfold FingerprintModel.tokenize. rewrite sort_by_In.
  assert (P : forall l, In t (set_order l) <-> In t l).
  { intros l. split; apply Permutation_in; [|apply Permutation_sym]; apply Hperm. }
  rewrite P, set_of_In, re_split_trimmed by apply trim_trimmed. rewrite words_trim. reflexivity.
Qed.

Lemma tokenize_strict o s : StronglySorted lex_lt (tokenize o s).
Proof.
  apply sort_set_strict. eapply Permutation_NoDup; [apply Permutation_sym, Hperm|apply set_of_NoDup].
Qed.

Lemma ngrams_tokenize_strict o n s : StronglySorted lex_lt (ngrams_tokenize o n s).
Proof.
  apply sort_set_strict. eapply Permutation_NoDup; [apply Permutation_sym, Hperm|apply set_of_NoDup].
Qed.

Lemma ngrams_tokenize_In o n s g :
  In g (ngrams_tokenize o n s) <->
  In g (ngrams n (filter (fun c => negb (is_space c)) (trim is_space o (normalize o s)))).
Proof.
  unfold FingerprintModel.ngrams_tokenize. rewrite sort_by_In.
  assert (P : forall l, In g (set_order l) <-> In g l).
  { intros l. split; apply Permutation_in; [|apply Permutation_sym]; apply Hperm. }
  rewrite P, set_of_In. reflexivity.
Qed.

Lemma tokenize_words o s s' :
  (forall t, In t (words [] (normalize o s)) <-> In t (words [] (normalize o s'))) -> tokenize o s = tokenize o s'.
Proof.
  intros H. apply strict_unique; try apply tokenize_strict. intros t. rewrite !tokenize_In.
  assert (E : forall u, In u (token_words o s) <-> In u (token_words o s')).
  { intros u. unfold token_words. rewrite !in_map_iff. split; intros [v [E Hv]]; exists v; split; auto; apply H; auto. }
  assert (E0 : token_words o s = [] <-> token_words o s' = []).
  { split; intros E1.
    - destruct (token_words o s') as [|u l]; auto. exfalso. rewrite E1 in E. apply (E u). cbn. auto.
    - destruct (token_words o s) as [|u l]; auto. exfalso. rewrite E1 in E. apply (E u). cbn. auto. }
  rewrite E, E0. reflexivity.
Qed.

(** the tokens, for any options *)
Lemma tokenize_spec o s t : In t (tokenize o s) <->
  (exists u, token_of is_space (normalize o s) u /\ t = if squeeze_tokens o then squeeze u false else u) \/
  t = [] /\ (forall u, ~ token_of is_space (normalize o s) u).
Proof.
  rewrite tokenize_In. unfold token_words. rewrite in_map_iff.
  assert (E1 : (exists x, finish o x = t /\ In x (words [] (normalize o s))) <->
    (exists u, token_of is_space (normalize o s) u /\ t = if squeeze_tokens o then squeeze u false else u)).
  { unfold finish. split.
    - intros [u [<- Hu]]. exists u. apply words_token in Hu. split; auto. destruct (squeeze_tokens o); reflexivity.
    - intros [u [Hu ->]]. exists u. apply words_token in Hu. split; auto. destruct (squeeze_tokens o); reflexivity. }
  assert (E2 : map (finish o) (words [] (normalize o s)) = [] <-> (forall u, ~ token_of is_space (normalize o s) u)).
  { split.
    - intros E u Hu. apply words_token in Hu. destruct (words [] (normalize o s)); [destruct Hu|discriminate].
    - intros H. destruct (words [] (normalize o s)) as [|u l] eqn:E; auto. exfalso. apply (H u). apply words_token.
      rewrite E. cbn. auto. }
  rewrite E1, E2. reflexivity.
Qed.

(** *** case *)
Section Variants.
Variable variant : N -> N -> Prop.
Variable o : options.
Hypothesis variant_word : forall a b, variant a b -> is_word a = is_word b.
Hypothesis variant_digit : forall a b, variant a b -> is_digit a = is_digit b.
Hypothesis variant_ci : forall a b c, variant a b -> same_ci c a = same_ci c b.
Hypothesis variant_split : forall a b cs, variant a b -> split o = Some cs -> memb a cs = memb b cs.
Hypothesis variant_refl : forall a, variant a a.
Hypothesis variant_lower : forall a b, Forall2 variant a b -> lower a = lower b.

Lemma F2_nth s s' : Forall2 variant s s' -> forall n, wordat is_word (nth_error s n) = wordat is_word (nth_error s' n).
Proof. clear Hperm set_order. induction 1; intros [|n]; cbn; auto. Qed.

Lemma prefix_ci_variant s s' : Forall2 variant s s' -> forall w, prefix_ci same_ci w s = prefix_ci same_ci w s'.
Proof. clear Hperm set_order. induction 1; intros [|c w]; cbn [prefix_ci]; auto. rewrite IHForall2, (variant_ci x y); auto. Qed.

Lemma stopword_variant ws p p' s s' : wordat is_word p = wordat is_word p' -> Forall2 variant s s' ->
  stopword_match is_word same_ci ws p s = stopword_match is_word same_ci ws p' s'.
Proof.
  clear Hperm set_order. intros Hp H. unfold stopword_match.
  assert (E : forall w, (0 <? length w) && prefix_ci same_ci w s && bounded is_word p s (length w) =
    (0 <? length w) && prefix_ci same_ci w s' && bounded is_word p' s' (length w)).
  { intros w. unfold bounded, boundary. rewrite (prefix_ci_variant s s' H). rewrite !(F2_nth s s' H).
    rewrite Hp. replace (hd_error s) with (nth_error s 0) by (destruct s; auto).
    replace (hd_error s') with (nth_error s' 0) by (destruct s'; auto). rewrite (F2_nth s s' H). reflexivity. }
  assert (F : find (fun w => (0 <? length w) && prefix_ci same_ci w s && bounded is_word p s (length w)) ws =
    find (fun w => (0 <? length w) && prefix_ci same_ci w s' && bounded is_word p' s' (length w)) ws).
  { induction ws as [|w ws IH]; cbn [find]; auto. rewrite E, IH. reflexivity. }
  rewrite F. reflexivity.
Qed.

Lemma re_remove_variant ws s s' : Forall2 variant s s' -> forall p p' k, wordat is_word p = wordat is_word p' ->
  Forall2 variant (re_remove (stopword_match is_word same_ci ws) p k s)
    (re_remove (stopword_match is_word same_ci ws) p' k s').
Proof.
  clear Hperm set_order. induction 1 as [|c d s s' Hc Hs IH]; intros p p' k Hp; cbn [re_remove]; auto.
  assert (Hw : wordat is_word (Some c) = wordat is_word (Some d)) by (cbn; auto).
  destruct k as [|k]; [|apply IH; auto].
  rewrite (stopword_variant ws p p' (c :: s) (d :: s')) by auto.
  destruct (stopword_match is_word same_ci ws p' (d :: s')) as [[|k]|]; auto.
Qed.

Lemma normalize_variant s s' : Forall2 variant s s' -> normalize o s = normalize o s'.
Proof.
  clear Hperm set_order. intros H. unfold FingerprintModel.normalize.
  set (s1 := match split o with Some cs => map (fun c => if memb c cs then 32%N else c) s | None => s end).
  set (s1' := match split o with Some cs => map (fun c => if memb c cs then 32%N else c) s' | None => s' end).
  assert (H1 : Forall2 variant s1 s1').
  { unfold s1, s1'. destruct (split o) as [cs|] eqn:Ho; auto. clear -H Ho variant_split variant_refl.
    induction H; cbn [map]; constructor; auto. rewrite (variant_split x y cs) by auto. destruct (memb y cs); auto. }
  clearbody s1 s1'. clear H.
  set (s2 := match stopwords o with Some ws => re_remove (stopword_match is_word same_ci ws) None 0 s1 | None => s1 end).
  set (s2' := match stopwords o with Some ws => re_remove (stopword_match is_word same_ci ws) None 0 s1' | None => s1' end).
  assert (H2 : Forall2 variant s2 s2').
  { unfold s2, s2'. destruct (stopwords o) as [ws|]; auto. apply re_remove_variant; auto. }
  clearbody s2 s2'. clear H1.
  assert (H3 : lower (if keep_digits o then s2 else filter (fun c => negb (is_digit c)) s2) =
    lower (if keep_digits o then s2' else filter (fun c => negb (is_digit c)) s2')).
  { apply variant_lower. destruct (keep_digits o); auto. clear -H2 variant_digit.
    induction H2; cbn [filter]; auto. rewrite (variant_digit x y) by auto. destruct (is_digit y); cbn [negb]; auto. }
  rewrite H3. reflexivity.
Qed.

Lemma tokenize_variant s s' : Forall2 variant s s' -> tokenize o s = tokenize o s'.
Proof. intros H. unfold FingerprintModel.tokenize. rewrite (normalize_variant s s' H). reflexivity. Qed.

Lemma ngrams_tokenize_variant n s s' : Forall2 variant s s' -> ngrams_tokenize o n s = ngrams_tokenize o n s'.
Proof. intros H. unfold FingerprintModel.ngrams_tokenize. rewrite (normalize_variant s s' H). reflexivity. Qed.
End Variants.

(** *** order and repetition *)
Hypothesis space_32 : is_space 32%N = true.
Hypothesis word_32 : is_word 32%N = false.
Hypothesis digit_32 : is_digit 32%N = false.
Hypothesis lower_local : local lower.
Hypothesis unidecode_local : local unidecode.

(** a matcher that does not see over a space *)
Definition local_matcher (m : option N -> str -> option nat) : Prop :=
  (forall p a b, a <> [] -> m p (a ++ 32%N :: b) = m p a) /\
  (forall p b, m p (32%N :: b) = None) /\
  (forall s, m (Some 32%N) s = m None s) /\
  (forall p s n, m p s = Some n -> n <= length s).

Lemma re_remove_start m : local_matcher m -> forall s, re_remove m (Some 32%N) 0 s = re_remove m None 0 s.
Proof. clear Hperm set_order. intros [_ [_ [H _]]] [|c s]; auto. cbn [re_remove]. rewrite H. reflexivity. Qed.

Lemma re_remove_local m a b : local_matcher m -> forall p k, k <= length a ->
  re_remove m p k (a ++ 32%N :: b) = re_remove m p k a ++ 32%N :: re_remove m None 0 b.
Proof.
  clear Hperm set_order. intros Hm. induction a as [|c a IH]; intros p k Hk.
  - cbn [app length] in *. replace k with 0 by lia. cbn [re_remove]. destruct Hm as [M1 [M2 M3]]. rewrite M2.
    rewrite re_remove_start by (split; auto). reflexivity.
  - cbn [app length] in *. cbn [re_remove]. destruct k as [|k]; [|apply IH; lia].
    destruct Hm as [M1 [M2 [M3 M4]]]. change (c :: a ++ 32%N :: b) with ((c :: a) ++ 32%N :: b).
    rewrite M1 by discriminate. destruct (m p (c :: a)) as [[|k]|] eqn:E.
    + cbn [app]. rewrite IH by lia. reflexivity.
    + apply M4 in E. cbn [length] in E. apply IH. lia.
    + cbn [app]. rewrite IH by lia. reflexivity.
Qed.

Lemma wordat_app a b n : n <= length a -> wordat is_word (nth_error (a ++ 32%N :: b) n) = wordat is_word (nth_error a n).
Proof.
  clear - word_32. intros H. destruct (Nat.eq_dec n (length a)) as [->|].
  - rewrite nth_error_app2, Nat.sub_diag by lia. cbn. replace (nth_error a (length a)) with (@None N); [cbn; auto|].
    symmetry. apply nth_error_None. lia.
  - rewrite nth_error_app1 by lia. reflexivity.
Qed.

Lemma bounded_app p a b n : a <> [] -> n <= length a -> bounded is_word p (a ++ 32%N :: b) n = bounded is_word p a n.
Proof.
  intros Ha Hn. unfold bounded, boundary. rewrite !wordat_app by lia.
  destruct a; [congruence|]. reflexivity.
Qed.

Lemma bounded_start s n : bounded is_word (Some 32%N) s n = bounded is_word None s n.
Proof. unfold bounded, boundary. cbn [wordat]. rewrite word_32. reflexivity. Qed.

Lemma small_token_local n : local_matcher (small_token_match is_space is_word n).
Proof.
  unfold small_token_match. split; [|split; [|split]].
  - intros p a b Ha. induction (rev (seq 1 n)) as [|m l IH]; cbn [find]; auto.
    rewrite IH. replace ((m <=? length (a ++ 32%N :: b)) && forallb (fun c => negb (is_space c)) (firstn m (a ++ 32%N :: b)) &&
      bounded is_word p (a ++ 32%N :: b) m) with ((m <=? length a) && forallb (fun c => negb (is_space c)) (firstn m a) &&
      bounded is_word p a m); auto.
    destruct (Nat.leb_spec m (length a)) as [H|H].
    + rewrite bounded_app by auto. rewrite firstn_app. replace (m - length a) with 0 by lia. cbn [firstn]. rewrite app_nil_r.
      rewrite app_length. cbn [length]. destruct (Nat.leb_spec m (length a + S (length b))); [reflexivity|lia].
    + cbn [andb]. replace (forallb (fun c => negb (is_space c)) (firstn m (a ++ 32%N :: b))) with false.
      * rewrite andb_false_r. reflexivity.
      * symmetry. rewrite firstn_app, forallb_app. replace (m - length a) with (S (m - length a - 1)) by lia.
        cbn [firstn forallb]. rewrite space_32. cbn. apply andb_false_r.
  - intros p b. assert (Hl : Forall (fun m => 1 <= m) (rev (seq 1 n))).
    { apply Forall_rev. apply Forall_forall. intros x Hx. apply in_seq in Hx. lia. }
    induction Hl as [|m l Hm Hl IH]; cbn [find]; auto. destruct m as [|m]; [lia|].
    cbn [firstn forallb]. rewrite space_32. cbn [negb andb]. rewrite andb_false_r. exact IH.
  - intros s. induction (rev (seq 1 n)) as [|m l IH]; cbn [find]; auto. rewrite bounded_start, IH. reflexivity.
  - intros p s k H. apply find_some in H. lia.
Qed.

Definition spaceless (o : options) : Prop :=
  forall ws w c, stopwords o = Some ws -> In w ws -> In c w -> same_ci c 32%N = false.

Lemma prefix_ci_app w a b : (forall c, In c w -> same_ci c 32%N = false) ->
  prefix_ci same_ci w (a ++ 32%N :: b) = prefix_ci same_ci w a.
Proof.
  clear. revert a. induction w as [|c w IH]; intros [|d a] H; cbn [app prefix_ci]; auto.
  - rewrite H by (cbn; auto). reflexivity.
  - rewrite IH by (intros; apply H; cbn; auto). reflexivity.
Qed.

Lemma prefix_ci_length w : forall s, prefix_ci same_ci w s = true -> length w <= length s.
Proof.
  clear. induction w as [|c w IH]; intros [|d s] H; cbn [prefix_ci length] in *; try lia; try discriminate.
  apply andb_true_iff in H. destruct H as [_ H]. apply IH in H. lia.
Qed.

Lemma stopword_local ws : (forall w c, In w ws -> In c w -> same_ci c 32%N = false) ->
  local_matcher (stopword_match is_word same_ci ws).
Proof.
  unfold stopword_match. intros Hws. split; [|split; [|split]].
  - intros p a b Ha.
    replace (find (fun w => (0 <? length w) && prefix_ci same_ci w (a ++ 32%N :: b) && bounded is_word p (a ++ 32%N :: b) (length w)) ws)
      with (find (fun w => (0 <? length w) && prefix_ci same_ci w a && bounded is_word p a (length w)) ws); auto.
    induction ws as [|w ws IH]; cbn [find]; auto.
    rewrite prefix_ci_app by (intros; apply (Hws w); cbn; auto).
    destruct (prefix_ci same_ci w a) eqn:E.
    + rewrite bounded_app by (auto; apply prefix_ci_length; auto). rewrite IH; auto. intros w' c Hw. apply Hws. cbn. auto.
    + rewrite andb_false_r. cbn [andb]. apply IH. intros w' c Hw. apply Hws. cbn. auto.
  - intros p b. replace (find _ ws) with (@None str); auto. symmetry. apply find_none_iff.
    intros w Hw. destruct w as [|c w]; auto. cbn [prefix_ci]. rewrite (Hws (c :: w) c) by (cbn; auto). cbn [andb].
    rewrite andb_false_r. reflexivity.
  - intros s. replace (find (fun w => (0 <? length w) && prefix_ci same_ci w s && bounded is_word (Some 32%N) s (length w)) ws)
      with (find (fun w => (0 <? length w) && prefix_ci same_ci w s && bounded is_word None s (length w)) ws); auto.
    clear Hws. induction ws as [|w ws IH]; cbn [find]; auto. rewrite bounded_start, IH. reflexivity.
  - intros p s n H. destruct (find _ ws) as [w|] eqn:E; [|discriminate]. injection H as <-. apply find_some in E.
    destruct E as [_ E]. rewrite !andb_true_iff in E. apply prefix_ci_length. tauto.
Qed.

Lemma normalize_local o : spaceless o -> local (normalize o).
Proof.
  intros Ho a b. unfold FingerprintModel.normalize.
  set (f1 := fun s => match split o with Some cs => map (fun c => if memb c cs then 32%N else c) s | None => s end).
  assert (L1 : f1 (a ++ 32%N :: b) = f1 a ++ 32%N :: f1 b).
  { unfold f1. destruct (split o) as [cs|]; auto. rewrite map_app. cbn [map]. destruct (memb 32%N cs); reflexivity. }
  fold (f1 (a ++ 32%N :: b)) (f1 a) (f1 b). rewrite L1. generalize (f1 a) (f1 b). clear L1 f1 a b. intros a b.
  set (f1 := fun s => match stopwords o with Some ws => re_remove (stopword_match is_word same_ci ws) None 0 s | None => s end).
  assert (L1 : f1 (a ++ 32%N :: b) = f1 a ++ 32%N :: f1 b).
  { unfold f1. destruct (stopwords o) as [ws|] eqn:E; auto. apply re_remove_local; [|lia]. apply stopword_local.
    intros w c. apply Ho. exact E. }
  fold (f1 (a ++ 32%N :: b)) (f1 a) (f1 b). rewrite L1. generalize (f1 a) (f1 b). clear L1 f1 a b. intros a b.
  set (f1 := fun s : str => if keep_digits o then s else filter (fun c => negb (is_digit c)) s).
  assert (L1 : f1 (a ++ 32%N :: b) = f1 a ++ 32%N :: f1 b).
  { unfold f1. destruct (keep_digits o); auto. rewrite filter_app. cbn [filter]. rewrite digit_32. reflexivity. }
  fold (f1 (a ++ 32%N :: b)) (f1 a) (f1 b). rewrite L1. generalize (f1 a) (f1 b). clear L1 f1 a b. intros a b.
  rewrite lower_local. generalize (lower a) (lower b). clear a b. intros a b.
  set (f1 := fun s : str => if Nat.ltb 1 (min_token_size o) then re_remove (small_token_match is_space is_word (min_token_size o)) None 0 s else s).
  assert (L1 : f1 (a ++ 32%N :: b) = f1 a ++ 32%N :: f1 b).
  { unfold f1. destruct (Nat.ltb 1 (min_token_size o)); auto. apply re_remove_local; [|lia]. apply small_token_local. }
  fold (f1 (a ++ 32%N :: b)) (f1 a) (f1 b). rewrite L1. generalize (f1 a) (f1 b). clear L1 f1 a b. intros a b.
  rewrite unidecode_local. rewrite filter_app. cbn [filter]. unfold allowed at 2. rewrite space_32, orb_true_r. reflexivity.
Qed.

Lemma words_spaced f : local f -> forall ws, ws <> [] -> words [] (f (spaced ws)) = flat_map (fun w => words [] (f w)) ws.
Proof. clear word_32 digit_32 lower_local unidecode_local.
  intros Hf. induction ws as [|w ws IH]; intros Hn; [congruence|].
  destruct ws as [|w' ws]; [cbn; rewrite app_nil_r; reflexivity|].
  change (spaced (w :: w' :: ws)) with (w ++ 32%N :: spaced (w' :: ws)). rewrite Hf, words_local by auto.
  rewrite IH by discriminate. reflexivity.
Qed.

Lemma tokenize_spaced o ws ws' : spaceless o -> (forall w, In w ws <-> In w ws') ->
  tokenize o (spaced ws) = tokenize o (spaced ws').
Proof.
  intros Ho H. destruct ws as [|w ws], ws' as [|w' ws']; auto.
  - exfalso. apply (H w'). cbn. auto.
  - exfalso. apply (H w). cbn. auto.
  - apply tokenize_words. intros t. rewrite !words_spaced by (try apply normalize_local; auto; discriminate).
    rewrite !in_flat_map. split; intros [u [Hu Ht]]; exists u; split; auto; apply H; auto.
Qed.

(** *** idempotence *)
Hypothesis space_alnum : forall c, alnum c -> is_space c = false.
Hypothesis ascii_lower : forall s, Forall (fun c => alnum c \/ c = 32%N) s -> lower s = s.
Hypothesis ascii_unidecode : forall s, Forall (fun c => alnum c \/ c = 32%N) s -> unidecode s = s.

Definition plain (o : options) : Prop :=
  stopwords o = None /\ min_token_size o <= 1 /\
  (forall cs c, split o = Some cs -> In c cs -> ~ alnum c).

Lemma normalize_alnum o s c : In c (normalize o s) -> is_space c = false -> alnum c.
Proof.
  clear. unfold FingerprintModel.normalize. rewrite filter_In. intros [_ H] Hs. unfold allowed in H. rewrite Hs in H.
  unfold alnum. lia.
Qed.

Lemma token_words_ok o s t : In t (token_words o s) -> t <> [] /\ Forall alnum t /\ finish o t = t.
Proof. clear word_32 digit_32 lower_local unidecode_local.
  unfold token_words. rewrite in_map_iff. intros [u [<- Hu]].
  apply words_token in Hu. destruct Hu as [H1 [H2 [p [q [E _]]]]].
  assert (Hal : Forall alnum u).
  { rewrite Forall_forall in *. intros c Hc. apply (normalize_alnum o s); auto. rewrite E. rewrite !in_app_iff. auto. }
  unfold finish. destruct (squeeze_tokens o); auto. split; [|split].
  - destruct u as [|x u]; [congruence|]. unfold squeeze. cbn [squeeze_sub]. destruct (eq_dec None (Some x)); [congruence|discriminate].
  - rewrite Forall_forall in *. intros c Hc. apply Hal. eapply squeeze_sub_In. unfold squeeze in Hc. exact Hc.
  - apply squeeze_idem.
Qed.

Lemma join_spaced l : join [32%N] l = spaced l.
Proof.
  clear. induction l as [|x l IH]; auto. destruct l as [|y l]; auto.
  change (join [32%N] (x :: y :: l)) with (x ++ [32%N] ++ join [32%N] (y :: l)). rewrite IH. reflexivity.
Qed.

Lemma words_of_spaced l : Forall (fun t => t <> [] /\ nospace t) l -> words [] (spaced l) = l.
Proof. clear word_32 digit_32 lower_local unidecode_local.
  intros H. destruct l as [|x l]; auto. rewrite (words_spaced (fun s => s)) by (discriminate || (intros a b; reflexivity)).
  revert H. generalize (x :: l). clear x l. intros l H. induction H as [|t l [H1 H2] Hl IH]; auto. cbn [flat_map].
  rewrite IH. rewrite <- (app_nil_r t) at 1. rewrite words_nospace by auto. cbn [app words].
  destruct t; [congruence|reflexivity].
Qed.

Lemma spaced_chars l : Forall (Forall alnum) l -> Forall (fun c => alnum c \/ c = 32%N) (spaced l).
Proof.
  clear. assert (K : forall t, Forall alnum t -> Forall (fun c => alnum c \/ c = 32%N) t).
  { intros t H. eapply Forall_impl; [|exact H]. auto. }
  induction 1 as [|t l Ht Hl IH]; [constructor|]. destruct l as [|u l]; [apply K; auto|].
  change (spaced (t :: u :: l)) with (t ++ 32%N :: spaced (u :: l)). apply Forall_app. split; auto.
Qed.

Lemma normalize_plain o s : plain o -> (keep_digits o = true \/ Forall (fun c => is_digit c = false) s) ->
  Forall (fun c => alnum c \/ c = 32%N) s -> normalize o s = s.
Proof. clear word_32 digit_32 lower_local unidecode_local.
  intros [Hst [Hm Hsp]] Hd Hs. unfold FingerprintModel.normalize. rewrite Hst.
  replace (match split o with Some cs => map (fun c => if memb c cs then 32%N else c) s | None => s end) with s.
  2:{ destruct (split o) as [cs|]; auto. symmetry. transitivity (map (fun c => c) s); [|apply map_id].
      apply map_ext_in. intros c Hc. destruct (memb c cs) eqn:M; auto. rewrite memb_true in M.
      rewrite Forall_forall in Hs. destruct (Hs c Hc) as [H|H]; auto. exfalso. eapply Hsp; eauto. }
  assert (K : (if keep_digits o then s else filter (fun c => negb (is_digit c)) s) = s).
  { destruct (keep_digits o); auto. destruct Hd as [Hd|Hd]; [discriminate|]. apply filter_all.
    intros c Hc. rewrite Forall_forall in Hd. rewrite Hd; auto. }
  unfold str in *. rewrite K.
  rewrite ascii_lower by auto. destruct (Nat.ltb_spec 1 (min_token_size o)); [lia|].
  rewrite ascii_unidecode by auto. apply filter_all. intros c Hc. rewrite Forall_forall in Hs. unfold allowed.
  destruct (Hs c Hc) as [H'| ->]; [unfold alnum in H'; lia|]. rewrite space_32. apply orb_true_r.
Qed.

Lemma tokenize_key o s : plain o -> (keep_digits o = true \/ Forall (fun c => is_digit c = false) (key o s)) ->
  tokenize o (key o s) = tokenize o s.
Proof. clear word_32 digit_32 lower_local unidecode_local.
  intros Ho Hd. unfold FingerprintModel.key in *. rewrite join_spaced in *.
  assert (HT : forall t, In t (tokenize o s) -> Forall alnum t).
  { intros t Ht. apply tokenize_In in Ht. destruct Ht as [Ht|[-> _]]; [|constructor]. apply token_words_ok in Ht. tauto. }
  assert (HA : Forall (Forall alnum) (tokenize o s)) by (apply Forall_forall; auto).
  assert (HN : normalize o (spaced (tokenize o s)) = spaced (tokenize o s)).
  { apply normalize_plain; auto. apply spaced_chars. exact HA. }
  assert (HW : forall t, In t (words [] (spaced (tokenize o s))) <-> In t (token_words o s)).
  { destruct (token_words o s) as [|w l] eqn:E.
    - assert (HE : tokenize o s = [[]]).
      { apply strict_unique; [apply tokenize_strict|repeat constructor|]. intros t. rewrite tokenize_In, E. cbn.
        split; [intros [[]|[-> _]]; auto|]. intros [<-|[]]; auto. }
      rewrite HE. cbn. tauto.
    - assert (HE : forall t, In t (tokenize o s) <-> In t (w :: l)).
      { intros t. rewrite tokenize_In, E. split; [intros [H|[_ H]]; [auto|discriminate]|auto]. }
      intros t. rewrite words_of_spaced; [apply HE|]. apply Forall_forall. intros u Hu. apply HE in Hu. rewrite <- E in Hu.
      apply token_words_ok in Hu. destruct Hu as [H1 [H2 _]]. split; auto. eapply Forall_impl; [|exact H2]. auto. }
  apply strict_unique; try apply tokenize_strict. intros t. rewrite !tokenize_In. unfold token_words at 1 2. rewrite HN.
  assert (E1 : In t (map (finish o) (words [] (spaced (tokenize o s)))) <-> In t (token_words o s)).
  { rewrite in_map_iff. split.
    - intros [u [<- Hu]]. apply HW in Hu. destruct (token_words_ok o s u Hu) as [_ [_ ->]]. exact Hu.
    - intros Ht. exists t. split; [|apply HW; auto]. apply (token_words_ok o s t Ht). }
  assert (E2 : map (finish o) (words [] (spaced (tokenize o s))) = [] <-> token_words o s = []).
  { split; intros E.
    - destruct (token_words o s) as [|w l]; auto. exfalso. destruct (words [] (spaced (tokenize o s))); [|discriminate].
      apply (HW w). cbn. auto.
    - destruct (words [] (spaced (tokenize o s))) as [|w l]; auto. exfalso. rewrite E in HW. apply (HW w). cbn. auto. }
  rewrite E1, E2. reflexivity.
Qed.

Lemma key_idem o s : plain o -> (keep_digits o = true \/ Forall (fun c => is_digit c = false) (key o s)) ->
  key o (key o s) = key o s.
Proof. clear word_32 digit_32 lower_local unidecode_local. intros Ho Hd. unfold FingerprintModel.key at 1. rewrite tokenize_key by auto. reflexivity. Qed.
End Fingerprint.
