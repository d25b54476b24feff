(** Proofs about the phonetic codes *)
From Coq Require Import String Ascii.
From Verif Require Import Base BaseFacts LevModel StringsModel StringsSpec StringsProofs PhoneticsModel PhoneticsSpec.
Open Scope nat_scope.
Open Scope list_scope.
Notation length := List.length.
Notation concat := List.concat.

(** ** cologne *)
Section Cologne.
Variable upper unidecode : str -> str.

Lemma memb_is letters c : memb c (codes letters) = is_one_of letters (Some c).
Proof.
  unfold is_one_of. induction letters as [|a l IH]; [reflexivity|].
  cbn [codes list_ascii_of_string existsb]. rewrite <- IH.
  unfold memb. destruct (in_dec eq_dec c (N_of_ascii a :: codes l)) as [i|i], (N.eqb_spec c (N_of_ascii a)), (in_dec eq_dec c (codes l));
    cbn [In] in i; cbn; auto; exfalso; intuition.
Qed.

Lemma one_of_zero letters : Forall (fun a => N_of_ascii a <> 0%N) (list_ascii_of_string letters) ->
  memb 0%N (codes letters) = false.
Proof.
  intros H. rewrite memb_is. unfold is_one_of. induction H; cbn [existsb]; auto.
  rewrite IHForall. destruct (N.eqb_spec 0 (N_of_ascii x)); auto. congruence.
Qed.

(** reading the neighbours of a letter *)
Lemma next_read letters p c q : memb 0%N (codes letters) = false ->
  memb (nth (length p + 1) (p ++ c :: q) 0%N) (codes letters) = is_one_of letters (hd_error q).
Proof.
  intros H0. rewrite app_nth2 by lia. replace (length p + 1 - length p) with 1 by lia. cbn [nth].
  destruct q as [|d q]; cbn [nth hd_error]; [exact H0|apply memb_is].
Qed.

Definition last_error (p : list N) : option N := match rev p with [] => None | d :: _ => Some d end.

Lemma prev_read p d c q : prev_letter ((p ++ [d]) ++ c :: q) (length (p ++ [d])) = d.
Proof.
  unfold prev_letter. rewrite app_length. cbn [length]. replace (length p + 1) with (S (length p)) by lia.
  rewrite <- app_assoc. cbn [app]. rewrite app_nth2 by lia. rewrite Nat.sub_diag. reflexivity.
Qed.

Lemma letter_codes_context p c q : letter c ->
  letter_codes (p ++ c :: q) (length p) =
  match context_code (last_error p) c (hd_error q) with [] => [] | code => [code] end.
Proof.
  intros Hc. unfold letter_codes. rewrite nth_middle.
  assert (HDT : memb (nth (length p + 1) (p ++ c :: q) 0%N) DT = is_one_of "CSZ" (hd_error q))
    by (apply next_read; reflexivity).
  assert (HC1 : memb (nth (length p + 1) (p ++ c :: q) 0%N) CFOLLOWING1 = is_one_of "AHKLOQRUX" (hd_error q))
    by (apply next_read; reflexivity).
  assert (HC2 : memb (nth (length p + 1) (p ++ c :: q) 0%N) CFOLLOWING2 = is_one_of "AHKOQUX" (hd_error q))
    by (apply next_read; reflexivity).
  assert (Hl : is_one_of "CSZ" (hd_error q) = true \/ is_one_of "AHKLOQRUX" (hd_error q) = true \/ is_one_of "AHKOQUX" (hd_error q) = true
    -> q <> []).
  { intros H ->. cbn in H. intuition discriminate. }
  assert (Hlast : q <> [] -> (length p <? length (p ++ c :: q) - 1) = true /\ (1 <? length (p ++ c :: q)) = true).
  { intros Hq. rewrite app_length. destruct q; [congruence|]. cbn [length]. lia. }
  assert (H12 : is_one_of "AHKOQUX" (hd_error q) = true -> is_one_of "AHKLOQRUX" (hd_error q) = true).
  { destruct (hd_error q) as [d|]; [|discriminate]. cbn. rewrite !orb_true_iff. tauto. }
  rewrite HDT, HC1, HC2. clear HDT HC1 HC2.
  assert (Hp : (p = [] /\ last_error p = None) \/
     exists d, (length p =? 0) = false /\ (0 <? length p) = true /\ last_error p = Some d /\ prev_letter (p ++ c :: q) (length p) = d).
  { destruct p as [|d p _] using rev_ind; auto. right. exists d. rewrite prev_read, app_length. cbn [length].
    unfold last_error. rewrite rev_app_distr. repeat split; try reflexivity; lia. }
  assert (HD : (length p <? length (p ++ c :: q) - 1) && is_one_of "CSZ" (hd_error q) = is_one_of "CSZ" (hd_error q)).
  { destruct (is_one_of "CSZ" (hd_error q)); [|apply andb_false_r]. rewrite andb_true_r. apply Hlast, Hl. auto. }
  rewrite HD. clear HD.
  assert (HC : (1 <? length (p ++ c :: q)) && ((length p =? 0) && is_one_of "AHKLOQRUX" (hd_error q))
    || (length p <? length (p ++ c :: q) - 1) && is_one_of "AHKOQUX" (hd_error q) && negb (memb (prev_letter (p ++ c :: q) (length p)) CPREVIOUS)
    = match last_error p with None => is_one_of "AHKLOQRUX" (hd_error q)
      | Some _ => is_one_of "AHKOQUX" (hd_error q) && negb (is_one_of "SZ" (last_error p)) end).
  { destruct Hp as [[-> Hp]|[d [P1 [P2 [P3 P4]]]]].
    - rewrite Hp. change (length [] =? 0) with true. cbn [andb].
      destruct (is_one_of "AHKLOQRUX" (hd_error q)) eqn:E1.
      + destruct (Hlast (Hl (or_intror (or_introl eq_refl)))) as [_ ->]. reflexivity.
      + destruct (is_one_of "AHKOQUX" (hd_error q)) eqn:E2; [discriminate H12; auto|].
        rewrite !andb_false_r. reflexivity.
    - rewrite P1, P3, P4. cbn [andb]. rewrite andb_false_r. cbn [orb].
      unfold CPREVIOUS. rewrite memb_is. destruct (is_one_of "AHKOQUX" (hd_error q)) eqn:E2.
      + destruct (Hlast (Hl (or_intror (or_intror eq_refl)))) as [-> _]. reflexivity.
      + rewrite andb_false_r. reflexivity. }
  rewrite HC. clear HC.
  assert (HX : (0 <? length p) && memb (prev_letter (p ++ c :: q) (length p)) Xprev = is_one_of "CKQ" (last_error p)).
  { destruct Hp as [[-> Hp]|[d [P1 [P2 [P3 P4]]]]].
    - rewrite Hp. reflexivity.
    - rewrite P2, P3, P4. unfold Xprev. rewrite memb_is. cbn. rewrite !orb_false_r. rewrite (orb_comm (N.eqb d 81)). reflexivity. }
  rewrite HX. clear HX Hp Hl Hlast H12.
  assert (Hc' : In c (map N.of_nat (seq 65 26))).
  { unfold letter in Hc. apply in_map_iff. exists (N.to_nat c). split; [lia|]. apply in_seq. lia. }
  generalize (last_error p), (hd_error q). intros prev next. clear Hc p q. revert c Hc'. apply Forall_forall.
  repeat (constructor; [
    first [ reflexivity
          | cbn; destruct (is_one_of "CSZ" next); reflexivity
          | cbn; destruct (is_one_of "CKQ" prev); reflexivity
          | cbn -[is_one_of]; destruct prev; [destruct (is_one_of "AHKOQUX" next && _)|destruct (is_one_of "AHKLOQRUX" next)]; reflexivity ] |]).
  constructor.
Qed.

Lemma letter_codes_all w : Forall letter w -> forall p, Forall letter p ->
  flat_map (letter_codes (p ++ w)) (seq (length p) (length w)) = context_codes (last_error p) w.
Proof.
  induction w as [|c w IH]; intros Hw p Hp; cbn [length seq flat_map context_codes]; auto. inversion Hw; subst.
  rewrite letter_codes_context by auto. f_equal.
  replace (p ++ c :: w) with ((p ++ [c]) ++ w) by (rewrite <- app_assoc; reflexivity).
  replace (S (length p)) with (length (p ++ [c])) by (rewrite app_length; cbn; lia).
  rewrite IH; auto.
  - unfold last_error. rewrite rev_app_distr. reflexivity.
  - apply Forall_app. auto.
Qed.

Lemma context_digits prev c next : Forall (fun d => (48 <= d <= 56)%N) (context_code prev c next) /\
  (In 48%N (context_code prev c next) -> context_code prev c next = [48%N]).
Proof.
  unfold context_code.
  repeat match goal with |- context [if ?b then _ else _] => destruct b end; try destruct prev;
  repeat match goal with |- context [if ?b then _ else _] => destruct b end;
  (split; [repeat constructor; cbn; lia|cbn; intuition discriminate]).
Qed.

Lemma context_codes_In prev w code : In code (context_codes prev w) ->
  exists a b c, code = context_code a b c /\ code <> [].
Proof.
  revert prev. induction w as [|c w IH]; intros prev H; cbn [context_codes] in H; [destruct H|].
  rewrite in_app_iff in H. destruct H as [H|H]; [|eauto].
  destruct (context_code prev c (hd_error w)) as [|d r] eqn:E; [destruct H|]. destruct H as [<-|[]].
  exists prev, c, (hd_error w). split; auto. discriminate.
Qed.

Lemma dedupe_squeeze l : ~ In 10%N l -> squeeze l false = dedupe l.
Proof.
  intros Hl. unfold squeeze. cbv iota.
  assert (G : forall m, (match m with Some c => dot_matches c = true | None => True end) ->
    squeeze_sub dot_matches m l = match m, l with
      | Some c, d :: _ => if N.eqb c d then tl (dedupe l) else dedupe l
      | _, _ => dedupe l end).
  { induction l as [|c l IH]; intros m Hm; [destruct m; reflexivity|].
    assert (Hc : dot_matches c = true) by (apply dot_spec; intros ->; apply Hl; cbn; auto).
    assert (IH' : ~ In 10%N l) by (intros H; apply Hl; cbn; auto). specialize (IH IH').
    assert (D : dedupe (c :: l) = c :: squeeze_sub dot_matches (Some c) l).
    { rewrite IH by exact Hc. destruct l as [|d l]; [reflexivity|]. cbn [dedupe]. destruct (N.eqb_spec c d) as [->|].
      - fold (dedupe (d :: l)). clear. generalize d. destruct l as [|e l]; intros x; [reflexivity|].
        cbn [dedupe]. destruct (N.eqb_spec x e); [|reflexivity]. subst. clear.
        revert e. induction l as [|f l IH]; intros e; [reflexivity|]. cbn [dedupe]. destruct (N.eqb_spec e f); [subst; apply IH|reflexivity].
      - reflexivity. }
    cbn [squeeze_sub]. destruct m as [d|].
    - destruct (eq_dec (Some d) (Some c)) as [E|E].
      + injection E as ->. rewrite N.eqb_refl. rewrite D. reflexivity.
      + destruct (N.eqb_spec d c); [congruence|]. rewrite Hc. symmetry. exact D.
    - destruct (eq_dec None (Some c)); [discriminate|]. rewrite Hc. symmetry. exact D. }
  apply (G None). exact Logic.I.
Qed.

Lemma cologne_form name : let w := cologne_letters upper unidecode name in
  cologne upper unidecode name =
  match context_codes None w with
  | [] => []
  | code0 :: rest => code0 ++ filter (fun c => negb (N.eqb c 48)) (dedupe (concat rest))
  end.
Proof.
  cbv zeta. unfold cologne. set (w := cologne_letters upper unidecode name).
  assert (Hw : Forall letter w).
  { apply Forall_forall. intros c Hc. unfold w, cologne_letters in Hc. rewrite filter_In in Hc. unfold is_upper_letter, letter in *. lia. }
  pose proof (letter_codes_all w Hw [] ltac:(constructor)) as E. cbn [app length] in E. rewrite E.
  change (last_error []) with (@None N). destruct (context_codes None w) as [|c0 rest] eqn:E0; auto. f_equal. f_equal.
  apply dedupe_squeeze. intros H. apply in_concat in H. destruct H as [code [H1 H2]].
  assert (In code (context_codes None w)) as H3 by (rewrite E0; cbn; auto).
  apply context_codes_In in H3. destruct H3 as [a [b [c [-> _]]]].
  destruct (context_digits a b c) as [H4 _]. rewrite Forall_forall in H4. apply H4 in H2. lia.
Qed.

Lemma dedupe_In l x : In x (dedupe l) <-> In x l.
Proof.
  induction l as [|a l IH]; [reflexivity|]. destruct l as [|b l]; [reflexivity|].
  change (dedupe (a :: b :: l)) with (if N.eqb a b then dedupe (b :: l) else a :: dedupe (b :: l)).
  destruct (N.eqb_spec a b) as [->|]; [|cbn [In] in *; tauto]. rewrite IH. cbn. tauto.
Qed.

Lemma cologne_digits name : Forall (fun d => (48 <= d <= 56)%N) (cologne upper unidecode name).
Proof.
  rewrite cologne_form. destruct (context_codes None _) as [|c0 rest] eqn:E; [constructor|].
  assert (K : forall code, In code (c0 :: rest) -> Forall (fun d => (48 <= d <= 56)%N) code).
  { intros code H. rewrite <- E in H. apply context_codes_In in H. destruct H as [a [b [c [-> _]]]]. apply context_digits. }
  apply Forall_app. split; [apply K; cbn; auto|]. apply Forall_forall. intros d Hd. rewrite filter_In, dedupe_In, in_concat in Hd.
  destruct Hd as [[code [H1 H2]] _]. specialize (K code ltac:(cbn; auto)). rewrite Forall_forall in K. auto.
Qed.

Lemma cologne_zero name a r : cologne upper unidecode name = a :: r -> ~ In 48%N r.
Proof.
  rewrite cologne_form. destruct (context_codes None _) as [|c0 rest] eqn:E; [discriminate|].
  assert (In c0 (context_codes None (cologne_letters upper unidecode name))) as H0 by (rewrite E; cbn; auto).
  apply context_codes_In in H0. destruct H0 as [x [y [z [Hc Hn]]]]. destruct (context_digits x y z) as [_ Hz]. rewrite <- Hc in Hz.
  intros H Hin. destruct c0 as [|d0 c0]; [congruence|]. injection H as -> <-. rewrite in_app_iff in Hin. destruct Hin as [Hin|Hin].
  - assert (a :: c0 = [48%N]) as E' by (apply Hz; cbn; auto). injection E' as _ ->. destruct Hin.
  - rewrite filter_In in Hin. destruct Hin. discriminate.
Qed.

Lemma cologne_case name name' : upper name = upper name' -> cologne upper unidecode name = cologne upper unidecode name'.
Proof. intros H. unfold cologne, cologne_letters. rewrite H. reflexivity. Qed.

Lemma dedupe_double l p c q : dedupe l <> p ++ c :: c :: q.
Proof.
  revert p. induction l as [|a l IH]; intros p H; [destruct p; discriminate|].
  destruct l as [|b l]; [destruct p as [|? [|]]; discriminate|].
  change (dedupe (a :: b :: l)) with (if N.eqb a b then dedupe (b :: l) else a :: dedupe (b :: l)) in H.
  destruct (N.eqb_spec a b) as [->|Hn]; [eapply IH; eauto|].
  destruct p as [|x p]; cbn [app] in H; injection H as -> H; [|eapply IH; eauto].
  assert (K : forall l b, exists r, dedupe (b :: l) = b :: r).
  { clear. induction l as [|d l IHl]; intros b; [eexists; reflexivity|].
    change (dedupe (b :: d :: l)) with (if N.eqb b d then dedupe (d :: l) else b :: dedupe (d :: l)).
    destruct (N.eqb_spec b d); [subst; apply IHl|eexists; reflexivity]. }
  destruct (K l b) as [r E]. cbn [dedupe] in E. rewrite E in H. injection H as -> _. congruence.
Qed.
End Cologne.

(** ** rusalka *)
Definition allh (s : str) : Prop := Forall (fun c => c = 104%N) s.

(** a rule that never removes everything: it does not match at an h and its replacement is not silent *)
Lemma re_sub_allh m repl : (forall st s, m st (104%N :: s) = None) -> ~ allh repl ->
  forall s st, allh (re_sub m repl st 0 s) <-> allh s.
Proof.
  intros Hm Hr. induction s as [|c s IH]; intros st; [reflexivity|]. cbn [re_sub].
  destruct (N.eq_dec c 104) as [->|Hc].
  - rewrite Hm. unfold allh. rewrite !Forall_cons_iff. fold (allh s). rewrite <- (IH false). reflexivity.
  - unfold allh at 2. rewrite Forall_cons_iff. split; [|tauto].
    destruct (m st (c :: s)) as [[|k]|]; unfold allh; rewrite ?Forall_cons_iff, ?Forall_app; intuition.
Qed.

Lemma re_sub_id m repl s : (forall st p q, s = p ++ q -> m st q = None) -> forall st, re_sub m repl st 0 s = s.
Proof.
  induction s as [|c s IH]; intros H st; [reflexivity|]. cbn [re_sub]. rewrite (H st [] (c :: s)) by reflexivity.
  f_equal. apply IH. intros st' p q E. apply (H st' (c :: p) q). cbn. congruence.
Qed.

Lemma re_sub_h s : forall st, re_sub m_h [] st 0 s = filter (fun c => negb (N.eqb c 104)) s.
Proof.
  induction s as [|c s IH]; intros st; [reflexivity|]. cbn [re_sub filter].
  assert (E : m_h st (c :: s) = if N.eqb c 104 then Some 1 else None).
  { unfold m_h, literal. cbn. rewrite andb_true_r, N.eqb_sym. reflexivity. }
  rewrite E. destruct (N.eqb c 104); cbn [negb app]; rewrite IH; reflexivity.
Qed.

Lemma re_sub_ij s : forall st, re_sub m_ij [] st 0 s =
  match rev s with
  | b :: a :: r => if N.eqb a (chr "i") && one_of "jy" b then rev r else s
  | _ => s
  end.
Proof.
  assert (K : forall s st, (forall a b, s <> [a; b] \/ (N.eqb a (chr "i") && one_of "jy" b) = false) -> m_ij st s = None).
  { intros s' st H. destruct s' as [|a [|b [|]]]; auto. unfold m_ij. destruct (H a b) as [H'|H']; [congruence|]. rewrite H'. reflexivity. }
  assert (G : forall r a b st, re_sub m_ij [] st 0 (r ++ [a; b]) =
    if N.eqb a (chr "i") && one_of "jy" b then r else r ++ [a; b]).
  { induction r as [|c r IH]; intros a b st.
    - cbn [app re_sub m_ij]. destruct (N.eqb a (chr "i") && one_of "jy" b); [reflexivity|].
      cbn [re_sub]. reflexivity.
    - cbn [app re_sub]. rewrite K.
      + rewrite IH. destruct (N.eqb a (chr "i") && one_of "jy" b); reflexivity.
      + intros a' b'. left. destruct r as [|? [|]]; discriminate. }
  intros st. destruct s as [|b s _] using rev_ind; [reflexivity|]. destruct s as [|a s _] using rev_ind.
  - reflexivity.
  - rewrite <- app_assoc. cbn [app]. rewrite G. rewrite !rev_app_distr. cbn [rev app]. rewrite rev_involutive.
    destruct (N.eqb a (chr "i") && one_of "jy" b); reflexivity.
Qed.

Definition middle_rules : list ((bool -> str -> option nat) * str) :=
  [(m_f, codes "f"); (m_e, codes "J"); (m_sh, [ESH]); (m_zh, [EZH]); (m_ks, codes "x"); (m_y, codes "j"); (m_cg, codes "k")].

Lemma middle_allh s : allh (apply_rules middle_rules s) <-> allh s.
Proof.
  unfold apply_rules, middle_rules. cbn [fold_left fst snd].
  assert (D : forall c, c <> 104%N -> ~ allh [c]) by (intros c Hc H; inversion H; congruence).
  rewrite !re_sub_allh; [reflexivity|..]; try (apply D; discriminate).
  - intros st s'. destruct s'; reflexivity.
  - intros st s'. unfold m_e. destruct st; [|reflexivity]. destruct s' as [|b s']; reflexivity.
  - intros st s'. destruct s'; reflexivity.
  - intros st s'. destruct s'; reflexivity.
  - intros st s'. destruct s'; reflexivity.
  - intros st s'. unfold m_y. destruct s' as [|b s']; [reflexivity|].
    replace (N.eqb 104 (chr "y")) with false by reflexivity. rewrite andb_false_r. reflexivity.
  - intros st s'. destruct s'; reflexivity.
Qed.

Lemma rules_split s : apply_rules RULES s =
  filter (fun c => negb (N.eqb c 104)) (apply_rules middle_rules (re_sub m_ij [] true 0 (re_sub m_cz (codes "ts") true 0 s))).
Proof. unfold apply_rules, RULES, middle_rules. cbn [fold_left fst snd]. rewrite re_sub_h. reflexivity. Qed.

Lemma allh_filter s : filter (fun c => negb (N.eqb c 104)) s = [] <-> allh s.
Proof.
  induction s as [|c s IH]; cbn [filter]; [split; [constructor|reflexivity]|].
  unfold allh. rewrite Forall_cons_iff. fold (allh s). rewrite <- IH.
  destruct (N.eqb_spec c 104); cbn [negb]; intuition; discriminate.
Qed.

Lemma allh_repeat s : allh s <-> exists n, s = repeat 104%N n.
Proof.
  split.
  - intros H. exists (length s). induction H; cbn; congruence.
  - intros [n ->]. induction n; constructor; auto.
Qed.

(** the rule for cz *)
Lemma m_cz_cases st c s k : m_cz st (c :: s) = Some k -> k = 2 /\ c = 99%N /\ exists s', s = 122%N :: s'.
Proof.
  unfold m_cz, literal. change (codes "cz") with [99; 122]%N. cbn [starts_with length].
  destruct s as [|d s]; [rewrite andb_false_r; discriminate|].
  destruct (N.eqb_spec 99 c), (N.eqb_spec 122 d); cbn [andb]; try discriminate. intros H. injection H as <-. subst. eauto.
Qed.

Definition neutral (c : N) : Prop := c = 104%N \/ c = 105%N \/ c = 106%N \/ c = 121%N.

Lemma re_sub_cz_neutral s : forall st, Forall neutral (re_sub m_cz (codes "ts") st 0 s) ->
  re_sub m_cz (codes "ts") st 0 s = s.
Proof.
  induction s as [|c s IH]; intros st H; [reflexivity|]. cbn [re_sub] in *.
  destruct (m_cz st (c :: s)) as [[|k]|] eqn:E.
  - apply m_cz_cases in E. lia.
  - exfalso. inversion H; subst. unfold neutral in *. destruct H2 as [H2|[H2|[H2|H2]]]; discriminate.
  - inversion H; subst. f_equal. auto.
Qed.

Lemma re_sub_cz_id s : Forall neutral s -> forall st, re_sub m_cz (codes "ts") st 0 s = s.
Proof.
  intros H st. apply re_sub_id. intros st' p q ->. apply Forall_app in H. destruct H as [_ H].
  destruct q as [|c q]; [reflexivity|]. destruct (m_cz st' (c :: q)) eqn:E; auto. apply m_cz_cases in E.
  destruct E as [_ [-> _]]. inversion H; subst. destruct H2 as [H2|[H2|[H2|H2]]]; discriminate.
Qed.

Lemma one_of_jy b : one_of "jy" b = true <-> b = 106%N \/ b = 121%N.
Proof. unfold one_of. rewrite memb_true. cbn. intuition. Qed.

Lemma rev_repeat {A} (x : A) n : rev (repeat x n) = repeat x n.
Proof. induction n; cbn [repeat rev]; auto. rewrite IHn. symmetry. apply repeat_cons. Qed.

Lemma ij_allh s : allh (re_sub m_ij [] true 0 s) <-> silent s.
Proof.
  rewrite re_sub_ij. unfold silent. split.
  - intros H. destruct (rev s) as [|b [|a r]] eqn:E.
    + apply allh_repeat in H. destruct H as [n ->]. eauto.
    + apply allh_repeat in H. destruct H as [n ->]. eauto.
    + destruct (N.eqb a (chr "i") && one_of "jy" b) eqn:M.
      * apply allh_repeat in H. destruct H as [n H]. exists n. right.
        assert (Es : s = rev r ++ [a; b]) by (rewrite <- (rev_involutive s), E; cbn; rewrite <- app_assoc; reflexivity).
        apply andb_true_iff in M. destruct M as [M1 M2]. apply N.eqb_eq in M1. apply one_of_jy in M2.
        rewrite Es, H. subst a. destruct M2 as [->| ->]; auto.
      * apply allh_repeat in H. destruct H as [n ->]. eauto.
  - intros [n [-> | [-> | ->]]].
    + assert (A : allh (repeat 104%N n)) by (apply allh_repeat; eauto).
      rewrite rev_repeat. destruct n as [|[|n]]; cbn [repeat]; try exact A.
    + rewrite rev_app_distr. cbn [rev app]. replace (N.eqb 105 (chr "i") && one_of "jy" 106) with true by reflexivity.
      apply allh_repeat. exists n. rewrite rev_involutive. reflexivity.
    + rewrite rev_app_distr. cbn [rev app]. replace (N.eqb 105 (chr "i") && one_of "jy" 121) with true by reflexivity.
      apply allh_repeat. exists n. rewrite rev_involutive. reflexivity.
Qed.

Lemma silent_neutral s : silent s -> Forall neutral s.
Proof.
  assert (R : forall n, Forall neutral (repeat 104%N n)) by (induction n; cbn [repeat]; [apply Forall_nil|apply Forall_cons]; unfold neutral; auto).
  intros [n [-> | [-> | ->]]]; auto; apply Forall_app; split; auto; repeat (apply Forall_cons || apply Forall_nil); unfold neutral; auto.
Qed.

Lemma rules_empty s : apply_rules RULES s = [] <-> silent s.
Proof.
  rewrite rules_split, allh_filter, middle_allh, ij_allh. split; intros H.
  - rewrite re_sub_cz_neutral in H; auto. apply silent_neutral. exact H.
  - rewrite re_sub_cz_id; auto. apply silent_neutral. exact H.
Qed.

(** *** letters of a rewritten name *)
Lemma re_sub_chars m repl : forall s st k x, In x (re_sub m repl st k s) -> In x repl \/ In x s.
Proof.
  induction s as [|c s IH]; intros st k x H; cbn [re_sub] in H; [destruct H|].
  destruct k as [|k]; [|apply IH in H; cbn; tauto].
  destruct (m st (c :: s)) as [[|k]|]; cbn [In] in *.
  - destruct H as [H|H]; auto. apply IH in H. tauto.
  - rewrite in_app_iff in H. destruct H as [H|H]; auto. apply IH in H. tauto.
  - destruct H as [H|H]; auto. apply IH in H. tauto.
Qed.

(** a rule that always matches at some characters leaves none of them *)
Lemma re_sub_removes m repl x : (forall st s, exists k, m st (x :: s) = Some (S k)) -> ~ In x repl ->
  forall s st k, ~ In x (re_sub m repl st k s).
Proof.
  intros Hm Hr. induction s as [|c s IH]; intros st k H; cbn [re_sub] in H; [exact H|].
  destruct k as [|k]; [|eapply IH; eauto].
  destruct (m st (c :: s)) as [[|k]|] eqn:E; cbn [In] in H.
  - destruct H as [->|H]; [|eapply IH; eauto]. destruct (Hm st s). congruence.
  - rewrite in_app_iff in H. destruct H as [H|H]; [auto|eapply IH; eauto].
  - destruct H as [->|H]; [|eapply IH; eauto]. destruct (Hm st s). congruence.
Qed.

Lemma rules_letters s x : In x (apply_rules RULES s) -> ~ In x (codes "cghvw").
Proof.
  unfold apply_rules, RULES. cbn [fold_left fst snd]. rewrite re_sub_h, filter_In. intros [H Hh] Hx.
  apply in_inv in Hx. assert (C : x = 99%N \/ x = 103%N \/ x = 118%N \/ x = 119%N).
  { destruct Hx as [<-|Hx]; auto. cbn in Hx. destruct Hx as [<-|[<-|[<-|[<-|[]]]]]; auto. discriminate. }
  clear Hx Hh. destruct C as [->|[->|C]].
  - revert H. apply re_sub_removes; [intros st s'; exists 0; reflexivity|]. cbn. intuition discriminate.
  - revert H. apply re_sub_removes; [intros st s'; exists 0; reflexivity|]. cbn. intuition discriminate.
  - assert (N : forall r, In r [codes "k"; codes "j"; codes "x"; [EZH]; [ESH]; codes "J"] -> ~ In x r).
    { apply Forall_forall. clear H. repeat (apply Forall_cons || apply Forall_nil); cbn; destruct C; subst; intuition discriminate. }
    do 6 (apply re_sub_chars in H; destruct H as [H|H]; [eapply N; [|exact H]; cbn; tauto|]).
    revert H. apply re_sub_removes; [intros st s'; exists 0; destruct C; subst; reflexivity|].
    cbn. destruct C; subst; intuition discriminate.
Qed.

(** capital letters in a rewritten name: only J *)
Lemma rules_capitals s x : Forall (fun c => is_lower_letter c = true) s -> In x (apply_rules RULES s) ->
  is_upper_letter x = true -> x = 74%N.
Proof.
  intros Hs H U. unfold apply_rules, RULES in H. cbn [fold_left fst snd] in H.
  assert (N : forall r, In r [codes "k"; codes "j"; codes "x"; [EZH]; [ESH]; codes "f"; []; codes "ts"] -> ~ In x r).
  { apply Forall_forall. clear H. repeat (apply Forall_cons || apply Forall_nil); cbn; intros Hx; intuition; subst x; discriminate. }
  do 6 (apply re_sub_chars in H; destruct H as [H|H]; [exfalso; eapply N; [|exact H]; cbn; tauto|]).
  apply re_sub_chars in H. destruct H as [H|H]; [cbn in H; intuition|].
  do 3 (apply re_sub_chars in H; destruct H as [H|H]; [exfalso; eapply N; [|exact H]; cbn; tauto|]).
  rewrite Forall_forall in Hs. apply Hs in H. unfold is_lower_letter, is_upper_letter in *. lia.
Qed.

Section Rusalka.
Variable lower unidecode : str -> str.
Local Notation letters := (rusalka_letters lower unidecode).
Local Notation rusalka := (rusalka lower unidecode).

Lemma rusalka_error name e : rusalka name = Err e <-> e = IndexError /\ 2 <= length (letters name) /\ silent (letters name).
Proof.
  unfold PhoneticsModel.rusalka. destruct (Nat.ltb_spec (length (letters name)) 2) as [H|H].
  - split; [discriminate|lia].
  - rewrite <- rules_empty. destruct (apply_rules RULES (letters name)) as [|c s] eqn:E.
    + cbn. split; [intros H'; injection H' as <-; auto|]. intros [-> _]. reflexivity.
    + cbn [squeeze_sub]. destruct (eq_dec None (Some c)); [discriminate|]. cbn [map]. split; [discriminate|].
      intros [_ [_ H']]. discriminate.
Qed.

Lemma rusalka_short name : length (letters name) < 2 -> rusalka name = Ok (letters name).
Proof. unfold PhoneticsModel.rusalka. intros H. destruct (Nat.ltb_spec (length (letters name)) 2); [reflexivity|lia]. Qed.

Lemma rusalka_vowels name a r : 2 <= length (letters name) -> rusalka name = Ok (a :: r) ->
  (is_vowel a = true -> a = 97%N) /\ Forall (fun c => is_vowel c = false) r.
Proof.
  unfold PhoneticsModel.rusalka. intros H. destruct (Nat.ltb_spec (length (letters name)) 2); [lia|].
  destruct (map lower_J _) as [|f s]; [discriminate|]. intros E. injection E as <- <-. split.
  - destruct (is_vowel f) eqn:V; [reflexivity|congruence].
  - apply Forall_forall. intros c Hc. rewrite filter_In in Hc. destruct (is_vowel c); [destruct Hc; discriminate|reflexivity].
Qed.

Lemma rusalka_nonempty name code : 2 <= length (letters name) -> rusalka name = Ok code -> code <> [].
Proof.
  unfold PhoneticsModel.rusalka. intros H. destruct (Nat.ltb_spec (length (letters name)) 2); [lia|].
  destruct (map lower_J _) as [|f s]; [discriminate|]. intros E. injection E as <-. discriminate.
Qed.

Lemma rusalka_dropped name code x : 2 <= length (letters name) -> rusalka name = Ok code -> In x code ->
  ~ In x (codes "cghvw").
Proof.
  unfold PhoneticsModel.rusalka. intros H. destruct (Nat.ltb_spec (length (letters name)) 2); [lia|].
  destruct (map lower_J _) as [|f s] eqn:E; [discriminate|]. intros E' Hx Hb. injection E' as <-.
  assert (K : In x (f :: s) -> False).
  { intros Hin. rewrite <- E, in_map_iff in Hin. destruct Hin as [y [Ey Hy]]. apply squeeze_sub_In in Hy.
    unfold lower_J in Ey. destruct (is_upper_letter y) eqn:U.
    - apply rules_capitals in Hy; auto.
      + subst. cbn in Hb. intuition discriminate.
      + apply Forall_forall. intros c Hc. unfold rusalka_letters in Hc. rewrite filter_In in Hc. tauto.
    - subst y. apply rules_letters in Hy. auto. }
  cbn [In] in Hx. destruct Hx as [Hx|Hx].
  - destruct (is_vowel f) eqn:V.
    + subst x. cbn in Hb. intuition discriminate.
    + apply K. cbn. auto.
  - rewrite filter_In in Hx. apply K. cbn. tauto.
Qed.
End Rusalka.

Lemma replace_one x r s : replace [x] r s = flat_map (fun c => if N.eqb x c then r else [c]) s.
Proof.
  unfold replace. generalize true. induction s as [|c s IH]; intros b; [reflexivity|]. cbn [re_sub flat_map]. unfold literal at 1. cbn [starts_with].
  rewrite andb_true_r. destruct (N.eqb x c); cbn [length app]; rewrite IH; reflexivity.
Qed.
Lemma replace_ph b s : re_sub (literal (codes "PH")) (codes "F") b 0 s =
  match s with
  | c :: r => if N.eqb c 80 then match r with
                                 | h :: r' => if N.eqb h 72 then 70%N :: re_sub (literal (codes "PH")) (codes "F") true 0 r' else c :: re_sub (literal (codes "PH")) (codes "F") true 0 r
                                 | [] => [c] end
              else c :: re_sub (literal (codes "PH")) (codes "F") true 0 r
  | [] => []
  end.
Proof.
  assert (Any : forall s k b b', re_sub (literal (codes "PH")) (codes "F") b k s = re_sub (literal (codes "PH")) (codes "F") b' k s).
  { clear. destruct s as [|c s]; intros k b b'; reflexivity. }
  destruct s as [|c r]; [reflexivity|]. cbn [re_sub]. unfold literal at 1. change (codes "PH") with [80%N; 72%N] at 1. cbn [starts_with]. rewrite (N.eqb_sym 80 c).
  destruct (N.eqb c 80); cbn [andb]; [|f_equal; apply Any]. destruct r as [|h r']; [reflexivity|]. cbn [starts_with]. rewrite (N.eqb_sym 72 h), andb_true_r.
  destruct (N.eqb h 72); [|f_equal; apply Any]. change (length (codes "PH")) with 2. cbn [re_sub app codes map list_ascii_of_string]. f_equal. apply Any.
Qed.
Lemma germanic_correct s : replace (codes "PH") (codes "F") (flat_map spelled s) = germanic s.
Proof.
  unfold replace. remember (length s) as n eqn:E. assert (L : length s <= n) by lia. clear E. revert s L.
  induction n as [|n IH]; intros s L; destruct s as [|c r]; try reflexivity; cbn [length] in L; [lia|].
  cbn [flat_map germanic]. destruct (N.eqb_spec c 80) as [->|Hc].
  - change (spelled 80) with [80%N]. cbn [app]. rewrite replace_ph, N.eqb_refl. destruct r as [|h r']; [reflexivity|].
    cbn [length] in L. rewrite <- (IH (h :: r')) by (cbn [length]; lia). destruct (N.eqb_spec h 72) as [->|Hh].
    + change (flat_map spelled (72%N :: r')) with (72%N :: flat_map spelled r'). cbv iota beta. rewrite N.eqb_refl. rewrite IH by lia. reflexivity.
    + assert (Hd : exists x y, flat_map spelled (h :: r') = x :: y /\ (x =? 72)%N = false).
      { cbn [flat_map]. unfold spelled at 1 2. repeat match goal with |- context [N.eqb h ?k] => destruct (N.eqb h k); [cbn [app]; eexists; eexists; split; [reflexivity | reflexivity]|] end.
        eexists; eexists; split; [reflexivity | apply N.eqb_neq; exact Hh]. }
      destruct Hd as (x & y & -> & Hx). rewrite Hx. reflexivity.
  - rewrite <- (IH r) by lia. unfold spelled at 1 3.
    repeat match goal with |- context [N.eqb c ?k] => destruct (N.eqb c k); [cbn [app]; rewrite !replace_ph; reflexivity|] end.
    cbn [app]. rewrite replace_ph. apply N.eqb_neq in Hc. rewrite Hc. reflexivity.
Qed.
Lemma cologne_letters_germanic upper unidecode name : cologne_letters upper unidecode name =
  filter (fun c => N.leb 65 c && N.leb c 90) (unidecode (germanic (upper name))).
Proof.
  unfold cologne_letters. unfold is_upper_letter. f_equal. f_equal. unfold GERMANIC_SUBSTITUTIONS. cbn [fold_left fst snd].
  rewrite !replace_one. rewrite <- germanic_correct. f_equal. generalize (upper name). intros s. induction s as [|c s IH]; [reflexivity|].
  cbn [flat_map]. rewrite !flat_map_app, IH. f_equal. unfold spelled. rewrite !(N.eqb_sym c). 
  destruct (N.eqb 196 c) eqn:E1; [reflexivity|]. cbn [flat_map app]. destruct (N.eqb 214 c) eqn:E2; [reflexivity|]. cbn [flat_map app].
  destruct (N.eqb 220 c) eqn:E3; [reflexivity|]. cbn [flat_map app]. destruct (N.eqb 223 c); reflexivity.
Qed.
