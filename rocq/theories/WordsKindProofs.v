From Coq Require Import String Ascii.
From Verif Require Import Base BaseFacts LevModel StringsModel PhoneticsModel WordsModel WordsSpec WordsProofs WordsKindSpec.
Open Scope nat_scope.
Open Scope list_scope.
Notation length := List.length.
Notation concat := List.concat.

(** * Emoticons *)
Lemma head_in_spec p u : head_in p u = true -> exists c r, u = c :: r /\ p c = true.
Proof. destruct u as [|c r]; [discriminate|]. intros H. exists c, r. auto. Qed.

Lemma head_in_skipn p u n : head_in p (skipn n u) = true -> exists c, nth_error u n = Some c /\ p c = true.
Proof. intros H. apply head_in_spec in H. destruct H as (c & r & E & Hc). exists c. split; [exact (nth_skipn _ _ _ _ E) | exact Hc]. Qed.

Lemma firstn_S_nth {A} (u : list A) n c : nth_error u n = Some c -> firstn (n + 1) u = firstn n u ++ [c].
Proof.
  revert n; induction u as [|x u IH]; intros [|n] H; try discriminate; cbn in *.
  - injection H as ->. reflexivity.
  - f_equal. apply IH. exact H.
Qed.

Lemma span_dash u : firstn (span dash u) u = repeat 45%N (span dash u).
Proof.
  induction u as [|c u IH]; cbn [span]; [reflexivity|]. unfold dash at 1 3. destruct (N.eqb_spec c 45) as [->|]; cbn; [f_equal; exact IH | reflexivity].
Qed.

Lemma opt_cases p u : (opt p u = 0) \/ (opt p u = 1 /\ exists c, nth_error u 0 = Some c /\ p c = true).
Proof.
  unfold opt. destruct (head_in p u) eqn:E; [right | left; reflexivity]. split; [reflexivity|].
  apply (head_in_skipn p u 0). exact E.
Qed.

Lemma nth_error_skipn' {A} (u : list A) n k : nth_error (skipn n u) k = nth_error u (n + k).
Proof. revert n; induction u as [|x u IH]; intros [|n]; cbn; try reflexivity; [destruct k; reflexivity | apply IH]. Qed.

Lemma nth_error_firstn' {A} (l : list A) n i : i < n -> nth_error (firstn n l) i = nth_error l i.
Proof.
  revert n i. induction l as [|x l IH]; intros n i Hi; [rewrite firstn_nil; reflexivity|].
  destruct n; [lia|]. destruct i; simpl; [reflexivity|]. apply IH. lia.
Qed.
Lemma in_firstn {A} n (l : list A) x : In x (firstn n l) -> In x l.
Proof. intros H. rewrite <- (firstn_skipn n l). apply in_or_app. left. exact H. Qed.

Lemma memb_char c l : memb c (codes l) = true -> char_in c l.
Proof. intros H. apply memb_true in H. exact H. Qed.

Lemma smiley_sound u e : smiley_end u = Some e -> emoticon (firstn e u).
Proof.
  unfold smiley_end. intros H.
  destruct (Nat.leb 1 (span dash u) && head_in (fun c => c =? 62)%N (skipn (span dash u) u)) eqn:E1.
  { apply andb_prop in E1. destruct E1 as [E0 E1]. injection H as <-. apply head_in_skipn in E1. destruct E1 as (c & E1 & Ec).
    apply N.eqb_eq in Ec. subst c. rewrite (firstn_S_nth _ _ _ E1), span_dash. destruct (span dash u) as [|n]; [discriminate|]. apply (right_arrow n). }
  destruct (head_in (fun c => c =? 60)%N u && Nat.leb 1 (span dash (skipn 1 u))) eqn:E2.
  { apply andb_prop in E2. destruct E2 as [E2 E0]. injection H as <-. destruct u as [|x u]; [discriminate|]. cbn [head_in] in E2.
    apply N.eqb_eq in E2. subst x. change (skipn 1 (60%N :: u)) with u in *. cbn [plus firstn]. rewrite span_dash.
    destruct (span dash u) as [|n]; [discriminate|]. apply (left_arrow n). }
  clear E1 E2.
  destruct (head_in eyes (skipn (opt (fun c => memb c (codes "<>")) u) u) && _) eqn:E3.
  { apply andb_prop in E3. destruct E3 as [E3 E4]. injection H as <-. apply head_in_skipn in E3, E4.
    destruct E3 as (e & E3 & He). destruct E4 as (m & E4 & Hm). apply memb_char in He, Hm.
    assert (B : exists brow, firstn (opt (fun c => memb c (codes "<>")) u) u = brow /\ (brow = [] \/ exists b, brow = [b] /\ char_in b "<>")).
    { destruct (opt_cases (fun c => memb c (codes "<>")) u) as [E|[E (c & Ec & Hc)]]; rewrite E.
      - exists []. auto.
      - exists [c]. split; [exact (firstn_S_nth u 0 c Ec)|]. right. exists c. split; [reflexivity | apply memb_char; exact Hc]. }
    destruct B as (brow & B1 & B2). set (a := opt _ u) in *. clearbody a.
    pose proof (firstn_S_nth _ _ _ E3) as F1. rewrite B1 in F1.
    destruct (opt_cases nose (skipn (a + 1) u)) as [E|[E (c & Ec & Hc)]]; rewrite E in *.
    - rewrite Nat.add_0_r in *. rewrite (firstn_S_nth _ _ _ E4), F1, <- app_assoc. apply (face brow e [] m); auto.
    - rewrite nth_error_skipn', Nat.add_0_r in Ec. rewrite (firstn_S_nth _ _ _ E4), (firstn_S_nth _ _ _ Ec), F1, <- !app_assoc.
      apply (face brow e [c] m); auto. right. exists c. split; [reflexivity | apply memb_char; exact Hc]. }
  clear E3.
  destruct (head_in mouth u && head_in eyes (skipn (1 + opt nose (skipn 1 u)) u)) eqn:E3.
  { apply andb_prop in E3. destruct E3 as [E3 E4]. assert (He : e = 1 + opt nose (skipn 1 u) + 1) by congruence. rewrite He. clear H He e.
    apply (head_in_skipn mouth u 0) in E3. apply head_in_skipn in E4.
    destruct E3 as (m & E3 & Hm). destruct E4 as (e & E4 & He). apply memb_char in He, Hm.
    destruct (opt_cases nose (skipn 1 u)) as [E|[E (c & Ec & Hc)]]; rewrite E in E4; rewrite E.
    - destruct u as [|x0 [|x1 u]]; try discriminate. cbn in E3, E4. injection E3 as ->. injection E4 as ->.
      apply (reversed_face m [] e); auto.
    - destruct u as [|x0 [|x1 [|x2 u]]]; try discriminate. cbn in E3, E4, Ec. injection E3 as ->. injection E4 as ->. injection Ec as ->.
      apply (reversed_face m [c] e); auto. right. exists c. split; [reflexivity | apply memb_char; exact Hc]. }
  clear E3.
  destruct (head_in (fun c => memb c (codes "<:")) u && head_in (fun c => c =? 51)%N (skipn 1 u)) eqn:E5.
  { apply andb_prop in E5. destruct E5 as [E5 E6]. injection H as <-. apply (head_in_skipn _ u 0) in E5. apply head_in_skipn in E6.
    destruct E5 as (b & E5 & Hb). destruct E6 as (c & E6 & Hc). apply N.eqb_eq in Hc. subst c.
    destruct u as [|x0 [|x1 u]]; try discriminate. cbn in E5, E6. injection E5 as ->. injection E6 as ->.
    apply heart. apply memb_char. exact Hb. }
  destruct (starts_with (codes "^^") u) eqn:E6; [|discriminate]. injection H as <-.
  apply starts_with_app in E6. destruct E6 as [b ->]. exact happy.
Qed.

(** a text that begins with an emoticon is never read otherwise *)
Lemma char_memb c l : char_in c l -> memb c (codes l) = true.
Proof. intros H. apply memb_true. exact H. Qed.

Lemma span_repeat n z : match z with c :: _ => dash c = false | [] => True end -> span dash (repeat 45%N n ++ z) = n.
Proof.
  intros H. induction n as [|n IH]; cbn [repeat app span].
  - destruct z as [|c z]; [reflexivity|]. cbn [span]. rewrite H. reflexivity.
  - change (dash 45%N) with true. cbv iota. f_equal. exact IH.
Qed.

Ltac enumerate_chars := repeat match goal with H : char_in _ _ |- _ => apply char_memb in H end.
Lemma mouth_not_nose m : mouth m = true -> nose m = false.
Proof. intros H. apply memb_true in H. cbv in H. repeat (destruct H as [<-|H]; [reflexivity|]). destruct H. Qed.
Lemma eyes_not_nose m : eyes m = true -> nose m = false.
Proof. intros H. apply memb_true in H. cbv in H. repeat (destruct H as [<-|H]; [reflexivity|]). destruct H. Qed.
Lemma eyes_not_brow m : eyes m = true -> memb m (codes "<>") = false.
Proof. intros H. apply memb_true in H. cbv in H. repeat (destruct H as [<-|H]; [reflexivity|]). destruct H. Qed.

Lemma smiley_complete v w : emoticon v -> smiley_end (v ++ w) <> None.
Proof.
  unfold smiley_end. intros H.
  destruct (Nat.leb 1 (span dash (v ++ w)) && head_in (fun c => c =? 62)%N (skipn (span dash (v ++ w)) (v ++ w))) eqn:E1; [discriminate|].
  destruct (head_in (fun c => c =? 60)%N (v ++ w) && Nat.leb 1 (span dash (skipn 1 (v ++ w)))) eqn:E2; [discriminate|].
  destruct (head_in eyes (skipn (opt (fun c => memb c (codes "<>")) (v ++ w)) (v ++ w)) && _) eqn:E3; [discriminate|].
  destruct (head_in mouth (v ++ w) && _) eqn:E4; [discriminate|].
  destruct (head_in (fun c => memb c (codes "<:")) (v ++ w) && head_in (fun c => c =? 51)%N (skipn 1 (v ++ w))) eqn:E5; [discriminate|].
  destruct (starts_with (codes "^^") (v ++ w)) eqn:E6; [discriminate|]. exfalso.
  destruct H as [n|n|brow e nse m Hb He Hn Hm|m nse e Hm Hn He|b Hb|].
  - rewrite <- app_assoc in E1. rewrite span_repeat in E1 by reflexivity.
    rewrite skipn_app, repeat_length, Nat.sub_diag, skipn_all2 in E1 by (rewrite repeat_length; reflexivity). cbn in E1. discriminate.
  - change ((codes "<" ++ repeat 45%N (S n)) ++ w) with (60%N :: repeat 45%N (S n) ++ w) in E2. cbn in E2. discriminate.
  - apply char_memb in He, Hm. change (eyes e = true) in He. change (mouth m = true) in Hm.
    pose proof (mouth_not_nose m Hm) as Hmn. pose proof (eyes_not_brow e He) as Heb.
    destruct Hb as [->|(b & -> & Hb)]; [|apply char_memb in Hb]; (destruct Hn as [->|(n & -> & Hn)]; [|apply char_memb in Hn; change (nose n = true) in Hn]);
      unfold opt in E3; cbn [app head_in skipn plus] in E3; rewrite ?Heb, ?Hb in E3; cbn [app head_in skipn plus] in E3;
      rewrite ?Hmn, ?Hn in E3; cbn [app head_in skipn plus] in E3; rewrite He, Hm in E3; discriminate.
  - apply char_memb in He, Hm. change (eyes e = true) in He. change (mouth m = true) in Hm.
    pose proof (eyes_not_nose e He) as Hen.
    destruct Hn as [->|(n & -> & Hn)]; [|apply char_memb in Hn; change (nose n = true) in Hn];
      unfold opt in E4; cbn [app head_in skipn plus] in E4; rewrite ?Hen, ?Hn in E4; cbn [app head_in skipn plus] in E4;
      rewrite He, Hm in E4; discriminate.
  - apply char_memb in Hb. cbn [app head_in skipn] in E5. rewrite Hb in E5. discriminate.
  - discriminate.
Qed.

(** * Hashtags *)
Section Pieces.
Variables isdigit isupper islower : N -> bool.
Hypothesis lower_upper : forall c, islower c = true -> isupper c = false.
Hypothesis digit_case : forall c, isdigit c = true -> isupper c = false /\ islower c = false.

Definition state_type (st : hashtag_state) : token_type := match st with Digits => Number | _ => Word end.
Definition held (st : hashtag_state) : nat := match st with UpperNext => 1 | _ => 0 end.

Lemma slice_prefix s o i j : o <= i -> i <= j -> exists x, slice s o j = slice s o i ++ x.
Proof. intros H1 H2. exists (slice s i j). symmetry. apply slice_app; assumption. Qed.

Lemma slice_skipn_all s o i : o <= i -> skipn o s = slice s o i ++ skipn i s.
Proof. apply skipn_slice. Qed.

Lemma split_loop_head s rest : forall st o i, rest = skipn i s -> o + held st < i ->
  exists v ts, split_loop isdigit isupper islower s st o i rest = (state_type st, v) :: ts /\ exists x, v = slice s o (i - held st) ++ x.
Proof.
  clear lower_upper digit_case.
  induction rest as [|c rest IH]; intros st o i Hr Ho; cbn [split_loop].
  - exists (skipn o s), []. split; [destruct st; reflexivity|]. exists (skipn (i - held st) s). apply slice_skipn_all. lia.
  - assert (Hr' : rest = skipn (i + 1) s) by (symmetry in Hr; pose proof (nth_skipn _ _ _ _ Hr) as E; rewrite (skipn_nth _ _ _ E) in Hr; congruence).
    assert (Cut : forall k ts, o <= i - held st -> i - held st <= k -> exists v ts', (state_type st, slice s o k) :: ts = (state_type st, v) :: ts' /\ exists x, v = slice s o (i - held st) ++ x).
    { intros k ts H1 H2. exists (slice s o k), ts. split; [reflexivity | apply slice_prefix; assumption]. }
    assert (Stay : forall st', state_type st' = state_type st -> o + held st' < i + 1 -> i - held st <= i + 1 - held st' ->
      exists v ts, split_loop isdigit isupper islower s st' o (i + 1) rest = (state_type st, v) :: ts /\ exists x, v = slice s o (i - held st) ++ x).
    { intros st' E1 E2 E3. destruct (IH st' o (i + 1) Hr' E2) as (v & ts & Es & x & Ex). exists v, ts. rewrite Es, E1. split; [reflexivity|].
      destruct (slice_prefix s o (i - held st) (i + 1 - held st')) as [y Ey]; [lia | exact E3 |]. exists (y ++ x). rewrite Ex, Ey, app_assoc. reflexivity. }
    destruct st; cbn [held state_type] in *.
    + destruct (isupper c); [apply Cut; lia|]. destruct (isdigit c); [apply Cut; lia|]. apply Stay; cbn [held]; [reflexivity | lia | lia].
    + destruct (islower c); [apply Stay; cbn [held]; [reflexivity | lia | lia]|]. destruct (isupper c); [apply Stay; cbn [held]; [reflexivity | lia | lia]|].
      destruct (isdigit c); [apply Cut; lia|]. apply Stay; cbn [held]; [reflexivity | lia | lia].
    + destruct (islower c); [apply Cut; lia|]. destruct (isdigit c); [apply Cut; lia|]. apply Stay; cbn [held]; [reflexivity | lia | lia].
    + destruct (negb (isdigit c)); [destruct (isupper c); apply Cut; lia|]. apply Stay; cbn [held]; [reflexivity | lia | lia].
Qed.

Notation nodigit := (Forall (fun c => isdigit c = false)).
Notation noupper := (Forall (fun c => isupper c = false)).
Notation nolower := (Forall (fun c => islower c = false)).

Definition piece_ok (st : hashtag_state) (cur : str) : Prop :=
  match st with
  | Lower => nodigit cur /\ noupper (tl cur)
  | UpperStart => nodigit cur /\ noupper (tl cur) /\ nolower (tl cur)
  | UpperNext => nodigit cur /\ nolower (tl cur)
  | Digits => Forall (fun c => isdigit c = true) cur
  end.

Lemma piece_ok_piece st cur : piece_ok st cur -> hashtag_piece isdigit isupper islower (state_type st, cur).
Proof. clear lower_upper digit_case. destruct st; cbn; intuition. Qed.

Lemma tl_snoc {A} (l : list A) c : l <> [] -> tl (l ++ [c]) = tl l ++ [c].
Proof. destruct l; [contradiction | reflexivity]. Qed.

Lemma Forall_snoc {A} (P : A -> Prop) l c : Forall P l -> P c -> Forall P (l ++ [c]).
Proof. intros H1 H2. apply Forall_app. split; [exact H1 | repeat constructor; exact H2]. Qed.

Lemma split_loop_pieces s rest : forall st o i, rest = skipn i s -> i <= length s -> o + held st < i -> piece_ok st (slice s o i) ->
  let ts := split_loop isdigit isupper islower s st o i rest in
  Forall (hashtag_piece isdigit isupper islower) ts /\ adjacent (hashtag_cut isupper islower) ts.
Proof.
  induction rest as [|c rest IH]; intros st o i Hr Hi Ho Hp.
  - cbn. split; [|exact Logic.I]. constructor; [|constructor]. apply (f_equal (@length N)) in Hr. rewrite skipn_length in Hr. cbn in Hr.
    replace (skipn o s) with (slice s o i); [apply (piece_ok_piece st); exact Hp|].
    unfold slice. rewrite firstn_all2; [reflexivity|]. rewrite skipn_length. unfold str in *. lia.
  - pose proof (nth_skipn _ _ _ _ (eq_sym Hr)) as Hc.
    assert (Hr' : rest = skipn (i + 1) s) by (rewrite (skipn_nth _ _ _ Hc) in Hr; congruence).
    pose proof (nth_error_lt _ _ _ Hc) as Li.
    assert (Snoc : slice s o (i + 1) = slice s o i ++ [c]) by (rewrite <- (slice_one s i c Hc); symmetry; apply slice_app; lia).
    assert (NE : slice s o i <> []).
    { intros E. apply (f_equal (@length N)) in E. rewrite slice_length in E by exact Hi. cbn in E. lia. }
    assert (Tl : tl (slice s o (i + 1)) = tl (slice s o i) ++ [c]) by (rewrite Snoc; apply tl_snoc; exact NE).
    assert (Stay : forall st', o + held st' < i + 1 -> piece_ok st' (slice s o (i + 1)) ->
      let ts := split_loop isdigit isupper islower s st' o (i + 1) rest in
      Forall (hashtag_piece isdigit isupper islower) ts /\ adjacent (hashtag_cut isupper islower) ts).
    { intros st' H1 H2. apply IH; [exact Hr' | unfold str in *; lia | exact H1 | exact H2]. }
    (* a cut before position k, the new piece being in state st' *)
    assert (Cut : forall st' k, k <= i -> k + held st' < i + 1 -> hashtag_piece isdigit isupper islower (state_type st, slice s o k) ->
      piece_ok st' (slice s k (i + 1)) -> 
      (forall v x, v = slice s k (i + 1 - held st') ++ x -> hashtag_cut isupper islower (state_type st, slice s o k) (state_type st', v)) ->
      let ts := (state_type st, slice s o k) :: split_loop isdigit isupper islower s st' k (i + 1) rest in
      Forall (hashtag_piece isdigit isupper islower) ts /\ adjacent (hashtag_cut isupper islower) ts).
    { intros st' k H0 H1 H2 H3 H4. destruct (IH st' k (i + 1) Hr' ltac:(unfold str in *; lia) H1 H3) as [F A].
      destruct (split_loop_head s rest st' k (i + 1) Hr' H1) as (v & ts & Es & x & Ex).
      cbn zeta. split; [constructor; assumption|]. rewrite Es in *. cbn [adjacent] in *. split; [apply (H4 v x Ex) | exact A]. }
    pose proof (slice_one s i c Hc) as One.
    assert (Whole : hashtag_piece isdigit isupper islower (state_type st, slice s o i)) by (apply piece_ok_piece; exact Hp).
    destruct st; cbn [split_loop]; cbn [piece_ok held] in *.
    + destruct (isupper c) eqn:Eu.
      { assert (Ed : isdigit c = false) by (destruct (isdigit c) eqn:E; [apply digit_case in E; destruct E; congruence | reflexivity]).
        apply (Cut UpperStart i); [lia | cbn; lia | exact Whole | |].
        - rewrite One. cbn. repeat split; try constructor; try assumption; constructor.
        - intros v x ->. cbn [held]. rewrite Nat.sub_0_r, One. left. exists c, x. split; [reflexivity | exact Eu]. }
      destruct (isdigit c) eqn:Ed.
      { apply (Cut Digits i); [lia | cbn; lia | exact Whole | rewrite One; cbn; repeat constructor; exact Ed |]. intros v x _. exact Logic.I. }
      apply (Stay Lower); [cbn; lia|]. cbn [piece_ok]. rewrite Tl, Snoc. split; apply Forall_snoc; tauto.
    + destruct (islower c) eqn:El.
      { assert (Ed : isdigit c = false) by (destruct (isdigit c) eqn:E; [apply digit_case in E; destruct E; congruence | reflexivity]).
        apply (Stay Lower); [cbn; lia|]. cbn [piece_ok]. rewrite Tl, Snoc. split; apply Forall_snoc; try tauto. apply lower_upper. exact El. }
      destruct (isupper c) eqn:Eu.
      { assert (Ed : isdigit c = false) by (destruct (isdigit c) eqn:E; [apply digit_case in E; destruct E; congruence | reflexivity]).
        apply (Stay UpperNext); [cbn; lia|]. cbn [piece_ok]. rewrite Tl, Snoc. split; apply Forall_snoc; tauto. }
      destruct (isdigit c) eqn:Ed.
      { apply (Cut Digits i); [lia | cbn; lia | exact Whole | rewrite One; cbn; repeat constructor; exact Ed |]. intros v x _. exact Logic.I. }
      apply (Stay UpperStart); [cbn; lia|]. cbn [piece_ok]. rewrite Tl, Snoc. split; [|split]; apply Forall_snoc; tauto.
    + destruct (nth_error s (i - 1)) as [d|] eqn:Hd.
      2: { apply nth_error_None in Hd. unfold str in *. lia. }
      assert (Before : slice s o i = slice s o (i - 1) ++ [d]).
      { rewrite <- (slice_one s (i - 1) d Hd). replace (i - 1 + 1) with i by lia. symmetry. apply slice_app; lia. }
      assert (NE1 : slice s o (i - 1) <> []).
      { intros E. apply (f_equal (@length N)) in E. rewrite slice_length in E by lia. cbn in E. lia. }
      assert (Hdl : islower d = false /\ isdigit d = false).
      { destruct Hp as [Hp1 Hp2]. rewrite Before in Hp1, Hp2. rewrite tl_snoc in Hp2 by exact NE1. apply Forall_app in Hp1, Hp2.
        destruct Hp1 as [_ Hp1], Hp2 as [_ Hp2]. inversion Hp1. inversion Hp2. auto. }
      destruct (islower c) eqn:El.
      { assert (Ed : isdigit c = false) by (destruct (isdigit c) eqn:E; [apply digit_case in E; destruct E; congruence | reflexivity]).
        assert (Two : slice s (i - 1) (i + 1) = [d; c]).
        { rewrite (slice_cons s (i - 1) (i + 1) d Hd) by lia. replace (i - 1 + 1) with i by lia. rewrite One. reflexivity. }
        apply (Cut Lower (i - 1)); [lia | cbn; lia | | |].
        - destruct Hp as [Hp1 Hp2]. rewrite Before in Hp1, Hp2. rewrite tl_snoc in Hp2 by exact NE1. apply Forall_app in Hp1, Hp2. cbn. split; [apply Hp1 | right; apply Hp2].
        - rewrite Two. cbn. split; [repeat constructor; tauto|]. repeat constructor. apply lower_upper. exact El.
        - intros v x ->. cbn [held]. rewrite Nat.sub_0_r, Two. right. exists d, c, x. split; [reflexivity | split; [tauto | exact El]]. }
      destruct (isdigit c) eqn:Ed.
      { apply (Cut Digits i); [lia | cbn; lia | exact Whole | rewrite One; cbn; repeat constructor; exact Ed |]. intros v x _. exact Logic.I. }
      apply (Stay UpperNext); [cbn; lia|]. cbn [piece_ok]. rewrite Tl, Snoc. split; apply Forall_snoc; tauto.
    + destruct (isdigit c) eqn:Ed; cbn [negb].
      { apply (Stay Digits); [cbn; lia|]. cbn [piece_ok]. rewrite Snoc. apply Forall_snoc; tauto. }
      destruct (isupper c) eqn:Eu.
      { apply (Cut UpperStart i); [lia | cbn; lia | exact Whole | |].
        - rewrite One. cbn. repeat split; try constructor; try assumption; constructor.
        - intros v x _. exact Logic.I. }
      apply (Cut Lower i); [lia | cbn; lia | exact Whole | rewrite One; cbn; repeat constructor; exact Ed |]. intros v x _. exact Logic.I.
Qed.

Lemma split_hashtag_pieces s ts : split_hashtag isdigit isupper islower s = Ok ts ->
  Forall (hashtag_piece isdigit isupper islower) ts /\ adjacent (hashtag_cut isupper islower) ts.
Proof.
  unfold split_hashtag. intros H. destruct (nth_error s 1) as [c|] eqn:Ec; [|discriminate]. injection H as <-.
  pose proof (nth_error_lt _ _ _ Ec) as L. pose proof (slice_one s 1 c Ec) as One. change (1 + 1) with 2 in One.
  apply split_loop_pieces; [reflexivity | unfold str in *; lia | |]; destruct (isdigit c) eqn:Ed; cbn [negb held piece_ok]; try lia; rewrite One; cbn; repeat split; repeat constructor; exact Ed.
Qed.
End Pieces.

(** * Emojis *)
Section Emojis.
Variable isalnum : N -> bool.
Variable emoji : str -> nat.
Hypothesis emoji_bound : forall u, emoji u <= length u.

Definition punct_or_emoji (tok : token) : Prop :=
  match tok with
  | (Punct, v) => exists c, v = [c] /\ isalnum c = false
  | (Emoji, v) => emoji_text emoji v
  | _ => False
  end.
Definition bare (tok : token) : Prop :=
  match tok with
  | (Punct, v) => exists c, v = [c] /\ isalnum c = false
  | (Emoji, v) => v <> [] /\ exists rest, emoji (v ++ rest) = length v
  | _ => False
  end.

Lemma with_holes_bare s : forall cur k, Forall (fun c => isalnum c = false) s ->
  (k = 0 -> cur = []) -> (k <> 0 -> cur <> [] /\ emoji (rev cur ++ s) = length cur + k /\ k <= length s) -> Forall bare (with_holes emoji cur k s).
Proof.
  induction s as [|c s IH]; intros cur k Hs H0 Hk; cbn [with_holes].
  - destruct k as [|k]; [rewrite (H0 eq_refl); constructor|]. destruct (Hk ltac:(discriminate)) as (_ & _ & L). cbn in L. lia.
  - inversion Hs as [|? ? Hc Hs']; subst. destruct k as [|[|k]].
    + destruct (emoji (c :: s)) as [|[|k]] eqn:E.
      * constructor; [exists c; auto | apply IH; [assumption | reflexivity | contradiction]].
      * constructor; [split; [discriminate | exists s; exact E] | apply IH; [assumption | reflexivity | contradiction]].
      * apply IH; [assumption | discriminate |]. intros _. split; [discriminate|]. split; [exact E|].
        pose proof (emoji_bound (c :: s)) as B. rewrite E in B. cbn in B. lia.
    + destruct (Hk ltac:(discriminate)) as (Hn & E & L). constructor; [|apply IH; [assumption | reflexivity | contradiction]].
      split; [cbn; destruct (rev cur); discriminate|]. exists s. cbn [rev]. rewrite <- app_assoc. cbn [app]. rewrite E, app_length, rev_length. reflexivity.
    + destruct (Hk ltac:(discriminate)) as (Hn & E & L). apply IH; [assumption | discriminate |]. intros _. split; [discriminate|].
      cbn [rev length]. rewrite <- app_assoc. cbn [app]. rewrite E. cbn [length] in L. lia.
Qed.

Lemma merge_emojis_kind l : Forall bare l -> Forall punct_or_emoji (merge_emojis l).
Proof.
  clear emoji_bound.
  assert (W : forall tok, bare tok -> punct_or_emoji tok).
  { intros [t v]. destruct t; cbn; try tauto. intros (H1 & H2). exists v. auto. }
  remember (length l) as n eqn:En. revert l En. induction n as [n IH] using lt_wf_ind. intros l En H.
  destruct l as [|[t v] [|[t' v'] l]]; cbn [merge_emojis].
  - constructor.
  - inversion H; subst. constructor; [apply W; assumption | constructor].
  - inversion H as [|? ? H1 H2]; subst. inversion H2 as [|? ? H3 H4]; subst. cbn [fst snd].
    destruct (eqb t Emoji && eqb t' Punct && eqb v' [65039%N]) eqn:E.
    + apply andb_prop in E. destruct E as [E E3]. apply andb_prop in E. destruct E as [E1 E2].
      rewrite eqb_true in E1. rewrite eqb_true in E2. rewrite eqb_true in E3. subst t t' v'. constructor; [|apply (IH (length l)); [cbn; lia | reflexivity | assumption]].
      cbn in H1 |- *. destruct H1 as (N1 & r & Hr). exists v. split; [exact N1|]. split; [right; reflexivity | exists r; exact Hr].
    + constructor; [apply W; assumption | exact (IH (length ((t', v') :: l)) (Nat.lt_succ_diag_r _) ((t', v') :: l) eq_refl H2)].
Qed.

Lemma punct_emoji_kind s : Forall (fun c => isalnum c = false) s -> Forall punct_or_emoji (punct_emoji_iter emoji s).
Proof. intros H. apply merge_emojis_kind. apply with_holes_bare; [exact H | reflexivity | contradiction]. Qed.
End Emojis.

(** * Loops *)
Section KindLoops.
Variables isspace isalnum isalpha isdigit isupper islower : N -> bool.
Hypothesis classes : char_classes isspace isalnum isalpha isdigit isupper.
Hypothesis more : more_classes isspace isalnum isupper islower.

Notation wordc := (word_char isspace isalnum).

Lemma alnum_word c : isalnum c = true -> wordc c.
Proof. intros H. split; [exact (cc_alnum_space _ _ _ _ _ classes c H) | left; exact H]. Qed.

Lemma alnum_loop_words rest : forall prev j acr j' acr',
  alnum_loop isspace isalnum isupper false rest prev j acr = (j', acr') ->
  j <= j' <= j + length rest /\ Forall wordc (firstn (j' - j) rest) /\
  (forall n, nth_error rest (j' - j) = Some n -> isalnum n = false).
Proof.
  induction rest as [|n rest IH]; intros prev j acr j' acr' H; cbn [alnum_loop] in H.
  - injection H as <- <-. rewrite Nat.sub_diag. split; [cbn; lia|]. split; [constructor | discriminate].
  - assert (Stop : isalnum n = false -> j' = j -> j <= j' <= j + length (n :: rest) /\ Forall wordc (firstn (j' - j) (n :: rest)) /\
      (forall m, nth_error (n :: rest) (j' - j) = Some m -> isalnum m = false)).
    { intros E ->. rewrite Nat.sub_diag. split; [lia|]. split; [constructor|]. intros m Em. injection Em as <-. exact E. }
    assert (Go : wordc n -> forall p a, alnum_loop isspace isalnum isupper false rest p (j + 1) a = (j', acr') ->
      j <= j' <= j + length (n :: rest) /\ Forall wordc (firstn (j' - j) (n :: rest)) /\
      (forall m, nth_error (n :: rest) (j' - j) = Some m -> isalnum m = false)).
    { intros Wn p a E. apply IH in E. destruct E as (L & F & M). split; [cbn; lia|].
      replace (j' - j) with (S (j' - (j + 1))) by lia. split; [constructor; assumption | exact M]. }
    destruct (isspace n) eqn:Es.
    { apply Stop; [|injection H as <- _; reflexivity]. destruct (isalnum n) eqn:E; [|reflexivity].
      apply (cc_alnum_space _ _ _ _ _ classes) in E. congruence. }
    destruct (memb n IDENTIFIER_PARTS || (n =? 183)%N) eqn:Ei.
    { assert (An : isalnum n = false /\ wordc n).
      { apply orb_prop in Ei. destruct Ei as [Ei|Ei].
        - rewrite memb_true in Ei. destruct Ei as [<-|[<-|[]]]; (split; [apply classes || apply more | split; [exact Es | right; left; cbv; auto]]).
        - apply N.eqb_eq in Ei. subst n. split; [apply more | split; [exact Es | right; right; left; reflexivity]]. }
      destruct rest as [|n' rest'].
      { apply Stop; [apply An | injection H as <- _; reflexivity]. }
      destruct (isspace n'); [apply Stop; [apply An | injection H as <- _; reflexivity]|]. apply Go in H; [exact H | apply An]. }
    destruct (isalnum n) eqn:Ea; cbn [negb] in H.
    { apply Go in H; [exact H | apply alnum_word; exact Ea]. }
    destruct ((n =? 46)%N && isupper prev) eqn:Ep; [|apply Stop; [exact eq_refl | injection H as <- _; reflexivity]].
    apply Go in H; [exact H|]. apply andb_prop in Ep. destruct Ep as [Ep _]. apply N.eqb_eq in Ep. subst n.
    split; [exact Es | right; left; cbv; auto].
Qed.

Lemma alnum_loop_address rest : forall prev j acr j' acr',
  alnum_loop isspace isalnum isupper true rest prev j acr = (j', acr') ->
  j <= j' <= j + length rest /\ acr' = acr /\ Forall (fun c => isspace c = false /\ c <> 44%N) (firstn (j' - j) rest) /\
  (forall n, nth_error rest (j' - j) = Some n -> isspace n = true \/ n = 44%N).
Proof.
  clear classes more.
  induction rest as [|n rest IH]; intros prev j acr j' acr' H; cbn [alnum_loop] in H.
  - injection H as <- <-. rewrite Nat.sub_diag. split; [cbn; lia|]. split; [reflexivity|]. split; [constructor | discriminate].
  - destruct (isspace n) eqn:Es.
    { injection H as <- <-. rewrite Nat.sub_diag. split; [cbn; lia|]. split; [reflexivity|]. split; [constructor|].
      intros m Em. injection Em as <-. left; exact Es. }
    destruct (N.eqb_spec n 44) as [->|Hn].
    { injection H as <- <-. rewrite Nat.sub_diag. split; [cbn; lia|]. split; [reflexivity|]. split; [constructor|].
      intros m Em. injection Em as <-. right; reflexivity. }
    apply IH in H. destruct H as (L & -> & F & M). split; [cbn; lia|]. split; [reflexivity|].
    replace (j' - j) with (S (j' - (j + 1))) by lia. split; [constructor; [split; assumption | assumption] | exact M].
Qed.

(** what has been read of a number after its first character *)
Notation digits := (Forall (fun x => isdigit x = true)).
Definition fraction (pre : str) : Prop := exists ds p fs, pre = ds ++ p :: fs /\ digits ds /\ digits fs /\ char_in p ".,".
Definition read_number (chosen : option N) (t : token_type) (pre : str) : Prop :=
  match chosen with
  | None => digits pre
  | Some _ => fraction pre
  end /\ t = match pre with [] => Punct | _ => Number end.

Lemma decimal_not_digit p : char_in p ".," -> isdigit p = false.
Proof. intros [<-|[<-|[]]]; apply classes. Qed.

Lemma numeric_loop_kind rest : forall c chosen t j pre j' b t',
  numeric_loop isspace isalpha isdigit rest (last (c :: pre) 0%N) chosen t j = (j', b, t') ->
  memb c DECIMALS = false -> read_number chosen t pre ->
  exists k, k <= length rest /\ let pre' := pre ++ firstn k rest in
    (digits pre' \/ fraction pre') /\
    ((j' = j + k /\ forall n, nth_error rest k = Some n -> isdigit n = false) \/
     (b = true /\ j' = j + k - 1 /\ exists ds p, pre' = ds ++ [p] /\ char_in p ".,")) /\
    (b = true -> t' = match pre' with [] => Punct | _ => Number end).
Proof.
  clear more.
  induction rest as [|n rest IH]; intros c chosen t j pre j' b t' H Hc Hr; cbn [numeric_loop] in H.
  - injection H as <- <- <-. exists 0. split; [cbn; lia|]. cbn zeta. cbn [firstn]. rewrite app_nil_r. destruct Hr as [Hr Ht].
    split; [destruct chosen; [right | left]; exact Hr|]. split; [left; split; [lia | discriminate] | intros _; exact Ht].
  - assert (Form : digits pre \/ fraction pre) by (destruct Hr as [Hr _]; destruct chosen; [right | left]; exact Hr).
    assert (Stop : forall b0 t0, (b0 = true -> t0 = t) -> isdigit n = false -> (j, b0, t0) = (j', b, t') -> exists k, k <= length (n :: rest) /\ let pre' := pre ++ firstn k (n :: rest) in
      (digits pre' \/ fraction pre') /\
      ((j' = j + k /\ forall m, nth_error (n :: rest) k = Some m -> isdigit m = false) \/
       (b = true /\ j' = j + k - 1 /\ exists ds p, pre' = ds ++ [p] /\ char_in p ".,")) /\
      (b = true -> t' = match pre' with [] => Punct | _ => Number end)).
    { intros b0 t0 Hb Hd E. injection E as <- <- <-. exists 0. split; [cbn; lia|]. cbn zeta. cbn [firstn]. rewrite app_nil_r.
      split; [exact Form|]. split.
      - left. split; [lia|]. intros m Em. injection Em as <-. exact Hd.
      - intros Eb. rewrite (Hb Eb). apply Hr. }
    assert (Go : forall ch, read_number ch Number (pre ++ [n]) -> numeric_loop isspace isalpha isdigit rest n ch Number (j + 1) = (j', b, t') ->
      exists k, k <= length (n :: rest) /\ let pre' := pre ++ firstn k (n :: rest) in
      (digits pre' \/ fraction pre') /\
      ((j' = j + k /\ forall m, nth_error (n :: rest) k = Some m -> isdigit m = false) \/
       (b = true /\ j' = j + k - 1 /\ exists ds p, pre' = ds ++ [p] /\ char_in p ".,")) /\
      (b = true -> t' = match pre' with [] => Punct | _ => Number end)).
    { intros ch Hch E. replace n with (last (c :: pre ++ [n]) 0%N) in E at 1 by (rewrite app_comm_cons; apply last_last).
      apply IH in E; [|exact Hc | exact Hch]. destruct E as (k & Lk & F & Q & T). exists (S k). split; [cbn; lia|]. cbn zeta in *.
      cbn [firstn]. rewrite <- app_assoc in F, Q, T. split; [exact F|]. split; [|exact T].
      destruct Q as [[S1 S2]|(S1 & S2 & S3)]; [left; split; [lia | exact S2] | right; split; [exact S1|]; split; [lia | exact S3]]. }
    destruct (isspace n) eqn:Es.
    { apply (Stop true t); auto. destruct (isdigit n) eqn:E; [|reflexivity].
      apply (cc_digit_alnum _ _ _ _ _ classes), (cc_alnum_space _ _ _ _ _ classes) in E. congruence. }
    destruct (isdigit n) eqn:Ed; cbn [negb] in H.
    { apply Go in H; [exact H|]. destruct Hr as [Hr Ht]. split; [|destruct pre; reflexivity].
      destruct chosen.
      - destruct Hr as (ds & p & fs & -> & H1 & H2 & H3). exists ds, p, (fs ++ [n]). rewrite <- app_assoc. split; [reflexivity|].
        split; [exact H1|]. split; [apply Forall_snoc; assumption | exact H3].
      - apply Forall_snoc; assumption. }
    destruct (memb (last (c :: pre) 0%N) DECIMALS) eqn:El.
    { injection H as <- <- <-. exists 0. split; [cbn; lia|]. cbn zeta. cbn [firstn]. rewrite app_nil_r. split; [exact Form|]. split.
      - right. split; [reflexivity|]. split; [lia|]. destruct pre as [|x pre] using rev_ind; [cbn [last] in El; congruence|].
        rewrite app_comm_cons, last_last in El. exists pre, x. split; [reflexivity | apply memb_char; exact El].
      - intros _. apply Hr. }
    destruct (negb (last (c :: pre) 0%N =? 45)%N && (isalpha n || memb n IDENTIFIER_PARTS)) eqn:Ew.
    { apply (Stop false Word); [discriminate | reflexivity | exact H]. }
    destruct (memb n DECIMALS) eqn:En; cbn [negb] in H; [|apply (Stop true t); auto].
    destruct chosen as [x|]; [apply (Stop true t); auto|].
    apply Go in H; [exact H|]. split; [|destruct pre; reflexivity]. exists pre, n, []. split; [reflexivity|].
    split; [apply Hr|]. split; [constructor | apply memb_char; exact En].
Qed.
End KindLoops.

(** * The tokenizer *)
Section KindStep.
Variables isspace isalnum isalpha isdigit isupper islower : N -> bool.
Variable lower : str -> str.
Variable emoji : str -> nat.
Variable split_hashtags : bool.
Hypothesis classes : char_classes isspace isalnum isalpha isdigit isupper.
Hypothesis more : more_classes isspace isalnum isupper islower.
Hypothesis digit_case : forall c, isdigit c = true -> isupper c = false /\ islower c = false.
Hypothesis emoji_bound : forall u, emoji u <= length u.
Variable s : str.

Notation wordc := (word_char isspace isalnum).
Notation kind' := (kind isspace isalnum isalpha isdigit lower emoji).
Notation swallows' := (swallows isspace isalnum isdigit).
Notation maximal' := (maximal isspace isalnum isdigit s).
Notation grown' := (grown isalnum lower).

Definition K (p : nat) (tok : token) : Prop :=
  kind' (fst tok) (snd tok) /\ (split_hashtags = false -> maximal' p (fst tok) (snd tok)).

Inductive placed : nat -> nat -> list token -> Prop :=
| placed_nil i i' : i <= i' -> placed i i' []
| placed_cons i p i' t v ts : i <= p -> p + length v <= length s -> slice s p (p + length v) = v -> K p (t, v) ->
    placed (p + length v) i' ts -> placed i i' ((t, v) :: ts).

Lemma placed_le i i' ts : placed i i' ts -> i <= i'.
Proof. induction 1; lia. Qed.

Lemma placed_from i0 i i' ts : i0 <= i -> placed i i' ts -> placed i0 i' ts.
Proof.
  intros L H. inversion H as [? ? H1|? p ? t v ts' H1 H2 H3 H4 H5]; subst.
  - apply placed_nil. lia.
  - apply (placed_cons i0 p); try assumption. lia.
Qed.

Lemma placed_app i j k a b : placed i j a -> placed j k b -> placed i k (a ++ b).
Proof.
  intros H H2. induction H as [i i' H|i p i' t v ts H1 H3 H4 H5 H6 IH]; cbn [app].
  - apply (placed_from i i'); assumption.
  - econstructor; eauto.
Qed.

Lemma placed_prefix i j a b : placed i j (a ++ b) -> placed i j a.
Proof.
  revert i; induction a as [|[t v] a IH]; intros i H.
  - constructor. apply placed_le in H. exact H.
  - cbn [app] in H. inversion H; subst. econstructor; eauto.
Qed.

Lemma placed_one i j t : i <= j -> j <= length s -> K i (t, slice s i j) -> placed i j [(t, slice s i j)].
Proof.
  intros H1 H2 HK. apply (placed_cons i i); [lia | | | exact HK |]; rewrite slice_length by exact H2; replace (i + (j - i)) with j by lia;
    [exact H2 | reflexivity | constructor; lia].
Qed.

(** the tokens fill the text and their kinds do not depend on their place *)
Lemma placed_fill ts : forall i j, j <= length s -> i <= j -> concat (map snd ts) = slice s i j ->
  Forall (fun tok => forall p, slice s p (p + length (snd tok)) = snd tok -> K p tok) ts -> placed i j ts.
Proof.
  induction ts as [|[t v] ts IH]; intros i j Hj Hij E F; cbn [map snd concat] in E.
  - constructor. exact Hij.
  - inversion F as [|? ? F1 F2]; subst.
    assert (L : i + length v <= j).
    { apply (f_equal (@length N)) in E. rewrite app_length, slice_length in E by exact Hj. lia. }
    rewrite <- (slice_app s i (i + length v) j) in E by lia.
    assert (Ev : slice s i (i + length v) = v).
    { apply (f_equal (firstn (length v))) in E. rewrite firstn_app, Nat.sub_diag, firstn_O, app_nil_r, firstn_all in E.
      rewrite firstn_app, firstn_all2, slice_length in E by (rewrite ?slice_length; lia).
      replace (length v - (i + length v - i)) with 0 in E by lia. rewrite firstn_O, app_nil_r in E. symmetry. exact E. }
    rewrite Ev in E. apply app_inv_head in E.
    apply (placed_cons i i); [lia | lia | exact Ev | apply F1; exact Ev | apply IH; [exact Hj | exact L | exact E | exact F2]].
Qed.

Definition core (t : token_type) (b : str) : Prop :=
  match t with
  | Word => Forall wordc b
  | Number => number isdigit b
  | Punct => exists c, b = [c] /\ (isdigit c = true \/ c = 45%N)
  | Hashtag => hashtag isalnum isalpha b
  | Mention => mention b
  | Url => url isspace b
  | Email => email isspace b
  | _ => False
  end.
Definition stops (t : token_type) (j : nat) : Prop := forall c, nth_error s j = Some c -> ~ swallows' t c.

Lemma kind_grown t b v : core t b -> t <> Url -> t <> Email -> grown' b v -> kind' t v.
Proof.
  clear. intros H N1 N2 G. destruct t; cbn in *; try contradiction; try (exists b; split; assumption).
  right. destruct H as (c & -> & Hc). exists c. split; assumption.
Qed.

Lemma kind_core t b : core t b -> kind' t b.
Proof.
  clear. intros H. destruct t; cbn in *; try contradiction; try assumption; try (exists b; split; [assumption | constructor]).
  right. destruct H as (c & -> & Hc). exists c. split; [assumption | constructor].
Qed.

Lemma K_core i j t : i <= j -> j <= length s -> core t (slice s i j) -> stops t j -> K i (t, slice s i j).
Proof.
  intros H1 H2 H3 H4. split; [apply kind_core; exact H3|]. intros _. right; right. cbn [fst snd]. rewrite slice_length by exact H2.
  replace (i + (j - i)) with j by lia. exact H4.
Qed.

Lemma apostrophe_memb a : memb a APOSTROPHES = true -> apostrophe a.
Proof. clear. intros H. rewrite memb_true in H. destruct H as [<-|[<-|[]]]; [left | right]; reflexivity. Qed.

Lemma apostrophe_space a : apostrophe a -> isspace a = false /\ a <> 44%N.
Proof.
  intros [-> | ->]; split; try discriminate.
  - apply (mc_space_ascii _ _ _ _ more). lia.
  - exact (mc_space_quote _ _ _ _ more).
Qed.

Lemma apostrophe_alnum a : apostrophe a -> isalnum a = false.
Proof. intros [-> | ->]; apply classes. Qed.

Lemma slice_cut i j a b : j <= length s -> slice s i j = a ++ b -> i + length a + length b = j ->
  slice s i (i + length a) = a /\ slice s (i + length a) j = b.
Proof.
  clear. intros Hj E L. rewrite <- (slice_app s i (i + length a) j) in E by lia.
  apply app_eq_app in E. destruct E as (l & [[E1 E2]|[E1 E2]]).
  - pose proof (f_equal (@length N) E1) as E3. rewrite app_length, slice_length in E3 by lia.
    assert (l = []) by (destruct l; [reflexivity | cbn in E3; lia]). subst l. rewrite app_nil_r in E1. auto.
  - pose proof (f_equal (@length N) E1) as E3. rewrite app_length, slice_length in E3 by lia.
    assert (l = []) by (destruct l; [reflexivity | cbn in E3; lia]). subst l. rewrite app_nil_r in E1. auto.
Qed.

(** words cut at a character *)
Lemma split_placed sep rest : isalnum sep = false -> forall cur i j, j <= length s ->
  slice s i j = rev cur ++ rest -> i + length cur + length rest = j -> Forall wordc (rev cur ++ rest) -> stops Word j ->
  placed i j (map (fun x => (Word, x)) (split_on sep cur rest)).
Proof.
  intros Hsep. induction rest as [|c rest IH]; intros cur i j Hj E L F St; cbn [split_on].
  - rewrite app_nil_r in *. cbn [map]. rewrite <- E. apply placed_one; [lia | exact Hj | apply K_core; [lia | exact Hj | rewrite E; exact F | exact St]].
  - assert (Cut : slice s i (i + length cur) = rev cur /\ slice s (i + length cur) j = c :: rest).
    { rewrite <- (rev_length cur). apply slice_cut; [exact Hj | exact E | rewrite rev_length; exact L]. }
    destruct Cut as [C1 C2]. cbn [length] in L. destruct (N.eqb_spec c sep) as [->|Hc].
    + cbn [map]. apply Forall_app in F. destruct F as [F1 F2]. inversion F2 as [|? ? _ F3]; subst.
      assert (Hn : nth_error s (i + length cur) = Some sep) by (unfold slice in C2; destruct (skipn (i + length cur) s) eqn:E3;
        [rewrite firstn_nil in C2; discriminate | replace (length rest) with (length rest) in C2 by reflexivity;
         replace (i + length cur + S (length rest) - (i + length cur)) with (S (length rest)) in C2 by lia; injection C2 as -> _; exact (nth_skipn _ _ _ _ E3)]).
      change ((Word, rev cur) :: map (fun x => (Word, x)) (split_on sep [] rest)) with ([(Word, rev cur)] ++ map (fun x => (Word, x)) (split_on sep [] rest)).
      apply (placed_app _ (i + length cur)).
      * rewrite <- C1. apply placed_one; [lia | unfold str in *; lia |]. apply K_core; [lia | unfold str in *; lia | rewrite C1; exact F1 |].
        intros d Hd. rewrite Hn in Hd. injection Hd as <-. cbn. rewrite Hsep. discriminate.
      * apply (placed_from _ (i + length cur + 1)); [lia|]. apply IH; [exact Hj | | cbn; lia | exact F3 | exact St].
        rewrite (slice_cons s _ _ sep Hn) in C2 by lia. injection C2 as C2. exact C2.
    + apply IH; [exact Hj | | cbn [length]; lia | | exact St]; cbn [rev]; rewrite <- app_assoc; assumption.
Qed.

Lemma split_on_no sep s' : forall cur, ~ In sep (rev cur) -> Forall (fun x => ~ In sep x) (split_on sep cur s').
Proof.
  clear. induction s' as [|c s' IH]; intros cur H; cbn [split_on]; [repeat constructor; exact H|].
  destruct (N.eqb_spec c sep) as [->|Hc]; [constructor; [exact H | apply IH; exact (fun x => x)]|].
  apply IH. cbn [rev]. intros K0. apply in_app_or in K0. destruct K0 as [K0|[K0|[]]]; [exact (H K0) | exact (Hc K0)].
Qed.

(** the pieces of an acronym *)
Definition point_token (x : str) : token := (if negb (eqb x (codes ".")) then Word else Punct, x).
Lemma points_placed rest : forall cur i j, j <= length s ->
  slice s i j = rev cur ++ rest -> i + length cur + length rest = j -> Forall wordc (rev cur ++ rest) -> ~ In 46%N cur -> stops Word j ->
  placed i j (map point_token (interleave (codes ".") (split_on 46 cur rest))).
Proof.
  assert (NotPoint : forall cur : str, ~ In 46%N cur -> point_token (rev cur) = (Word, rev cur)).
  { intros cur H. unfold point_token. match goal with |- context [negb ?b] => destruct b eqn:E end; [|reflexivity]. rewrite eqb_true in E. exfalso. apply H. apply in_rev. rewrite E. left; reflexivity. }
  induction rest as [|c rest IH]; intros cur i j Hj E L F Hp St; cbn [split_on].
  - rewrite app_nil_r in *. cbn [interleave map]. rewrite (NotPoint cur Hp), <- E. apply placed_one; [lia | exact Hj | apply K_core; [lia | exact Hj | rewrite E; exact F | exact St]].
  - cbn [length] in L. destruct (N.eqb_spec c 46) as [->|Hc].
    + assert (Cut : slice s i (i + length cur) = rev cur /\ slice s (i + length cur) j = 46%N :: rest).
      { rewrite <- (rev_length cur). apply slice_cut; [exact Hj | exact E | rewrite rev_length; exact L]. }
      destruct Cut as [C1 C2].
      assert (Hn : nth_error s (i + length cur) = Some 46%N).
      { unfold slice in C2. destruct (skipn (i + length cur) s) eqn:E3; [rewrite firstn_nil in C2; discriminate|].
        replace (j - (i + length cur)) with (S (length rest)) in C2 by lia. injection C2 as -> _. exact (nth_skipn _ _ _ _ E3). }
      rewrite (slice_cons s _ _ _ Hn) in C2 by lia. injection C2 as C2.
      apply Forall_app in F. destruct F as [F1 F2]. inversion F2 as [|? ? _ F3]; subst.
      specialize (IH [] (i + length cur + 1) (i + length cur + S (length rest)) Hj C2 ltac:(cbn; lia) F3 ltac:(exact (fun x => x)) St).
      pose proof (split_on_length 46 [] rest) as K0.
      destruct (split_on 46 [] rest) as [|y ys] eqn:Es; [discriminate|]. clear K0.
      cbn [interleave map]. rewrite (NotPoint cur Hp). cbn [interleave map] in IH.
      assert (P1 : placed i (i + length cur) [(Word, rev cur)]).
      { rewrite <- C1. apply placed_one; [lia | unfold str in *; lia |]. apply K_core; [lia | unfold str in *; lia | rewrite C1; exact F1 |].
        intros d Hd. rewrite Hn in Hd. injection Hd as <-. cbn. rewrite (cc_alnum_point _ _ _ _ _ classes). discriminate. }
      assert (P2 : placed (i + length cur) (i + length cur + 1) [point_token (codes ".")]).
      { change (point_token (codes ".")) with (Punct, codes "."). change (codes ".") with [46%N]. rewrite <- (slice_one s _ _ Hn). apply placed_one; [lia | unfold str in *; lia |]. rewrite (slice_one s _ _ Hn).
        split; [left; exists 46%N; split; [reflexivity | apply classes]|]. intros _. right; right. intros d _ []. }
      exact (placed_app _ _ _ _ _ P1 (placed_app _ _ _ _ _ P2 IH)).
    + apply IH; [exact Hj | | cbn [length]; lia | | | exact St]; try (cbn [rev]; rewrite <- app_assoc; assumption).
      intros [H|H]; [exact (Hc H) | exact (Hp H)].
Qed.

Lemma placed_text i j t v : i <= j -> j <= length s -> v = slice s i j -> K i (t, v) -> placed i j [(t, v)].
Proof. intros H1 H2 -> H. apply placed_one; assumption. Qed.

Lemma hashtag_piece_kind tok : hashtag_piece isdigit isupper islower tok -> snd tok <> [] ->
  Forall (fun c => isalnum c = true) (snd tok) -> kind' (fst tok) (snd tok).
Proof.
  destruct tok as [t v]. cbn [fst snd]. intros H Hn F. destruct t; cbn in H; try contradiction.
  - cbn. exists v. split; [|constructor]. eapply Forall_impl; [|exact F]. intros c Hc. apply (alnum_word _ _ _ _ _ classes). exact Hc.
  - destruct v as [|c ds]; [contradiction|]. inversion H as [|? ? H1 H2]; subst. exists (c :: ds). split; [|constructor].
    exists c, ds. split; [left; exact H1|]. split; [exact H2 | left; reflexivity].
Qed.

Lemma regular_word_kind i j t ts : i < j -> j <= length s -> core t (slice s i j) -> stops t j ->
  regular_word isdigit isupper islower split_hashtags t (slice s i j) = Ok ts -> placed i j ts.
Proof.
  intros Hij Hj C St H.
  assert (One : placed i j [(t, slice s i j)]) by (apply placed_one; [lia | exact Hj | apply K_core; [lia | exact Hj | exact C | exact St]]).
  destruct t; cbn [regular_word] in H; try (injection H as <-; exact One).
  - assert (Sp : placed i j (map (fun x => (Word, x)) (split 45 (slice s i j)))).
    { apply split_placed; [apply classes | exact Hj | reflexivity | cbn [length]; rewrite slice_length by exact Hj; lia | exact C | exact St]. }
    destruct (_ && _); [injection H as <-; exact Sp|].
    destruct (Nat.eqb _ 1); [|injection H as <-; exact One].
    destruct (split 45 (slice s i j)) as [|a [|b [|x l]]]; try discriminate.
    destruct (memb b _); injection H as <-; [exact Sp | exact One].
  - destruct split_hashtags eqn:Eh; [|injection H as <-; exact One].
    destruct C as (c & a & u & E & Hc & Ha & Hu).
    assert (L : 2 <= length (slice s i j)) by (rewrite E; cbn; lia).
    destruct (split_hashtag_ok isdigit isupper islower _ L) as (ts' & E' & C' & F'). rewrite H in E'. injection E' as <-.
    destruct (split_hashtag_pieces isdigit isupper islower (mc_lower_upper _ _ _ _ more) digit_case _ _ H) as [P _].
    rewrite slice_length in L by exact Hj.
    destruct (nth_error s i) as [c'|] eqn:Ei; [|apply nth_error_None in Ei; lia].
    rewrite (slice_cons s i j c' Ei) in * by lia. cbn [skipn] in C'.
    apply (placed_from _ (i + 1)); [lia|]. apply placed_fill; [exact Hj | lia | exact C'|].
    assert (Al : Forall (fun x => isalnum x = true) (concat (map snd ts))).
    { rewrite C'. injection E as -> E. rewrite E. constructor; [apply (cc_alpha_alnum _ _ _ _ _ classes); exact Ha | exact Hu]. }
    apply Forall_forall. intros tok Hin p _. split; [|congruence].
    rewrite Forall_forall in P, F'. apply hashtag_piece_kind; [apply P; exact Hin | apply F'; exact Hin|].
    rewrite Forall_concat, Forall_map, Forall_forall in Al. apply Al. exact Hin.
Qed.

Lemma finish_word_kind i j t acr ts i' : i < j -> j <= length s -> core t (slice s i j) -> stops t j -> (acr = true -> t = Word) ->
  finish_word isalnum isdigit isupper islower lower split_hashtags s i j t acr (slice s i j) = Ok (ts, i') -> placed i i' ts /\ i' <= length s.
Proof.
  intros Hij Hj C St Ha H. unfold finish_word in H.
  assert (One : K i (t, slice s i j)) by (apply K_core; [lia | exact Hj | exact C | exact St]).
  destruct acr.
  { rewrite (Ha eq_refl) in *. destruct (forallb _ _); injection H as <- <-; (split; [|exact Hj]).
    - apply placed_one; [lia | exact Hj | exact One].
    - change (fun x : str => (if negb (eqb x (codes ".")) then Word else Punct, x)) with point_token.
      assert (P : placed i j (map point_token (point_split (slice s i j)))).
      { apply points_placed; [exact Hj | reflexivity | cbn [length]; rewrite slice_length by exact Hj; lia | exact C | exact (fun x => x) | exact St]. }
      destruct (point_split (slice s i j)) as [|x l] using rev_ind; [exact P|].
      rewrite removelast_last. rewrite map_app in P. apply placed_prefix in P. exact P. }
  destruct (nth_error s j) as [a|] eqn:Ej.
  2: { destruct (regular_word _ _ _ _ _ _) as [rs|] eqn:Er; [|discriminate]. injection H as <- <-. split; [|exact Hj].
    apply (regular_word_kind i j t); assumption. }
  pose proof (nth_error_lt _ _ _ Ej) as Lj.
  destruct (memb a APOSTROPHES) eqn:Ap.
  - apply apostrophe_memb in Ap. pose proof (apostrophe_space a Ap) as As.
    assert (T : t <> Url /\ t <> Email).
    { split; intros ->; apply (St a Ej); exact As. }
    set (k := scan (fun n => isalnum n || memb n SIGILS) s (j + 1)) in *.
    assert (Hk : j + 1 <= k <= length s) by (apply scan_bounds; unfold str in *; lia).
    assert (Whole : slice s i j ++ a :: slice s (j + 1) k = slice s i k).
    { rewrite <- (slice_app s i j k), (slice_cons s j k a Ej) by lia. reflexivity. }
    assert (Part : slice s i j ++ [a] = slice s i (j + 1)).
    { rewrite <- (slice_one s j a Ej). apply slice_app; lia. }
    assert (G1 : placed i (j + 1) [(t, slice s i j ++ [a])]).
    { apply placed_text; [lia | unfold str in *; lia | exact Part|]. split.
      - apply (kind_grown t (slice s i j)); [exact C | apply T | apply T | apply elided; exact Ap].
      - intros _. left. exists a. split; [exact Ap | apply in_or_app; right; left; reflexivity]. }
    destruct (Nat.ltb_spec (j + 1) k) as [Lk|Lk].
    + assert (G2 : placed i k [(t, slice s i j ++ a :: slice s (j + 1) k)]).
      { apply placed_text; [lia | lia | exact Whole|]. split.
        - apply (kind_grown t (slice s i j)); [exact C | apply T | apply T | apply joined; [exact Ap|]]. split.
          + intros E. apply (f_equal (@length N)) in E. rewrite slice_length in E by lia. cbn in E. lia.
          + eapply Forall_impl; [|apply scan_forall]. intros c Hc. cbn beta in Hc. apply orb_prop in Hc. destruct Hc as [Hc|Hc]; [left; exact Hc | right; rewrite memb_true in Hc; exact Hc].
        - intros _. left. exists a. split; [exact Ap | apply in_or_app; right; left; reflexivity]. }
      destruct (slice s (j + 1) k) as [|a0 al] eqn:Eaf; [discriminate|].
      destruct (rev (slice s i j)) as [|b0 bl] eqn:Eb; [discriminate|].
      destruct (isdigit a0); [injection H as <- <-; split; [exact G1 | unfold str in *; lia]|].
      match type of H with (if ?b then _ else _) = _ => destruct b eqn:Ec end.
      { injection H as <- <-. split; [|lia]. change (placed i k ([(t, slice s i j)] ++ [(t, a :: a0 :: al)])). apply (placed_app _ j).
        - apply placed_one; [lia | exact Hj | exact One].
        - apply placed_text; [lia | lia | rewrite (slice_cons s j k a Ej), Eaf by lia; reflexivity|]. split.
          + apply (kind_grown t (slice s i j)); [exact C | apply T | apply T | apply contracted; [exact Ap|]]. rewrite memb_true in Ec. exact Ec.
          + intros _. left. exists a. split; [exact Ap | left; reflexivity]. }
      match type of H with (if ?b then _ else _) = _ => destruct b end.
      { injection H as <- <-. split; [|lia]. rewrite <- Whole. exact G2. }
      match type of H with (if ?b then _ else _) = _ => destruct b end; injection H as <- <-; [split; [exact G2 | lia] | split; [exact G1 | unfold str in *; lia]].
    + injection H as <- <-. split; [|lia]. replace k with (j + 1) by lia.
      change (placed i (j + 1) ([(t, slice s i j)] ++ [(Punct, [a])])). apply (placed_app _ j).
      * apply placed_one; [lia | exact Hj | exact One].
      * apply placed_text; [lia | unfold str in *; lia | rewrite (slice_one s j a Ej); reflexivity|]. split.
        -- left. exists a. split; [reflexivity | apply apostrophe_alnum; exact Ap].
        -- intros _. left. exists a. split; [exact Ap | left; reflexivity].
  - destruct (Nat.ltb (j + 1) (length s) && (a =? 46)%N && memb (lower (slice s i j)) ABBREVIATIONS) eqn:Ab.
    + apply andb_prop in Ab. destruct Ab as [Ab Am]. apply andb_prop in Ab. destruct Ab as [_ Ab]. apply N.eqb_eq in Ab. subst a.
      injection H as <- <-. split; [|unfold str in *; lia].
      apply placed_text; [lia | unfold str in *; lia | change (codes ".") with [46%N]; rewrite <- (slice_one s j _ Ej), slice_app by lia; reflexivity|]. split.
      * apply (kind_grown t (slice s i j)); [exact C | | | apply abbreviated; rewrite memb_true in Am; exact Am];
          intros ->; apply (St _ Ej); (split; [apply (mc_space_ascii _ _ _ _ more); lia | discriminate]).
      * intros _. right; left. exists (slice s i j). reflexivity.
    + destruct (regular_word _ _ _ _ _ _) as [rs|] eqn:Er; [|discriminate]. injection H as <- <-. split; [|exact Hj].
      apply (regular_word_kind i j t); assumption.
Qed.

Lemma core_apostrophe t b tail : core t (b :: tail) -> apostrophe b -> t = Word.
Proof.
  intros C A. pose proof (apostrophe_alnum b A) as An.
  assert (D : ~ (isdigit b = true \/ b = 45%N)).
  { intros [D| ->]; [apply (cc_digit_alnum _ _ _ _ _ classes) in D; congruence | destruct A; discriminate]. }
  destruct t; cbn in C; try contradiction; try reflexivity.
  - exfalso. destruct C as (c & ds & Hc & _ & [E|(p & fs & _ & _ & _ & E)]); injection E as -> _; exact (D Hc).
  - exfalso. destruct C as (c & E & Hc). injection E as -> _. exact (D Hc).
  - exfalso. destruct C as [(u & [E|E]) _]; injection E as -> _; destruct A; discriminate.
  - exfalso. destruct C as (user & rest & E & Hn & _ & F & _). destruct user as [|x user]; [contradiction|]. injection E as -> _.
    inversion F as [|? ? F1 _]; subst. unfold address_char in F1. destruct A as [-> | ->]; cbn in F1; intuition (try lia); discriminate.
  - exfalso. destruct C as (c & a & u & E & Hc & _). injection E as -> _. destruct A as [-> | ->]; destruct Hc; discriminate.
  - exfalso. destruct C as (u & E & _). injection E as -> _. destruct A; discriminate.
Qed.

Lemma finish_kind i j t acr c ts i' : nth_error s i = Some c -> i < j -> j <= length s -> core t (slice s i j) -> stops t j ->
  (acr = true -> t = Word) -> finish isalnum isdigit isupper islower lower split_hashtags s i j t acr = Ok (ts, i') ->
  placed i i' ts /\ i' <= length s.
Proof.
  intros Hc Hij Hj C St Ha H. unfold finish in H. destruct (slice s i j) as [|b tail] eqn:E; [discriminate|].
  rewrite (slice_cons s i j c Hc Hij) in E. injection E as -> E.
  destruct (memb b APOSTROPHES && _) eqn:Eq.
  - apply andb_prop in Eq. destruct Eq as [Eq _]. apply apostrophe_memb in Eq. pose proof (core_apostrophe _ _ _ C Eq) as ->.
    assert (P : placed i (i + 1) [(Punct, [b])]).
    { apply placed_text; [lia | unfold str in *; lia | symmetry; apply slice_one; exact Hc|]. split.
      - left. exists b. split; [reflexivity | apply apostrophe_alnum; exact Eq].
      - intros _. left. exists b. split; [exact Eq | left; reflexivity]. }
    destruct (Nat.eqb_spec (i + 1) j) as [Ej|Ej]; [injection H as <- <-; split; [exact P | lia]|].
    destruct (finish_word _ _ _ _ _ _ _ _ _ _ _ _) as [[ts' k]|] eqn:Ef; [|discriminate]. injection H as <- <-.
    rewrite <- E in Ef. apply finish_word_kind in Ef; [| lia | exact Hj | | exact St | exact Ha].
    + destruct Ef as [G L]. split; [|exact L]. exact (placed_app _ _ _ _ _ P G).
    + cbn in C |- *. rewrite E. inversion C; assumption.
  - assert (Eb : b :: tail = slice s i j) by (rewrite (slice_cons s i j b Hc Hij), E; reflexivity).
    rewrite Eb in H, C. apply finish_word_kind in H; assumption.
Qed.

Lemma slice_ext i j j' : i <= j -> j <= j' -> slice s i j' = slice s i j ++ firstn (j' - j) (skipn j s).
Proof. clear. intros H1 H2. rewrite <- (slice_app s i j j' H1 H2). reflexivity. Qed.

(** a text of good characters at position [i] is read up to its end at least *)
Lemma whole_prefix (good : N -> Prop) i j p r : skipn i s = p ++ r -> Forall good p -> i <= j -> j <= length s ->
  (forall n, nth_error s j = Some n -> ~ good n) -> exists u, slice s i j = p ++ u.
Proof.
  clear. intros E F H1 H2 Hs. destruct (Nat.le_gt_cases (length p) (j - i)) as [L|L].
  - unfold slice. rewrite E, firstn_app, firstn_all2 by exact L. eauto.
  - exfalso. destruct (nth_error p (j - i)) as [n|] eqn:En; [|apply nth_error_None in En; lia].
    assert (En' : nth_error s j = Some n).
    { replace j with (i + (j - i)) by lia. rewrite <- nth_error_skipn', E, nth_error_app1; [exact En | lia]. }
    apply (Hs n En'). rewrite Forall_forall in F. apply F. exact (nth_error_In _ _ En).
Qed.

Lemma alphanumerical_kind i j c ts i' : nth_error s i = Some c -> i < j -> j <= length s -> Forall wordc (slice s i j) ->
  Forall (fun x => isdigit x = true \/ char_in x ".,") (slice s (i + 1) j) -> (isdigit c = true \/ c = 45%N \/ j = i + 1) ->
  alphanumerical isspace isalnum isdigit isupper islower lower split_hashtags s (slice s i (i + 64)) i j Word = Ok (ts, i') ->
  placed i i' ts /\ i' <= length s.
Proof.
  intros Hc Hij Hj W D J H. unfold alphanumerical in H.
  destruct (alnum_loop isspace isalnum isupper _ (skipn j s) (nth (j - 1) s 0%N) j false) as [j' acr] eqn:E.
  assert (Sub : forall a b, slice s i (i + 64) = a ++ b -> exists b', skipn i s = a ++ b').
  { intros a b Eab. unfold slice in Eab. exists (b ++ skipn (i + 64 - i) (skipn i s)). rewrite app_assoc, <- Eab. symmetry. apply firstn_skipn. }
  assert (Ascii : forall x, (33 <= x <= 126)%N -> x <> 44%N -> isspace x = false /\ x <> 44%N).
  { intros x Hx H44. split; [apply (mc_space_ascii _ _ _ _ more); exact Hx | exact H44]. }
  destruct (starts_as_url (slice s i (i + 64))) eqn:Eu.
  - cbn [orb] in E. apply (alnum_loop_address isspace isalnum isalpha isdigit isupper islower) in E. destruct E as (L & -> & F & M). rewrite skipn_length in L.
    assert (P : exists p b, (p = codes "http://" \/ p = codes "https://") /\ slice s i (i + 64) = p ++ b).
    { apply orb_prop in Eu. destruct Eu as [Eu|Eu]; apply starts_with_app in Eu; destruct Eu as [b Eb]; eauto. }
    destruct P as (p & b & Hp & Eb). apply Sub in Eb. destruct Eb as [b' Eb].
    assert (Fp : Forall (fun x => isspace x = false /\ x <> 44%N) p).
    { assert (Fp : Forall (fun x => (33 <= x <= 126)%N /\ x <> 44%N) p).
      { destruct Hp as [-> | ->]; repeat (constructor; [split; [split; discriminate | discriminate]|]); constructor. }
      eapply Forall_impl; [|exact Fp]. intros x [H1 H2]. apply Ascii; assumption. }
    assert (Ec : c = 104%N).
    { rewrite (skipn_nth s i c Hc) in Eb. destruct Hp as [-> | ->]; injection Eb as -> _; reflexivity. }
    assert (J' : j = i + 1).
    { destruct J as [J|[J|J]]; [| subst c; discriminate | exact J]. exfalso.
      assert (X : isdigit c = false) by (apply (cc_digit_letter _ _ _ _ _ classes); subst c; lia). congruence. }
    assert (M' : forall n, nth_error s j' = Some n -> ~ (isspace n = false /\ n <> 44%N)).
    { intros n Hn [N1 N2]. rewrite nth_error_skipn' in M. replace (j + (j' - j)) with j' in M by lia. destruct (M n Hn); congruence. }
    apply (finish_kind _ _ _ _ c) in H; [exact H | exact Hc | lia | unfold str in *; lia | | | discriminate].
    + destruct (whole_prefix (fun x => isspace x = false /\ x <> 44%N) i j' p b' Eb Fp ltac:(lia) ltac:(unfold str in *; lia) M') as [u Hu].
      split; [rewrite Hu; exists u; destruct Hp as [-> | ->]; [left | right]; reflexivity|].
      rewrite (slice_ext i j j') by lia. apply Forall_app. split; [|exact F]. rewrite J', (slice_one s i c Hc). constructor; [|constructor].
      apply Ascii; subst c; [lia | discriminate].
    + intros n Hn. exact (M' n Hn).
  - destruct (email_lookahead (slice s i (i + 64))) eqn:Ee.
    + cbn [orb] in E. apply (alnum_loop_address isspace isalnum isalpha isdigit isupper islower) in E. destruct E as (L & -> & F & M). rewrite skipn_length in L.
      unfold email_lookahead in Ee. set (u := slice s i (i + 64)) in *. set (n := span email_char u) in *.
      apply andb_prop in Ee. destruct Ee as [Ee E3]. apply andb_prop in Ee. destruct Ee as [E1 E2].
      apply Nat.leb_le in E1, E2.
      assert (Pu : exists user r, u = (user ++ [64%N]) ++ r /\ user <> [] /\ length user < 64 /\ Forall address_char user).
      { exists (firstn n u). destruct (skipn n u) as [|x r] eqn:Es; [discriminate|]. cbn [head_in] in E3. apply N.eqb_eq in E3. subst x.
        exists r. rewrite <- app_assoc. cbn [app]. rewrite <- Es. split; [symmetry; apply firstn_skipn|].
        pose proof (span_le email_char u : n <= length u) as Ln. split; [|split].
        - intros X. apply (f_equal (@length N)) in X. rewrite firstn_length in X. cbn in X. lia.
        - assert (Ln' : n < length u) by (apply (f_equal (@length N)) in Es; rewrite skipn_length in Es; cbn [length] in Es; lia). assert (Lu : length u <= 64) by (unfold u, slice; rewrite firstn_length; lia). rewrite firstn_length. lia.
        - eapply Forall_impl; [|apply span_forall]. intros x Hx. cbn beta in Hx. unfold email_char in Hx. unfold address_char, char_in.
          rewrite !orb_true_iff, !andb_true_iff, !N.leb_le in Hx. rewrite memb_true in Hx. tauto. }
      destruct Pu as (user & r & Er & Hn & Hl & Fu). apply Sub in Er. destruct Er as [b' Eb].
      assert (Fp : Forall (fun x => isspace x = false /\ x <> 44%N) (user ++ [64%N])).
      { apply Forall_app. split; [|constructor; [apply Ascii; [lia | discriminate] | constructor]].
        eapply Forall_impl; [|exact Fu]. intros x Hx.
        assert (X : (33 <= x <= 126)%N /\ x <> 44%N).
        { unfold address_char, char_in in Hx. cbn in Hx. clear -Hx. intuition (subst; lia). }
        apply Ascii; apply X. }
      assert (M' : forall x, nth_error s j' = Some x -> ~ (isspace x = false /\ x <> 44%N)).
      { intros x Hx [N1 N2]. rewrite nth_error_skipn' in M. replace (j + (j' - j)) with j' in M by lia. destruct (M x Hx); congruence. }
      apply (finish_kind _ _ _ _ c) in H; [exact H | exact Hc | lia | unfold str in *; lia | | | discriminate].
      * destruct (whole_prefix (fun x => isspace x = false /\ x <> 44%N) i j' _ b' Eb Fp ltac:(lia) ltac:(unfold str in *; lia) M') as [w Hw].
        exists user, w. split; [rewrite Hw, <- app_assoc; reflexivity|]. split; [exact Hn|]. split; [exact Hl|]. split; [exact Fu|].
        rewrite (slice_ext i j j') by lia. apply Forall_app. split; [|exact F].
        (* the at sign is not before position j *)
        assert (Short : j - i <= length user).
        { destruct (Nat.le_gt_cases (j - i) (length user)) as [X|X]; [exact X|]. exfalso.
          assert (X64 : nth_error (slice s (i + 1) j) (length user - 1) = Some 64%N).
          { destruct user as [|u0 user]; [contradiction|]. cbn [length app] in *. unfold slice. rewrite nth_error_firstn' by lia.
            rewrite nth_error_skipn'. replace (i + 1 + (S (length user) - 1)) with (i + S (length user)) by lia.
            rewrite <- nth_error_skipn', Eb. cbn [app nth_error]. rewrite <- app_assoc, nth_error_app2, Nat.sub_diag by lia. reflexivity. }
          apply nth_error_In in X64. rewrite Forall_forall in D. destruct (D _ X64) as [X1|X1].
          - apply (cc_digit_alnum _ _ _ _ _ classes) in X1. pose proof (mc_alnum_at _ _ _ _ more) as X2. congruence.
          - destruct X1 as [X1|[X1|[]]]; discriminate. }
        unfold slice at 1. rewrite Eb, <- app_assoc, firstn_app.
        replace (j - i - length user) with 0 by lia. rewrite firstn_O, app_nil_r. apply Forall_app in Fp.
        apply Forall_forall. intros x Hx. destruct Fp as [Fp _]. rewrite Forall_forall in Fp. apply Fp. exact (in_firstn _ _ _ Hx).
      * intros x Hx. exact (M' x Hx).
    + cbn [orb] in E. apply (alnum_loop_words _ _ _ _ _ _ classes more) in E. destruct E as (L & F & M). rewrite skipn_length in L.
      apply (finish_kind _ _ _ _ c) in H; [exact H | exact Hc | lia | unfold str in *; lia | | | reflexivity].
      * cbn. rewrite (slice_ext i j j') by lia. apply Forall_app. split; assumption.
      * intros n Hn. cbn. rewrite nth_error_skipn' in M. replace (j + (j' - j)) with j' in M by lia. rewrite (M n Hn). discriminate.
Qed.

Lemma twitter_iff c : is_valid_twitter_char c = true <-> twitter_char c.
Proof.
  clear. unfold is_valid_twitter_char, twitter_char. rewrite !orb_true_iff, !andb_true_iff, !N.leb_le, N.eqb_eq. tauto.
Qed.

Lemma consume_kind i c ts i' : nth_error s i = Some c -> isspace c = false ->
  memb c (codes "@#$") = true \/ apostrophe c \/ isalnum c = true \/ c = 45%N ->
  consume isspace isalnum isalpha isdigit isupper islower lower split_hashtags s (slice s i (i + 64)) i c = Ok (ts, i') ->
  placed i i' ts /\ i' <= length s.
Proof.
  intros Hc Hsp Hkind H. pose proof (nth_error_lt _ _ _ Hc) as Li. unfold consume in H.
  assert (Mark : isalnum c = false -> placed i (i + 1) [(Punct, [c])] /\ i + 1 <= length s).
  { intros Ha. split; [|unfold str in *; lia]. apply placed_text; [lia | unfold str in *; lia | symmetry; apply slice_one; exact Hc|]. split.
    - left. exists c. split; [reflexivity | exact Ha].
    - intros _. right; right. intros d _ []. }
  destruct (memb c (codes "#$")) eqn:Eh.
  { assert (Hc' : c = 35%N \/ c = 36%N).
    { rewrite memb_true in Eh. destruct Eh as [<-|[<-|[]]]; [left | right]; reflexivity. }
    assert (An : isalnum c = false) by (destruct Hc' as [-> | ->]; apply more).
    destruct (nth_error s (i + 1)) as [n|] eqn:En; [|injection H as <- <-; apply Mark; exact An].
    destruct (isalpha n) eqn:Al; cbn [negb] in H; [|injection H as <- <-; apply Mark; exact An].
    pose proof (nth_error_lt _ _ _ En) as Ln.
    pose proof (scan_gt isalnum s (i + 1) n En (cc_alpha_alnum _ _ _ _ _ classes n Al)) as Lg.
    pose proof (scan_bounds isalnum s (i + 1) ltac:(unfold str in *; lia)) as Lb.
    apply (finish_kind _ _ _ _ c) in H; [exact H | exact Hc | lia | lia | | | discriminate].
    - pose proof (scan_forall isalnum s (i + 1)) as F. cbn. rewrite (slice_cons s i _ c Hc) by lia. rewrite (slice_cons s (i + 1) _ n En) in F |- * by lia.
      exists c, n, (slice s (i + 1 + 1) (scan isalnum s (i + 1))). split; [reflexivity|]. split; [exact Hc'|]. split; [exact Al|]. inversion F; assumption.
    - intros d Hd. apply scan_stop in Hd. cbn. congruence. }
  destruct (N.eqb_spec c 64) as [E64|E64].
  { assert (An : isalnum c = false) by (subst c; apply more).
    destruct (nth_error s (i + 1)) as [n|] eqn:En; [|injection H as <- <-; apply Mark; exact An].
    destruct (is_valid_twitter_char n) eqn:Al; cbn [negb] in H; [|injection H as <- <-; apply Mark; exact An].
    pose proof (nth_error_lt _ _ _ En) as Ln.
    pose proof (scan_gt is_valid_twitter_char s (i + 1) n En Al) as Lg.
    pose proof (scan_bounds is_valid_twitter_char s (i + 1) ltac:(unfold str in *; lia)) as Lb.
    apply (finish_kind _ _ _ _ c) in H; [exact H | exact Hc | lia | lia | | | discriminate].
    - cbn. rewrite (slice_cons s i _ c Hc) by lia. subst c. eexists; split; [reflexivity|]. split.
      + intros X. apply (f_equal (@length N)) in X. rewrite slice_length in X by lia. cbn in X. lia.
      + eapply Forall_impl; [|apply scan_forall]. intros x Hx. apply twitter_iff. exact Hx.
    - intros d Hd. apply scan_stop in Hd. cbn. rewrite <- twitter_iff. congruence. }
  assert (Hkind' : apostrophe c \/ isalnum c = true \/ c = 45%N).
  { destruct Hkind as [X|X]; [|exact X]. exfalso. rewrite memb_true in X. destruct X as [X|[X|[X|[]]]]; subst c; [contradiction | discriminate | discriminate]. }
  assert (Wc : wordc c).
  { split; [exact Hsp|]. destruct Hkind' as [X|[X|X]]; [right; right; right; exact X | left; exact X | right; left; subst c; left; reflexivity]. }
  destruct (isdigit c || (c =? 45)%N) eqn:Ed.
  - assert (Hd : isdigit c = true \/ c = 45%N).
    { apply orb_prop in Ed. destruct Ed as [X|X]; [left; exact X | right; apply N.eqb_eq; exact X]. }
    assert (Hdec : memb c DECIMALS = false).
    { destruct (memb c DECIMALS) eqn:E; [|reflexivity]. exfalso. apply memb_char in E. destruct Hd as [Hd|Hd].
      - apply (decimal_not_digit _ _ _ _ _ classes) in E. congruence.
      - subst c. destruct E as [E|[E|[]]]; discriminate. }
    destruct (numeric_loop isspace isalpha isdigit (skipn (i + 1) s) c None Punct (i + 1)) as [[j consumed] t] eqn:En.
    pose proof (numeric_loop_ok isspace isalnum isalpha isdigit isupper _ _ _ _ _ _ _ _ En) as (_ & _ & _ & W).
    apply (numeric_loop_kind isspace isalnum isalpha isdigit isupper islower classes (skipn (i + 1) s) c None Punct (i + 1) []) in En;
      [|exact Hdec | split; [constructor | reflexivity]].
    destruct En as (k & Lk & F & Q & T). cbn [app] in F, Q, T. rewrite skipn_length in Lk.
    set (pre := firstn k (skipn (i + 1) s)) in *.
    assert (Lp : length pre = k) by (unfold pre; rewrite firstn_length, skipn_length; unfold str in *; lia).
    assert (Epre : slice s (i + 1) (i + 1 + k) = pre) by (unfold slice, pre; f_equal; lia).
    assert (Dig : forall x, isdigit x = true -> memb x DECIMALS = false).
    { intros x Hx. destruct (memb x DECIMALS) eqn:E; [|reflexivity]. apply memb_char, (decimal_not_digit _ _ _ _ _ classes) in E. congruence. }
    assert (Last : forall a x b, pre = a ++ x :: b -> nth (i + 1 + length a) s 0%N = x).
    { intros a x b E. apply nth_error_nth. rewrite <- nth_error_skipn'. unfold pre in E.
      rewrite <- (firstn_skipn k (skipn (i + 1) s)), E. rewrite <- app_assoc, nth_error_app2, Nat.sub_diag by lia. reflexivity. }
    assert (NthE : forall a x b, pre = a ++ x :: b -> nth_error s (i + 1 + length a) = Some x).
    { intros a x b E. rewrite <- nth_error_skipn'. unfold pre in E.
      rewrite <- (firstn_skipn k (skipn (i + 1) s)), E. rewrite <- app_assoc, nth_error_app2, Nat.sub_diag by lia. reflexivity. }
    assert (Part : forall a b, pre = a ++ b -> slice s i (i + 1 + length a) = c :: a).
    { intros a b E. rewrite (slice_cons s i _ c Hc) by lia. f_equal. rewrite E in Epre. rewrite E, app_length in Lp.
      apply (slice_cut (i + 1) (i + 1 + k) a b); [unfold str in *; lia | exact Epre | lia]. }
    (* a number read up to the end of [a] *)
    assert (Done : forall a b t', pre = a ++ b -> number isdigit (c :: a) -> (t' = Number \/ (a = [] /\ t' = Punct)) ->
      (forall d, nth_error s (i + 1 + length a) = Some d -> isdigit d = false) ->
      finish isalnum isdigit isupper islower lower split_hashtags s i (i + 1 + length a) t' false = Ok (ts, i') -> placed i i' ts /\ i' <= length s).
    { intros a b t' E Hn Ht St Hf. assert (La : length a <= k) by (rewrite <- Lp, E, app_length; lia).
      apply (finish_kind _ _ _ _ c) in Hf; [exact Hf | exact Hc | lia | unfold str in *; lia | | | discriminate].
      - rewrite (Part a b E). destruct Ht as [-> | [-> ->]]; [exact Hn | exists c; split; [reflexivity | exact Hd]].
      - intros d Hd'. destruct Ht as [-> | [_ ->]]; cbn; [rewrite (St d Hd'); discriminate | exact (fun x => x)]. }
    destruct consumed.
    + specialize (T eq_refl). destruct Q as [[Ej Qs]|(_ & Ej & ds & p & Ep & Hp)].
      * assert (Qs' : forall d, nth_error s (i + 1 + k) = Some d -> isdigit d = false) by (intros d Hd'; apply Qs; rewrite nth_error_skipn'; exact Hd').
        destruct F as [F|F].
        -- (* digits *)
           assert (NoTrim : Nat.ltb (i + 1) j && memb (nth (j - 1) s 0%N) DECIMALS = false).
           { destruct (Nat.ltb_spec (i + 1) j) as [Lt|Lt]; [|reflexivity]. cbn [andb]. destruct pre as [|x l] using rev_ind; [cbn in Lp; lia|].
             rewrite app_length in Lp. cbn in Lp. replace (j - 1) with (i + 1 + length l) by lia. rewrite (Last l x [] eq_refl).
             apply Dig. apply Forall_app in F. destruct F as [_ F]. inversion F; assumption. }
           rewrite NoTrim, Ej, <- Lp in H. apply (Done pre [] t); try assumption.
           ++ rewrite app_nil_r. reflexivity.
           ++ exists c, pre. split; [exact Hd|]. split; [exact F | left; reflexivity].
           ++ rewrite T. destruct pre; [right; split; reflexivity | left; reflexivity].
           ++ rewrite Lp. exact Qs'.
        -- destruct F as (ds & p & fs & Ep & F1 & F2 & Hp).
           assert (Tn : t = Number) by (rewrite T, Ep; destruct ds; reflexivity).
           destruct fs as [|f fs].
           ++ (* the final mark is dropped *)
              assert (Lk' : k = length ds + 1) by (rewrite <- Lp, Ep, app_length; reflexivity).
              assert (Trim : Nat.ltb (i + 1) j && memb (nth (j - 1) s 0%N) DECIMALS = true).
              { apply andb_true_intro. split; [apply Nat.ltb_lt; lia|]. replace (j - 1) with (i + 1 + length ds) by lia.
                rewrite (Last ds p [] Ep). apply char_memb. exact Hp. }
              rewrite Trim in H. replace (j - 1) with (i + 1 + length ds) in H by lia. apply (Done ds [p] t Ep); try assumption.
              ** exists c, ds. split; [exact Hd|]. split; [exact F1 | left; reflexivity].
              ** left; exact Tn.
              ** intros d Hd'. rewrite (NthE ds p [] Ep) in Hd'. injection Hd' as <-. apply (decimal_not_digit _ _ _ _ _ classes). exact Hp.
           ++ assert (NoTrim : memb (nth (j - 1) s 0%N) DECIMALS = false).
              { destruct (@exists_last _ (f :: fs) ltac:(discriminate)) as (l & x & El).
                assert (E' : pre = (ds ++ p :: l) ++ [x]) by (rewrite Ep, El, <- app_assoc; reflexivity).
                assert (Ll : length (ds ++ p :: l) + 1 = k) by (rewrite <- Lp, E', (app_length _ [x]); reflexivity).
                replace (j - 1) with (i + 1 + length (ds ++ p :: l)) by lia. rewrite (Last _ _ _ E').
                apply Dig. rewrite El in F2. apply Forall_app in F2. destruct F2 as [_ F2]. inversion F2; assumption. }
              rewrite NoTrim, andb_false_r, Ej, <- Lp in H. apply (Done pre [] t); try assumption.
              ** rewrite app_nil_r. reflexivity.
              ** exists c, ds. split; [exact Hd|]. split; [exact F1|]. right. exists p, (f :: fs). split; [exact Hp|]. split; [exact F2|].
                 split; [discriminate | rewrite Ep; reflexivity].
              ** left; exact Tn.
              ** rewrite Lp. exact Qs'.
      * (* stopped after a mark *)
        assert (Fd : Forall (fun x => isdigit x = true) ds).
        { assert (Np : isdigit p = false) by (apply (decimal_not_digit _ _ _ _ _ classes); exact Hp). destruct F as [F|(ds0 & p0 & fs & E0 & F1 & F2 & H0)].
          - rewrite Ep in F. apply Forall_app in F. destruct F as [F _]. exact F.
          - destruct fs as [|x l] using rev_ind.
            + rewrite Ep in E0. apply app_inj_tail in E0. destruct E0 as [-> _]. exact F1.
            + exfalso. rewrite Ep, app_comm_cons, app_assoc in E0. apply app_inj_tail in E0. destruct E0 as [_ <-].
              apply Forall_app in F2. destruct F2 as [_ F2]. inversion F2; congruence. }
        assert (Lk' : k = length ds + 1) by (rewrite <- Lp, Ep, app_length; reflexivity).
        assert (Tn : t = Number) by (rewrite T, Ep; destruct ds; reflexivity).
        assert (NoTrim : Nat.ltb (i + 1) j && memb (nth (j - 1) s 0%N) DECIMALS = false).
        { destruct (Nat.ltb_spec (i + 1) j) as [Lt|Lt]; [|reflexivity]. cbn [andb]. destruct ds as [|x l] using rev_ind; [cbn in Lk'; lia|].
          rewrite app_length in Lk'. cbn in Lk'. replace (j - 1) with (i + 1 + length l) by lia. rewrite <- app_assoc in Ep. rewrite (Last l x [p] Ep).
          apply Dig. apply Forall_app in Fd. destruct Fd as [_ Fd]. inversion Fd; assumption. }
        rewrite NoTrim in H. replace j with (i + 1 + length ds) in H by lia. apply (Done ds [p] t Ep); try assumption.
        -- exists c, ds. split; [exact Hd|]. split; [exact Fd | left; reflexivity].
        -- left; exact Tn.
        -- intros d Hd'. rewrite (NthE ds p [] Ep) in Hd'. injection Hd' as <-. apply (decimal_not_digit _ _ _ _ _ classes). exact Hp.
    + rewrite (W eq_refl) in H. destruct Q as [[Ej _]|[Q _]]; [|discriminate].
      assert (D : Forall (fun x => isdigit x = true \/ char_in x ".,") pre).
      { destruct F as [F|(ds & p & fs & E0 & F1 & F2 & H0)].
        - eapply Forall_impl; [|exact F]. intros x Hx. left; exact Hx.
        - rewrite E0. apply Forall_app. split; [|constructor; [right; exact H0|]]; (eapply Forall_impl; [|eassumption]; intros x Hx; left; exact Hx). }
      rewrite Ej in H. apply (alphanumerical_kind _ _ c) in H; [exact H | exact Hc | lia | unfold str in *; lia | | rewrite Epre; exact D | destruct Hd; auto].
      rewrite (slice_cons s i _ c Hc), Epre by lia. constructor; [exact Wc|]. eapply Forall_impl; [|exact D]. intros x [Hx|Hx].
      * apply (alnum_word _ _ _ _ _ classes). apply (cc_digit_alnum _ _ _ _ _ classes). exact Hx.
      * split; [destruct Hx as [<-|[<-|[]]]; apply (mc_space_ascii _ _ _ _ more); cbv; split; discriminate | right; left; destruct Hx as [<-|[<-|[]]]; cbv; auto].
  - apply (alphanumerical_kind _ _ c) in H; [exact H | exact Hc | lia | unfold str in *; lia | | | auto].
    + rewrite (slice_one s i c Hc). constructor; [exact Wc | constructor].
    + rewrite slice_nil. constructor.
Qed.

Lemma step_kind i c ts i' : nth_error s i = Some c ->
  step isspace isalnum isalpha isdigit isupper islower lower emoji split_hashtags s i c = Ok (ts, i') -> placed i i' ts /\ i' <= length s.
Proof.
  intros Hc H. pose proof (nth_error_lt _ _ _ Hc) as Li. unfold step in H.
  destruct (isspace c || is_ascii_junk c) eqn:Es.
  { injection H as <- <-. split; [constructor; lia | unfold str in *; lia]. }
  apply orb_false_elim in Es. destruct Es as [Es Ejk].
  destruct (smiley_end (slice s i (i + 64))) as [e|] eqn:Esm.
  { pose proof (smiley_sound _ _ Esm) as Sm. apply (smiley_end_bounds isspace lower emoji) in Esm. unfold slice in Esm. rewrite firstn_length, skipn_length in Esm.
    injection H as <- <-. split; [|unfold str in *; lia]. apply placed_text; [lia | unfold str in *; lia | reflexivity|]. split.
    - cbn. unfold slice in *. rewrite firstn_firstn in Sm. replace (i + e - i) with (min e (i + 64 - i)) by lia. exact Sm.
    - intros _. right; right. intros d _ []. }
  destruct (memb c (codes "@#$")) eqn:Em.
  { apply consume_kind in H; [exact H | exact Hc | exact Es | left; exact Em]. }
  destruct (negb (isalnum c) && negb (c =? 45)%N) eqn:Ea.
  2: { apply consume_kind in H; [exact H | exact Hc | exact Es | right; right]. apply andb_false_iff in Ea. destruct Ea as [Ea|Ea].
       - left. destruct (isalnum c); [reflexivity | discriminate].
       - right. destruct (N.eqb_spec c 45); [assumption | discriminate]. }
  set (p := fun n => negb (isspace n || isalnum n || is_ascii_junk n || (n =? 35)%N || (n =? 64)%N)) in *.
  pose proof (scan_bounds p s (i + 1) ltac:(unfold str in *; lia)) as Lb.
  match type of H with (if ?b then _ else _) = _ => destruct b eqn:Eq end.
  - apply consume_kind in H; [exact H | exact Hc | exact Es | right; left]. rewrite memb_true in Eq. rewrite (slice_cons s i _ c Hc) in Eq by lia.
    apply in_map_iff in Eq. destruct Eq as (a & Ea1 & Ea2). injection Ea1 as -> _. apply apostrophe_memb. apply memb_true. exact Ea2.
  - injection H as <- <-. split; [|lia]. apply placed_fill; [lia | lia | apply punct_emoji_concat|].
    assert (F : Forall (punct_or_emoji isalnum emoji) (punct_emoji_iter emoji (slice s i (scan p s (i + 1))))).
    { apply punct_emoji_kind; [exact emoji_bound|]. rewrite (slice_cons s i _ c Hc) by lia. constructor.
      - apply andb_prop in Ea. destruct Ea as [Ea _]. destruct (isalnum c); [discriminate | reflexivity].
      - eapply Forall_impl; [|apply scan_forall]. intros x Hx. unfold p in Hx. destruct (isalnum x); [|reflexivity]. rewrite orb_true_r in Hx. discriminate. }
    eapply Forall_impl; [|exact F]. intros [t v] Ht q _. destruct t; try contradiction; cbn in Ht.
    + split; [left; exact Ht | intros _; right; right; intros d _ []].
    + split; [exact Ht | intros _; right; right; intros d _ []].
Qed.

Lemma tokenize_loop_kind fuel : forall i ts, i <= length s ->
  tokenize_loop isspace isalnum isalpha isdigit isupper islower lower emoji split_hashtags fuel s i = Ok ts -> placed i (length s) ts.
Proof.
  induction fuel as [|fuel IH]; intros i ts Hi H; cbn [tokenize_loop] in H; destruct (nth_error s i) as [c|] eqn:E; try discriminate;
    try (injection H as <-; constructor; exact Hi).
  destruct (step _ _ _ _ _ _ _ _ _ _ _ _) as [[ts1 i1]|] eqn:Es; [|discriminate]. cbn [bind] in H.
  destruct (tokenize_loop _ _ _ _ _ _ _ _ _ _ _ _) as [rest|] eqn:Er; [|discriminate]. cbn [bind] in H. injection H as <-.
  apply step_kind in Es; [|exact E]. destruct Es as [P L]. apply IH in Er; [|exact L]. exact (placed_app _ _ _ _ _ P Er).
Qed.

Lemma placed_read i i' ts : placed i i' ts -> read_in K s i ts.
Proof.
  induction 1 as [i i' H|i p i' t v ts H1 H2 H3 H4 H5 IH]; [constructor|].
  apply (read_cons _ _ i p); [exact H1 | | exact H4 | exact IH].
  exists (firstn p s), (skipn (p + length v) s). split.
  - rewrite <- H3 at 1. apply slice_within. lia.
  - rewrite firstn_length. unfold str in *. lia.
Qed.
End KindStep.
