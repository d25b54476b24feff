(** The items of a sentence are tokens. *)
From Coq Require Import String.
From Verif Require Import Base BaseFacts LevModel StringsModel PhoneticsModel WordsModel WordsSpec WordsProofs WordsKindSpec WordsKindProofs
  WordsLinesSpec WordsLinesProofs.
Open Scope nat_scope.
Open Scope list_scope.
Notation length := List.length.
Notation concat := List.concat.

Lemma smiley_whole v : emoticon v -> smiley_end v = Some (length v).
Proof.
  intros H. destruct H as [n|n|brow e nse m Hb He Hn Hm|m nse e Hm Hn He|b Hb|].
  - unfold smiley_end. rewrite span_repeat by reflexivity. rewrite skipn_app, repeat_length, Nat.sub_diag, skipn_all2 by (rewrite repeat_length; reflexivity).
    cbn [Nat.leb andb app codes map list_ascii_of_string skipn head_in]. rewrite app_length, repeat_length. reflexivity.
  - pose proof (span_repeat (S n) [] Logic.I) as E. rewrite app_nil_r in E.
    unfold smiley_end. change (codes "<" ++ repeat 45%N (S n)) with (60%N :: repeat 45%N (S n)). cbn [span]. change (dash 60%N) with false.
    cbn [Nat.leb andb skipn head_in]. rewrite E. cbn [Nat.leb andb N.eqb Pos.eqb length]. rewrite repeat_length. reflexivity.
  - destruct Hb as [-> | (b & -> & [<-|[<-|[]]])]; destruct Hn as [-> | (n & -> & [<-|[<-|[<-|[<-|[]]]]])];
      destruct He as [<-|[<-|[<-|[<-|[]]]]]; cbn in Hm; repeat (destruct Hm as [<-|Hm]; [reflexivity|]); destruct Hm.
  - destruct Hn as [-> | (n & -> & [<-|[<-|[<-|[<-|[]]]]])];
      destruct He as [<-|[<-|[<-|[<-|[]]]]]; cbn in Hm; repeat (destruct Hm as [<-|Hm]; [reflexivity|]); destruct Hm.
  - destruct Hb as [<-|[<-|[]]]; reflexivity.
  - reflexivity.
Qed.

Lemma span_all (p : N -> bool) u : Forall (fun c => p c = true) u -> span p u = length u.
Proof. induction 1 as [|c u Hc _ IH]; cbn; [reflexivity|]. rewrite Hc, IH. reflexivity. Qed.
Lemma span_app (p : N -> bool) u c r : Forall (fun x => p x = true) u -> p c = false -> span p (u ++ c :: r) = length u.
Proof. intros H Hc. induction H as [|x u Hx _ IH]; cbn; [rewrite Hc; reflexivity|]. rewrite Hx, IH. reflexivity. Qed.
Lemma starts_with_app' p u : starts_with p (p ++ u) = true.
Proof. induction p as [|c p IH]; [reflexivity|]. cbn [app starts_with]. rewrite N.eqb_refl. exact IH. Qed.

Section Recognised.
Variables isspace isalnum isalpha isdigit isupper islower : N -> bool.
Variable lower : str -> str.
Variable emoji : str -> nat.
Hypothesis classes : char_classes isspace isalnum isalpha isdigit isupper.
Hypothesis more : more_classes isspace isalnum isupper islower.
Hypothesis ascii : ascii_classes isalnum.
Notation step' := (step isspace isalnum isalpha isdigit isupper islower lower emoji false).
Notation raw := (raw_tokens isspace isalnum isalpha isdigit isupper islower lower emoji false).

Lemma raw_single c r t : step' (c :: r) 0 c = Ok ([(t, c :: r)], length (c :: r)) -> raw (c :: r) = Ok [(t, c :: r)].
Proof.
  intros H. unfold raw_tokens. cbn [length tokenize_loop nth_error]. rewrite H. cbn [bind].
  assert (E : nth_error (c :: r) (length (c :: r)) = None) by (apply nth_error_None; lia).
  destruct (length r) eqn:L; cbn [tokenize_loop]; rewrite E; reflexivity.
Qed.

Lemma plain_smiley v : plain v -> smiley_end (slice v 0 (0 + 64)) = None.
Proof.
  intros P. destruct (smiley_end _) as [e|] eqn:E; [|reflexivity]. exfalso. apply smiley_sound in E. unfold slice in E. cbn [skipn] in E.
  rewrite firstn_firstn in E. apply (P _ (skipn (min e (0 + 64 - 0)) v) E). symmetry. apply firstn_skipn.
Qed.

Lemma junk_alnum c : isalnum c = true -> is_ascii_junk c = false.
Proof. intros H. unfold is_ascii_junk. apply N.leb_gt. exact (cc_alnum_junk _ _ _ _ _ classes c H). Qed.
Lemma alnum_sigil c : isalnum c = true -> memb c (codes "@#$") = false /\ memb c (codes "#$") = false /\ (c =? 64)%N = false /\ (c =? 45)%N = false /\ memb c APOSTROPHES = false.
Proof.
  intros H. assert (D : forall d, isalnum d = false -> c <> d) by (intros d Hd ->; congruence).
  pose proof (D 64%N (mc_alnum_at _ _ _ _ more)). pose proof (D 35%N (mc_alnum_hash _ _ _ _ more)). pose proof (D 36%N (mc_alnum_dollar _ _ _ _ more)).
  pose proof (D 45%N (cc_alnum_hyphen _ _ _ _ _ classes)). pose proof (D 39%N (cc_alnum_apostrophe _ _ _ _ _ classes)). pose proof (D 8217%N (cc_alnum_quote _ _ _ _ _ classes)).
  repeat split; try (apply N.eqb_neq; assumption);
    (match goal with |- ?m = false => destruct m eqn:E; [|reflexivity] end; rewrite memb_true in E; cbn in E; exfalso; intuition congruence).
Qed.

(** the end of all the branches *)
Lemma finish_whole c r t : memb c APOSTROPHES = false -> t <> Hashtag \/ t = Hashtag -> (t = Word -> ~ In 45%N (c :: r)) ->
  finish isalnum isdigit isupper islower lower false (c :: r) 0 (length (c :: r)) t false = Ok ([(t, c :: r)], length (c :: r)).
Proof.
  intros Ha _ Hw. unfold finish. rewrite slice_full, Ha. cbn [andb]. unfold finish_word.
  rewrite (proj2 (nth_error_None (c :: r) (length (c :: r))) (le_n _)).
  assert (E : regular_word isdigit isupper islower false t (c :: r) = Ok [(t, c :: r)]).
  { destruct t; cbn [regular_word]; try reflexivity. assert (Ec : count 45 (c :: r) = 0).
    { destruct (count 45 (c :: r)) eqn:Ec; [reflexivity|]. exfalso. apply (Hw eq_refl). apply count_In. lia. }
    rewrite Ec. reflexivity. }
  rewrite E. reflexivity.
Qed.

Lemma enter c r t : isspace c = false -> is_ascii_junk c = false -> plain (c :: r) ->
  (memb c (codes "@#$") = true \/ isalnum c = true \/ c = 45%N) ->
  consume isspace isalnum isalpha isdigit isupper islower lower false (c :: r) (slice (c :: r) 0 (0 + 64)) 0 c = Ok ([(t, c :: r)], length (c :: r)) ->
  raw (c :: r) = Ok [(t, c :: r)].
Proof.
  intros Hs Hj P K H. apply raw_single. unfold step. rewrite Hs, Hj. cbn [orb]. rewrite (plain_smiley _ P).
  destruct (memb c (codes "@#$")); [exact H|]. destruct K as [K|[K|K]]; [discriminate | rewrite K; exact H | subst c]. rewrite andb_false_r. exact H.
Qed.

Lemma mention_raw v : mention v -> plain v -> raw v = Ok [(Mention, v)].
Proof.
  intros (u & -> & Hn & F) P. apply enter; [apply (mc_space_ascii _ _ _ _ more); lia | reflexivity | exact P | left; reflexivity|].
  unfold consume. change (memb 64%N (codes "#$")) with false. change (64 =? 64)%N with true. cbv iota. destruct u as [|n u]; [contradiction|].
  cbn [Nat.add nth_error]. pose proof F as F0. inversion F as [|? ? F1 F2]; subst. apply twitter_iff in F1. rewrite F1. cbn [negb].
  unfold scan. cbn [skipn]. rewrite span_all; [|eapply Forall_impl; [|exact F0]; intros x; apply twitter_iff].
  apply (finish_whole 64%N (n :: u) Mention); [reflexivity | left; discriminate | discriminate].
Qed.

Lemma hashtag_raw v : hashtag isalnum isalpha v -> plain v -> raw v = Ok [(Hashtag, v)].
Proof.
  intros (c & a & u & -> & Hc & Ha & F) P. assert (Hc' : memb c (codes "#$") = true /\ memb c (codes "@#$") = true) by (destruct Hc as [-> | ->]; split; reflexivity).
  apply enter; [apply (mc_space_ascii _ _ _ _ more); destruct Hc as [-> | ->]; lia | destruct Hc as [-> | ->]; reflexivity | exact P | left; apply Hc'|].
  unfold consume. rewrite (proj1 Hc'). cbn [Nat.add nth_error]. rewrite Ha. cbn [negb]. unfold scan. cbn [skipn].
  rewrite span_all; [|constructor; [apply (cc_alpha_alnum _ _ _ _ _ classes); exact Ha | exact F]].
  apply (finish_whole c (a :: u) Hashtag); [destruct Hc as [-> | ->]; reflexivity | right; reflexivity | discriminate].
Qed.

Lemma address_loop rest : forall prev j, Forall (fun c => isspace c = false /\ c <> 44%N) rest ->
  alnum_loop isspace isalnum isupper true rest prev j false = (j + length rest, false).
Proof.
  induction rest as [|n rest IH]; intros prev j F; cbn [alnum_loop length]; [f_equal; lia|]. inversion F as [|? ? [F1 F2] F3]; subst.
  rewrite F1. apply N.eqb_neq in F2. rewrite F2, IH by exact F3. f_equal. lia.
Qed.
Lemma word_loop rest : forall prev j, Forall (fun c => isalnum c = true) rest ->
  alnum_loop isspace isalnum isupper false rest prev j false = (j + length rest, false).
Proof.
  induction rest as [|n rest IH]; intros prev j F; cbn [alnum_loop length]; [f_equal; lia|]. inversion F as [|? ? F1 F3]; subst.
  rewrite (cc_alnum_space _ _ _ _ _ classes n F1), F1. cbn [negb].
  assert (E : memb n IDENTIFIER_PARTS || (n =? 183)%N = false).
  { apply orb_false_iff. split.
    - destruct (memb n IDENTIFIER_PARTS) eqn:E; [|reflexivity]. rewrite memb_true in E. exfalso. destruct E as [<-|[<-|[]]].
      + pose proof (cc_alnum_hyphen _ _ _ _ _ classes). cbv in F1. congruence.
      + pose proof (mc_alnum_underscore _ _ _ _ more). cbv in F1. congruence.
    - apply N.eqb_neq. intros ->. rewrite (mc_alnum_middle_dot _ _ _ _ more) in F1. discriminate. }
  rewrite E, IH by exact F3. f_equal. lia.
Qed.

Lemma starts_slice p v : starts_with p v = true -> length p <= 64 -> starts_with p (slice v 0 (0 + 64)) = true.
Proof.
  intros H L. apply starts_with_app in H. destruct H as [u ->]. unfold slice. cbn [skipn]. rewrite firstn_app, firstn_all2 by lia. apply starts_with_app'.
Qed.
Lemma slice_starts p v : starts_with p (slice v 0 (0 + 64)) = true -> starts_with p v = true.
Proof.
  intros H. apply starts_with_app in H. destruct H as [u E]. unfold slice in E. cbn [skipn] in E. rewrite <- (firstn_skipn (0 + 64 - 0) v), E, <- app_assoc. apply starts_with_app'.
Qed.

Lemma alphanumerical_whole c r t : memb c APOSTROPHES = false ->
  (t = Url /\ starts_as_url (slice (c :: r) 0 (0 + 64)) = true /\ Forall (fun x => isspace x = false /\ x <> 44%N) r) \/
  (t = Email /\ starts_as_url (slice (c :: r) 0 (0 + 64)) = false /\ email_lookahead (slice (c :: r) 0 (0 + 64)) = true /\ Forall (fun x => isspace x = false /\ x <> 44%N) r) \/
  (t = Word /\ starts_as_url (slice (c :: r) 0 (0 + 64)) = false /\ email_lookahead (slice (c :: r) 0 (0 + 64)) = false /\ Forall (fun x => isalnum x = true) (c :: r)) ->
  alphanumerical isspace isalnum isdigit isupper islower lower false (c :: r) (slice (c :: r) 0 (0 + 64)) 0 (0 + 1) Word = Ok ([(t, c :: r)], length (c :: r)).
Proof.
  intros Ha H. unfold alphanumerical. destruct H as [(-> & E & F)|[(-> & E1 & E2 & F)|(-> & E1 & E2 & F)]].
  - rewrite E. cbn [orb Nat.add skipn]. rewrite address_loop by exact F. apply finish_whole; [exact Ha | left; discriminate | discriminate].
  - rewrite E1, E2. cbn [orb Nat.add skipn]. rewrite address_loop by exact F. apply finish_whole; [exact Ha | left; discriminate | discriminate].
  - rewrite E1, E2. cbn [orb Nat.add skipn]. rewrite word_loop by (inversion F; assumption). apply finish_whole; [exact Ha | left; discriminate|].
    intros _ Hin. rewrite Forall_forall in F. specialize (F _ Hin). rewrite (cc_alnum_hyphen _ _ _ _ _ classes) in F. discriminate.
Qed.

Lemma letter_consume c r t : isalnum c = true -> isdigit c = false -> plain (c :: r) ->
  alphanumerical isspace isalnum isdigit isupper islower lower false (c :: r) (slice (c :: r) 0 (0 + 64)) 0 (0 + 1) Word = Ok ([(t, c :: r)], length (c :: r)) ->
  raw (c :: r) = Ok [(t, c :: r)].
Proof.
  intros Ha Hd P H. destruct (alnum_sigil c Ha) as (S1 & S2 & S3 & S4 & S5).
  apply enter; [exact (cc_alnum_space _ _ _ _ _ classes c Ha) | apply junk_alnum; exact Ha | exact P | auto|].
  unfold consume. rewrite S2, S3, Hd, S4. cbn [orb]. exact H.
Qed.

Lemma h_plain c r : c = 104%N -> plain (c :: r).
Proof.
  intros -> e r' H E. destruct H as [n|n|brow e nse m Hb He Hn Hm|m nse e Hm Hn He|b Hb|]; try discriminate.
  - destruct Hb as [-> | (b & -> & Hb)]; injection E as <- _.
    + cbn in He. repeat (destruct He as [He|He]; [discriminate|]). exact He.
    + cbn in Hb. repeat (destruct Hb as [Hb|Hb]; [discriminate|]). exact Hb.
  - injection E as <- _. cbn in Hm. repeat (destruct Hm as [Hm|Hm]; [discriminate|]). exact Hm.
  - injection E as <- _. cbn in Hb. repeat (destruct Hb as [Hb|Hb]; [discriminate|]). exact Hb.
Qed.

Lemma url_raw v : url isspace v -> raw v = Ok [(Url, v)].
Proof.
  intros ((u & Hu) & F).
  assert (E : exists r, v = 104%N :: r) by (destruct Hu as [-> | ->]; eexists; reflexivity). destruct E as [r ->].
  assert (A : isalnum 104%N = true) by (apply (ac_letter _ ascii); lia).
  assert (D : isdigit 104%N = false) by (apply (cc_digit_letter _ _ _ _ _ classes); lia).
  apply letter_consume; [exact A | exact D | apply h_plain; reflexivity|]. apply alphanumerical_whole; [reflexivity|]. left. split; [reflexivity|].
  split; [|inversion F; assumption]. unfold starts_as_url. apply orb_true_iff. destruct Hu as [Hu|Hu]; [left | right]; apply starts_slice; try (cbn; lia);
    rewrite Hu; apply starts_with_app'.
Qed.

Lemma address_email c : address_char c -> email_char c = true.
Proof.
  unfold address_char, email_char, char_in. rewrite !orb_true_iff, !andb_true_iff, !N.leb_le. rewrite memb_true. tauto.
Qed.

Lemma email_raw c r : email isspace (c :: r) -> isalnum c = true -> isdigit c = false -> plain (c :: r) -> raw (c :: r) = Ok [(Email, c :: r)].
Proof.
  intros (user & rest & E & Hn & Hl & Fa & F) Ha Hd P. apply letter_consume; [exact Ha | exact Hd | exact P|].
  apply alphanumerical_whole; [apply alnum_sigil; exact Ha|]. right; left. split; [reflexivity|].
  assert (Es : slice (c :: r) 0 (0 + 64) = user ++ 64%N :: firstn (63 - length user) rest).
  { rewrite E. unfold slice. cbn [skipn]. rewrite firstn_app, firstn_all2 by lia. f_equal. replace (0 + 64 - 0 - length user) with (S (63 - length user)) by lia. reflexivity. }
  split; [|split].
  - destruct (starts_as_url _) eqn:X; [|reflexivity]. exfalso.
    assert (Colon : forall k, starts_with (codes "http") (c :: r) = true -> nth_error (c :: r) k = Some 58%N -> k <= 5 -> 4 <= k ->
      nth_error (c :: r) 4 = Some 58%N \/ nth_error (c :: r) 4 = Some 115%N -> False).
    { intros k Hs Hk K1 K2 H4. apply starts_with_app in Hs. destruct Hs as [w Ew].
      destruct (Nat.lt_ge_cases k (length user)) as [Lk|Lk].
      - rewrite E, nth_error_app1 in Hk by exact Lk. apply nth_error_In in Hk. rewrite Forall_forall in Fa. specialize (Fa _ Hk).
        unfold address_char, char_in in Fa. cbn in Fa. clear -Fa. intuition (try lia); discriminate.
      - (* the at sign is one of the first characters *)
        assert (At : nth_error (c :: r) (length user) = Some 64%N) by (rewrite E, nth_error_app2, Nat.sub_diag by lia; reflexivity).
        assert (L5 : length user <= 5) by lia. destruct (Nat.eq_dec k (length user)) as [->|Nk]; [congruence|].
        assert (L4 : length user <= 4) by lia. destruct (Nat.eq_dec (length user) 4) as [E4|N4]; [rewrite E4 in At; destruct H4; congruence|].
        rewrite Ew in At. rewrite nth_error_app1 in At by (cbn; lia). apply nth_error_In in At. cbn in At.
        repeat (destruct At as [At|At]; [discriminate|]). exact At. }
    unfold starts_as_url in X. apply orb_prop in X.
    destruct X as [X|X]; apply slice_starts, starts_with_app in X; destruct X as [w Ew].
    + apply (Colon 4); rewrite ?Ew; try reflexivity; try lia; left; reflexivity.
    + apply (Colon 5); rewrite ?Ew; try reflexivity; try lia; right; reflexivity.
  - rewrite Es. unfold email_lookahead. rewrite span_app; [|eapply Forall_impl; [|exact Fa]; apply address_email | reflexivity].
    rewrite skipn_app, Nat.sub_diag, skipn_all2 by lia. cbn [app skipn head_in]. destruct user as [|x user]; [contradiction|].
    rewrite N.eqb_refl, andb_true_r. apply andb_true_iff. split; apply Nat.leb_le; [cbn; lia | lia].
  - inversion F; assumption.
Qed.

Lemma word_raw c r : Forall (fun x => isalnum x = true) (c :: r) -> isdigit c = false -> plain (c :: r) -> raw (c :: r) = Ok [(Word, c :: r)].
Proof.
  intros F Hd P. assert (Ha : isalnum c = true) by (inversion F; assumption). apply letter_consume; [exact Ha | exact Hd | exact P|].
  apply alphanumerical_whole; [apply alnum_sigil; exact Ha|]. right; right. split; [reflexivity|].
  assert (Fs : Forall (fun x => isalnum x = true) (slice (c :: r) 0 (0 + 64))).
  { apply Forall_forall. intros x Hx. rewrite Forall_forall in F. apply F. unfold slice in Hx. cbn [skipn] in Hx. exact (in_firstn _ _ _ Hx). }
  split; [|split; [|exact F]].
  - destruct (starts_as_url _) eqn:X; [|reflexivity]. exfalso. rewrite Forall_forall in Fs.
    assert (C : In 58%N (slice (c :: r) 0 (0 + 64))).
    { unfold starts_as_url in X. apply orb_prop in X. destruct X as [X|X]; apply starts_with_app in X; destruct X as [w ->]; apply in_or_app; left; cbv; tauto. }
    apply Fs in C. rewrite (ac_colon _ ascii) in C. discriminate.
  - destruct (email_lookahead _) eqn:X; [|reflexivity]. exfalso. unfold email_lookahead in X. apply andb_prop in X. destruct X as [_ X].
    set (u := slice (c :: r) 0 (0 + 64)) in *. destruct (skipn (span email_char u) u) as [|y l] eqn:Ey; [discriminate|]. cbn [head_in] in X. apply N.eqb_eq in X. subst y.
    assert (C : In 64%N u) by (rewrite <- (firstn_skipn (span email_char u) u), Ey; apply in_or_app; right; left; reflexivity).
    rewrite Forall_forall in Fs. apply Fs in C. rewrite (mc_alnum_at _ _ _ _ more) in C. discriminate.
Qed.

Lemma digits_loop ds : forall lc ch t j rest, Forall (fun x => isdigit x = true) ds ->
  numeric_loop isspace isalpha isdigit (ds ++ rest) lc ch t j =
  numeric_loop isspace isalpha isdigit rest (last ds lc) ch (match ds with [] => t | _ => Number end) (j + length ds).
Proof.
  induction ds as [|d ds IH]; intros lc ch t j rest F; [cbn [app last length]; f_equal; lia|].
  inversion F as [|? ? F1 F2]; subst. cbn [app numeric_loop]. rewrite F1. cbn [negb].
  rewrite (cc_alnum_space _ _ _ _ _ classes d (cc_digit_alnum _ _ _ _ _ classes d F1)). rewrite IH by exact F2.
  replace (last (d :: ds) lc) with (last ds d).
  2: { assert (Any : forall (l : list N) x a b, last (x :: l) a = last (x :: l) b).
       { clear. induction l as [|y l IH]; intros x a b; [reflexivity|]. exact (IH y a b). }
       destruct ds as [|x ds]; [reflexivity|]. change (last (d :: x :: ds) lc) with (last (x :: ds) lc). apply Any. }
  f_equal; [destruct ds; reflexivity | cbn; lia].
Qed.

Lemma number_raw c d r : number isdigit (c :: d :: r) -> plain (c :: d :: r) -> raw (c :: d :: r) = Ok [(Number, c :: d :: r)].
Proof.
  intros (c' & ds & Hc & F & E) P.
  assert (c' = c) by (destruct E as [E|(p & fs & _ & _ & _ & E)]; injection E; congruence). subst c'.
  assert (NotDec : forall x, isdigit x = true \/ x = 45%N -> memb x DECIMALS = false).
  { intros x Hx. destruct (memb x DECIMALS) eqn:X; [|reflexivity]. exfalso. apply memb_char in X. destruct Hx as [Hx| ->].
    - apply (decimal_not_digit _ _ _ _ _ classes) in X. congruence.
    - destruct X as [X|[X|[]]]; discriminate. }
  assert (Facts : isspace c = false /\ is_ascii_junk c = false /\ (memb c (codes "@#$") = true \/ isalnum c = true \/ c = 45%N) /\
    memb c (codes "#$") = false /\ (c =? 64)%N = false /\ isdigit c || (c =? 45)%N = true /\ memb c APOSTROPHES = false).
  { destruct Hc as [Hc| ->].
    - pose proof (cc_digit_alnum _ _ _ _ _ classes c Hc) as Ha. destruct (alnum_sigil c Ha) as (S1 & S2 & S3 & S4 & S5).
      repeat split; try assumption; [exact (cc_alnum_space _ _ _ _ _ classes c Ha) | apply junk_alnum; exact Ha | auto | rewrite Hc; reflexivity].
    - repeat split; try reflexivity; [apply classes | auto | apply orb_true_r]. }
  destruct Facts as (N1 & N2 & N3 & N4 & N5 & N6 & N7).
  apply enter; [exact N1 | exact N2 | exact P | exact N3|]. unfold consume. rewrite N4, N5, N6. cbn [Nat.add skipn].
  assert (Lastd : forall fs x, Forall (fun y => isdigit y = true) fs -> fs <> [] -> memb (last fs x) DECIMALS = false).
  { intros fs x Hf Hn. destruct (@exists_last _ fs Hn) as (l & y & ->). rewrite last_last. apply NotDec. left. apply Forall_app in Hf. destruct Hf as [_ Hf]. inversion Hf; assumption. }
  assert (L : numeric_loop isspace isalpha isdigit (d :: r) c None Punct 1 = (length (c :: d :: r), true, Number) /\ memb (last (d :: r) 0%N) DECIMALS = false).
  { destruct E as [E|(p & fs & Hp & Ff & Hf & E)].
    - injection E as E. assert (Hds : d :: r <> []) by discriminate. rewrite E in *. split; [|apply Lastd; assumption].
      rewrite <- (app_nil_r ds) at 1. rewrite digits_loop by exact F. cbn [numeric_loop]. destruct ds; [contradiction|]. reflexivity.
    - injection E as E. rewrite E. split.
      2: { destruct (@exists_last _ fs Hf) as (l & y & ->). rewrite app_comm_cons, app_assoc, last_last. apply NotDec. left. apply Forall_app in Ff. destruct Ff as [_ Ff]. inversion Ff; assumption. }
      rewrite digits_loop by exact F. cbn [numeric_loop].
      assert (Sp : isspace p = false) by (destruct Hp as [<-|[<-|[]]]; apply (mc_space_ascii _ _ _ _ more); cbv; split; discriminate).
      rewrite Sp, (decimal_not_digit _ _ _ _ _ classes p Hp). cbn [negb].
      assert (Ld : memb (last ds c) DECIMALS = false).
      { destruct ds as [|x ds]; [apply NotDec; exact Hc | apply Lastd; [exact F | discriminate]]. }
      rewrite Ld.
      assert (Al : isalpha p || memb p IDENTIFIER_PARTS = false).
      { apply orb_false_iff. split; [|destruct Hp as [<-|[<-|[]]]; reflexivity]. destruct (isalpha p) eqn:X; [|reflexivity]. exfalso.
        apply (cc_alpha_alnum _ _ _ _ _ classes) in X. destruct Hp as [<-|[<-|[]]].
        - pose proof (cc_alnum_point _ _ _ _ _ classes). cbv in X. congruence.
        - pose proof (ac_comma _ ascii). cbv in X. congruence. }
      rewrite Al, andb_false_r, (char_memb _ _ Hp : memb p DECIMALS = true). cbn [negb].
      rewrite <- (app_nil_r fs) at 1. rewrite digits_loop by exact Ff. cbn [numeric_loop length].
      rewrite app_length. cbn [length]. f_equal; [f_equal; clear; cbn [Nat.add]; lia | destruct fs; [contradiction | reflexivity]]. }
  destruct L as [L1 L2]. rewrite L1.
  assert (Nt : nth (length (c :: d :: r) - 1) (c :: d :: r) 0%N = last (d :: r) 0%N).
  { cbn [length]. replace (S (S (length r)) - 1) with (S (length r)) by lia. change (nth (S (length r)) (c :: d :: r) 0%N) with (nth (length r) (d :: r) 0%N).
    clear. revert d. induction r as [|x r IH]; intros d; [reflexivity|]. exact (IH x). }
  rewrite Nt, L2, andb_false_r. apply (finish_whole c (d :: r) Number); [exact N7 | left; discriminate | discriminate].
Qed.

Lemma smiley_raw v : emoticon v -> length v <= 64 -> raw v = Ok [(Smiley, v)].
Proof.
  intros E L. pose proof (smiley_whole v E) as W.
  assert (Hc : exists c r, v = c :: r /\ (33 <= c <= 126)%N).
  { destruct E as [n|n|brow e nse m Hb He Hn Hm|m nse e Hm Hn He|b Hb|]; cbn [repeat app].
    - eexists; eexists; split; [reflexivity | lia].
    - eexists; eexists; split; [reflexivity | cbv; split; discriminate].
    - destruct Hb as [-> | (b & -> & Hb)]; cbn [app]; (eexists; eexists; split; [reflexivity|]).
      + cbn in He. clear -He. intuition (subst; lia).
      + cbn in Hb. clear -Hb. intuition (subst; lia).
    - eexists; eexists; split; [reflexivity|]. cbn in Hm. clear -Hm. intuition (subst; lia).
    - eexists; eexists; split; [reflexivity|]. cbn in Hb. clear -Hb. intuition (subst; lia).
    - eexists; eexists; split; [reflexivity | cbv; split; discriminate]. }
  destruct Hc as (c & r & -> & Hc). apply raw_single. unfold step. rewrite (mc_space_ascii _ _ _ _ more c Hc).
  unfold is_ascii_junk. destruct (N.leb_spec c 31) as [X|X]; [lia|]. cbn [orb].
  assert (Es : slice (c :: r) 0 (0 + 64) = c :: r) by (unfold slice; cbn [skipn]; apply firstn_all2; lia).
  rewrite Es, W. cbn [Nat.add]. rewrite slice_full. reflexivity.
Qed.

Lemma punct_raw c : isspace c = false -> (31 < c)%N -> ~ apostrophe c -> (isalnum c = false /\ emoji [c] = 0 \/ isdigit c = true) -> raw [c] = Ok [(Punct, [c])].
Proof.
  intros Hs Hj Hq Hk. assert (Hq' : memb c APOSTROPHES = false).
  { destruct (memb c APOSTROPHES) eqn:X; [|reflexivity]. exfalso. apply Hq. apply apostrophe_memb. exact X. }
  assert (Hsm : smiley_end (slice [c] 0 (0 + 64)) = None).
  { change (slice [c] 0 (0 + 64)) with [c]. unfold smiley_end. cbn [span]. destruct (dash c); cbn [skipn head_in Nat.leb andb]; unfold opt; cbn [head_in].
    - destruct (memb c (codes "<>")); cbn [skipn head_in andb]; rewrite ?andb_false_r; destruct (eyes c); destruct (mouth c); cbn [skipn head_in andb]; rewrite ?andb_false_r; destruct (starts_with _ _) eqn:X; try reflexivity; cbn in X; rewrite andb_false_r in X; discriminate.
    - rewrite ?andb_false_r. destruct (memb c (codes "<>")); cbn [skipn head_in andb]; rewrite ?andb_false_r; destruct (eyes c); destruct (mouth c); cbn [skipn head_in andb]; rewrite ?andb_false_r; destruct (starts_with _ _) eqn:X; try reflexivity; cbn in X; rewrite andb_false_r in X; discriminate. }
  apply raw_single. unfold step. rewrite Hs. unfold is_ascii_junk. destruct (N.leb_spec c 31) as [X|_]; [lia|]. cbn [orb]. rewrite Hsm.
  assert (Cons : memb c (codes "@#$") = true \/ isdigit c = true \/ c = 45%N -> consume isspace isalnum isalpha isdigit isupper islower lower false [c] (slice [c] 0 (0 + 64)) 0 c = Ok ([(Punct, [c])], 1)).
  { intros K. unfold consume. cbn [Nat.add nth_error skipn numeric_loop]. destruct (memb c (codes "#$")) eqn:E1; [reflexivity|]. destruct (N.eqb_spec c 64) as [->|E2]; [reflexivity|].
    assert (Ed : isdigit c || (c =? 45)%N = true).
    { destruct K as [K|[K| ->]]; [|rewrite K; reflexivity | apply orb_true_r]. exfalso. rewrite memb_true in K. destruct K as [K|[K|[K|[]]]]; subst c; [apply E2; reflexivity | discriminate | discriminate]. }
    rewrite Ed. cbn [Nat.ltb Nat.leb andb].
    change 1 with (length [c]). apply finish_whole; [exact Hq' | left; discriminate | discriminate]. }
  destruct (memb c (codes "@#$")) eqn:Em; [apply Cons; left; reflexivity|].
  destruct Hk as [[Ha He]|Hd].
  - rewrite Ha. destruct (N.eqb_spec c 45) as [->|E45]; cbn [negb andb]; [apply Cons; auto|].
    change (scan _ [c] (0 + 1)) with 1. change (slice [c] 0 1) with [c].
    assert (Q : memb [c] (map (fun a => [a]) APOSTROPHES) = false).
    { match goal with |- ?m = false => destruct m eqn:X; [|reflexivity] end. rewrite memb_true in X. apply in_map_iff in X. destruct X as (y & Ey & Hy). injection Ey as ->.
      apply memb_true in Hy. congruence. }
    match goal with |- (if ?m then _ else _) = _ => change m with (memb [c] (map (fun a : N => [a]) APOSTROPHES)); rewrite Q end.
    unfold punct_emoji_iter. cbn [with_holes]. rewrite He. reflexivity.
  - rewrite (cc_digit_alnum _ _ _ _ _ classes c Hd). cbn [negb andb]. apply Cons; auto.
Qed.

Lemma item_raw t v : item isspace isalnum isalpha isdigit emoji t v -> raw v = Ok [(t, v)].
Proof.
  intros H. destruct H.
  - apply mention_raw; assumption.
  - apply hashtag_raw; assumption.
  - apply url_raw; assumption.
  - apply email_raw; assumption.
  - apply number_raw; assumption.
  - apply word_raw; assumption.
  - apply smiley_raw; assumption.
  - apply punct_raw; assumption.
Qed.

Lemma sentence_raw ts s : (forall c x, c = 45%N \/ c = 35%N \/ c = 36%N -> In c x -> In c (lower x)) ->
  sentence isspace isalnum isalpha isdigit emoji ts s -> raw s = Ok ts.
Proof.
  intros Lw. induction 1 as [|t v H|t v sp ts s H Sp _ IH|sp ts s Sp _ IH].
  - reflexivity.
  - apply item_raw. exact H.
  - change ((t, v) :: ts) with ([(t, v)] ++ ts).
    apply (raw_cut isspace isalnum isalpha isdigit isupper islower lower emoji false classes more Lw); [exact Sp | apply item_raw; exact H | exact IH|].
    intros pre t1 x t2 E _. destruct pre as [|y [|z pre]]; discriminate.
  - change (sp :: s) with ([] ++ sp :: s). change ts with ([] ++ ts).
    apply (raw_cut isspace isalnum isalpha isdigit isupper islower lower emoji false classes more Lw); [exact Sp | reflexivity | exact IH|].
    intros pre t1 x t2 E _. destruct pre as [|y [|z pre]]; discriminate.
Qed.
End Recognised.
