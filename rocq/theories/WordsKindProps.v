(** C92, C93, C94: what the type of a token says about its text. *)
From Coq Require Import String.
From Verif Require Import Base BaseFacts LevModel StringsModel WordsModel WordsSpec WordsProofs WordsTests WordsKindSpec WordsKindProofs.
Open Scope nat_scope.
Open Scope list_scope.
Notation length := List.length.
Notation concat := List.concat.

Lemma t_more : more_classes t_isspace t_isalnum t_isupper t_islower.
Proof.
  split; try reflexivity.
  - intros c H. destruct (t_isspace c) eqn:E; [|reflexivity]. unfold t_isspace in E. rewrite memb_true in E. cbn in E. clear -E H. intuition (subst; lia).
  - intros c H. destruct (t_isupper c) eqn:E; [|reflexivity]. exfalso. unfold t_isupper in E. rewrite memb_true in E.
    assert (K : forallb (fun x => negb (t_islower x)) [65; 66; 67; 68; 69; 70; 71; 72; 73; 74; 75; 76; 77; 78; 79; 80; 81; 82; 83; 84; 85; 86; 87; 88; 89; 90; 199; 201]%N = true) by (vm_compute; reflexivity).
    rewrite forallb_forall in K. specialize (K c E). rewrite H in K. discriminate.
Qed.
Lemma t_digit_case c : t_isdigit c = true -> t_isupper c = false /\ t_islower c = false.
Proof.
  intros H. unfold t_isdigit in H. rewrite memb_true in H.
  assert (K : forallb (fun x => negb (t_isupper x) && negb (t_islower x)) [48; 49; 50; 51; 52; 53; 54; 55; 56; 57]%N = true) by (vm_compute; reflexivity).
  rewrite forallb_forall in K. specialize (K c H). destruct (t_isupper c), (t_islower c); try discriminate. auto.
Qed.
Lemma t_emoji_bound u : t_emoji u <= length u.
Proof.
  unfold t_emoji. destruct (find _ _) as [e|] eqn:E; [|lia]. apply find_some in E. destruct E as [_ E]. apply starts_with_app in E.
  destruct E as [b ->]. rewrite app_length. lia.
Qed.

(** C92: a mention starts with an @, a number has a digit, a punctuation mark is not alphanumeric: none of this holds *)
Definition plain_kind (isalnum isdigit : N -> bool) (tok : token) : Prop :=
  match tok with
  | (Mention, v) => exists u, v = 64%N :: u
  | (Hashtag, v) => exists u, v = 35%N :: u \/ v = 36%N :: u
  | (Number, v) => exists c, In c v /\ isdigit c = true
  | (Punct, v) => Forall (fun c => isalnum c = false) v
  | _ => True
  end.

Theorem C92_plain_refuted :
  exists isspace isalnum isalpha isdigit isupper islower lower emoji s1 ts1 s2 ts2 s3 ts3,
    char_classes isspace isalnum isalpha isdigit isupper /\
    (raw_tokens isspace isalnum isalpha isdigit isupper islower lower emoji false s1 = Ok ts1 /\
      ~ (forall v, In (Mention, v) ts1 -> plain_kind isalnum isdigit (Mention, v))) /\
    (raw_tokens isspace isalnum isalpha isdigit isupper islower lower emoji false s2 = Ok ts2 /\
      ~ (forall v, In (Punct, v) ts2 -> plain_kind isalnum isdigit (Punct, v))) /\
    (raw_tokens isspace isalnum isalpha isdigit isupper islower lower emoji false s3 = Ok ts3 /\
      ~ (forall v, In (Number, v) ts3 -> plain_kind isalnum isdigit (Number, v))).
Proof.
  exists t_isspace, t_isalnum, t_isalpha, t_isdigit, t_isupper, t_islower, t_lower, t_emoji.
  exists (codes "@foo's"), [(Mention, codes "@foo"); (Mention, codes "'s")].
  exists (codes "4 years"), [(Punct, codes "4"); (Word, codes "years")].
  exists (codes "1900's"), [(Number, codes "1900"); (Number, codes "'s")].
  split; [exact t_classes|]. split; [|split]; (split; [vm_compute; reflexivity|]); intros H.
  - destruct (H (codes "'s") ltac:(right; left; reflexivity)) as [u E]. discriminate.
  - specialize (H (codes "4") ltac:(left; reflexivity)). inversion H as [|? ? H1 _]; subst. vm_compute in H1. discriminate.
  - destruct (H (codes "'s") ltac:(right; left; reflexivity)) as (c & [<-|[<-|[]]] & K); vm_compute in K; discriminate.
Qed.
Print Assumptions C92_plain_refuted.

(** C93: a smiley is an emoticon, an URL starts with http, an address has a local part and an @, the others are what they
    should be up to an apostrophe and what follows it, or the point of an abbreviation.  Each token stops where it has to. *)
Theorem C93_kinds :
  forall isspace isalnum isalpha isdigit isupper islower lower emoji split_hashtags s ts,
  char_classes isspace isalnum isalpha isdigit isupper -> more_classes isspace isalnum isupper islower ->
  (forall c, isdigit c = true -> isupper c = false /\ islower c = false) -> (forall u, emoji u <= length u) ->
  raw_tokens isspace isalnum isalpha isdigit isupper islower lower emoji split_hashtags s = Ok ts ->
  read_in (fun p tok => kind isspace isalnum isalpha isdigit lower emoji (fst tok) (snd tok) /\
    (split_hashtags = false -> maximal isspace isalnum isdigit s p (fst tok) (snd tok))) s 0 ts.
Proof.
  intros isspace isalnum isalpha isdigit isupper islower lower emoji sh s ts C M D B H.
  apply (tokenize_loop_kind isspace isalnum isalpha isdigit isupper islower lower emoji sh C M D B s) in H; [|lia].
  apply (placed_read _ _ _ _ _ _ _ B) in H. exact H.
Qed.
Print Assumptions C93_kinds.

(** the classes of the tests have these properties, and all the kinds occur *)
Example C93_classes : more_classes t_isspace t_isalnum t_isupper t_islower /\
  (forall c, t_isdigit c = true -> t_isupper c = false /\ t_islower c = false) /\ (forall u, t_emoji u <= length u).
Proof. split; [exact t_more | split; [exact t_digit_case | exact t_emoji_bound]]. Qed.
Example C93_example : t_raw (codes "@yomgui's #tag: 2.5, :-) http://lemonde.fr a@b.c it's" ++ [32; 128049]%N) =
  Ok [(Mention, codes "@yomgui"); (Mention, codes "'s"); (Hashtag, codes "#tag"); (Punct, codes ":"); (Number, codes "2.5");
      (Punct, codes ","); (Smiley, codes ":-)"); (Url, codes "http://lemonde.fr"); (Email, codes "a@b.c"); (Word, codes "it");
      (Word, codes "'s"); (Emoji, [128049]%N)].
Proof. vm_compute. reflexivity. Qed.
(** the type does exclude texts *)
Example C93_excludes :
  ~ kind t_isspace t_isalnum t_isalpha t_isdigit t_lower t_emoji Smiley (codes "a)") /\
  ~ kind t_isspace t_isalnum t_isalpha t_isdigit t_lower t_emoji Mention (codes "foo") /\
  ~ maximal t_isspace t_isalnum t_isdigit (codes "word") 0 Word (codes "wor").
Proof.
  split; [|split].
  - intros H. change (emoticon (codes "a)")) in H. remember (codes "a)") as v eqn:E.
    destruct H as [n|n|brow e nose m Hb He Hn Hm|m nose e Hm Hn He|b Hb|]; try discriminate.
    + destruct Hb as [-> | (b & -> & Hb)]; injection E as E1 _; subst.
      * cbn in He. repeat (destruct He as [He|He]; [discriminate|]). exact He.
      * cbn in Hb. repeat (destruct Hb as [Hb|Hb]; [discriminate|]). exact Hb.
    + injection E as E1 _. subst. cbn in Hm. repeat (destruct Hm as [Hm|Hm]; [discriminate|]). exact Hm.
  - intros (core & (u & E & _) & G). inversion G as [E1|a Ha E1|a u' Ha Hu E1|a u' Ha Hu E1|Ha E1]; subst; try discriminate.
    destruct Ha as [Ha | Ha]; discriminate.
  - intros [(a & Ha & Hin)|[(u & E)|H]].
    + destruct Ha as [-> | ->]; cbn in Hin; repeat (destruct Hin as [Hin|Hin]; [discriminate|]); exact Hin.
    + change (codes "wor") with (codes "wo" ++ codes "r") in E. apply app_inj_tail in E. destruct E as [_ E]. discriminate.
    + apply (H 100%N); [reflexivity | vm_compute; reflexivity].
Qed.

(** C93: a string that starts with an emoticon starts with a smiley *)
Theorem C93_smiley_first :
  forall isspace isalnum isalpha isdigit isupper islower lower emoji split_hashtags v w,
  char_classes isspace isalnum isalpha isdigit isupper -> more_classes isspace isalnum isupper islower ->
  emoticon v -> length v <= 64 ->
  exists u ts, raw_tokens isspace isalnum isalpha isdigit isupper islower lower emoji split_hashtags (v ++ w) = Ok ((Smiley, u) :: ts) /\
    emoticon u.
Proof.
  intros isspace isalnum isalpha isdigit isupper islower lower emoji sh v w C M E L.
  destruct (raw_tokens_ok isspace isalnum isalpha isdigit isupper islower lower emoji sh (v ++ w) C) as (ts & H & _).
  assert (Hc : exists c r, v = c :: r /\ (33 <= c <= 126)%N).
  { destruct E as [n|n|brow e nose m Hb He Hn Hm|m nose e Hm Hn He|b Hb|]; cbn [repeat app].
    - eexists; eexists; split; [reflexivity | lia].
    - eexists; eexists; split; [reflexivity | cbv; split; discriminate].
    - destruct Hb as [-> | (b & -> & Hb)]; cbn [app]; (eexists; eexists; split; [reflexivity|]).
      + cbn in He. clear -He. intuition (subst; lia).
      + cbn in Hb. clear -Hb. intuition (subst; lia).
    - eexists; eexists; split; [reflexivity|]. cbn in Hm. clear -Hm. intuition (subst; lia).
    - eexists; eexists; split; [reflexivity|]. cbn in Hb. clear -Hb. intuition (subst; lia).
    - eexists; eexists; split; [reflexivity | cbv; split; discriminate]. }
  destruct Hc as (c & r & Ev & Hc).
  assert (Sm : exists e, smiley_end (slice (v ++ w) 0 (0 + 64)) = Some e).
  { unfold slice. cbn [skipn Nat.add]. rewrite Nat.sub_0_r, firstn_app, firstn_all2 by exact L.
    destruct (smiley_end (v ++ firstn (64 - length v) w)) as [e|] eqn:X; [eauto | exfalso; exact (smiley_complete _ _ E X)]. }
  destruct Sm as [e He]. pose proof (smiley_sound _ _ He) as Em.
  unfold raw_tokens in H |- *. rewrite Ev in H at 1 |- *. cbn [app length] in *.
  cbn [tokenize_loop nth_error] in H |- *. rewrite Ev in H at 1. cbn [app nth_error] in H.
  revert H. match goal with |- bind ?x _ = _ -> _ => assert (Ex : x = Ok ([(Smiley, slice (v ++ w) 0 e)], e)) end.
  { unfold step. rewrite (mc_space_ascii _ _ _ _ M c Hc). unfold is_ascii_junk. destruct (N.leb_spec c 31) as [X|X]; [lia|]. cbn [orb].
    rewrite He. reflexivity. }
  rewrite Ev in Ex at 2. cbn [app] in Ex. rewrite Ev. cbn [app]. rewrite Ev in Ex. cbn [app] in Ex. rewrite Ex. cbn [bind].
  destruct (tokenize_loop _ _ _ _ _ _ _ _ _ _ _ _) as [rest|]; cbn [bind]; [|discriminate]. intros _.
  eexists; eexists; split; [reflexivity|]. unfold slice in *. cbn [skipn] in *. rewrite firstn_firstn in Em. rewrite Nat.sub_0_r in *.
  rewrite Ev in Em, He. apply smiley_end_bounds in He; [|exact isspace | exact lower | exact emoji]. rewrite firstn_length in He.
  rewrite Nat.min_l in Em by lia. exact Em.
Qed.
Print Assumptions C93_smiley_first.

(** times of the day and accounts are concerned *)
Example C93_smiley_example : emoticon (codes "8:") /\ emoticon (codes "@8") /\
  t_raw (codes "8:30") = Ok [(Smiley, codes "8:"); (Number, codes "30")] /\
  t_raw (codes "@8ball") = Ok [(Smiley, codes "@8"); (Word, codes "ball")].
Proof.
  split; [|split; [|split; vm_compute; reflexivity]].
  - apply (face [] 56 [] 58); [left; reflexivity | cbv; tauto | left; reflexivity | cbv; tauto].
  - apply (reversed_face 64 [] 56); [cbv; tauto | left; reflexivity | cbv; tauto].
Qed.

(** C94: the pieces of a hashtag are numbers and words, cut at the digits and at the uppercase letters *)
Theorem C94_pieces :
  forall isdigit isupper islower s ts,
  (forall c, islower c = true -> isupper c = false) -> (forall c, isdigit c = true -> isupper c = false /\ islower c = false) ->
  split_hashtag isdigit isupper islower s = Ok ts ->
  Forall (hashtag_piece isdigit isupper islower) ts /\ adjacent (hashtag_cut isupper islower) ts.
Proof. intros isdigit isupper islower s ts L D H. exact (split_hashtag_pieces isdigit isupper islower L D s ts H). Qed.
Print Assumptions C94_pieces.

Example C94_example : split_hashtag t_isdigit t_isupper t_islower (codes "#8YearsOfTVShows") =
  Ok [(Number, codes "8"); (Word, codes "Years"); (Word, codes "Of"); (Word, codes "TV"); (Word, codes "Shows")].
Proof. vm_compute. reflexivity. Qed.
Example C94_excludes :
  ~ hashtag_piece t_isdigit t_isupper t_islower (Word, codes "YearsOf") /\
  ~ hashtag_piece t_isdigit t_isupper t_islower (Word, codes "a1") /\
  ~ hashtag_piece t_isdigit t_isupper t_islower (Number, codes "a1") /\
  ~ hashtag_cut t_isupper t_islower (Word, codes "ye") (Word, codes "ars").
Proof.
  split; [|split; [|split]].
  - intros [_ [H|H]]; cbn [tl codes map list_ascii_of_string] in H.
    + rewrite Forall_forall in H. specialize (H 79%N ltac:(cbv; tauto)). vm_compute in H. discriminate.
    + inversion H as [|? ? H1 _]. vm_compute in H1. discriminate.
  - intros [H _]. rewrite Forall_forall in H. specialize (H 49%N ltac:(cbv; tauto)). vm_compute in H. discriminate.
  - intros H. inversion H as [|? ? H1 _]. vm_compute in H1. discriminate.
  - intros [(c & u & E & H)|(c & d & u & E & H & _)]; injection E as <- _; vm_compute in H; discriminate.
Qed.
