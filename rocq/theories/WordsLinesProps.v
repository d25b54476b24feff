(** C95, C96, C97: texts cut at their spaces, and texts made of recognisable items. *)
From Coq Require Import String Nnat.
From Verif Require Import Base BaseFacts LevModel StringsModel WordsModel WordsSpec WordsProofs WordsTests.
From Verif Require Import WordsKindSpec WordsKindProofs WordsKindProps WordsLinesSpec WordsLinesProofs WordsLinesItems.
Open Scope nat_scope.
Open Scope list_scope.
Notation length := List.length.

Lemma t_ascii : ascii_classes t_isalnum.
Proof.
  split; try reflexivity. intros c H.
  assert (K : forallb t_isalnum (map N.of_nat (seq 97 26)) = true) by (vm_compute; reflexivity).
  rewrite forallb_forall in K. apply K. apply in_map_iff. exists (N.to_nat c). split; [apply N2Nat.id | apply in_seq; lia].
Qed.
Lemma t_lower_marks c x : c = 45%N \/ c = 35%N \/ c = 36%N -> In c x -> In c (t_lower x).
Proof. intros Hc H. unfold t_lower. apply in_map_iff. exists c. split; [destruct Hc as [-> | [-> | ->]]; vm_compute; reflexivity | exact H]. Qed.

(** C95: cutting a text at a space does not commute with reading its tokens *)
Theorem C95_lines_refuted :
  exists isspace isalnum isalpha isdigit isupper islower lower emoji sp a ta b tb,
    char_classes isspace isalnum isalpha isdigit isupper /\ more_classes isspace isalnum isupper islower /\
    (forall c x, c = 45%N \/ c = 35%N \/ c = 36%N -> In c x -> In c (lower x)) /\ isspace sp = true /\
    raw_tokens isspace isalnum isalpha isdigit isupper islower lower emoji false a = Ok ta /\
    raw_tokens isspace isalnum isalpha isdigit isupper islower lower emoji false b = Ok tb /\
    raw_tokens isspace isalnum isalpha isdigit isupper islower lower emoji false (a ++ sp :: b) <> Ok (ta ++ tb).
Proof.
  exists t_isspace, t_isalnum, t_isalpha, t_isdigit, t_isupper, t_islower, t_lower, t_emoji.
  exists 32%N, (codes "see etc."), [(Word, codes "see"); (Word, codes "etc"); (Punct, codes ".")], (codes "ok"), [(Word, codes "ok")].
  split; [exact t_classes|]. split; [exact t_more|]. split; [exact t_lower_marks|]. split; [reflexivity|].
  split; [vm_compute; reflexivity|]. split; [vm_compute; reflexivity|]. vm_compute. discriminate.
Qed.
Print Assumptions C95_lines_refuted.

(** the point is kept with the abbreviation when something follows, and cut at the end *)
Example C95_example :
  t_raw (codes "see etc. ok") = Ok [(Word, codes "see"); (Word, codes "etc."); (Word, codes "ok")] /\
  t_raw (codes "see etc.") = Ok [(Word, codes "see"); (Word, codes "etc"); (Punct, codes ".")].
Proof. split; vm_compute; reflexivity. Qed.

(** C96: it does as soon as the first part does not end with an abbreviation *)
Theorem C96_lines :
  forall isspace isalnum isalpha isdigit isupper islower lower emoji split_hashtags sp a ta b tb,
  char_classes isspace isalnum isalpha isdigit isupper -> more_classes isspace isalnum isupper islower ->
  (forall c x, c = 45%N \/ c = 35%N \/ c = 36%N -> In c x -> In c (lower x)) ->
  isspace sp = true ->
  raw_tokens isspace isalnum isalpha isdigit isupper islower lower emoji split_hashtags a = Ok ta ->
  raw_tokens isspace isalnum isalpha isdigit isupper islower lower emoji split_hashtags b = Ok tb ->
  open_ended lower ta ->
  raw_tokens isspace isalnum isalpha isdigit isupper islower lower emoji split_hashtags (a ++ sp :: b) = Ok (ta ++ tb).
Proof.
  intros isspace isalnum isalpha isdigit isupper islower lower emoji sh sp a ta b tb C M L Sp Ha Hb Ho.
  apply (raw_cut isspace isalnum isalpha isdigit isupper islower lower emoji sh C M L); assumption.
Qed.
Print Assumptions C96_lines.

(** the same after the filters *)
Theorem C96_tokenize :
  forall isspace isalnum isalpha isdigit isupper islower letter lower unescape unidecode emoji o sp a ta xa b xb,
  char_classes isspace isalnum isalpha isdigit isupper -> more_classes isspace isalnum isupper islower ->
  (forall c x, c = 45%N \/ c = 35%N \/ c = 36%N -> In c x -> In c (lower x)) ->
  isspace sp = true ->
  o_decode_html_entities o = false -> o_unidecode o = false -> o_reduce_words o = false ->
  raw_tokens isspace isalnum isalpha isdigit isupper islower lower emoji (o_split_hashtags o) a = Ok ta -> open_ended lower ta ->
  tokenize isspace isalnum isalpha isdigit isupper islower letter lower unescape unidecode emoji o a = Ok xa ->
  tokenize isspace isalnum isalpha isdigit isupper islower letter lower unescape unidecode emoji o b = Ok xb ->
  tokenize isspace isalnum isalpha isdigit isupper islower letter lower unescape unidecode emoji o (a ++ sp :: b) = Ok (xa ++ xb).
Proof.
  intros isspace isalnum isalpha isdigit isupper islower letter lower unescape unidecode emoji o sp a ta xa b xb C M L Sp O1 O2 O3 Ha Ho Ta Tb.
  unfold tokenize in *. rewrite O1, O2, O3 in *. rewrite Ha in Ta. cbn [bind] in Ta.
  destruct (raw_tokens _ _ _ _ _ _ _ _ _ b) as [tb|] eqn:Hb; cbn [bind] in Tb; [|discriminate].
  rewrite (C96_lines _ _ _ _ _ _ _ _ _ _ _ _ _ _ C M L Sp Ha Hb Ho). cbn [bind].
  destruct (only_defaults o); [congruence|]. rewrite flat_map_app. congruence.
Qed.
Print Assumptions C96_tokenize.

Example C96_example : open_ended t_lower [(Word, codes "it"); (Word, codes "'s"); (Punct, codes ".")] /\
  t_raw (codes "it's.") = Ok [(Word, codes "it"); (Word, codes "'s"); (Punct, codes ".")] /\
  t_raw (codes "Go on") = Ok [(Word, codes "Go"); (Word, codes "on")] /\
  t_raw (codes "it's. Go on") = Ok [(Word, codes "it"); (Word, codes "'s"); (Punct, codes "."); (Word, codes "Go"); (Word, codes "on")].
Proof.
  split; [|split; [|split]; vm_compute; reflexivity]. intros pre t x t' E H.
  assert (x = codes "'s").
  { change [(Word, codes "it"); (Word, codes "'s"); (Punct, codes ".")] with ([(Word, codes "it"); (Word, codes "'s")] ++ [(Punct, codes ".")]) in E.
    change (pre ++ [(t, x); (t', codes ".")]) with (pre ++ [(t, x)] ++ [(t', codes ".")]) in E. rewrite app_assoc in E. apply app_inj_tail in E. destruct E as [E _].
    change [(Word, codes "it"); (Word, codes "'s")] with ([(Word, codes "it")] ++ [(Word, codes "'s")]) in E. apply app_inj_tail in E. destruct E as [_ E]. congruence. }
  subst x. vm_compute in H. repeat (destruct H as [H|H]; [discriminate|]). exact H.
Qed.

(** C97: recognisable items separated by spaces are exactly the tokens *)
Theorem C97_sentence :
  forall isspace isalnum isalpha isdigit isupper islower lower emoji ts s,
  char_classes isspace isalnum isalpha isdigit isupper -> more_classes isspace isalnum isupper islower -> ascii_classes isalnum ->
  (forall c x, c = 45%N \/ c = 35%N \/ c = 36%N -> In c x -> In c (lower x)) ->
  sentence isspace isalnum isalpha isdigit emoji ts s ->
  raw_tokens isspace isalnum isalpha isdigit isupper islower lower emoji false s = Ok ts.
Proof.
  intros isspace isalnum isalpha isdigit isupper islower lower emoji ts s C M A L H.
  apply (sentence_raw isspace isalnum isalpha isdigit isupper islower lower emoji C M A); assumption.
Qed.
Print Assumptions C97_sentence.

(** deciding that there is no emoticon at the beginning of a text *)
Lemma plain_dec v : smiley_end v = None -> plain v.
Proof. intros H e r E ->. exact (smiley_complete e r E H). Qed.

Example C97_example : sentence t_isspace t_isalnum t_isalpha t_isdigit t_emoji
  [(Mention, codes "@yomgui"); (Word, codes "wrote"); (Number, codes "12.5"); (Hashtag, codes "#tags"); (Smiley, codes ":-)");
   (Email, codes "me@fog.fr"); (Url, codes "http://fog.fr"); (Punct, codes "!")]
  (codes "@yomgui wrote 12.5 #tags  :-) me@fog.fr http://fog.fr !").
Proof.
  apply (sentence_item _ _ _ _ _ Mention (codes "@yomgui") 32).
  { apply item_mention; [|apply plain_dec; vm_compute; reflexivity]. exists (codes "yomgui"). split; [reflexivity|]. split; [discriminate|].
    repeat constructor; cbn; lia. }
  { reflexivity. }
  apply (sentence_item _ _ _ _ _ Word (codes "wrote") 32).
  { apply item_word; [repeat constructor | reflexivity | apply plain_dec; vm_compute; reflexivity]. }
  { reflexivity. }
  apply (sentence_item _ _ _ _ _ Number (codes "12.5") 32).
  { apply item_number; [|apply plain_dec; vm_compute; reflexivity].
    exists 49%N, (codes "2"). split; [left; reflexivity|]. split; [repeat constructor|]. right. exists 46%N, (codes "5").
    split; [cbv; tauto|]. split; [repeat constructor|]. split; [discriminate | reflexivity]. }
  { reflexivity. }
  apply (sentence_item _ _ _ _ _ Hashtag (codes "#tags") 32).
  { apply item_hashtag; [|apply plain_dec; vm_compute; reflexivity]. exists 35%N, 116%N, (codes "ags").
    split; [reflexivity|]. split; [left; reflexivity|]. split; [reflexivity | repeat constructor]. }
  { reflexivity. }
  apply sentence_space; [reflexivity|].
  apply (sentence_item _ _ _ _ _ Smiley (codes ":-)") 32).
  { apply item_smiley; [|cbn; lia]. apply (face [] 58 [45%N] 41); [left; reflexivity | cbv; tauto | right; exists 45%N; split; [reflexivity | cbv; tauto] | cbv; tauto]. }
  { reflexivity. }
  apply (sentence_item _ _ _ _ _ Email (codes "me@fog.fr") 32).
  { apply item_email; [|reflexivity | reflexivity | apply plain_dec; vm_compute; reflexivity]. exists (codes "me"), (codes "fog.fr").
    split; [reflexivity|]. split; [discriminate|]. split; [cbn; lia|]. split; [repeat constructor; unfold address_char; cbn; lia | repeat constructor; discriminate]. }
  { reflexivity. }
  apply (sentence_item _ _ _ _ _ Url (codes "http://fog.fr") 32).
  { apply item_url. split; [exists (codes "fog.fr"); left; reflexivity | repeat constructor; discriminate]. }
  { reflexivity. }
  apply sentence_last. apply (item_punct _ _ _ _ _ 33%N); [reflexivity | lia | intros [H|H]; discriminate | left; split; vm_compute; reflexivity].
Qed.
Example C97_classes : char_classes t_isspace t_isalnum t_isalpha t_isdigit t_isupper /\ more_classes t_isspace t_isalnum t_isupper t_islower /\
  ascii_classes t_isalnum /\ (forall c x, c = 45%N \/ c = 35%N \/ c = 36%N -> In c x -> In c (t_lower x)).
Proof. split; [exact t_classes | split; [exact t_more | split; [exact t_ascii | exact t_lower_marks]]]. Qed.
(** without the condition on emoticons the items are not read: a time of the day, an account, the name of a file *)
Example C97_emoticons : t_raw (codes "8:30") = Ok [(Smiley, codes "8:"); (Number, codes "30")] /\
  t_raw (codes "@8ball") = Ok [(Smiley, codes "@8"); (Word, codes "ball")] /\
  t_raw (codes "p8") = Ok [(Smiley, codes "p8")].
Proof. split; [|split]; vm_compute; reflexivity. Qed.
