(** C48, C49, C50, C70, C71: the word tokenizer. *)
From Coq Require Import String.
From Verif Require Import Base BaseFacts LevModel StringsModel StringsSpec StringsProofs PhoneticsModel WordsModel WordsSpec WordsProofs WordsTests.
Open Scope nat_scope.
Open Scope list_scope.
Notation length := List.length.
Notation concat := List.concat.

(** C48: every string is tokenized, without error, and the tokens are pieces of it, from left to right; what lies between
    them is droppable, or is the end of a word after a point. *)
Theorem C48_total_and_in_order :
  forall isspace isalnum isalpha isdigit isupper islower lower emoji split_hashtags s,
  char_classes isspace isalnum isalpha isdigit isupper ->
  exists ts, raw_tokens isspace isalnum isalpha isdigit isupper islower lower emoji split_hashtags s = Ok ts /\
    covers (droppable isspace split_hashtags) (acronym_tail isspace isupper s) s (map snd ts).
Proof.
  intros isspace isalnum isalpha isdigit isupper islower lower emoji sh s C.
  destruct (raw_tokens_ok isspace isalnum isalpha isdigit isupper islower lower emoji sh s C) as (ts & E & G & _).
  exists ts. split; assumption.
Qed.
Print Assumptions C48_total_and_in_order.

(** the classes exist *)
Example C48_classes : char_classes t_isspace t_isalnum t_isalpha t_isdigit t_isupper.
Proof. exact t_classes. Qed.
Example C48_example : t_raw (codes "Mr. O'Hara can't sing -- he says :-)") =
  Ok [(Word, codes "Mr."); (Word, codes "O'Hara"); (Word, codes "can't"); (Word, codes "sing"); (Punct, codes "-");
      (Punct, codes "-"); (Word, codes "he"); (Word, codes "says"); (Smiley, codes ":-)")].
Proof. vm_compute. reflexivity. Qed.

(** a word directly after an initial disappears *)
Theorem C48_lossless_refuted :
  exists isspace isalnum isalpha isdigit isupper islower lower emoji s ts,
    char_classes isspace isalnum isalpha isdigit isupper /\
    raw_tokens isspace isalnum isalpha isdigit isupper islower lower emoji false s = Ok ts /\
    filter isalnum (concat (map snd ts)) <> filter isalnum s.
Proof.
  exists t_isspace, t_isalnum, t_isalpha, t_isdigit, t_isupper, t_islower, t_lower, t_emoji, (codes "E.Macron"), [(Word, codes "E"); (Punct, codes ".")].
  split; [exact t_classes|]. split; [vm_compute; reflexivity | vm_compute; discriminate].
Qed.
Print Assumptions C48_lossless_refuted.

(** a word split on its hyphens may give an empty token *)
Theorem C48_nonempty_refuted :
  exists isspace isalnum isalpha isdigit isupper islower lower emoji s ts,
    char_classes isspace isalnum isalpha isdigit isupper /\
    raw_tokens isspace isalnum isalpha isdigit isupper islower lower emoji false s = Ok ts /\ In (Word, []) ts.
Proof.
  exists t_isspace, t_isalnum, t_isalpha, t_isdigit, t_isupper, t_islower, t_lower, t_emoji, (codes "a-t-,"),
    [(Word, codes "a"); (Word, codes "t"); (Word, []); (Punct, codes ",")].
  split; [exact t_classes|]. split; [vm_compute; reflexivity | right; right; left; reflexivity].
Qed.
Print Assumptions C48_nonempty_refuted.

(** C70: no alphanumeric character is lost unless an uppercase letter is directly followed by a point *)
Theorem C70_lossless_without_acronyms :
  forall isspace isalnum isalpha isdigit isupper islower lower emoji split_hashtags s ts,
  char_classes isspace isalnum isalpha isdigit isupper ->
  (split_hashtags = true -> isalnum 35%N = false /\ isalnum 36%N = false) ->
  ~ upper_point isupper s ->
  raw_tokens isspace isalnum isalpha isdigit isupper islower lower emoji split_hashtags s = Ok ts ->
  filter isalnum (concat (map snd ts)) = filter isalnum s.
Proof.
  intros isspace isalnum isalpha isdigit isupper islower lower emoji sh s ts C Hm Hu E.
  destruct (raw_tokens_ok isspace isalnum isalpha isdigit isupper islower lower emoji sh s C) as (ts' & E' & G & _).
  assert (ts' = ts) by congruence. subst ts'.
  apply (covers_filter (droppable isspace sh)).
  - intros c A [K|[K|[K|[K1 [K|K]]]]].
    + rewrite (cc_alnum_space _ _ _ _ _ C c A) in K. discriminate.
    + pose proof (cc_alnum_junk _ _ _ _ _ C c A). lia.
    + subst c. rewrite (cc_alnum_hyphen _ _ _ _ _ C) in A. discriminate.
    + subst c. rewrite (proj1 (Hm K1)) in A. discriminate.
    + subst c. rewrite (proj2 (Hm K1)) in A. discriminate.
  - apply (covers_weaken _ (acronym_tail isspace isupper s)); [|exact G]. intros t [K _]. exact (Hu K).
Qed.
Print Assumptions C70_lossless_without_acronyms.

(** C70: every token is a non-empty text unless -t- occurs *)
Theorem C70_nonempty_without_euphonic_t :
  forall isspace isalnum isalpha isdigit isupper islower lower emoji split_hashtags s ts,
  char_classes isspace isalnum isalpha isdigit isupper ->
  ~ euphonic_t s ->
  raw_tokens isspace isalnum isalpha isdigit isupper islower lower emoji split_hashtags s = Ok ts ->
  Forall (fun t => snd t <> []) ts.
Proof.
  intros isspace isalnum isalpha isdigit isupper islower lower emoji sh s ts C Hu E.
  destruct (raw_tokens_ok isspace isalnum isalpha isdigit isupper islower lower emoji sh s C) as (ts' & E' & _ & G).
  assert (ts' = ts) by congruence. subst ts'. exact (G Hu).
Qed.
Print Assumptions C70_nonempty_without_euphonic_t.

Example C70_example : ~ upper_point t_isupper (codes "go to etc. now") /\
  t_raw (codes "go to etc. now") = Ok [(Word, codes "go"); (Word, codes "to"); (Word, codes "etc."); (Word, codes "now")].
Proof.
  split; [|vm_compute; reflexivity]. intros (a & u & b & E & U).
  assert (Hin : In u (codes "go to etc. now")) by (rewrite E; apply in_or_app; right; left; reflexivity).
  assert (K : forallb (fun c => negb (t_isupper c)) (codes "go to etc. now") = true) by (vm_compute; reflexivity).
  rewrite forallb_forall in K. specialize (K u Hin). rewrite U in K. discriminate.
Qed.

(** C49 *)
Theorem C49_split_hashtag_lossless :
  forall isdigit isupper islower s, 2 <= length s ->
  exists ts, split_hashtag isdigit isupper islower s = Ok ts /\
    concat (map snd ts) = skipn 1 s /\ Forall (fun t => snd t <> []) ts.
Proof. exact split_hashtag_ok. Qed.
Print Assumptions C49_split_hashtag_lossless.

Theorem C49_split_hashtag_short :
  forall isdigit isupper islower s, length s < 2 -> split_hashtag isdigit isupper islower s = Err IndexError.
Proof. exact split_hashtag_short. Qed.
Print Assumptions C49_split_hashtag_short.

Example C49_example : split_hashtag t_isdigit t_isupper t_islower (codes "#TheID2018x") =
  Ok [(Word, codes "The"); (Word, codes "ID"); (Number, codes "2018"); (Word, codes "x")].
Proof. vm_compute. reflexivity. Qed.

(** C50: the constructor accepts exactly the acceptable options, and raises a TypeError otherwise *)
Theorem C50_constructor :
  forall lower o,
  (acceptable o -> exists o', word_tokenizer lower o = Ok o') /\ (~ acceptable o -> word_tokenizer lower o = Err TypeError).
Proof.
  intros lower o. split.
  - intros H. exists (final_options lower o). apply word_tokenizer_accepts. exact H.
  - intros H. destruct (word_tokenizer_result lower o) as [E|E]; [exact E|]. exfalso. apply H. apply (word_tokenizer_accepts lower). exact E.
Qed.
Print Assumptions C50_constructor.

(** C50: the tokens yielded are the raw ones that satisfy the conditions, normalized, in the same order *)
Theorem C50_filters :
  forall isspace isalnum isalpha isdigit isupper islower letter lower unescape unidecode emoji o o' s,
  char_classes isspace isalnum isalpha isdigit isupper -> word_tokenizer lower o = Ok o' ->
  exists raw p,
    raw_tokens isspace isalnum isalpha isdigit isupper islower lower emoji (o_split_hashtags o) (prepared letter unescape unidecode o s) = Ok raw /\
    (forall tok, p tok = true <-> requested lower o tok (normalized lower unidecode o tok)) /\
    tokenize isspace isalnum isalpha isdigit isupper islower letter lower unescape unidecode emoji o' s =
      Ok (map (normalized lower unidecode o) (filter p raw)).
Proof.
  intros isspace isalnum isalpha isdigit isupper islower letter lower unescape unidecode emoji o o' s C Ho.
  destruct (raw_tokens_ok isspace isalnum isalpha isdigit isupper islower lower emoji (o_split_hashtags o) (prepared letter unescape unidecode o s) C) as (raw & E & _).
  destruct (tokenize_filters isspace isalnum isalpha isdigit isupper islower letter lower unescape unidecode emoji o o' s raw Ho E) as (p & H1 & H2).
  exists raw, p. auto.
Qed.
Print Assumptions C50_filters.

(** without normalization they are the raw tokens themselves *)
Theorem C50_plain_filters :
  forall isspace isalnum isalpha isdigit isupper islower letter lower unescape unidecode emoji o o' s,
  char_classes isspace isalnum isalpha isdigit isupper -> word_tokenizer lower o = Ok o' -> no_normalization o ->
  exists raw p,
    raw_tokens isspace isalnum isalpha isdigit isupper islower lower emoji (o_split_hashtags o) (prepared letter unescape unidecode o s) = Ok raw /\
    (forall tok, p tok = true <-> requested lower o tok tok) /\
    tokenize isspace isalnum isalpha isdigit isupper islower letter lower unescape unidecode emoji o' s = Ok (filter p raw).
Proof.
  intros isspace isalnum isalpha isdigit isupper islower letter lower unescape unidecode emoji o o' s C Ho Hn.
  destruct (C50_filters isspace isalnum isalpha isdigit isupper islower letter lower unescape unidecode emoji o o' s C Ho) as (raw & p & H1 & H2 & H3).
  exists raw, p. split; [exact H1|]. split.
  - intros tok. rewrite H2, normalized_id by exact Hn. tauto.
  - rewrite H3. f_equal. rewrite <- (map_id (filter p raw)) at 2. apply map_ext. intros tok. apply normalized_id. exact Hn.
Qed.
Print Assumptions C50_plain_filters.

Definition C50_options : options :=
  {| o_lower := true; o_unidecode := false; o_reduce_words := false; o_decode_html_entities := false;
     o_normalize_mentions := false; o_normalize_hashtags := false; o_mentions_as_words := true;
     o_hashtags_as_words := false; o_split_hashtags := false; o_min_word_length := Some 3; o_max_word_length := Some 6;
     o_stoplist := Some [codes "The"; codes "!"]; o_keep := Some ["word"; "mention"; "punct"]%string; o_drop := None |}.
Example C50_example : t_run C50_options (codes "The BIG elephant ate @Yomgui 3.14 #tags, ok!") =
  Ok [(Word, codes "big"); (Word, codes "ate"); (Word, codes "yomgui"); (Punct, codes ",")].
Proof. vm_compute. reflexivity. Qed.
Example C50_example_acceptable : acceptable C50_options.
Proof.
  split; [right; reflexivity|]. split.
  - intros a b E1 E2. injection E1 as <-. injection E2 as <-. lia.
  - intros l x [E|E] Hx; [|discriminate]. injection E as <-.
    destruct Hx as [<-|[<-|[<-|[]]]]; [exists Word | exists Mention | exists Punct]; reflexivity.
Qed.

(** C71: the runs of at least five equal letters are cut to three, nothing else changes *)
Theorem C71_reduce_lenghtening :
  forall letter s, exists runs, runs_ok runs /\ expand runs = s /\ reduce_lenghtening letter s = flat_map (shorten letter) runs.
Proof.
  intros letter s. destruct (runs_exist s) as [runs [Hok He]]. exists runs. split; [exact Hok|]. split; [exact He|].
  rewrite <- He. apply reduce_runs. exact Hok.
Qed.
Print Assumptions C71_reduce_lenghtening.

Theorem C71_reduce_idempotent :
  forall letter s, reduce_lenghtening letter (reduce_lenghtening letter s) = reduce_lenghtening letter s.
Proof. exact reduce_idempotent. Qed.
Print Assumptions C71_reduce_idempotent.

Example C71_example : reduce_lenghtening t_letter (codes "Loooool!!!!!!! coool 111111") = codes "Loool!!!!!!! coool 111111".
Proof. vm_compute. reflexivity. Qed.
