(** C39, C62: fingerprint tokenizers and keys *)
From Coq Require Import String Sorting.Sorted.
From Verif Require Import Base BaseFacts LevModel StringsModel FingerprintModel FingerprintSpec FingerprintProofs.
Open Scope nat_scope.
Open Scope list_scope.
Notation length := List.length.

Section Fingerprint.
Variable set_order : list str -> list str.
Variable is_space is_digit is_word : N -> bool.
Variable same_ci : N -> N -> bool.
Variable lower unidecode : str -> str.
Local Notation normalize := (normalize is_space is_digit is_word same_ci lower unidecode).
Local Notation tokenize := (tokenize set_order is_space is_digit is_word same_ci lower unidecode).
Local Notation key := (key set_order is_space is_digit is_word same_ci lower unidecode).
Local Notation ngrams_tokenize := (ngrams_tokenize set_order is_space is_digit is_word same_ci lower unidecode).

(** C39: strictly sorted, hence without repetition, for all options *)
Theorem C39_sorted o s : (forall l, Permutation (set_order l) l) -> StronglySorted lex_lt (tokenize o s).
Proof. exact (fun H => tokenize_strict set_order is_space is_digit is_word same_ci lower unidecode H o s). Qed.

(** C39: the tokens are those of the normalized string; a string without any gives one empty token *)
Theorem C39_tokens o s t : (forall l, Permutation (set_order l) l) ->
  In t (tokenize o s) <->
  (exists u, token_of is_space (normalize o s) u /\ t = if squeeze_tokens o then squeeze u false else u) \/
  t = [] /\ (forall u, ~ token_of is_space (normalize o s) u).
Proof. exact (fun H => tokenize_spec set_order is_space is_digit is_word same_ci lower unidecode H o s t). Qed.

(** C62: the n-grams variant *)
Theorem C62_ngrams o n s : (forall l, Permutation (set_order l) l) ->
  StronglySorted lex_lt (ngrams_tokenize o n s) /\
  forall g, In g (ngrams_tokenize o n s) <->
    In g (ngrams n (filter (fun c => negb (is_space c)) (trim is_space o (normalize o s)))).
Proof.
  exact (fun H => conj (ngrams_tokenize_strict set_order is_space is_digit is_word same_ci lower unidecode H o n s)
    (ngrams_tokenize_In set_order is_space is_digit is_word same_ci lower unidecode H o n s)).
Qed.

(** C62: replacing characters by case variants changes nothing, provided that the splitting characters do not
    tell the variants apart *)
Theorem C62_case (variant : N -> N -> Prop) o s s' :
  (forall a b, variant a b -> is_word a = is_word b) ->
  (forall a b, variant a b -> is_digit a = is_digit b) ->
  (forall a b c, variant a b -> same_ci c a = same_ci c b) ->
  (forall a b cs, variant a b -> split o = Some cs -> memb a cs = memb b cs) ->
  (forall a, variant a a) ->
  (forall a b, Forall2 variant a b -> lower a = lower b) ->
  Forall2 variant s s' -> tokenize o s = tokenize o s'.
Proof.
  exact (fun H1 H2 H3 H4 H5 H6 => tokenize_variant set_order is_space is_digit is_word same_ci lower unidecode
    variant o H1 H2 H3 H4 H5 H6 s s').
Qed.

(** C62: words separated by spaces can be reordered and repeated, provided that no stopword has a space *)
Theorem C62_order o ws ws' : (forall l, Permutation (set_order l) l) ->
  is_space 32%N = true -> is_word 32%N = false -> is_digit 32%N = false -> local lower -> local unidecode ->
  (forall sw w c, stopwords o = Some sw -> In w sw -> In c w -> same_ci c 32%N = false) ->
  (forall w, In w ws <-> In w ws') ->
  tokenize o (spaced ws) = tokenize o (spaced ws').
Proof.
  exact (fun H1 H2 H3 H4 H5 H6 => tokenize_spaced set_order is_space is_digit is_word same_ci lower unidecode
    H1 H2 H3 H4 H5 H6 o ws ws').
Qed.

(** C62: idempotent without stopwords nor minimum size, when letters and digits do not split, and when the
    transliteration did not bring dropped digits *)
Theorem C62_idempotent o s : (forall l, Permutation (set_order l) l) ->
  is_space 32%N = true -> (forall c, alnum c -> is_space c = false) ->
  (forall s, Forall (fun c => alnum c \/ c = 32%N) s -> lower s = s) ->
  (forall s, Forall (fun c => alnum c \/ c = 32%N) s -> unidecode s = s) ->
  stopwords o = None -> min_token_size o <= 1 -> (forall cs c, split o = Some cs -> In c cs -> ~ alnum c) ->
  keep_digits o = true \/ Forall (fun c => is_digit c = false) (key o s) ->
  key o (key o s) = key o s.
Proof.
  exact (fun H1 H2 H3 H4 H5 H6 H7 H8 H9 => key_idem set_order is_space is_digit is_word same_ci lower unidecode
    H1 H2 H3 H4 H5 o s (conj H6 (conj H7 H8)) H9).
Qed.
End Fingerprint.

(** the oracles on ASCII strings *)
Definition ascii_space (c : N) : bool := N.eqb c 32 || (9 <=? c)%N && (c <=? 13)%N || (28 <=? c)%N && (c <=? 31)%N.
Definition ascii_digit (c : N) : bool := (48 <=? c)%N && (c <=? 57)%N.
Definition ascii_lowered (c : N) : N := if (65 <=? c)%N && (c <=? 90)%N then (c + 32)%N else c.
Definition ascii_lower : str -> str := map ascii_lowered.
Definition ascii_word (c : N) : bool :=
  ascii_digit c || N.eqb c 95 || (97 <=? ascii_lowered c)%N && (ascii_lowered c <=? 122)%N.
Definition ascii_ci (a b : N) : bool := N.eqb (ascii_lowered a) (ascii_lowered b).
Definition ascii_tokenize := tokenize id ascii_space ascii_digit ascii_word ascii_ci ascii_lower id.
Definition ascii_key := key id ascii_space ascii_digit ascii_word ascii_ci ascii_lower id.

(** C39: with splitting letters the case matters *)
Theorem C39_case_refuted : exists o s s', ascii_lower s = ascii_lower s' /\ ascii_tokenize o s <> ascii_tokenize o s'.
Proof.
  exists {| keep_digits := true; min_token_size := 1; split := Some (codes "x"); stopwords := None; squeeze_tokens := false |},
    (codes "axb"), (codes "aXb"). split; vm_compute; [reflexivity|discriminate].
Qed.

(** C39: a stopword made of two words depends on the order *)
Theorem C39_order_refuted : exists o ws ws', Permutation ws ws' /\
  ascii_tokenize o (spaced ws) <> ascii_tokenize o (spaced ws').
Proof.
  exists {| keep_digits := true; min_token_size := 1; split := None; stopwords := Some [codes "of the"]; squeeze_tokens := false |},
    [codes "of"; codes "the"], [codes "the"; codes "of"]. split; [apply perm_swap|vm_compute; discriminate].
Qed.

(** C39: the minimum size is checked before the punctuation is dropped *)
Theorem C39_idempotent_refuted : exists o s, ascii_key o (ascii_key o s) <> ascii_key o s.
Proof.
  exists {| keep_digits := true; min_token_size := 2; split := None; stopwords := None; squeeze_tokens := false |},
    (codes "a_b"). vm_compute. discriminate.
Qed.

Example C39_ex :
  ascii_key default_options (codes " University of  of NORTH Carolina,") = codes "carolina north of university" /\
  ascii_tokenize default_options [] = [[]] /\
  ascii_key {| keep_digits := false; min_token_size := 2; split := Some (codes "-'"); stopwords := Some [codes "the"];
               squeeze_tokens := true |} (codes "The 1st L'oo-letter ABCC") = codes "abc leter".
Proof. repeat split; vm_compute; reflexivity. Qed.

(** the hypotheses hold for ASCII strings *)
Lemma ascii_lower_id s : Forall (fun c => alnum c \/ c = 32%N) s -> ascii_lower s = s.
Proof.
  induction 1 as [|c s Hc Hs IH]; auto. change (ascii_lower (c :: s)) with (ascii_lowered c :: ascii_lower s). rewrite IH.
  f_equal. unfold ascii_lowered, alnum in *. destruct (_ && _) eqn:E; lia.
Qed.

Example C62_ex_idempotent s : ascii_key default_options (ascii_key default_options s) = ascii_key default_options s.
Proof.
  apply C62_idempotent; auto; try discriminate.
  - intros c Hc. unfold ascii_space, alnum in *. lia.
  - apply ascii_lower_id.
Qed.

Example C62_ex_order o ws ws' : stopwords o = Some [codes "the"; codes "an"] -> (forall w, In w ws <-> In w ws') ->
  ascii_tokenize o (spaced ws) = ascii_tokenize o (spaced ws').
Proof.
  intros Ho. apply C62_order; auto; try reflexivity.
  - intros a b. unfold ascii_lower. rewrite map_app. reflexivity.
  - intros a b. reflexivity.
  - intros sw w c E Hw Hc. rewrite Ho in E. injection E as <-.
    destruct Hw as [<-|[<-|[]]]; cbn in Hc; repeat destruct Hc as [<-|Hc]; try reflexivity; destruct Hc.
Qed.

Example C62_ex_case s s' : Forall2 (fun a b => ascii_lowered a = ascii_lowered b) s s' ->
  ascii_tokenize default_options s = ascii_tokenize default_options s'.
Proof.
  assert (D : forall a b, ascii_lowered a = ascii_lowered b -> ascii_digit a = ascii_digit b).
  { intros a b. unfold ascii_lowered, ascii_digit. destruct ((65 <=? a)%N && _) eqn:E1, ((65 <=? b)%N && _) eqn:E2; lia. }
  assert (U : forall a b, ascii_lowered a = ascii_lowered b -> N.eqb a 95 = N.eqb b 95).
  { intros a b. unfold ascii_lowered. destruct ((65 <=? a)%N && _) eqn:E1, ((65 <=? b)%N && _) eqn:E2; lia. }
  apply C62_case; auto; try discriminate.
  - intros a b H. unfold ascii_word. rewrite (D a b), (U a b), H; auto.
  - intros a b c H. unfold ascii_ci. rewrite H. reflexivity.
  - intros a b H. unfold ascii_lower. induction H; cbn; f_equal; auto.
Qed.

Print Assumptions C39_sorted.
Print Assumptions C39_tokens.
Print Assumptions C39_case_refuted.
Print Assumptions C39_order_refuted.
Print Assumptions C39_idempotent_refuted.
Print Assumptions C62_ngrams.
Print Assumptions C62_case.
Print Assumptions C62_order.
Print Assumptions C62_idempotent.
