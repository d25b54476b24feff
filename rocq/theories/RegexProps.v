(** C155 and C156: the regular expressions of the source. *)
From Coq Require Import String Ascii Lia.
From Verif Require Import Base BaseFacts LevModel SortModel PassJoinModel StringsModel PhoneticsModel FingerprintModel WordsModel
  RegexModel RegexSpec RegexUsesModel RegexUsesSpec RegexProofs RegexUsesProofs RegexFingerprintProofs RegexEngineProofs RegexParseProofs RegexLoopProofs.
Open Scope nat_scope.
Open Scope string_scope.
Open Scope list_scope.
Notation length := List.length.
Notation concat := List.concat.

(** ** C155: the patterns of the source do what the models say *)
(** utils.py *)
Theorem C155_squeeze : forall is_digit is_space is_word s keep, squeeze_re is_digit is_space is_word s keep = Some (squeeze s keep).
Proof. exact squeeze_with. Qed.
(** omission.py, skeleton.py and cologne.py *)
Theorem C155_upper_letters : forall is_digit is_space is_word s, upper_letters_re is_digit is_space is_word s = Some (filter is_upper_letter s).
Proof. exact upper_letters. Qed.
(** rusalka.py; [lower] puts the J of the rules in lower case and leaves the other signs as they are *)
Theorem C155_rusalka : forall is_digit is_space is_word lower unidecode name, (forall s, Forall sign s -> lower s = map lower_J s) ->
  rusalka_re is_digit is_space is_word lower unidecode name = Some (rusalka lower unidecode name).
Proof. exact rusalka_with. Qed.
Theorem C155_rusalka_rules : forall is_digit is_space is_word name, no_newline name -> subs is_digit is_space is_word RULES_re name = Some (apply_rules RULES name).
Proof. exact apply_rules_re. Qed.
Theorem C155_rusalka_notation : forall is_digit is_space is_word name, subs is_digit is_space is_word PHONETIC_NOTATION_RULES name = Some (flat_map notation name).
Proof. exact notation_re. Qed.
(** words.py *)
Theorem C155_consonant : forall is_digit is_space is_word c, is_consonant_re is_digit is_space is_word c = Some (is_consonant c).
Proof. exact consonant_with. Qed.
Theorem C155_email : forall is_digit is_space is_word s, email_lookahead_re is_digit is_space is_word s = Some (email_lookahead s).
Proof. exact email_with. Qed.
Theorem C155_smiley : forall is_digit is_space is_word s, smiley_re is_digit is_space is_word s = Some (smiley_end s).
Proof. exact smiley_with. Qed.
Theorem C155_point_split : forall is_digit is_space is_word s, point_split_re is_digit is_space is_word s = Some (map Some (point_split s)).
Proof. exact point_with. Qed.
Theorem C155_lengthening : forall is_digit is_space is_word s,
  reduce_lenghtening_re is_digit is_space is_word s = Some (reduce_lenghtening (fun c => is_word c && negb (is_digit c)) s).
Proof. exact lengthening_re. Qed.
(** fingerprint.py *)
Theorem C155_fingerprint : forall is_digit is_space is_word same_ci set_order lower unidecode o s, accepted o ->
  tokenize_re is_digit is_space is_word same_ci set_order lower unidecode o s = Some (FingerprintModel.tokenize set_order is_space is_digit is_word same_ci lower unidecode (options_of o) s).
Proof. exact tokenize_with. Qed.
Theorem C155_ngrams_fingerprint : forall is_digit is_space is_word same_ci set_order lower unidecode o n s, accepted o ->
  ngrams_tokenize_re is_digit is_space is_word same_ci set_order lower unidecode o n s = Some (ngrams_tokenize set_order is_space is_digit is_word same_ci lower unidecode (options_of o) n s).
Proof. exact ngrams_with. Qed.
(** the stop words, for all lists of words, even if they have characters with a meaning in patterns *)
Theorem C155_stopwords : forall is_digit is_space is_word same ws s,
  sub_pattern is_digit is_space is_word same (stopwords_re ws) [] s = Some (re_remove (stopword_match is_word same ws) None 0 s).
Proof. exact stopwords_with. Qed.
(** python refuses an empty list of separators, and sizes of 2^32 - 1 and more *)
Theorem C155_refused : (forall is_digit is_space is_word same_ci lower unidecode o cs s, re_split_chars o = Some cs -> concat cs = [] ->
    normalize_re is_digit is_space is_word same_ci lower unidecode o s = None) /\
  (forall n, parse (min_token_size_re n) = None <-> n = 0 \/ (MAXREPEAT <= N.of_nat n)%N).
Proof.
  split; [exact normalize_refused|]. intros n. rewrite parse_min. destruct (N.leb_spec MAXREPEAT (N.of_nat n)) as [L|L]; cbn [orb].
  - split; auto.
  - destruct (N.ltb_spec (N.of_nat n) 1) as [K|K].
    + split; [left; lia|reflexivity].
    + split; [discriminate|]. intros [H|H]; lia.
Qed.

(** ** C156: the engine *)
(** where an expression without references to groups can lead *)
Theorem C156_meaning : forall is_digit is_space is_word same p r, parse p = Some r -> plain r = true -> forall st q,
  (exists st', In st' (ways is_digit is_space is_word same r st) /\ (before st', after st') = q) <-> goes is_digit is_space is_word same r (before st, after st) q.
Proof. intros is_digit is_space is_word same p r P PL. exact (ways_goes is_digit is_space is_word same r PL (parse_ordered _ _ P)). Qed.
(** a match is found if and only if there is one *)
Theorem C156_match : forall is_digit is_space is_word same p r b a adv, parse p = Some r -> plain r = true ->
  match match_at is_digit is_space is_word same r adv b a with
  | Some st => goes is_digit is_space is_word same r (b, a) (before st, after st) /\ (adv = true -> length (after st) < length a)
  | None => forall q, goes is_digit is_space is_word same r (b, a) q -> adv = true /\ snd q = a
  end.
Proof. intros is_digit is_space is_word same p r b a adv P PL. exact (match_goes is_digit is_space is_word same r adv b a PL (parse_ordered _ _ P)). Qed.
(** a match, of any expression, goes on in the text *)
Theorem C156_onward : forall is_digit is_space is_word same r adv b a st, match_at is_digit is_space is_word same r adv b a = Some st ->
  exists x : str, before st = rev x ++ b /\ a = x ++ after st /\ (adv = true -> x <> []).
Proof. exact match_moves. Qed.
(** an escaped text matches itself and nothing else *)
Theorem C156_escape : forall is_digit is_space is_word same s, (forall c d, same c d = true <-> c = d) -> exists r, parse (escape s) = Some r /\
  forall p q, goes is_digit is_space is_word same r p q <-> fst q = rev s ++ fst p /\ snd p = s ++ snd q.
Proof. intros is_digit is_space is_word same s H. eexists. split; [apply parse_escape|]. apply goes_lits. exact H. Qed.
Theorem C156_escape_match : forall is_digit is_space is_word s t,
  match_pattern is_digit is_space is_word N.eqb (escape s) t = Some (if eqb (firstn (length s) t) s then Some (length s) else None).
Proof.
  intros is_digit is_space is_word s t. unfold match_pattern. rewrite parse_escape. cbn [option_map]. f_equal. unfold re_match.
  pose proof (match_goes is_digit is_space is_word N.eqb _ false [] t (proj1 (lits_plain s)) (proj2 (lits_plain s))) as M. pose proof (goes_lits is_digit is_space is_word N.eqb s N.eqb_eq ([], t)) as G.
  destruct (match_at is_digit is_space is_word N.eqb _ false [] t) as [st|]; cbn [option_map].
  - destruct M as [M _]. apply G in M. unfold where_ in M. cbn [fst snd] in M. destruct M as [M1 M2]. rewrite M1, app_nil_r, rev_length. rewrite M2, firstn_app, Nat.sub_diag, firstn_all, app_nil_r, eqb_refl. reflexivity.
  - destruct (eqb (firstn (length s) t) s) eqn:E; [|reflexivity]. apply (proj1 (eqb_true _ _)) in E. destruct (M (rev s, skipn (length s) t)) as [X _]; [|discriminate]. apply G. cbn [fst snd]. rewrite app_nil_r. split; [reflexivity|]. rewrite <- E at 1. symmetry. apply firstn_skipn.
Qed.
(** replacing all that is matched by itself changes nothing, and the pieces of a text make it up *)
Theorem C156_nothing_lost : forall is_digit is_space is_word same r s,
  re_sub is_digit is_space is_word same (Group 1 r) (expand [inr 1]) s = s /\ flat_map said (re_split is_digit is_space is_word same (Group 1 r) 1 s) = s.
Proof.
  intros is_digit is_space is_word same r s. split.
  - apply sub_same. unfold room. lia.
  - unfold re_split. rewrite split_all by (unfold room; lia). reflexivity.
Qed.
(** more fuel changes nothing *)
Theorem C156_fuel : forall is_digit is_space is_word same,
  (forall ts fuel, 2 * length ts + 2 <= fuel -> parse_alt fuel 1 [] ts = parse_alt (2 * length ts + 2) 1 [] ts) /\
  (forall r lazy lo hi st fuel, lo + length (after st) + 2 <= fuel -> repeats (ways is_digit is_space is_word same r) lazy fuel None lo hi st = ways is_digit is_space is_word same (Rep lazy lo hi r) st) /\
  (forall r repl s fuel, 2 * length s + 2 <= fuel -> sub_loop is_digit is_space is_word same r repl fuel false [] s = re_sub is_digit is_space is_word same r repl s) /\
  (forall r n s fuel, 2 * length s + 2 <= fuel -> split_loop is_digit is_space is_word same r n fuel false [] [] s = re_split is_digit is_space is_word same r n s).
Proof.
  intros is_digit is_space is_word same. split; [exact parse_enough|]. split; [intros; apply rep_enough; assumption|]. split; [exact (sub_enough is_digit is_space is_word same)|exact (split_enough is_digit is_space is_word same)].
Qed.

(** ** examples, given by python 3.11 too *)
Definition digit (c : N) : bool := ((48 <=? c) && (c <=? 57))%N.
Definition space (c : N) : bool := memb c [32; 9; 10; 13; 11; 12]%N.
Definition word (c : N) : bool := is_lower_letter c || is_upper_letter c || digit c || (c =? 95)%N.
Definition small (c : N) : N := if is_upper_letter c then (c + 32)%N else c.
Notation sub := (sub_pattern digit space word N.eqb).
Notation split_by := (split_pattern digit space word N.eqb).
Example re_squeeze_some : squeeze_re digit space word (codes "aabbXXc") false = Some (codes "abXc") /\ squeeze_re digit space word (codes "aabbXXc") true = Some (codes "abXXc").
Proof. vm_compute. auto. Qed.
Example re_split_some : split_by (codes "(,)|;") 1 (codes "a,b;c") = Some [Some (codes "a"); Some (codes ","); Some (codes "b"); None; Some (codes "c")].
Proof. vm_compute. reflexivity. Qed.
Example re_empty_matches : sub (codes "x*") (codes "-") (codes "abxd") = Some (codes "-a-b--d-") /\ split_by (codes "x*") 0 (codes "axbc") = Some (map Some [codes ""; codes "a"; codes ""; codes "b"; codes "c"; codes ""]).
Proof. vm_compute. auto. Qed.
Example re_lazy : match_pattern digit space word N.eqb (codes "a+?b*") (codes "aabb") = Some (Some 1) /\ match_pattern digit space word N.eqb (codes "(?!ab)a") (codes "ab") = Some None.
Proof. vm_compute. auto. Qed.
Example re_refused : parse (codes "[]") = None /\ parse (codes "a{2,1}") = None /\ parse (codes "(a") = None /\ parse (codes "a**") = None /\ parse (codes "\1(a)") = None.
Proof. vm_compute. repeat split. Qed.
Example re_plain : exists r, parse EMAIL_LOOKAHEAD_RE = Some r /\ plain r = true.
Proof. eexists. split; [vm_compute; reflexivity|reflexivity]. Qed.
Example re_escaped : escape (codes "a.b*") = codes "a\.b\*" /\ match_pattern digit space word N.eqb (codes "a\.b\*") (codes "a.b*c") = Some (Some 4) /\ match_pattern digit space word N.eqb (codes "a\.b\*") (codes "axb*c") = Some None.
Proof. vm_compute. auto. Qed.
Definition no_options := {| re_keep_digits := true; re_min_token_size := None; re_split_chars := None; re_stopwords := None; re_squeeze := false |}.
Definition all_options := {| re_keep_digits := false; re_min_token_size := Some 2; re_split_chars := Some [codes "-"; codes "_"]; re_stopwords := Some [codes "the"; codes "c++"]; re_squeeze := true |}.
Definition fingerprint_of (o : re_options) (s : str) := tokenize_re digit space word (fun a b => N.eqb (small a) (small b)) (fun l => l) (map small) (fun s => s) o s.
Example re_fingerprint : fingerprint_of no_options (codes "University of North Carolina") = Some (map codes ["carolina"; "north"; "of"; "university"]).
Proof. vm_compute. reflexivity. Qed.
Example re_fingerprint_options : accepted all_options /\ fingerprint_of all_options (codes "The hello-world 22 of Bobby_Lee") = Some (map codes ["boby"; "helo"; "le"; "world"]).
Proof. split; [split; cbn; [discriminate|reflexivity]|]. vm_compute. reflexivity. Qed.
Example re_no_separators : fingerprint_of {| re_keep_digits := true; re_min_token_size := None; re_split_chars := Some []; re_stopwords := None; re_squeeze := false |} (codes "a") = None.
Proof. vm_compute. reflexivity. Qed.
Example re_rusalka : rusalka_re digit space word (map small) (fun s => s) (codes "Chtchapov") = Some (rusalka (map small) (fun s => s) (codes "Chtchapov")).
Proof. vm_compute. reflexivity. Qed.
Example sign_small : forall s, Forall sign s -> map small s = map lower_J s.
Proof. reflexivity. Qed.
Example re_words : smiley_re digit space word (codes ":-) ok") = Some (Some 3) /\ email_lookahead_re digit space word (codes "john@x.com") = Some true /\
  point_split_re digit space word (codes "U.S.") = Some (map Some [codes "U"; codes "."; codes "S"; codes "."; codes ""]) /\ reduce_lenghtening_re digit space word (codes "coooooool") = Some (codes "coool").
Proof. vm_compute. repeat split. Qed.

Print Assumptions C155_squeeze.
Print Assumptions C155_upper_letters.
Print Assumptions C155_rusalka.
Print Assumptions C155_rusalka_rules.
Print Assumptions C155_rusalka_notation.
Print Assumptions C155_consonant.
Print Assumptions C155_email.
Print Assumptions C155_smiley.
Print Assumptions C155_point_split.
Print Assumptions C155_lengthening.
Print Assumptions C155_fingerprint.
Print Assumptions C155_ngrams_fingerprint.
Print Assumptions C155_stopwords.
Print Assumptions C155_refused.
Print Assumptions C156_meaning.
Print Assumptions C156_match.
Print Assumptions C156_onward.
Print Assumptions C156_escape.
Print Assumptions C156_escape_match.
Print Assumptions C156_nothing_lost.
Print Assumptions C156_fuel.
