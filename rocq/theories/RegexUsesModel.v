(** The functions of fog that use regular expressions, with the patterns of the source: [None] if python refused one of them.  [is_space],
    [is_digit] and [is_word] are \s, \d and \w; [same_ci] is the equality of characters under re.I. *)
From Coq Require Import String Ascii DecimalString.
From Verif Require Import Base LevModel SortModel PassJoinModel StringsModel PhoneticsModel FingerprintModel WordsModel RegexModel.
Open Scope nat_scope.
Open Scope string_scope.
Open Scope list_scope.
Notation length := List.length.
Notation concat := List.concat.

Definition then_ {A B} (x : option A) (f : A -> option B) : option B := match x with Some a => f a | None => None end.

Section Uses.
Variables is_digit is_space is_word : N -> bool.
Variable same_ci : N -> N -> bool.
Notation sub := (sub_pattern is_digit is_space is_word N.eqb).
Notation sub_ci := (sub_pattern is_digit is_space is_word same_ci).
Notation split_ := (split_pattern is_digit is_space is_word N.eqb).
Notation match_ := (match_pattern is_digit is_space is_word N.eqb).

(** utils.py:10-27 squeeze *)
Definition SQUEEZE_RE : str := codes "(.)\1+".
Definition SQUEEZE_ROMAN_RE : str := codes "([^IXCMixcm])\1+".
Definition squeeze_re (s : str) (keep_roman_numerals : bool) : option str :=
  sub (if keep_roman_numerals then SQUEEZE_ROMAN_RE else SQUEEZE_RE) (codes "\1") s.

(** omission.py:18, 50; skeleton.py:18, 48; cologne.py:19, 88 *)
Definition UNDESIRABLES_RE : str := codes "[^A-Z]".
Definition upper_letters_re (s : str) : option str := sub UNDESIRABLES_RE [] s.

(** rusalka.py:55-76 *)
Definition FILTER : str := codes "[^a-z]".
Definition DUPLICATED : str := codes "(.)\1+".
Definition VOWELS : str := codes "[aeiouy]".
Definition PHONETIC_NOTATION_RULES : list (str * str) :=
  [(codes "[" ++ [269; 353; 349]%N ++ codes "]", codes "ch"); ([251%N], codes "iou"); ([382%N], codes "zh")].
Definition RULES_re : list (str * str) :=
  [(codes "cz", codes "ts"); (codes "i[jy]$", []); (codes "[fvw]|ph", codes "f"); (codes "^[jy]?e", codes "J"); (codes "[dt]?[cs]h|tz", [643%N]);
   (codes "[dt]?(?:zh|j)", [658%N]); (codes "ks", codes "x"); (codes "^y(?=[aeiou])|iou", codes "j"); (codes "[cg]", codes "k"); (codes "h", [])].
(** rusalka.py:87-88, 100-101 *)
Definition subs (rules : list (str * str)) (s : str) : option str := fold_left (fun s pr => then_ s (sub (fst pr) (snd pr))) rules (Some s).
(** rusalka.py:81-117 rusalka *)
Definition rusalka_re (lower unidecode : str -> str) (name : str) : option (res str) :=
  then_ (subs PHONETIC_NOTATION_RULES (lower name)) (fun name =>
  then_ (sub FILTER [] (unidecode name)) (fun name =>
  if Nat.ltb (length name) 2 then Some (Ok (lower name))
  else
    then_ (subs RULES_re name) (fun name =>
    then_ (sub DUPLICATED (codes "\1") name) (fun name =>
    match lower name with
    | [] => Some (Err IndexError)
    | first_letter :: rest =>
      then_ (sub VOWELS [] rest) (fun rest =>
      then_ (match_ VOWELS [first_letter]) (fun m =>
      Some (Ok ((match m with Some _ => chr "a" | None => first_letter end) :: rest))))
    end)))).

(** words.py:38, 116-117 *)
Definition CONSONANTS_RE : str := codes "^[^" ++ VOWELS_PATTERN ++ codes "]$".
Definition is_consonant_re (c : N) : option bool := option_map (fun m => match m with Some _ => true | None => false end) (match_ CONSONANTS_RE [c]).
(** words.py:39, 124-125 *)
Definition EMAIL_LOOKAHEAD_RE : str := codes "^[A-Za-z0-9!#$%&*+\-/=?^_`{|}~]{1,64}@".
Definition email_lookahead_re (s : str) : option bool := option_map (fun m => match m with Some _ => true | None => false end) (match_ EMAIL_LOOKAHEAD_RE s).
(** words.py:40, 327-330: m.end() *)
Definition SMILEY_RE : str := codes "^(?:[\-]+>|<[\-]+|[<>]?[:;=8][\-o\*\']?[\)\]\(\[dDpP/\:\}\{@\|\\]|[\)\]\(\[dDpP/\:\}\{@\|\\][\-o\*\']?[:;=8]|[<:]3|\^\^)".
Definition smiley_re (s : str) : option (option nat) := match_ SMILEY_RE s.
(** words.py:42, 505 *)
Definition POINT_SPLITTER_RE : str := codes "(\.)".
Definition point_split_re (s : str) : option (list (option str)) := split_ POINT_SPLITTER_RE 1 s.
(** words.py:43, 166-167 *)
Definition LENGTHENING_RE : str := codes "([^\W\d])\1{4,}".
Definition reduce_lenghtening_re (s : str) : option str := sub LENGTHENING_RE (codes "\1\1\1") s.

(** fingerprint.py:45-47 *)
Definition WHITESPACE_RE : str := codes "\s+".
Definition DIGITS_RE : str := codes "\d+".
Definition BLACKLIST_RE : str := codes "[^a-z0-9\s]".
(** fingerprint.py:73-83; a number is written in decimal *)
Definition stopwords_re (stopwords : list str) : str :=
  codes "(?:" ++ FingerprintModel.join (codes "|") (map (fun s => codes "\b" ++ escape s ++ codes "\b") stopwords) ++ codes ")".
Definition split_re (split : list str) : str := codes "[" ++ escape (concat split) ++ codes "]".
Definition min_token_size_re (n : nat) : str := codes "\b\S{1," ++ codes (NilEmpty.string_of_uint (Nat.to_uint n)) ++ codes "}\b".

Record re_options := {
  re_keep_digits : bool;
  re_min_token_size : option nat;
  re_split_chars : option (list str);
  re_stopwords : option (list str);
  re_squeeze : bool
}.
(** fingerprint.py:88-110 (and 140-163) *)
Definition normalize_re (lower unidecode : str -> str) (o : re_options) (string : str) : option str :=
  then_ (match re_split_chars o with Some cs => sub (split_re cs) (codes " ") string | None => Some string end) (fun string =>
  then_ (match re_stopwords o with Some ws => sub_ci (stopwords_re ws) [] string | None => Some string end) (fun string =>
  then_ (if re_keep_digits o then Some string else sub DIGITS_RE [] string) (fun string =>
  let string := lower string in
  then_ (match re_min_token_size o with Some n => if Nat.ltb 1 n then sub (min_token_size_re n) [] string else Some string | None => Some string end) (fun string =>
  sub BLACKLIST_RE [] (unidecode string))))).
(** fingerprint.py:112-117 (and 165-170); str.strip *)
Definition trim_re (o : re_options) (string : str) : option str :=
  let string := strip is_space string in
  if re_squeeze o then squeeze_re string false else Some string.
(** fingerprint.py:85-128 *)
Definition tokenize_re (set_order : list str -> list str) (lower unidecode : str -> str) (o : re_options) (string : str) : option (list str) :=
  then_ (normalize_re lower unidecode o string) (fun string =>
  then_ (trim_re o string) (fun string =>
  then_ (split_ WHITESPACE_RE 0 string) (fun tokens =>
  Some (sort_by str_le (set_order (set_of (flat_map (fun t => match t with Some t => [t] | None => [] end) tokens))))))).
(** fingerprint.py:138-182 *)
Definition ngrams_tokenize_re (set_order : list str -> list str) (lower unidecode : str -> str) (o : re_options) (n : nat) (string : str) : option (list str) :=
  then_ (normalize_re lower unidecode o string) (fun string =>
  then_ (trim_re o string) (fun string =>
  then_ (sub WHITESPACE_RE [] string) (fun string =>
  Some (sort_by str_le (set_order (set_of (ngrams n string))))))).
End Uses.
