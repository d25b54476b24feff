(** Model of fog/tokenizers/fingerprint.py.  The character classes of the regular expressions, the
    transliteration and the change of case are oracles; the scans of re.sub and re.split are explicit. *)
From Verif Require Import Base LevModel SortModel PassJoinModel StringsModel.
Open Scope nat_scope.

(** fingerprint.py:63-83: options of the tokenizer.  [split]: the joined splitting characters (python refuses
    an empty list); [min_token_size]: None and numbers below 2 build no expression. *)
Record options := {
  keep_digits : bool;
  min_token_size : nat;
  split : option str;
  stopwords : option (list str);
  squeeze_tokens : bool
}.

Definition default_options : options :=
  {| keep_digits := true; min_token_size := 1; split := None; stopwords := None; squeeze_tokens := false |}.

Section Fingerprint.
(** iteration order of a set *)
Variable set_order : list str -> list str.
(** [\s], [\d] and [\w] *)
Variable is_space is_digit is_word : N -> bool.
(** equality of characters under re.I *)
Variable same_ci : N -> N -> bool.
(** str.lower and unidecode *)
Variable lower unidecode : str -> str.

(** re.sub(matcher, '', s): scan from the left; [prev] is the previous character of the string, [skip] the number
    of characters of the current match still to be dropped.  [matcher prev rest] gives the length of the match
    starting here; removing an empty match does nothing, so only non-empty ones are considered. *)
Fixpoint re_remove (matcher : option N -> str -> option nat) (prev : option N) (skip : nat) (s : str) : str :=
  match s with
  | [] => []
  | c :: rest =>
    match skip with
    | S k => re_remove matcher (Some c) k rest
    | O =>
      match matcher prev s with
      | Some (S k) => re_remove matcher (Some c) k rest
      | _ => c :: re_remove matcher (Some c) 0 rest
      end
    end
  end.

(** [\b] between two positions *)
Definition wordat (c : option N) : bool := match c with Some c => is_word c | None => false end.
Definition boundary (before after : option N) : bool := xorb (wordat before) (wordat after).

(** the first [n] > 0 characters of the rest form a match between word boundaries *)
Definition bounded (prev : option N) (s : str) (n : nat) : bool :=
  boundary prev (hd_error s) && boundary (nth_error s (n - 1)) (nth_error s n).

Fixpoint prefix_ci (w s : str) : bool :=
  match w, s with
  | [], _ => true
  | _, [] => false
  | a :: w', b :: s' => same_ci a b && prefix_ci w' s'
  end.

(** fingerprint.py:73-77: the first alternative that matches *)
Definition stopword_match (ws : list str) (prev : option N) (s : str) : option nat :=
  match find (fun w => Nat.ltb 0 (length w) && prefix_ci w s && bounded prev s (length w)) ws with
  | Some w => Some (length w)
  | None => None
  end.

(** fingerprint.py:82-83: [\b\S{1,n}\b], the longest first *)
Definition small_token_match (n : nat) (prev : option N) (s : str) : option nat :=
  find (fun m => Nat.leb m (length s) && forallb (fun c => negb (is_space c)) (firstn m s) && bounded prev s m)
    (rev (seq 1 n)).

(** str.strip *)
Fixpoint lstrip (s : str) : str :=
  match s with
  | [] => []
  | c :: s' => if is_space c then lstrip s' else s
  end.
Definition strip (s : str) : str := rev (lstrip (rev (lstrip s))).

(** re.split of whitespace: [cur] is the current piece, [in_ws] tells if a separator is being consumed *)
Fixpoint re_split (in_ws : bool) (cur s : str) : list str :=
  match s with
  | [] => [cur]
  | c :: s' =>
    if is_space c then if in_ws then re_split true [] s' else cur :: re_split true [] s'
    else re_split false (cur ++ [c]) s'
  end.

(** fingerprint.py:47: what [[^a-z0-9\s]] does not match *)
Definition allowed (c : N) : bool :=
  (97 <=? c)%N && (c <=? 122)%N || (48 <=? c)%N && (c <=? 57)%N || is_space c.

(** fingerprint.py:88-110 (and 140-163) *)
Definition normalize (o : options) (string : str) : str :=
  let string := match split o with
                | Some cs => map (fun c => if memb c cs then 32%N else c) string
                | None => string
                end in
  let string := match stopwords o with
                | Some ws => re_remove (stopword_match ws) None 0 string
                | None => string
                end in
  let string := if keep_digits o then string else filter (fun c => negb (is_digit c)) string in
  let string := lower string in
  let string := if Nat.ltb 1 (min_token_size o) then re_remove (small_token_match (min_token_size o)) None 0 string
                else string in
  let string := unidecode string in
  filter allowed string.

(** fingerprint.py:112-117 (and 165-170) *)
Definition trim (o : options) (string : str) : str :=
  let string := strip string in
  if squeeze_tokens o then squeeze string false else string.

(** fingerprint.py:85-128 FingerprintTokenizer.tokenize *)
Definition tokenize (o : options) (string : str) : list str :=
  sort_by str_le (set_order (set_of (re_split false [] (trim o (normalize o string))))).

(** fingerprint.py:133-134 *)
Fixpoint join (sep : str) (l : list str) : str :=
  match l with
  | [] => []
  | [x] => x
  | x :: l' => x ++ sep ++ join sep l'
  end.
Definition key (o : options) (string : str) : str := join [32%N] (tokenize o string).

(** fingerprint.py:138-182 NgramsFingerprintTokenizer.tokenize *)
Definition ngrams_tokenize (o : options) (n : nat) (string : str) : list str :=
  let string := filter (fun c => negb (is_space c)) (trim o (normalize o string)) in
  sort_by str_le (set_order (set_of (ngrams n string))).

(** fingerprint.py:187-188 *)
Definition ngrams_key (o : options) (n : nat) (string : str) : str := concat (ngrams_tokenize o n string).
End Fingerprint.
