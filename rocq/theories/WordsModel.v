(** Model of fog/tokenizers/words.py.  A string is a list of code points.  The character classes of python, str.lower,
    html.unescape, unidecode and the emoji regular expression are parameters; the other regular expressions are explicit
    matchers.  Generators are the lists of what they yield. *)
From Coq Require Import String Ascii.
From Verif Require Import Base LevModel StringsModel PhoneticsModel.
Open Scope nat_scope.
Open Scope list_scope.
Notation length := List.length.
Notation concat := List.concat.

Inductive token_type := Word | Number | Punct | Emoji | Smiley | Url | Email | Hashtag | Mention.
Definition token := (token_type * str)%type.
#[global] Instance token_type_eq_dec : EqDec token_type.
Proof. intros x y. decide equality. Defined.

(** words.py:32-100 *)
Definition DECIMALS : str := codes ".,".
Definition IDENTIFIER_PARTS : str := codes "-_".
Definition APOSTROPHES : str := [39%N; 8217%N].
Definition SIGILS : str := codes "#@$".
Definition IRISH : list str := [codes "O"; codes "o"].
Definition VOWELS_PATTERN : str := [97; 225; 224; 226; 228; 261; 229; 111; 244; 243; 248; 101; 233; 232; 235; 234; 281; 105; 237; 239; 238; 305; 117; 250; 249; 251; 252; 121; 255; 230; 339; 65; 193; 192; 194; 196; 260; 197; 79; 211; 212; 216; 69; 201; 200; 203; 202; 280; 73; 304; 205; 207; 206; 89; 376; 85; 218; 217; 219; 220; 198; 338]%N.
Definition ENGLISH_CONTRACTIONS : list str := map codes ["ll"; "re"; "m"; "s"; "ve"; "d"]%string.
Definition ENGLISH_ARCHAIC_CONTRACTIONS : list str := map codes ["tis"; "twas"]%string.
Definition FRENCH_EXCEPTIONS : list str := [codes "hui"].
Definition FRENCH_UNION_TARGETS : list str := map codes
  ["je"; "tu"; "il"; "ils"; "elle"; "elles"; "nous"; "vous"; "on"; "le"; "la"; "les"; "moi"; "toi"; "lui"; "y"]%string.
Definition ABBREVIATIONS : list str := map codes
  ["apt"; "appt"; "dr"; "etc"; "jr"; "m"; "mgr"; "min"; "mr"; "mrs"; "ms"; "mme"; "mlle"; "no"; "p"; "pp"; "prof"; "sr"; "st"; "vs"]%string.
Definition TOKEN_TYPES : list (string * token_type) :=
  [("word", Word); ("number", Number); ("punct", Punct); ("emoji", Emoji); ("smiley", Smiley); ("url", Url);
   ("email", Email); ("hashtag", Hashtag); ("mention", Mention)]%string.

(** words.py:103-117 *)
Definition is_ascii_junk (c : N) : bool := (c <=? 31)%N.
Definition is_valid_twitter_char (c : N) : bool :=
  (c =? 95)%N || ((48 <=? c) && (c <=? 57))%N || ((97 <=? c) && (c <=? 122))%N || ((65 <=? c) && (c <=? 90))%N.
Definition is_consonant (c : N) : bool := negb (memb c VOWELS_PATTERN).

(** words.py:120-125 *)
Definition starts_as_url (s : str) : bool := starts_with (codes "http://") s || starts_with (codes "https://") s.

(** the number of characters of the class [p] at the beginning *)
Fixpoint span (p : N -> bool) (s : str) : nat :=
  match s with [] => 0 | c :: s' => if p c then S (span p s') else 0 end.
Definition head_in (p : N -> bool) (s : str) : bool := match s with [] => false | c :: _ => p c end.

Definition email_char (c : N) : bool :=
  ((65 <=? c) && (c <=? 90))%N || ((97 <=? c) && (c <=? 122))%N || ((48 <=? c) && (c <=? 57))%N ||
  memb c (codes "!#$%&*+-/=?^_`{|}~").
Definition email_lookahead (s : str) : bool :=
  let n := span email_char s in
  Nat.leb 1 n && Nat.leb n 64 && head_in (fun c => c =? 64)%N (skipn n s).

(** words.py:40 SMILEY_RE.match: the end of the match.  The characters of the class after an optional one are never in
    it, so there is nothing to backtrack. *)
Definition eyes (c : N) : bool := memb c (codes ":;=8").
Definition nose (c : N) : bool := memb c (codes "-o*'").
Definition mouth (c : N) : bool := memb c (codes ")]([dDpP/:}{@|\").
Definition dash (c : N) : bool := (c =? 45)%N.

Definition opt (p : N -> bool) (s : str) : nat := if head_in p s then 1 else 0.

Definition smiley_end (s : str) : option nat :=
  let d := span dash s in
  if Nat.leb 1 d && head_in (fun c => c =? 62)%N (skipn d s) then Some (d + 1)
  else if head_in (fun c => c =? 60)%N s && Nat.leb 1 (span dash (skipn 1 s)) then Some (1 + span dash (skipn 1 s))
  else
    let a := opt (fun c => memb c (codes "<>")) s in
    if head_in eyes (skipn a s) &&
       head_in mouth (skipn (a + 1 + opt nose (skipn (a + 1) s)) s)
    then Some (a + 1 + opt nose (skipn (a + 1) s) + 1)
    else if head_in mouth s && head_in eyes (skipn (1 + opt nose (skipn 1 s)) s)
    then Some (1 + opt nose (skipn 1 s) + 1)
    else if head_in (fun c => memb c (codes "<:")) s && head_in (fun c => c =? 51)%N (skipn 1 s) then Some 2
    else if starts_with (codes "^^") s then Some 2
    else None.

(** string[i:j] *)
Definition slice (s : str) (i j : nat) : str := firstn (j - i) (skipn i s).
(** the first position from j on whose character is not of the class [p] *)
Definition scan (p : N -> bool) (s : str) (j : nat) : nat := j + span p (skipn j s).

(** str.split on a character, str.count and the in operator *)
Fixpoint split_on (sep : N) (cur s : str) : list str :=
  match s with
  | [] => [rev cur]
  | c :: s' => if (c =? sep)%N then rev cur :: split_on sep [] s' else split_on sep (c :: cur) s'
  end.
Definition split (sep : N) (s : str) : list str := split_on sep [] s.
Fixpoint interleave (sep : str) (l : list str) : list str :=
  match l with [] => [] | [x] => [x] | x :: l' => x :: sep :: interleave sep l' end.
(** POINT_SPLITTER_RE.split: the points are kept *)
Definition point_split (s : str) : list str := interleave (codes ".") (split 46 s).
Definition count (c : N) (s : str) : nat := length (filter (N.eqb c) s).
Fixpoint contains (p s : str) : bool := starts_with p s || match s with [] => false | _ :: s' => contains p s' end.
Definition ends_with (c : N) (s : str) : bool := match rev s with x :: _ => (x =? c)%N | [] => false end.

Section Words.
Variables isspace isalnum isalpha isdigit isupper islower : N -> bool.
Variable lower : str -> str.
(** length of the match of the emoji regular expression at the beginning, 0 if there is none *)
Variable emoji : str -> nat.

(** words.py:128-141 with_holes(EMOJI_RE.finditer(string), string); [cur] is the emoji being read, backwards, and [k] the
    number of its characters still to come *)
Fixpoint with_holes (cur : str) (k : nat) (s : str) : list token :=
  match s with
  | [] => match cur with [] => [] | _ => [(Emoji, rev cur)] end
  | c :: s' =>
    match k with
    | S (S k) => with_holes (c :: cur) (S k) s'
    | S O => (Emoji, rev (c :: cur)) :: with_holes [] 0 s'
    | O =>
      match emoji s with
      | O => (Punct, [c]) :: with_holes [] 0 s'
      | S O => (Emoji, [c]) :: with_holes [] 0 s'
      | S k => with_holes [c] k s'
      end
    end
  end.

(** words.py:144-163: [items] two by two *)
Fixpoint merge_emojis (items : list token) : list token :=
  match items with
  | [] => []
  | item :: rest =>
    match rest with
    | next_item :: rest' =>
      if eqb (fst item) Emoji && eqb (fst next_item) Punct && eqb (snd next_item) [65039%N]
      then (Emoji, snd item ++ snd next_item) :: merge_emojis rest'
      else item :: merge_emojis rest
    | [] => [item]
    end
  end.
Definition punct_emoji_iter (s : str) : list token := merge_emojis (with_holes [] 0 s).

(** words.py:176-235 split_hashtag *)
Inductive hashtag_state := Lower | UpperStart | UpperNext | Digits.

Fixpoint split_loop (s : str) (state : hashtag_state) (offset i : nat) (rest : str) : list token :=
  match rest with
  | [] => [(match state with Digits => Number | _ => Word end, skipn offset s)]
  | c :: rest =>
    match state with
    | Lower =>
      if isupper c then (Word, slice s offset i) :: split_loop s UpperStart i (i + 1) rest
      else if isdigit c then (Word, slice s offset i) :: split_loop s Digits i (i + 1) rest
      else split_loop s Lower offset (i + 1) rest
    | UpperStart =>
      if islower c then split_loop s Lower offset (i + 1) rest
      else if isupper c then split_loop s UpperNext offset (i + 1) rest
      else if isdigit c then (Word, slice s offset i) :: split_loop s Digits i (i + 1) rest
      else split_loop s UpperStart offset (i + 1) rest
    | UpperNext =>
      if islower c then (Word, slice s offset (i - 1)) :: split_loop s Lower (i - 1) (i + 1) rest
      else if isdigit c then (Word, slice s offset i) :: split_loop s Digits i (i + 1) rest
      else split_loop s UpperNext offset (i + 1) rest
    | Digits =>
      if negb (isdigit c) then
        if isupper c then (Number, slice s offset i) :: split_loop s UpperStart i (i + 1) rest
        else (Number, slice s offset i) :: split_loop s Lower i (i + 1) rest
      else split_loop s Digits offset (i + 1) rest
    end
  end.

Definition split_hashtag (s : str) : res (list token) :=
  match nth_error s 1 with
  | None => Err IndexError
  | Some c => Ok (split_loop s (if negb (isdigit c) then UpperStart else Digits) 1 2 (skipn 2 s))
  end.

(** words.py:407-440: from position j = i + 1; gives j, already_consumed and token_type *)
Fixpoint numeric_loop (rest : str) (last_char : N) (chosen_decimal : option N) (t : token_type) (j : nat) : nat * bool * token_type :=
  match rest with
  | [] => (j, true, t)
  | n :: rest =>
    if isspace n then (j, true, t)
    else if negb (isdigit n) then
      if memb last_char DECIMALS then (j - 1, true, t)
      else if negb (last_char =? 45)%N && (isalpha n || memb n IDENTIFIER_PARTS) then (j, false, Word)
      else if negb (memb n DECIMALS) then (j, true, t)
      else match chosen_decimal with
           | Some _ => (j, true, t)
           | None => numeric_loop rest n (Some n) Number (j + 1)
           end
    else numeric_loop rest n chosen_decimal Number (j + 1)
  end.

(** words.py:457-487: gives j and can_be_acronym; [prev] is string[j - 1] *)
Fixpoint alnum_loop (could_be_url_or_email : bool) (rest : str) (prev : N) (j : nat) (can_be_acronym : bool) : nat * bool :=
  match rest with
  | [] => (j, can_be_acronym)
  | n :: rest' =>
    if isspace n then (j, can_be_acronym)
    else if could_be_url_or_email then
      if (n =? 44)%N then (j, can_be_acronym) else alnum_loop could_be_url_or_email rest' n (j + 1) can_be_acronym
    else if memb n IDENTIFIER_PARTS || (n =? 183)%N then
      match rest' with
      | [] => (j, can_be_acronym)
      | n' :: _ => if isspace n' then (j, can_be_acronym) else alnum_loop could_be_url_or_email rest' n (j + 1) can_be_acronym
      end
    else if negb (isalnum n) then
      if (n =? 46)%N && isupper prev then alnum_loop could_be_url_or_email rest' n (j + 1) true
      else (j, can_be_acronym)
    else alnum_loop could_be_url_or_email rest' n (j + 1) can_be_acronym
  end.

Variable split_hashtags : bool.

(** words.py:571-598 *)
Definition regular_word (t : token_type) (before : str) : res (list token) :=
  match t with
  | Word =>
    let hyphens := count 45 before in
    if Nat.eqb hyphens 2 && contains (codes "-t-") before then Ok (map (fun x => (Word, x)) (split 45 before))
    else if Nat.eqb hyphens 1 then
      match split 45 before with
      | [a; b] => if memb b FRENCH_UNION_TARGETS then Ok [(Word, a); (Word, b)] else Ok [(Word, before)]
      | _ => Err ValueError
      end
    else Ok [(Word, before)]
  | Hashtag => if split_hashtags then split_hashtag before else Ok [(Hashtag, before)]
  | _ => Ok [(t, before)]
  end.

(** words.py:500-600, with the tokens yielded and the next value of i *)
Definition finish_word (s : str) (i j : nat) (t : token_type) (can_be_acronym : bool) (before : str) : res (list token * nat) :=
  if can_be_acronym then
    if forallb (fun x => Nat.leb (length x) 1) (split 46 before) then Ok ([(Word, before)], j)
    else Ok (map (fun x => (if negb (eqb x (codes ".")) then Word else Punct, x)) (removelast (point_split before)), j)
  else
    match nth_error s j with
    | None => let! ts := regular_word t before in Ok (ts, j)
    | Some a =>
      if memb a APOSTROPHES then
        let k := scan (fun n => isalnum n || memb n SIGILS) s (j + 1) in
        if Nat.ltb (j + 1) k then
          let after := slice s (j + 1) k in
          match after, rev before with
          | a0 :: _, b0 :: _ =>
            if isdigit a0 then Ok ([(t, before ++ [a])], j + 1)
            else if memb after ENGLISH_CONTRACTIONS then Ok ([(t, before); (t, a :: after)], k)
            else if (ends_with 110 before && eqb after (codes "t")) || memb after FRENCH_EXCEPTIONS || memb 45%N before
            then Ok ([(t, slice s i k)], k)
            else if (negb (a0 =? 104)%N && is_consonant b0 && (is_consonant a0 && negb (memb a0 SIGILS))) || memb before IRISH
            then Ok ([(t, before ++ [a] ++ after)], k)
            else Ok ([(t, before ++ [a])], j + 1)
          | _, _ => Err IndexError
          end
        else Ok ([(t, before); (Punct, [a])], k)
      else if Nat.ltb (j + 1) (length s) && (a =? 46)%N && memb (lower before) ABBREVIATIONS
      then Ok ([(t, before ++ codes ".")], j + 1)
      else let! ts := regular_word t before in Ok (ts, j)
    end.

(** words.py:489-498 *)
Definition finish (s : str) (i j : nat) (t : token_type) (can_be_acronym : bool) : res (list token * nat) :=
  let before := slice s i j in
  match before with
  | [] => Err IndexError
  | b :: tail =>
    if memb b APOSTROPHES && negb (memb (lower tail) ENGLISH_ARCHAIC_CONTRACTIONS) then
      if Nat.eqb (i + 1) j then Ok ([(Punct, [b])], i + 1)
      else
        let! (ts, i') := finish_word s (i + 1) j t can_be_acronym tail in
        Ok ((Punct, [b]) :: ts, i')
    else finish_word s i j t can_be_acronym before
  end.

(** words.py:448-487 *)
Definition alphanumerical (s lookahead : str) (i j : nat) (t : token_type) : res (list token * nat) :=
  let could_be_url := starts_as_url lookahead in
  let could_be_email := email_lookahead lookahead in
  let t := if could_be_url then Url else if could_be_email then Email else t in
  let '(j, can_be_acronym) := alnum_loop (could_be_url || could_be_email) (skipn j s) (nth (j - 1) s 0%N) j false in
  finish s i j t can_be_acronym.

(** words.py:365-446; [c] is string[i] *)
Definition consume (s lookahead : str) (i : nat) (c : N) : res (list token * nat) :=
  let j := i + 1 in
  if memb c (codes "#$") then
    match nth_error s j with
    | Some n => if negb (isalpha n) then Ok ([(Punct, [c])], i + 1) else finish s i (scan isalnum s j) Hashtag false
    | None => Ok ([(Punct, [c])], i + 1)
    end
  else if (c =? 64)%N then
    match nth_error s j with
    | Some n => if negb (is_valid_twitter_char n) then Ok ([(Punct, [c])], i + 1) else finish s i (scan is_valid_twitter_char s j) Mention false
    | None => Ok ([(Punct, [c])], i + 1)
    end
  else if isdigit c || (c =? 45)%N then
    let '(j, already_consumed, t) := numeric_loop (skipn j s) c None Punct j in
    if already_consumed then
      let j := if Nat.ltb (i + 1) j && memb (nth (j - 1) s 0%N) DECIMALS then j - 1 else j in
      finish s i j t false
    else alphanumerical s lookahead i j t
  else alphanumerical s lookahead i j Word.

(** words.py:314-363: one turn of the main loop *)
Definition step (s : str) (i : nat) (c : N) : res (list token * nat) :=
  if isspace c || is_ascii_junk c then Ok ([], i + 1)
  else
    let lookahead := slice s i (i + 64) in
    match smiley_end lookahead with
    | Some e => Ok ([(Smiley, slice s i (i + e))], i + e)
    | None =>
      if memb c (codes "@#$") then consume s lookahead i c
      else if negb (isalnum c) && negb (c =? 45)%N then
        let j := scan (fun n => negb (isspace n || isalnum n || is_ascii_junk n || (n =? 35)%N || (n =? 64)%N)) s (i + 1) in
        let punct_cluster := slice s i j in
        if memb punct_cluster (map (fun a => [a]) APOSTROPHES) then consume s lookahead i c
        else Ok (punct_emoji_iter punct_cluster, j)
      else consume s lookahead i c
    end.

(** words.py:309-600 __tokenize *)
Fixpoint tokenize_loop (fuel : nat) (s : str) (i : nat) : res (list token) :=
  match nth_error s i with
  | None => Ok []
  | Some c =>
    match fuel with
    | 0 => Err OutOfFuel
    | S fuel =>
      let! (ts, i) := step s i c in
      let! rest := tokenize_loop fuel s i in
      Ok (ts ++ rest)
    end
  end.
Definition raw_tokens (s : str) : res (list token) := tokenize_loop (length s) s 0.
End Words.

(** words.py:43, 166-167: [letter] is the class [^\W\d]; [skip]: characters of the current match still to be dropped *)
Fixpoint reduce_from (letter : N -> bool) (skip : nat) (s : str) : str :=
  match s with
  | [] => []
  | c :: s' =>
    match skip with
    | S k => reduce_from letter k s'
    | O =>
      let n := span (N.eqb c) s in
      if letter c && Nat.leb 5 n then [c; c; c] ++ reduce_from letter (n - 1) s'
      else c :: reduce_from letter 0 s'
    end
  end.
Definition reduce_lenghtening (letter : N -> bool) (s : str) : str := reduce_from letter 0 s.

(** words.py:239-254 *)
Record options := {
  o_lower : bool; o_unidecode : bool; o_reduce_words : bool; o_decode_html_entities : bool;
  o_normalize_mentions : bool; o_normalize_hashtags : bool; o_mentions_as_words : bool; o_hashtags_as_words : bool;
  o_split_hashtags : bool; o_min_word_length : option nat; o_max_word_length : option nat;
  o_stoplist : option (list str); o_keep : option (list string); o_drop : option (list string)
}.

Definition type_of_name (name : string) : option token_type :=
  match find (fun nt => String.eqb (fst nt) name) TOKEN_TYPES with Some nt => Some (snd nt) | None => None end.
Definition type_in (t : token_type) (names : list string) : bool :=
  existsb (fun name => match type_of_name name with Some t' => eqb t t' | None => false end) names.

Section Tokenizer.
Variables isspace isalnum isalpha isdigit isupper islower letter : N -> bool.
Variables lower unescape unidecode : str -> str.
Variable emoji : str -> nat.

(** words.py:170-173 *)
Fixpoint validate_token_types (names : list string) : res unit :=
  match names with
  | [] => Ok tt
  | name :: names => match type_of_name name with Some _ => validate_token_types names | None => Err TypeError end
  end.

(** words.py:239-291 __init__: the options with their final stoplist *)
Definition word_tokenizer (o : options) : res options :=
  if match o_keep o, o_drop o with Some _, Some _ => true | _, _ => false end then Err TypeError
  else if match o_min_word_length o, o_max_word_length o with Some a, Some b => Nat.leb b a | _, _ => false end then Err TypeError
  else
    let! _ := match o_keep o with Some (n :: l) => validate_token_types (n :: l) | _ => Ok tt end in
    let! _ := match o_drop o with Some (n :: l) => validate_token_types (n :: l) | _ => Ok tt end in
    Ok {| o_lower := o_lower o; o_unidecode := o_unidecode o; o_reduce_words := o_reduce_words o;
          o_decode_html_entities := o_decode_html_entities o; o_normalize_mentions := o_normalize_mentions o;
          o_normalize_hashtags := o_normalize_hashtags o; o_mentions_as_words := o_mentions_as_words o;
          o_hashtags_as_words := o_hashtags_as_words o; o_split_hashtags := o_split_hashtags o;
          o_min_word_length := o_min_word_length o; o_max_word_length := o_max_word_length o;
          o_stoplist := match o_stoplist o with
                        | Some l => Some (set_of (if o_lower o then map lower l else l))
                        | None => None
                        end;
          o_keep := o_keep o; o_drop := o_drop o |}.

Definition given {A} (x : option A) : bool := match x with Some _ => true | None => false end.

(** words.py:293-307 *)
Definition only_defaults (o : options) : bool :=
  negb (o_lower o || o_normalize_mentions o || o_normalize_hashtags o || o_mentions_as_words o || o_hashtags_as_words o ||
        given (o_min_word_length o) || given (o_max_word_length o) || given (o_stoplist o) || given (o_keep o) || given (o_drop o)).

(** words.py:616-667: the body of the loop over the tokens *)
Definition filter_token (o : options) (tok : token) : list token :=
  let '(t, v) := tok in
  if match o_keep o with Some l => negb (type_in t l) | None => false end then []
  else if match o_drop o with Some l => type_in t l | None => false end then []
  else
    let '(t, v) :=
      match t with
      | Mention =>
        let v := if o_normalize_mentions o then lower v else v in
        if o_mentions_as_words o then (Word, skipn 1 v) else (Mention, v)
      | Hashtag =>
        let v := if o_normalize_hashtags o then unidecode (lower v) else v in
        if o_hashtags_as_words o then (Word, skipn 1 v) else (Hashtag, v)
      | _ => (t, v)
      end in
    let v := if eqb t Word && o_lower o then lower v else v in
    if eqb t Word && match o_min_word_length o with Some n => Nat.ltb (length v) n | None => false end then []
    else if eqb t Word && match o_max_word_length o with Some n => Nat.ltb n (length v) | None => false end then []
    else if match o_stoplist o with Some l => memb v l | None => false end then []
    else [(t, v)].

(** words.py:602-667 tokenize *)
Definition tokenize (o : options) (s : str) : res (list token) :=
  let s := if o_decode_html_entities o then unescape s else s in
  let s := if o_unidecode o then unidecode s else s in
  let s := if o_reduce_words o then reduce_lenghtening letter s else s in
  let! raw := raw_tokens isspace isalnum isalpha isdigit isupper islower lower emoji (o_split_hashtags o) s in
  Ok (if only_defaults o then raw else flat_map (filter_token o) raw).
End Tokenizer.
