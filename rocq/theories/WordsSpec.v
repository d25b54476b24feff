(** What a tokenization is, without reference to how it is computed. *)
From Coq Require Import String.
From Verif Require Import Base LevModel WordsModel.
Open Scope nat_scope.
Open Scope list_scope.
Notation length := List.length.

(** The tokens are pieces of the string, taken from left to right: what lies between two tokens is made of characters that
    may be skipped, or, just after a token that is a point, is a text that may be lost. *)
Inductive covers (skip : N -> Prop) (lost : str -> Prop) : str -> list str -> Prop :=
| covers_nil : covers skip lost [] []
| covers_skip c s ts : skip c -> covers skip lost s ts -> covers skip lost (c :: s) ts
| covers_take t s ts : covers skip lost s ts -> covers skip lost (t ++ s) (t :: ts)
| covers_lost t s ts : lost t -> covers skip lost s ts -> covers skip lost (46%N :: t ++ s) ([46%N] :: ts).

Definition never (t : str) : Prop := False.

(** an uppercase letter is directly followed by a point *)
Definition upper_point (isupper : N -> bool) (s : str) : Prop :=
  exists a u b, s = a ++ u :: 46%N :: b /\ isupper u = true.

(** what is dropped between the tokens: spaces, control characters, hyphens, and the mark of a hashtag that is split *)
Definition droppable (isspace : N -> bool) (split_hashtags : bool) (c : N) : Prop :=
  isspace c = true \/ (c <= 31)%N \/ c = 45%N \/ (split_hashtags = true /\ (c = 35%N \/ c = 36%N)).

(** what may be lost after a point *)
Definition acronym_tail (isspace isupper : N -> bool) (s t : str) : Prop :=
  upper_point isupper s /\ Forall (fun c => c <> 46%N /\ isspace c = false) t.

(** -t- occurs *)
Definition euphonic_t (s : str) : Prop := exists a b, s = a ++ 45%N :: 116%N :: 45%N :: b.

(** What is used about python's character classes. *)
Record char_classes (isspace isalnum isalpha isdigit isupper : N -> bool) : Prop := {
  cc_digit_point : isdigit 46%N = false;
  cc_digit_comma : isdigit 44%N = false;
  cc_digit_letter : forall c, (97 <= c <= 122)%N -> isdigit c = false;
  cc_alnum_point : isalnum 46%N = false;
  cc_alnum_hyphen : isalnum 45%N = false;
  cc_alnum_apostrophe : isalnum 39%N = false;
  cc_alnum_quote : isalnum 8217%N = false;
  cc_space_hyphen : isspace 45%N = false;
  cc_upper_point : isupper 46%N = false;
  cc_upper_apostrophe : isupper 39%N = false;
  cc_upper_quote : isupper 8217%N = false;
  cc_alpha_alnum : forall c, isalpha c = true -> isalnum c = true;
  cc_digit_alnum : forall c, isdigit c = true -> isalnum c = true;
  cc_alnum_space : forall c, isalnum c = true -> isspace c = false;
  cc_alnum_junk : forall c, isalnum c = true -> (31 < c)%N
}.

(** [s] after replacing every maximal run of at least five equal letters by three of them *)
Definition shorten (letter : N -> bool) (r : N * nat) : str :=
  let '(c, n) := r in repeat c (if letter c && Nat.leb 5 n then 3 else n).

Definition type_name (t : token_type) : string :=
  match t with
  | Word => "word" | Number => "number" | Punct => "punct" | Emoji => "emoji" | Smiley => "smiley" | Url => "url"
  | Email => "email" | Hashtag => "hashtag" | Mention => "mention"
  end.

(** the value and the type of a token after the requested normalizations *)
Definition normalized (lower unidecode : str -> str) (o : options) (tok : token) : token :=
  let lowered (v : str) := if o_lower o then lower v else v in
  match tok with
  | (Word, v) => (Word, lowered v)
  | (Mention, v) =>
    let v := if o_normalize_mentions o then lower v else v in
    if o_mentions_as_words o then (Word, lowered (skipn 1 v)) else (Mention, v)
  | (Hashtag, v) =>
    let v := if o_normalize_hashtags o then unidecode (lower v) else v in
    if o_hashtags_as_words o then (Word, lowered (skipn 1 v)) else (Hashtag, v)
  | _ => tok
  end.

(** the conditions: keep and drop speak of the raw type of the token, the length of words and the stoplist of what is yielded *)
Definition requested (lower : str -> str) (o : options) (raw final : token) : Prop :=
  (forall l, o_keep o = Some l -> In (type_name (fst raw)) l) /\
  (forall l, o_drop o = Some l -> ~ In (type_name (fst raw)) l) /\
  (fst final = Word -> forall n, o_min_word_length o = Some n -> n <= length (snd final)) /\
  (fst final = Word -> forall n, o_max_word_length o = Some n -> length (snd final) <= n) /\
  (forall l, o_stoplist o = Some l -> ~ In (snd final) (if o_lower o then map lower l else l)).

(** what the constructor accepts *)
Definition acceptable (o : options) : Prop :=
  (o_keep o = None \/ o_drop o = None) /\
  (forall a b, o_min_word_length o = Some a -> o_max_word_length o = Some b -> a < b) /\
  (forall l x, o_keep o = Some l \/ o_drop o = Some l -> In x l -> exists t, type_name t = x).

(** no normalization is requested *)
Definition no_normalization (o : options) : Prop :=
  o_lower o = false /\ o_normalize_mentions o = false /\ o_normalize_hashtags o = false /\
  o_mentions_as_words o = false /\ o_hashtags_as_words o = false.
