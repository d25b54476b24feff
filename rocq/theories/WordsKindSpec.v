(** What the type of a token says about its text.  Only the vocabulary of types comes from the model. *)
From Coq Require Import String.
From Verif Require Import Base LevModel StringsModel WordsModel.
Open Scope nat_scope.
Open Scope list_scope.
Notation length := List.length.

Definition char_in (c : N) (s : string) : Prop := In c (codes s).

(** The emoticons: arrows, eyes and mouth with or without a nose, in any direction, hearts and ^^ *)
Inductive emoticon : str -> Prop :=
| right_arrow n : emoticon (repeat 45%N (S n) ++ codes ">")
| left_arrow n : emoticon (codes "<" ++ repeat 45%N (S n))
| face brow e nose m : (brow = [] \/ exists b, brow = [b] /\ char_in b "<>") -> char_in e ":;=8" ->
    (nose = [] \/ exists n, nose = [n] /\ char_in n "-o*'") -> char_in m ")]([dDpP/:}{@|\" ->
    emoticon (brow ++ [e] ++ nose ++ [m])
| reversed_face m nose e : char_in m ")]([dDpP/:}{@|\" -> (nose = [] \/ exists n, nose = [n] /\ char_in n "-o*'") ->
    char_in e ":;=8" -> emoticon ([m] ++ nose ++ [e])
| heart b : char_in b "<:" -> emoticon [b; 51%N]
| happy : emoticon (codes "^^").

Definition apostrophe (c : N) : Prop := c = 39%N \/ c = 8217%N.

(** the ASCII letters, digits and the underscore *)
Definition twitter_char (c : N) : Prop :=
  (97 <= c <= 122)%N \/ (65 <= c <= 90)%N \/ (48 <= c <= 57)%N \/ c = 95%N.
(** what the local part of an address is made of *)
Definition address_char (c : N) : Prop :=
  (97 <= c <= 122)%N \/ (65 <= c <= 90)%N \/ (48 <= c <= 57)%N \/ char_in c "!#$%&*+-/=?^_`{|}~".

(** More facts about python's character classes *)
Record more_classes (isspace isalnum isupper islower : N -> bool) : Prop := {
  mc_alnum_at : isalnum 64%N = false;
  mc_alnum_hash : isalnum 35%N = false;
  mc_alnum_dollar : isalnum 36%N = false;
  mc_alnum_underscore : isalnum 95%N = false;
  mc_alnum_middle_dot : isalnum 183%N = false;
  mc_space_ascii : forall c, (33 <= c <= 126)%N -> isspace c = false;
  mc_space_quote : isspace 8217%N = false;
  mc_lower_upper : forall c, islower c = true -> isupper c = false
}.

Section Kinds.
Variables isspace isalnum isalpha isdigit isupper islower : N -> bool.
Variable lower : str -> str.
Variable emoji : str -> nat.

(** @ and at least one character allowed in an account name *)
Definition mention (v : str) : Prop := exists u, v = 64%N :: u /\ u <> [] /\ Forall twitter_char u.
(** # or $, a letter, and alphanumeric characters *)
Definition hashtag (v : str) : Prop :=
  exists c a u, v = c :: a :: u /\ (c = 35%N \/ c = 36%N) /\ isalpha a = true /\ Forall (fun x => isalnum x = true) u.
(** a digit or a hyphen, digits, and possibly a decimal mark before more digits *)
Definition number (v : str) : Prop :=
  exists c ds, (isdigit c = true \/ c = 45%N) /\ Forall (fun x => isdigit x = true) ds /\
    (v = c :: ds \/ exists p fs, char_in p ".," /\ Forall (fun x => isdigit x = true) fs /\ fs <> [] /\ v = c :: ds ++ p :: fs).
Definition url (v : str) : Prop :=
  (exists u, v = codes "http://" ++ u \/ v = codes "https://" ++ u) /\ Forall (fun c => isspace c = false /\ c <> 44%N) v.
Definition email (v : str) : Prop :=
  exists user rest, v = user ++ 64%N :: rest /\ user <> [] /\ length user < 64 /\ Forall address_char user /\
    Forall (fun c => isspace c = false /\ c <> 44%N) v.
(** an emoji for the regular expression, with its variation selector if any *)
Definition emoji_text (v : str) : Prop :=
  exists w, w <> [] /\ (v = w \/ v = w ++ [65039%N]) /\ exists rest, emoji (w ++ rest) = length w.
Definition word_char (c : N) : Prop := isspace c = false /\ (isalnum c = true \/ char_in c "-_.," \/ c = 183%N \/ apostrophe c).
(** what can follow an apostrophe *)
Definition after_apostrophe (u : str) : Prop := u <> [] /\ Forall (fun c => isalnum c = true \/ char_in c "#@$") u.

(** An apostrophe just after a token makes it larger, or adds a token of the same type.  So does the point of an
    abbreviation. *)
Inductive grown (core : str) : str -> Prop :=
| as_is : grown core core
| elided a : apostrophe a -> grown core (core ++ [a])
| contracted a u : apostrophe a -> In u (map codes ["ll"; "re"; "m"; "s"; "ve"; "d"]%string) -> grown core (a :: u)
| joined a u : apostrophe a -> after_apostrophe u -> grown core (core ++ a :: u)
| abbreviated : In (lower core) (map codes
    ["apt"; "appt"; "dr"; "etc"; "jr"; "m"; "mgr"; "min"; "mr"; "mrs"; "ms"; "mme"; "mlle"; "no"; "p"; "pp"; "prof"; "sr"; "st"; "vs"]%string) ->
    grown core (core ++ codes ".").

Definition kind (t : token_type) (v : str) : Prop :=
  match t with
  | Word => exists core, Forall word_char core /\ grown core v
  | Number => exists core, number core /\ grown core v
  | Punct => (exists c, v = [c] /\ isalnum c = false) \/ exists c, (isdigit c = true \/ c = 45%N) /\ grown [c] v
  | Emoji => emoji_text v
  | Smiley => emoticon v
  | Url => url v
  | Email => email v
  | Hashtag => exists core, hashtag core /\ grown core v
  | Mention => exists core, mention core /\ grown core v
  end.

(** the characters that a token of this type would have swallowed *)
Definition swallows (t : token_type) (c : N) : Prop :=
  match t with
  | Word | Hashtag => isalnum c = true
  | Number => isdigit c = true
  | Mention => twitter_char c
  | Url | Email => isspace c = false /\ c <> 44%N
  | Punct | Emoji | Smiley => False
  end.

(** the token [v], read at position [p] of [s], stops where it should: it has an apostrophe, ends with a point, or is not
    followed by more of the same *)
Definition maximal (s : str) (p : nat) (t : token_type) (v : str) : Prop :=
  (exists a, apostrophe a /\ In a v) \/ (exists u, v = u ++ codes ".") \/
  forall c, nth_error s (p + length v) = Some c -> ~ swallows t c.

(** the tokens are read in [s] from left to right without overlap, each with the property [K] *)
Inductive read_in (K : nat -> token -> Prop) (s : str) : nat -> list token -> Prop :=
| read_nil i : read_in K s i []
| read_cons i p t v ts : i <= p -> (exists a b, s = a ++ v ++ b /\ length a = p) -> K p (t, v) ->
    read_in K s (p + length v) ts -> read_in K s i ((t, v) :: ts).
End Kinds.

(** the pieces of a hashtag: numbers are runs of digits; words have no digit, and are in one case but for their first
    character: uppercase letters come first, or nowhere, or alone *)
Definition hashtag_piece (isdigit isupper islower : N -> bool) (tok : token) : Prop :=
  match tok with
  | (Number, v) => Forall (fun c => isdigit c = true) v
  | (Word, v) => Forall (fun c => isdigit c = false) v /\
      (Forall (fun c => isupper c = false) (tl v) \/ Forall (fun c => islower c = false) (tl v))
  | _ => False
  end.

(** a cut is made between digits and the rest, before an uppercase letter, or before the last one of several *)
Definition hashtag_cut (isupper islower : N -> bool) (tok1 tok2 : token) : Prop :=
  match tok1, tok2 with
  | (Number, _), (Number, _) => False
  | (Word, _), (Word, b) => (exists c u, b = c :: u /\ isupper c = true) \/
      exists c d u, b = c :: d :: u /\ islower c = false /\ islower d = true
  | _, _ => True
  end.
Fixpoint adjacent {A} (R : A -> A -> Prop) (l : list A) : Prop :=
  match l with
  | a :: (b :: _) as l' => R a b /\ adjacent R l'
  | _ => True
  end.
