(** Texts made of recognisable items separated by spaces. *)
From Coq Require Import String.
From Verif Require Import Base LevModel StringsModel WordsModel WordsKindSpec.
Open Scope nat_scope.
Open Scope list_scope.
Notation length := List.length.

(** facts about python's character classes on ASCII *)
Record ascii_classes (isalnum : N -> bool) : Prop := {
  ac_letter : forall c, (97 <= c <= 122)%N -> isalnum c = true;
  ac_comma : isalnum 44%N = false;
  ac_colon : isalnum 58%N = false
}.

(** no emoticon at the beginning *)
Definition plain (v : str) : Prop := forall e r, emoticon e -> v <> e ++ r.

Section Items.
Variables isspace isalnum isalpha isdigit : N -> bool.
Variable emoji : str -> nat.

Inductive item : token_type -> str -> Prop :=
| item_mention v : mention v -> plain v -> item Mention v
| item_hashtag v : hashtag isalnum isalpha v -> plain v -> item Hashtag v
| item_url v : url isspace v -> item Url v
| item_email c r : email isspace (c :: r) -> isalnum c = true -> isdigit c = false -> plain (c :: r) -> item Email (c :: r)
| item_number c d r : number isdigit (c :: d :: r) -> plain (c :: d :: r) -> item Number (c :: d :: r)
| item_word c r : Forall (fun x => isalnum x = true) (c :: r) -> isdigit c = false -> plain (c :: r) -> item Word (c :: r)
| item_smiley v : emoticon v -> length v <= 64 -> item Smiley v
| item_punct c : isspace c = false -> (31 < c)%N -> ~ apostrophe c ->
    (isalnum c = false /\ emoji [c] = 0 \/ isdigit c = true) -> item Punct [c].

Inductive sentence : list token -> str -> Prop :=
| sentence_nil : sentence [] []
| sentence_last t v : item t v -> sentence [(t, v)] v
| sentence_item t v sp ts s : item t v -> isspace sp = true -> sentence ts s -> sentence ((t, v) :: ts) (v ++ sp :: s)
| sentence_space sp ts s : isspace sp = true -> sentence ts s -> sentence ts (sp :: s).
End Items.

(** the tokens do not end with an abbreviation and a point *)
Definition open_ended (lower : str -> str) (ts : list token) : Prop :=
  forall pre t x t', ts = pre ++ [(t, x); (t', codes ".")] -> ~ In (lower x) (map codes
    ["apt"; "appt"; "dr"; "etc"; "jr"; "m"; "mgr"; "min"; "mr"; "mrs"; "ms"; "mme"; "mlle"; "no"; "p"; "pp"; "prof"; "sr"; "st"; "vs"]%string).
