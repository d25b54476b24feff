(** The grammar of the patterns of python's regular expressions, for the constructs of RegexModel: which texts spell which expressions. *)
From Coq Require Import String Ascii.
From Verif Require Import Base LevModel StringsModel RegexModel.
Open Scope nat_scope.
Open Scope list_scope.

(** the signs of a text: characters other than the backslash, and a backslash with a character *)
Definition sign_text (t : tok) : str := match t with Plain c => [c] | Escaped c => [92%N; c] end.
Definition spells (ts : list tok) (s : str) : Prop := s = flat_map sign_text ts /\ Forall (fun t => t <> Plain 92%N) ts.

Definition plain_of (a : ascii) : tok := Plain (ch a).
Coercion plain_of : ascii >-> tok.
Open Scope char_scope.

Definition a_digit (c : N) : Prop := (48 <= c <= 57)%N.
Definition alphanumeric (c : N) : Prop := a_digit c \/ (65 <= c <= 90)%N \/ (97 <= c <= 122)%N.
Definition CONTROLS : list (N * N) := [(ch "a", 7); (ch "f", 12); (ch "n", 10); (ch "r", 13); (ch "t", 9); (ch "v", 11)]%N.
Definition CATEGORIES : list (N * category) :=
  [(ch "d", Digit); (ch "D", NotDigit); (ch "s", Space); (ch "S", NotSpace); (ch "w", WordChar); (ch "W", NotWordChar)].

(** ** sets *)
Inductive in_set : tok -> item -> Prop :=
| set_plain c : in_set (Plain c) (Single c)
| set_control c d : In (c, d) CONTROLS -> in_set (Escaped c) (Single d)
| set_backspace : in_set (Escaped (ch "b")) (Single 8)
| set_category c k : In (c, k) CATEGORIES -> in_set (Escaped c) (Category k)
| set_escaped c : ~ alphanumeric c -> in_set (Escaped c) (Single c).
(** the members of a set up to its closing bracket; a bracket that comes first is a member *)
Inductive members : bool -> list tok -> list item -> Prop :=
| members_end : members false ["]" : tok] []
| members_hyphen (first : bool) (t : tok) i : first = true \/ t <> "]" -> in_set t i -> members first [t; "-" : tok; "]" : tok] [i; Single (ch "-")]
| members_range (first : bool) (t t' : tok) lo hi ts l : first = true \/ t <> "]" -> in_set t (Single lo) -> t' <> "]" -> in_set t' (Single hi) -> (lo <= hi)%N -> members false ts l ->
    members first (t :: ("-" : tok) :: t' :: ts) (Range lo hi :: l)
| members_one (first : bool) (t : tok) i ts l : first = true \/ t <> "]" -> in_set t i -> hd_error ts <> Some ("-" : tok) -> members false ts l -> members first (t :: ts) (i :: l).

(** ** repetitions *)
Fixpoint value (ds : list N) : N := match ds with [] => 0%N | d :: ds => ((d - 48) * 10 ^ N.of_nat (length ds) + value ds)%N end.
Definition numeral (ds : list N) (n : nat) : Prop := Forall a_digit ds /\ N.of_nat n = value ds /\ (N.of_nat n < 2 ^ 32 - 1)%N.
Inductive repetition : list tok -> nat -> option nat -> Prop :=
| rep_star : repetition ["*" : tok] 0 None
| rep_plus : repetition ["+" : tok] 1 None
| rep_maybe : repetition ["?" : tok] 0 (Some 1)
| rep_exactly ds n : ds <> [] -> numeral ds n -> repetition (("{" : tok) :: map Plain ds ++ ["}" : tok]) n (Some n)
| rep_at_least ds n : numeral ds n -> repetition (("{" : tok) :: map Plain ds ++ ["," : tok; "}" : tok]) n None
| rep_between ds n es m : es <> [] -> numeral ds n -> numeral es m -> n <= m -> repetition (("{" : tok) :: map Plain ds ++ ("," : tok) :: map Plain es ++ ["}" : tok]) n (Some m).
(** what follows an opening brace when it does not stand for itself *)
Definition braces (ts : list tok) : Prop :=
  exists ds es rest, Forall a_digit ds /\ Forall a_digit es /\
    (ds <> [] /\ ts = map Plain ds ++ ("}" : tok) :: rest \/ ts = map Plain ds ++ ("," : tok) :: map Plain es ++ ("}" : tok) :: rest).

(** ** expressions.  [n]: the number of the next group, before and after; [open]: the groups that are being read *)
Definition itself (c : N) : Prop := ~ In c (codes "|)[.^$(*+?").
Inductive alternatives : nat -> list nat -> list tok -> regex -> nat -> Prop :=
| alt_last n op ts r m : sequence n op ts r m -> alternatives n op ts r m
| alt_more n op ts r m us s k : sequence n op ts r m -> alternatives m op us s k -> alternatives n op (ts ++ ("|" : tok) :: us) (Alt r s) k
with sequence : nat -> list nat -> list tok -> regex -> nat -> Prop :=
| seq_end n op : sequence n op [] Eps n
| seq_once n op ts r at_ m us s k : atom n op ts r at_ m -> sequence m op us s k ->
    (ts = ["{" : tok] -> ~ braces us) -> (forall i, r = Ref i -> forall c us', us = Plain c :: us' -> ~ a_digit c) -> sequence n op (ts ++ us) (Seq r s) k
| seq_repeated n op ts r m us s k qs lo hi : atom n op ts r false m -> repetition qs lo hi -> sequence m op us s k -> sequence n op (ts ++ qs ++ us) (Seq (Rep false lo hi r) s) k
| seq_lazy n op ts r m us s k qs lo hi : atom n op ts r false m -> repetition qs lo hi -> sequence m op us s k -> sequence n op (ts ++ qs ++ ("?" : tok) :: us) (Seq (Rep true lo hi r) s) k
(** one item, and whether it is a position, which cannot be repeated *)
with atom : nat -> list nat -> list tok -> regex -> bool -> nat -> Prop :=
| atom_itself n op c : itself c -> atom n op [Plain c] (Lit c) false n
| atom_any n op : atom n op ["." : tok] AnyChar false n
| atom_start n op : atom n op ["^" : tok] Start true n
| atom_end n op : atom n op ["$" : tok] End true n
| atom_set n op ts l : hd_error ts <> Some ("^" : tok) -> members true ts l -> atom n op (("[" : tok) :: ts) (Chars false l) false n
| atom_not_set n op ts l : members true ts l -> atom n op (("[" : tok) :: ("^" : tok) :: ts) (Chars true l) false n
| atom_category n op c k : In (c, k) CATEGORIES -> atom n op [Escaped c] (Chars false [Category k]) false n
| atom_boundary n op : atom n op [Escaped (ch "b")] (Boundary false) true n
| atom_no_boundary n op : atom n op [Escaped (ch "B")] (Boundary true) true n
| atom_control n op c d : In (c, d) CONTROLS -> atom n op [Escaped c] (Lit d) false n
| atom_escaped n op c : ~ alphanumeric c -> atom n op [Escaped c] (Lit c) false n
| atom_ref n op i : 1 <= i <= 9 -> i < n -> ~ In i op -> atom n op [Escaped (N.of_nat i + 48)] (Ref i) false n
| atom_group n op ts r m : alternatives (n + 1) (n :: op) ts r m -> atom n op (("(" : tok) :: ts ++ [")" : tok]) (Group n r) false m
| atom_parentheses n op ts r m : alternatives n op ts r m -> atom n op (("(" : tok) :: ("?" : tok) :: (":" : tok) :: ts ++ [")" : tok]) r false m
| atom_ahead n op ts r m : alternatives n op ts r m -> atom n op (("(" : tok) :: ("?" : tok) :: ("=" : tok) :: ts ++ [")" : tok]) (Ahead false r) false m
| atom_not_ahead n op ts r m : alternatives n op ts r m -> atom n op (("(" : tok) :: ("?" : tok) :: ("!" : tok) :: ts ++ [")" : tok]) (Ahead true r) false m.

Definition pattern (s : str) (r : regex) : Prop := exists ts n, spells ts s /\ alternatives 1 [] ts r n.

(** groups are numbered in the order of their opening parentheses *)
Fixpoint numbers (r : regex) : list nat :=
  match r with
  | Seq a b | Alt a b => numbers a ++ numbers b
  | Rep _ _ _ a | Ahead _ a => numbers a
  | Group n a => n :: numbers a
  | _ => []
  end.
(** references are to groups that are closed before *)
Fixpoint closed (n : nat) (op : list nat) (r : regex) : Prop :=
  match r with
  | Seq a b | Alt a b => closed n op a /\ closed (n + length (numbers a)) op b
  | Rep _ _ _ a | Ahead _ a => closed n op a
  | Group k a => closed (n + 1) (k :: op) a
  | Ref i => 1 <= i < n /\ ~ In i op
  | _ => True
  end.
