(** Specification for the fingerprint tokenizers.  Independent of the model. *)
From Coq Require Import List NArith.
Import ListNotations.

(** t is a whole token of s: a maximal part without separators *)
Definition token_of (sep : N -> bool) (s t : list N) : Prop :=
  t <> [] /\ Forall (fun c => sep c = false) t /\
  exists p q, s = p ++ t ++ q /\
    (p = [] \/ exists p' c, p = p' ++ [c] /\ sep c = true) /\
    (q = [] \/ exists c q', q = c :: q' /\ sep c = true).

(** lexicographic order of the code points *)
Inductive lex_lt : list N -> list N -> Prop :=
| lex_nil y b : lex_lt [] (y :: b)
| lex_head x y a b : (x < y)%N -> lex_lt (x :: a) (y :: b)
| lex_tail x a b : lex_lt a b -> lex_lt (x :: a) (x :: b).

(** words separated by one space *)
Fixpoint spaced (ws : list (list N)) : list N :=
  match ws with
  | [] => []
  | [w] => w
  | w :: ws' => w ++ 32%N :: spaced ws'
  end.

(** lower case letters and digits *)
Definition alnum (c : N) : Prop := (97 <= c <= 122)%N \/ (48 <= c <= 57)%N.

(** the string function works independently on both sides of a space *)
Definition local (f : list N -> list N) : Prop := forall a b, f (a ++ 32%N :: b) = f a ++ 32%N :: f b.
