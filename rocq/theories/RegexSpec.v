(** What the expressions without references to groups mean: from which position to which one they can go.  A position of a text is given by
    what comes before it, backwards, and what comes after it. *)
From Verif Require Import Base LevModel StringsModel RegexModel.
Open Scope nat_scope.
Open Scope list_scope.

Definition pos := (str * str)%type.
Fixpoint iterated (n : nat) (R : pos -> pos -> Prop) (p q : pos) : Prop :=
  match n with O => p = q | S n => exists m, R p m /\ iterated n R m q end.

Section Meaning.
Variables is_digit is_space is_word : N -> bool.
Variable same : N -> N -> bool.

Definition has_category (k : category) (c : N) : Prop :=
  match k with
  | Digit => is_digit c = true | NotDigit => is_digit c = false
  | Space => is_space c = true | NotSpace => is_space c = false
  | WordChar => is_word c = true | NotWordChar => is_word c = false
  end.
Definition described (c : N) (i : item) : Prop :=
  match i with Single a => same a c = true | Range lo hi => (lo <= c <= hi)%N | Category k => has_category k c end.
(** one character of the class [P] *)
Definition advances (P : N -> Prop) (p q : pos) : Prop := exists c b a, p = (b, c :: a) /\ q = (c :: b, a) /\ P c.
Definition word_before (p : pos) : Prop := exists c b, fst p = c :: b /\ is_word c = true.
Definition word_after (p : pos) : Prop := exists c a, snd p = c :: a /\ is_word c = true.
Definition at_boundary (p : pos) : Prop := word_before p /\ ~ word_after p \/ word_after p /\ ~ word_before p.

Fixpoint goes (r : regex) (p q : pos) : Prop :=
  match r with
  | Eps => p = q
  | Lit c => advances (fun x => same c x = true) p q
  | AnyChar => advances (fun x => x <> 10%N) p q
  | Chars false items => advances (fun x => exists i, In i items /\ described x i) p q
  | Chars true items => advances (fun x => forall i, In i items -> ~ described x i) p q
  | Start => p = q /\ fst p = []
  | End => p = q /\ (snd p = [] \/ snd p = [10%N])
  | Boundary false => p = q /\ at_boundary p
  | Boundary true => p = q /\ p <> ([], []) /\ ~ at_boundary p
  | Seq a b => exists m, goes a p m /\ goes b m q
  | Alt a b => goes a p q \/ goes b p q
  | Rep _ lo hi a => exists n, lo <= n /\ match hi with Some h => n <= h | None => True end /\ iterated n (goes a) p q
  | Group _ a => goes a p q
  | Ref _ => False
  | Ahead false a => p = q /\ exists q', goes a p q'
  | Ahead true a => p = q /\ forall q', ~ goes a p q'
  end.
End Meaning.

(** no reference to a group *)
Fixpoint plain (r : regex) : bool :=
  match r with
  | Seq a b | Alt a b => plain a && plain b
  | Rep _ _ _ a | Group _ a | Ahead _ a => plain a
  | Ref _ => false
  | _ => true
  end.
(** bounds of repetitions in order, as the parser leaves them *)
Fixpoint ordered (r : regex) : bool :=
  match r with
  | Seq a b | Alt a b => ordered a && ordered b
  | Rep _ lo hi a => ordered a && match hi with Some h => Nat.leb lo h | None => true end
  | Group _ a | Ahead _ a => ordered a
  | _ => true
  end.
