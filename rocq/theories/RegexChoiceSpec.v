(** Which match is found: what all the expressions mean, references to groups and priorities included.  Each way to match is described by the
    choices it makes, in the order in which it makes them: [false] is what is tried first. *)
From Verif Require Import Base LevModel StringsModel RegexModel RegexSpec.
Open Scope nat_scope.
Open Scope list_scope.

Definition choices := list bool.
(** [p] is tried before [q]: where they first differ, [p] takes what is tried first *)
Definition prefers (p q : choices) : Prop := exists c x y, p = c ++ false :: x /\ q = c ++ true :: y.

(** [n] turns of [R], each announced by a choice, as is the end; turns are tried first, except when lazy.  When [lo] turns have been made,
    a turn that does not advance is the last one *)
Fixpoint turns (R : state -> choices -> state -> Prop) (lazy : bool) (lo n : nat) (st : state) (p : choices) (st' : state) : Prop :=
  match n with
  | 0 => p = [negb lazy] /\ st' = st
  | S n => exists p1 p2 m, p = lazy :: p1 ++ p2 /\ R st p1 m /\ turns R lazy (lo - 1) n m p2 st' /\
      (lo = 0 -> 0 < n -> length (before st) < length (before m))
  end.

(** the text matched last by a group *)
Definition matched_last (n : nat) (g : list (nat * str)) (w : str) : Prop :=
  exists g1 g2, g = g1 ++ (n, w) :: g2 /\ forall x, ~ In (n, x) g1.

Section Meaning.
Variables is_digit is_space is_word : N -> bool.
Variable same : N -> N -> bool.

Fixpoint leads (r : regex) (st : state) (p : choices) (st' : state) : Prop :=
  match r with
  | Seq a b => exists p1 p2 m, p = p1 ++ p2 /\ leads a st p1 m /\ leads b m p2 st'
  | Alt a b => (exists p', p = false :: p' /\ leads a st p' st') \/ (exists p', p = true :: p' /\ leads b st p' st')
  | Rep lazy lo hi a => exists n, lo <= n /\ match hi with Some h => n <= h | None => True end /\ turns (leads a) lazy lo n st p st'
  | Group n a => exists m w, leads a st p m /\ after st = w ++ after m /\ st' = (before m, after m, (n, w) :: groups m)
  | Ref n => p = [] /\ exists w x, matched_last n (groups st) w /\ Forall2 (fun c d => same c d = true) w x /\
      after st = x ++ after st' /\ before st' = rev x ++ before st /\ groups st' = groups st
  | Ahead false a => p = [] /\ exists p' m, leads a st p' m /\ (forall q m', leads a st q m' -> ~ prefers q p') /\
      st' = (before st, after st, groups m)
  | Ahead true a => p = [] /\ st' = st /\ forall q m, ~ leads a st q m
  | _ => p = [] /\ goes is_digit is_space is_word same r (before st, after st) (before st', after st') /\ groups st' = groups st
  end.
End Meaning.

(** ** reading a text from left to right *)
Section Scan.
Variables is_digit is_space is_word : N -> bool.
Variable same : N -> N -> bool.
Notation leads := (leads is_digit is_space is_word same).

(** the match at a position is [st]; [advance]: an empty match does not count *)
Definition counts (advance : bool) (a : str) (st : state) : Prop := advance = true -> length (after st) < length a.
Definition best (r : regex) (advance : bool) (b a : str) (st : state) : Prop :=
  exists p, leads r (b, a, []) p st /\ counts advance a st /\
    forall q st', leads r (b, a, []) q st' -> counts advance a st' -> (q = p /\ st' = st) \/ prefers p q.
Definition no_match (r : regex) (advance : bool) (b a : str) : Prop := forall q st, leads r (b, a, []) q st -> ~ counts advance a st.

(** the characters outside of the matches, and the matches; after an empty match an empty one does not count at the same place *)
Inductive scanned (r : regex) : bool -> str -> str -> list (N + state) -> Prop :=
| scan_end advance b : no_match r advance b [] -> scanned r advance b [] []
| scan_next advance b c a l : no_match r advance b (c :: a) -> scanned r false (c :: b) a l -> scanned r advance b (c :: a) (inl c :: l)
| scan_match advance b a st empty l : best r advance b a st -> (empty = true <-> after st = a) ->
    scanned r empty (before st) (after st) l -> scanned r advance b a (inr st :: l).
End Scan.

(** the texts between the matches, and the groups of the matches *)
Fixpoint pieces (n : nat) (piece : str) (l : list (N + state)) : list (option str) :=
  match l with
  | [] => [Some piece]
  | inl c :: l => pieces n (piece ++ [c]) l
  | inr st :: l => Some piece :: map (fun k => group k st) (seq 1 n) ++ pieces n [] l
  end.
