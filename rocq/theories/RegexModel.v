(** Model of the part of python's module re that fog uses: the syntax of patterns (CPython 3.11, Lib/re/_parser.py), matching with backtracking
    (Modules/_sre), match, sub, split and escape.  A pattern that python refuses gives [None], as do the constructs left out: possessive
    repetitions, atomic groups, named groups, conditions, comments, flags within the pattern, lookbehind, the escapes \A \Z \x \u \U \N, octal numbers
    and references to groups above 9. *)
From Coq Require Import String Ascii.
From Verif Require Import Base LevModel StringsModel.
Open Scope nat_scope.
Open Scope list_scope.
Notation length := List.length.

Inductive category := Digit | NotDigit | Space | NotSpace | WordChar | NotWordChar.
Inductive item := Single (c : N) | Range (lo hi : N) | Category (k : category).
Inductive regex :=
| Eps
| Lit (c : N)
| AnyChar
| Chars (negate : bool) (items : list item)
| Start
| End
| Boundary (negate : bool)
| Seq (a b : regex)
| Alt (a b : regex)
| Rep (lazy : bool) (lo : nat) (hi : option nat) (a : regex)
| Group (n : nat) (a : regex)
| Ref (n : nat)
| Ahead (negate : bool) (a : regex).

(** ** syntax *)
Definition ch (a : ascii) : N := N_of_ascii a.
(** _parser.py:231-256 Tokenizer: a backslash goes with the next character *)
Inductive tok := Plain (c : N) | Escaped (c : N).
Fixpoint tokens (s : str) : option (list tok) :=
  match s with
  | [] => Some []
  | c :: s =>
    if N.eqb c 92 then match s with [] => None | e :: s => option_map (cons (Escaped e)) (tokens s) end
    else option_map (cons (Plain c)) (tokens s)
  end.

Definition is_digit_char (c : N) : bool := ((48 <=? c) && (c <=? 57))%N.
Definition is_letter_char (c : N) : bool := ((65 <=? c) && (c <=? 90) || (97 <=? c) && (c <=? 122))%N.
(** _parser.py:36-58 ESCAPES and CATEGORIES *)
Definition category_of (c : N) : option category :=
  if N.eqb c (ch "d") then Some Digit else if N.eqb c (ch "D") then Some NotDigit
  else if N.eqb c (ch "s") then Some Space else if N.eqb c (ch "S") then Some NotSpace
  else if N.eqb c (ch "w") then Some WordChar else if N.eqb c (ch "W") then Some NotWordChar else None.
Definition control_of (c : N) : option N :=
  if N.eqb c (ch "a") then Some 7%N else if N.eqb c (ch "f") then Some 12%N else if N.eqb c (ch "n") then Some 10%N
  else if N.eqb c (ch "r") then Some 13%N else if N.eqb c (ch "t") then Some 9%N else if N.eqb c (ch "v") then Some 11%N else None.

(** _parser.py:313-374 _class_escape, and plain characters; \b is the backspace in a set *)
Definition set_item (t : tok) : option item :=
  match t with
  | Plain c => Some (Single c)
  | Escaped c =>
    match control_of c with
    | Some c => Some (Single c)
    | None =>
      if N.eqb c (ch "b") then Some (Single 8%N)
      else match category_of c with
           | Some k => Some (Category k)
           | None => if is_letter_char c || is_digit_char c then None else Some (Single c)
           end
    end
  end.
(** _parser.py:536-604, the items of a set after its ^ *)
Fixpoint parse_set (acc : list item) (ts : list tok) : option (list item * list tok) :=
  match ts with
  | [] => None
  | t :: ts =>
    let go :=
      match set_item t with
      | None => None
      | Some i =>
        match ts with
        | Plain d :: ts1 =>
          if N.eqb d (ch "-") then
            match ts1 with
            | [] => None
            | t2 :: ts2 =>
              let range :=
                match i, set_item t2 with
                | Single lo, Some (Single hi) => if N.ltb hi lo then None else parse_set (acc ++ [Range lo hi]) ts2
                | _, _ => None
                end in
              match t2 with
              | Plain e => if N.eqb e (ch "]") then Some (acc ++ [i; Single (ch "-")], ts2) else range
              | Escaped _ => range
              end
            end
          else parse_set (acc ++ [i]) ts
        | _ => parse_set (acc ++ [i]) ts
        end
      end in
    match t, acc with
    | Plain e, _ :: _ => if N.eqb e (ch "]") then Some (acc, ts) else go
    | _, _ => go
    end
  end.
Definition parse_chars (ts : list tok) : option (regex * list tok) :=
  let '(negate, ts) := match ts with Plain c :: ts' => if N.eqb c (ch "^") then (true, ts') else (false, ts) | _ => (false, ts) end in
  match parse_set [] ts with Some (items, ts) => Some (Chars negate items, ts) | None => None end.

(** _parser.py:612-640: the bounds after an opening brace, up to the closing one; None when the brace is a character like the others *)
Fixpoint digits (ts : list tok) : list N * list tok :=
  match ts with
  | Plain c :: ts' => if is_digit_char c then let '(ds, r) := digits ts' in (c :: ds, r) else ([], ts)
  | _ => ([], ts)
  end.
Definition number (ds : list N) : N := fold_left (fun n d => (10 * n + (d - 48))%N) ds 0%N.
Definition closes (ts : list tok) : option (list tok) := match ts with Plain c :: ts' => if N.eqb c (ch "}") then Some ts' else None | _ => None end.
Definition bounds (ts : list tok) : option (list N * option (list N) * list tok) :=
  match closes ts with
  | Some _ => None
  | None =>
    let '(lo, ts) := digits ts in
    match ts with
    | Plain c :: ts' =>
      if N.eqb c (ch ",") then
        let '(hi, ts) := digits ts' in
        match closes ts with Some ts => Some (lo, Some hi, ts) | None => None end
      else match closes ts with Some ts => Some (lo, None, ts) | None => None end
    | _ => None
    end
  end.
Definition MAXREPEAT : N := 4294967295.
(** the quantifier that starts the tokens: its bounds; [Some None] if there is none, None for an error *)
Definition quantifier (ts : list tok) : option (option (nat * option nat * list tok)) :=
  match ts with
  | Plain c :: ts' =>
    if N.eqb c (ch "*") then Some (Some (0, None, ts'))
    else if N.eqb c (ch "+") then Some (Some (1, None, ts'))
    else if N.eqb c (ch "?") then Some (Some (0, Some 1, ts'))
    else if N.eqb c (ch "{") then
      match bounds ts' with
      | None => Some None
      | Some (lo, hi, ts) =>
        let lo' := number lo in
        let hi' := match hi with
                   | None => match lo with [] => None | _ => Some lo' end
                   | Some [] => None
                   | Some ds => Some (number ds)
                   end in
        if N.leb MAXREPEAT lo' then None
        else match hi' with
             | None => Some (Some (N.to_nat lo', None, ts))
             | Some h => if N.leb MAXREPEAT h || N.ltb h lo' then None else Some (Some (N.to_nat lo', Some (N.to_nat h), ts))
             end
      end
    else Some None
  | _ => Some None
  end.
(** _parser.py:642-668: the quantifier after an item; [at_]: the item is a position *)
Definition quantify (a : regex) (at_ : bool) (ts : list tok) : option (regex * list tok) :=
  match quantifier ts with
  | None => None
  | Some None => Some (a, ts)
  | Some (Some (lo, hi, ts)) =>
    if at_ then None
    else match ts with
         | Plain c :: ts' =>
           if N.eqb c (ch "?") then Some (Rep true lo hi a, ts')
           else if N.eqb c (ch "+") then None
           else Some (Rep false lo hi a, ts)
         | _ => Some (Rep false lo hi a, ts)
         end
  end.

(** _parser.py:376-450 _escape: the item and whether it is a position; [opened]: the number of the next group, [current]: the groups being read *)
Definition escape_item (opened : nat) (current : list nat) (ts : list tok) (c : N) : option (regex * bool) :=
  match category_of c with
  | Some k => Some (Chars false [Category k], false)
  | None =>
    if N.eqb c (ch "b") then Some (Boundary false, true)
    else if N.eqb c (ch "B") then Some (Boundary true, true)
    else match control_of c with
         | Some c => Some (Lit c, false)
         | None =>
           if N.eqb c 48 then None
           else if is_digit_char c then
             match ts with
             | Plain d :: _ => if is_digit_char d then None else
                 let n := N.to_nat (c - 48) in if Nat.ltb n opened && negb (memb n current) then Some (Ref n, false) else None
             | _ => let n := N.to_nat (c - 48) in if Nat.ltb n opened && negb (memb n current) then Some (Ref n, false) else None
             end
           else if is_letter_char c then None else Some (Lit c, false)
         end
  end.

(** the kind of group after its opening parenthesis *)
Inductive group_kind := Capture | NoCapture | Look (negate : bool).
Definition group_start (ts : list tok) : option (group_kind * list tok) :=
  match ts with
  | Plain q :: ts' =>
    if N.eqb q (ch "?") then
      match ts' with
      | Plain k :: ts'' =>
        if N.eqb k (ch ":") then Some (NoCapture, ts'')
        else if N.eqb k (ch "=") then Some (Look false, ts'')
        else if N.eqb k (ch "!") then Some (Look true, ts'')
        else None
      | _ => None
      end
    else Some (Capture, ts)
  | _ => Some (Capture, ts)
  end.

(** _parser.py:455-508 _parse_sub and 510-850 _parse *)
Fixpoint parse_alt (fuel : nat) (opened : nat) (current : list nat) (ts : list tok) {struct fuel} : option (regex * nat * list tok) :=
  match fuel with
  | O => None
  | S fuel =>
    match parse_seq fuel opened current ts with
    | None => None
    | Some (a, opened, ts) =>
      match ts with
      | Plain c :: ts' =>
        if N.eqb c (ch "|") then
          match parse_alt fuel opened current ts' with Some (b, opened, ts) => Some (Alt a b, opened, ts) | None => None end
        else Some (a, opened, ts)
      | _ => Some (a, opened, ts)
      end
    end
  end
with parse_seq (fuel : nat) (opened : nat) (current : list nat) (ts : list tok) {struct fuel} : option (regex * nat * list tok) :=
  match fuel with
  | O => None
  | S fuel =>
    match ts with
    | [] => Some (Eps, opened, [])
    | t :: rest =>
      let next (a : regex) (at_ : bool) (opened : nat) (ts : list tok) :=
        match quantify a at_ ts with
        | None => None
        | Some (a, ts) => match parse_seq fuel opened current ts with Some (b, opened, ts) => Some (Seq a b, opened, ts) | None => None end
        end in
      match t with
      | Escaped c => match escape_item opened current rest c with Some (a, at_) => next a at_ opened rest | None => None end
      | Plain c =>
        if N.eqb c (ch "|") || N.eqb c (ch ")") then Some (Eps, opened, ts)
        else if N.eqb c (ch "[") then match parse_chars rest with Some (a, rest) => next a false opened rest | None => None end
        else if N.eqb c (ch ".") then next AnyChar false opened rest
        else if N.eqb c (ch "^") then next Start true opened rest
        else if N.eqb c (ch "$") then next End true opened rest
        else if N.eqb c (ch "(") then
          match group_start rest with
          | None => None
          | Some (k, ts) =>
            let '(opened', current') := match k with Capture => (opened + 1, opened :: current) | _ => (opened, current) end in
            match parse_alt fuel opened' current' ts with
            | Some (a, opened', Plain e :: ts) =>
              if N.eqb e (ch ")") then
                next (match k with Capture => Group opened a | NoCapture => a | Look negate => Ahead negate a end) false opened' ts
              else None
            | _ => None
            end
          end
        else match quantifier ts with
             | Some None => next (Lit c) false opened rest
             | _ => None
             end
      end
    end
  end.
(** _parser.py:940-980 parse *)
Definition parse (pattern : str) : option regex :=
  match tokens pattern with
  | None => None
  | Some ts => match parse_alt (2 * length ts + 2) 1 [] ts with Some (r, _, []) => Some r | _ => None end
  end.

(** Lib/re/__init__.py:251-258 escape *)
Definition SPECIAL : str := codes "()[]{}?*+-|^$\.&~# " ++ [9; 10; 13; 11; 12]%N.
Definition escape (s : str) : str := flat_map (fun c => if memb c SPECIAL then [92%N; c] else [c]) s.

(** ** matching.  A position of a text is given by what comes before it, backwards, and what comes after it; with it go the groups that have been
    matched, the last ones first. *)
Definition state := (str * str * list (nat * str))%type.
Definition before (st : state) : str := fst (fst st).
Definition after (st : state) : str := snd (fst st).
Definition groups (st : state) : list (nat * str) := snd st.
Definition group (n : nat) (st : state) : option str := option_map snd (find (fun g => Nat.eqb (fst g) n) (groups st)).

Section Matching.
(** \d, \s, \w, and the equality of characters, which is not that of code points under re.I *)
Variables is_digit is_space is_word : N -> bool.
Variable same : N -> N -> bool.

Definition in_category (k : category) (c : N) : bool :=
  match k with
  | Digit => is_digit c | NotDigit => negb (is_digit c)
  | Space => is_space c | NotSpace => negb (is_space c)
  | WordChar => is_word c | NotWordChar => negb (is_word c)
  end.
Definition in_item (c : N) (i : item) : bool :=
  match i with Single a => same a c | Range lo hi => ((lo <=? c) && (c <=? hi))%N | Category k => in_category k c end.
Definition step (p : N -> bool) (st : state) : list state :=
  match st with (b, c :: a, g) => if p c then [(c :: b, a, g)] else [] | _ => [] end.
Definition word_at (s : str) : bool := match s with c :: _ => is_word c | [] => false end.
Fixpoint step_text (w : str) (st : state) : list state :=
  match w with [] => [st] | c :: w => flat_map (step_text w) (step (same c) st) end.

(** repetitions of [f]: an optional one may not start where the one before started *)
Fixpoint repeats (f : state -> list state) (lazy : bool) (fuel : nat) (last : option nat) (lo : nat) (hi : option nat) (st : state) : list state :=
  match fuel with
  | O => []
  | S fuel =>
    let here := length (before st) in
    let allowed := match hi with Some O => false | _ => true end && (Nat.ltb 0 lo || negb (eqb last (Some here))) in
    let more := if allowed then flat_map (repeats f lazy fuel (if Nat.ltb 0 lo then last else Some here) (lo - 1) (option_map pred hi)) (f st) else [] in
    let stop := if Nat.eqb lo 0 then [st] else [] in
    if lazy then stop ++ more else more ++ stop
  end.

(** the ways to match from a position, in the order in which they are tried; neither \b nor \B matches in an empty text (before python 3.14) *)
Fixpoint ways (r : regex) (st : state) {struct r} : list state :=
  match r with
  | Eps => [st]
  | Lit c => step (same c) st
  | AnyChar => step (fun c => negb (N.eqb c 10)) st
  | Chars negate items => step (fun c => xorb negate (existsb (in_item c) items)) st
  | Start => match before st with [] => [st] | _ => [] end
  | End => match after st with [] => [st] | [c] => if N.eqb c 10 then [st] else [] | _ => [] end
  | Boundary negate =>
    match before st, after st with
    | [], [] => []
    | b, a => if xorb negate (xorb (word_at b) (word_at a)) then [st] else []
    end
  | Seq a b => flat_map (ways b) (ways a st)
  | Alt a b => ways a st ++ ways b st
  | Rep lazy lo hi a => repeats (ways a) lazy (lo + length (after st) + 2) None lo hi st
  | Group n a => map (fun st' => (before st', after st', (n, firstn (length (after st) - length (after st')) (after st)) :: groups st')) (ways a st)
  | Ref n => match group n st with Some w => step_text w st | None => [] end
  | Ahead negate a =>
    match ways a st with
    | [] => if negate then [st] else []
    | st' :: _ => if negate then [] else [(before st, after st, groups st')]
    end
  end.

(** the match at a position; [advance]: it must not be empty *)
Definition match_at (r : regex) (advance : bool) (b a : str) : option state :=
  find (fun st => negb advance || Nat.ltb (length (after st)) (length a)) (ways r (b, a, [])).
(** Pattern.match, from the beginning *)
Definition re_match (r : regex) (s : str) : option state := match_at r false [] s.

(** Pattern.sub: after an empty match, the next one at the same place must not be empty *)
Fixpoint sub_loop (r : regex) (repl : state -> str) (fuel : nat) (advance : bool) (b a : str) : str :=
  match fuel with
  | O => []
  | S fuel =>
    match match_at r advance b a with
    | Some st => repl st ++ sub_loop r repl fuel (Nat.eqb (length (after st)) (length a)) (before st) (after st)
    | None => match a with [] => [] | c :: a => c :: sub_loop r repl fuel false (c :: b) a end
    end
  end.
Definition re_sub (r : regex) (repl : state -> str) (s : str) : str := sub_loop r repl (2 * length s + 2) false [] s.

(** Pattern.split: the groups, of which there are [n], come between the pieces *)
Fixpoint split_loop (r : regex) (n : nat) (fuel : nat) (advance : bool) (piece b a : str) : list (option str) :=
  match fuel with
  | O => []
  | S fuel =>
    match match_at r advance b a with
    | Some st => Some (rev piece) :: map (fun k => group k st) (seq 1 n) ++ split_loop r n fuel (Nat.eqb (length (after st)) (length a)) [] (before st) (after st)
    | None => match a with [] => [Some (rev piece)] | c :: a => split_loop r n fuel false (c :: piece) (c :: b) a end
    end
  end.
Definition re_split (r : regex) (n : nat) (s : str) : list (option str) := split_loop r n (2 * length s + 2) false [] [] s.
End Matching.

(** templates of replacement: references to groups, a backslash and a digit; [None] for the others, left out *)
Fixpoint template (s : str) : option (list (N + nat)) :=
  match s with
  | [] => Some []
  | c :: s =>
    if N.eqb c 92 then
      match s with
      | d :: s => if is_digit_char d && negb (N.eqb d 48) && negb (match s with e :: _ => is_digit_char e | [] => false end) then option_map (cons (inr (N.to_nat (d - 48)))) (template s) else None
      | [] => None
      end
    else option_map (cons (inl c)) (template s)
  end.
Definition expand (t : list (N + nat)) (st : state) : str :=
  flat_map (fun p => match p with inl c => [c] | inr n => match group n st with Some w => w | None => [] end end) t.

(** re.sub, re.split and re.match with the text of a pattern: [None] if python refuses it.  [n] is the number of groups of the pattern. *)
Section Patterns.
Variables is_digit is_space is_word : N -> bool.
Variable same : N -> N -> bool.
Definition sub_pattern (pattern replacement s : str) : option str :=
  match parse pattern, template replacement with
  | Some r, Some t => Some (re_sub is_digit is_space is_word same r (expand t) s)
  | _, _ => None
  end.
Definition split_pattern (pattern : str) (n : nat) (s : str) : option (list (option str)) :=
  option_map (fun r => re_split is_digit is_space is_word same r n s) (parse pattern).
(** whether it matches, and where the match ends *)
Definition match_pattern (pattern s : str) : option (option nat) :=
  option_map (fun r => option_map (fun st => length (before st)) (re_match is_digit is_space is_word same r s)) (parse pattern).
End Patterns.
