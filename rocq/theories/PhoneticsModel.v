(** Model of fog/phonetics/cologne.py and fog/phonetics/rusalka.py.  str.upper, str.lower and unidecode are oracles
    on the given name; the regular expressions are explicit matchers. *)
From Coq Require Import String Ascii.
From Verif Require Import Base LevModel StringsModel.
Open Scope nat_scope.
Open Scope list_scope.
Notation length := List.length.
Notation concat := List.concat.

(** code point of an ASCII literal *)
Definition chr (a : ascii) : N := N_of_ascii a.

Fixpoint starts_with (p s : str) : bool :=
  match p, s with
  | [], _ => true
  | _, [] => false
  | a :: p', b :: s' => N.eqb a b && starts_with p' s'
  end.

(** str.replace and re.sub by a constant: scan from the left.  [matcher start rest]: length of the (non-empty) match
    here, [start] telling if this is the beginning of the string; [skip]: characters of the current match still to
    be dropped. *)
Fixpoint re_sub (matcher : bool -> str -> option nat) (repl : str) (start : bool) (skip : nat) (s : str) : str :=
  match s with
  | [] => []
  | c :: rest =>
    match skip with
    | S k => re_sub matcher repl false k rest
    | O =>
      match matcher start s with
      | Some (S k) => repl ++ re_sub matcher repl false k rest
      | _ => c :: re_sub matcher repl false 0 rest
      end
    end
  end.

Definition literal (p : str) (start : bool) (s : str) : option nat :=
  if starts_with p s then Some (length p) else None.
Definition replace (p r s : str) : str := re_sub (literal p) r true 0 s.

(** ** cologne.py *)
Section Cologne.
Variable upper unidecode : str -> str.

(** cologne.py:60-66 *)
Definition GERMANIC_SUBSTITUTIONS : list (str * str) :=
  [([196%N], codes "A"); ([214%N], codes "O"); ([220%N], codes "U"); ([223%N], codes "SS"); (codes "PH", codes "F")].

(** cologne.py:21-52 CODES.get; [H] is there with None *)
Definition CODES_get (c : N) : option str :=
  if memb c (codes "AEIOUJY") then Some (codes "0")
  else if memb c (codes "BP") then Some (codes "1")
  else if memb c (codes "FVW") then Some (codes "3")
  else if memb c (codes "GKQ") then Some (codes "4")
  else if memb c (codes "L") then Some (codes "5")
  else if memb c (codes "MN") then Some (codes "6")
  else if memb c (codes "R") then Some (codes "7")
  else if memb c (codes "SZ") then Some (codes "8")
  else None.

(** cologne.py:54-58 *)
Definition DT : str := codes "CSZ".
Definition CFOLLOWING1 : str := codes "AHKLOQRUX".
Definition CFOLLOWING2 : str := codes "AHKOQUX".
Definition CPREVIOUS : str := codes "SZ".
Definition Xprev : str := codes "CQK".

(** cologne.py:82-88 *)
Definition cologne_letters (name : str) : str :=
  let name := upper name in
  let name := fold_left (fun name pr => replace (fst pr) (snd pr) name) GERMANIC_SUBSTITUTIONS name in
  let name := unidecode name in
  filter is_upper_letter name.

(** name[i - 1], which is the last letter for i = 0 *)
Definition prev_letter (name : str) (i : nat) : N := match i with O => last name 0%N | S j => nth j name 0%N end.

(** cologne.py:94-118: the codes appended for the letter at position i.  The reads of name[i + 1] are guarded. *)
Definition letter_codes (name : str) (i : nat) : list str :=
  let letter := nth i name 0%N in
  let last_i := length name - 1 in
  let next := nth (i + 1) name 0%N in
  match CODES_get letter with
  | Some code => [code]
  | None =>
    if N.eqb letter (chr "D") || N.eqb letter (chr "T") then
      [if Nat.ltb i last_i && memb next DT then codes "8" else codes "2"]
    else if N.eqb letter (chr "C") then
      [if Nat.ltb 1 (length name) && (Nat.eqb i 0 && memb next CFOLLOWING1)
          || (Nat.ltb i last_i && memb next CFOLLOWING2 && negb (memb (prev_letter name i) CPREVIOUS))
       then codes "4" else codes "8"]
    else if N.eqb letter (chr "X") then
      [if Nat.ltb 0 i && memb (prev_letter name i) Xprev then codes "8" else codes "48"]
    else []
  end.

(** cologne.py:69-126 cologne *)
Definition cologne (name : str) : str :=
  let name := cologne_letters name in
  match flat_map (letter_codes name) (seq 0 (length name)) with
  | [] => []
  | code0 :: rest => code0 ++ filter (fun c => negb (N.eqb c 48)) (squeeze (concat rest) false)
  end.
End Cologne.

(** ** rusalka.py *)
Section Rusalka.
Variable lower unidecode : str -> str.

Definition one_of (cs : string) (c : N) : bool := memb c (codes cs).

(** rusalka.py:59-63 PHONETIC_NOTATION_RULES; the characters of a rule never produce those of the next ones *)
Definition notation (c : N) : str :=
  if memb c [269; 353; 349]%N then codes "ch" else if N.eqb c 251 then codes "iou"
  else if N.eqb c 382 then codes "zh" else [c].

Definition ESH : N := 643%N.
Definition EZH : N := 658%N.

(** rusalka.py:65-76 RULES *)
Definition m_cz := literal (codes "cz").
Definition m_ij (start : bool) (s : str) : option nat :=
  match s with [a; b] => if N.eqb a (chr "i") && one_of "jy" b then Some 2 else None | _ => None end.
Definition m_f (start : bool) (s : str) : option nat :=
  match s with
  | a :: _ => if one_of "fvw" a then Some 1 else literal (codes "ph") start s
  | [] => None
  end.
Definition m_e (start : bool) (s : str) : option nat :=
  if start then
    match s with
    | a :: b :: _ => if one_of "jy" a && N.eqb b (chr "e") then Some 2 else if N.eqb a (chr "e") then Some 1 else None
    | [a] => if N.eqb a (chr "e") then Some 1 else None
    | [] => None
    end
  else None.
(** [[cs]h] *)
Definition csh (s : str) : bool := match s with a :: b :: _ => one_of "cs" a && N.eqb b (chr "h") | _ => false end.
Definition m_sh (start : bool) (s : str) : option nat :=
  match s with
  | a :: r => if one_of "dt" a && csh r then Some 3 else if csh s then Some 2 else literal (codes "tz") start s
  | [] => None
  end.
(** [(?:zh|j)] *)
Definition zh (s : str) : option nat :=
  if starts_with (codes "zh") s then Some 2 else if starts_with (codes "j") s then Some 1 else None.
Definition m_zh (start : bool) (s : str) : option nat :=
  match s with
  | a :: r => match (if one_of "dt" a then zh r else None) with Some n => Some (S n) | None => zh s end
  | [] => None
  end.
Definition m_ks := literal (codes "ks").
Definition m_y (start : bool) (s : str) : option nat :=
  match s with
  | a :: b :: _ => if start && N.eqb a (chr "y") && one_of "aeiou" b then Some 1 else literal (codes "iou") start s
  | _ => None
  end.
Definition m_cg (start : bool) (s : str) : option nat :=
  match s with a :: _ => if one_of "cg" a then Some 1 else None | [] => None end.
Definition m_h := literal (codes "h").

Definition RULES : list ((bool -> str -> option nat) * str) :=
  [(m_cz, codes "ts"); (m_ij, []); (m_f, codes "f"); (m_e, codes "J"); (m_sh, [ESH]); (m_zh, [EZH]); (m_ks, codes "x");
   (m_y, codes "j"); (m_cg, codes "k"); (m_h, [])].

Definition is_lower_letter (c : N) : bool := (97 <=? c)%N && (c <=? 122)%N.

(** rusalka.py:84-94 *)
Definition rusalka_letters (name : str) : str :=
  filter is_lower_letter (unidecode (flat_map notation (lower name))).

Definition apply_rules (rules : list ((bool -> str -> option nat) * str)) (name : str) : str :=
  fold_left (fun name pr => re_sub (fst pr) (snd pr) true 0 name) rules name.

(** str.lower on the letters met at rusalka.py:105: a-z, J and both phonetic signs *)
Definition lower_J (c : N) : N := if is_upper_letter c then (c + 32)%N else c.

Definition is_vowel (c : N) : bool := one_of "aeiouy" c.

(** rusalka.py:81-117 rusalka; for a name of at most one letter, lower changes nothing *)
Definition rusalka (name : str) : res str :=
  let name := rusalka_letters name in
  if Nat.ltb (length name) 2 then Ok name
  else
    let name := apply_rules RULES name in
    let name := squeeze_sub dot_matches None name in
    match map lower_J name with
    | [] => Err IndexError
    | first_letter :: rest =>
      let rest := filter (fun c => negb (is_vowel c)) rest in
      Ok ((if is_vowel first_letter then chr "a" else first_letter) :: rest)
    end.
End Rusalka.
