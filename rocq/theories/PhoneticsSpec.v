(** Specification for the phonetic codes.  Independent of the model. *)
From Coq Require Import List NArith Bool.
From Coq Require Import String Ascii.
Import ListNotations.
Open Scope list_scope.
Open Scope N_scope.
Open Scope string_scope.
Open Scope list_scope.

Definition is_one_of (letters : string) (c : option N) : bool :=
  match c with
  | Some c => existsb (fun a => N.eqb c (N_of_ascii a)) (list_ascii_of_string letters)
  | None => false
  end.
Definition digit (n : N) : N := (48 + n)%N.

(** Cologne phonetics: code of a letter between its neighbours, by digits; H has none *)
Definition context_code (prev : option N) (c : N) (next : option N) : list N :=
  let is letters := is_one_of letters (Some c) in
  map digit
   (    if is "AEIOUJY" then [0]
    else if is "BP" then [1]
    else if is "DT" then if is_one_of "CSZ" next then [8] else [2]
    else if is "FVW" then [3]
    else if is "GKQ" then [4]
    else if is "C" then
      match prev with
      | None => if is_one_of "AHKLOQRUX" next then [4] else [8]
      | Some _ => if is_one_of "AHKOQUX" next && negb (is_one_of "SZ" prev) then [4] else [8]
      end
    else if is "X" then if is_one_of "CKQ" prev then [8] else [4; 8]
    else if is "L" then [5]
    else if is "MN" then [6]
    else if is "R" then [7]
    else if is "SZ" then [8]
    else []).

(** codes of the letters that have one *)
Fixpoint context_codes (prev : option N) (w : list N) : list (list N) :=
  match w with
  | [] => []
  | c :: r =>
    match context_code prev c (hd_error r) with [] => [] | code => [code] end ++ context_codes (Some c) r
  end.

(** umlauts and sharp s are spelled out, PH is read F *)
Definition spelled (c : N) : list N :=
  if N.eqb c 196 then [65] else if N.eqb c 214 then [79] else if N.eqb c 220 then [85] else if N.eqb c 223 then [83; 83] else [c].
Fixpoint germanic (w : list N) : list N :=
  match w with
  | [] => []
  | c :: r =>
    if N.eqb c 80 then
      match r with
      | h :: r' => if N.eqb h 72 then 70 :: germanic r' else 80 :: germanic r
      | [] => [80]
      end
    else spelled c ++ germanic r
  end.

(** one occurrence per run *)
Fixpoint dedupe (l : list N) : list N :=
  match l with
  | [] => []
  | a :: t => match t with
              | b :: _ => if N.eqb a b then dedupe t else a :: dedupe t
              | [] => [a]
              end
  end.

(** only the letter h, maybe followed by a final ij or iy *)
Definition silent (w : list N) : Prop :=
  exists n, w = repeat 104%N n \/ w = repeat 104%N n ++ [105; 106]%N \/ w = repeat 104%N n ++ [105; 121]%N.
