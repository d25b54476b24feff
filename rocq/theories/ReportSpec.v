(** How the reports are read: a part of TOML 1.0, tags and texts of HTML.  Independent of the model. *)
From Coq Require Import Ascii String QArith.
From Verif Require Import Base LevModel StringsModel PhoneticsModel CliModel CliSpec.
Open Scope nat_scope.
Open Scope list_scope.
Notation length := List.length.
Notation concat := List.concat.

(** ** TOML: tables, arrays of tables, bare keys, basic strings, integers, floats, local date-times, booleans and arrays.
    Comments, dotted keys, the other strings, inline tables, signs, exponents, offsets are not read. *)
Inductive toml :=
| TString (s : str) | TInt (n : N) | TFloat (q : Q) | TDate (date time : N * N * N) | TBool (b : bool) | TArray (l : list toml).

Inductive statement := Header (array : bool) (name : str) | Pair (key : str) (value : toml).

(** the longest beginning made of characters of a class, and the rest *)
Fixpoint span (p : N -> bool) (t : str) : str * str :=
  match t with
  | [] => ([], [])
  | c :: t' => if p c then let (a, b) := span p t' in (c :: a, b) else ([], t)
  end.

Definition digit (c : N) : bool := ((48 <=? c) && (c <=? 57))%N.
Definition letter (c : N) : bool := ((97 <=? c) && (c <=? 122) || (65 <=? c) && (c <=? 90))%N.
(** space, tabulation *)
Definition blank (c : N) : bool := ((c =? 32) || (c =? 9))%N.
(** also line feeds *)
Definition blank_line (c : N) : bool := (blank c || (c =? 10)%N).
Definition bare (c : N) : bool := digit c || letter c || ((c =? 45) || (c =? 95))%N.
(** the characters of numbers, dates, booleans *)
Definition plain (c : N) : bool := digit c || letter c || ((c =? 45) || (c =? 46) || (c =? 58))%N.

Definition skip (p : N -> bool) (t : str) : str := snd (span p t).

(** the number written by digits *)
Definition number (digits : str) : N := fold_left (fun acc c => 10 * acc + (c - 48))%N digits 0%N.

(** no empty list of digits, no leading zero *)
Definition integer (t : str) : option N :=
  if forallb digit t then
    match t with
    | [] => None
    | c :: _ :: _ => if (c =? 48)%N then None else Some (number t)
    | _ => Some (number t)
    end
  else None.

Fixpoint power10 (n : nat) : positive := match n with O => 1%positive | S n => (10 * power10 n)%positive end.

(** digits on both sides of the point *)
Definition float (t : str) : option Q :=
  let (a, b) := span digit t in
  match integer a, b with
  | Some n, point :: f =>
    if (point =? 46)%N && forallb digit f && negb (Nat.eqb (length f) 0) then
      Some (Z.of_N (n * Npos (power10 (length f)) + number f) # power10 (length f))
    else None
  | _, _ => None
  end.

Definition days_in (y m : N) : N :=
  if (m =? 2)%N then if ((y mod 4 =? 0) && (negb (y mod 100 =? 0) || (y mod 400 =? 0)))%N then 29%N else 28%N
  else if ((m =? 4) || (m =? 6) || (m =? 9) || (m =? 11))%N then 30%N else 31%N.

(** YYYY-MM-DDThh:mm:ss *)
Definition two (a b : N) : N := number [a; b].
Definition date_time (t : str) : option ((N * N * N) * (N * N * N)) :=
  match t with
  | [y1; y2; y3; y4; d1; m1; m2; d2; a1; a2; sep; h1; h2; c1; i1; i2; c2; s1; s2] =>
    let y := number [y1; y2; y3; y4] in
    if forallb digit [y1; y2; y3; y4; m1; m2; a1; a2; h1; h2; i1; i2; s1; s2] &&
       ((d1 =? 45) && (d2 =? 45) && (sep =? 84) && (c1 =? 58) && (c2 =? 58) &&
        (1 <=? two m1 m2) && (two m1 m2 <=? 12) && (1 <=? two a1 a2) && (two a1 a2 <=? days_in y (two m1 m2)) &&
        (two h1 h2 <=? 23) && (two i1 i2 <=? 59) && (two s1 s2 <=? 60))%N
    then Some ((y, two m1 m2, two a1 a2), (two h1 h2, two i1 i2, two s1 s2)) else None
  | _ => None
  end.

Definition scalar (t : str) : option toml :=
  if eqb t (codes "true") then Some (TBool true)
  else if eqb t (codes "false") then Some (TBool false)
  else match integer t with
       | Some n => Some (TInt n)
       | None =>
         match float t with
         | Some q => Some (TFloat q)
         | None => match date_time t with Some (d, h) => Some (TDate d h) | None => None end
         end
       end.

(** a value, or the items of an array from after its opening bracket, and what follows *)
Fixpoint read_value (fuel : nat) (t : str) : option (toml * str) :=
  match fuel with
  | O => None
  | S fuel =>
    match t with
    | [] => None
    | c :: t' =>
      if (c =? 34)%N then match read_toml t' with Some (s, rest) => Some (TString s, rest) | None => None end
      else if (c =? 91)%N then match read_items fuel t' with Some (l, rest) => Some (TArray l, rest) | None => None end
      else let (tok, rest) := span plain t in match scalar tok with Some v => Some (v, rest) | None => None end
    end
  end
with read_items (fuel : nat) (t : str) : option (list toml * str) :=
  match fuel with
  | O => None
  | S fuel =>
    match skip blank_line t with
    | [] => None
    | c :: t' =>
      if (c =? 93)%N then Some ([], t')
      else match read_value fuel (c :: t') with
           | None => None
           | Some (v, rest) =>
             match skip blank_line rest with
             | d :: rest =>
               if (d =? 93)%N then Some ([v], rest)
               else if (d =? 44)%N then match read_items fuel rest with Some (l, rest) => Some (v :: l, rest) | None => None end
               else None
             | [] => None
             end
           end
    end
  end.

Definition read_key (t : str) : option (str * str) :=
  match span bare t with ([], _) => None | (k, rest) => Some (k, rest) end.

(** the end of a line *)
Definition end_of_line (t : str) : option str :=
  match skip blank t with [] => Some [] | c :: rest => if (c =? 10)%N then Some rest else None end.

(** a line, or more if it has an array; from its first character *)
Definition read_statement (t : str) : option (statement * str) :=
  match t with
  | c :: d :: t' =>
    if (c =? 91)%N then
      let array := (d =? 91)%N in
      match read_key (if array then t' else d :: t') with
      | None => None
      | Some (k, rest) =>
        match rest with
        | e :: rest =>
          if (e =? 93)%N then
            match (if array then match rest with f :: rest => if (f =? 93)%N then Some rest else None | [] => None end else Some rest) with
            | None => None
            | Some rest => match end_of_line rest with Some rest => Some (Header array k, rest) | None => None end
            end
          else None
        | [] => None
        end
      end
    else
      match read_key t with
      | None => None
      | Some (k, rest) =>
        match skip blank rest with
        | e :: rest =>
          if (e =? 61)%N then
            match read_value (S (length rest)) (skip blank rest) with
            | None => None
            | Some (v, rest) => match end_of_line rest with Some rest => Some (Pair k v, rest) | None => None end
            end
          else None
        | [] => None
        end
      end
  | _ => None
  end.

Fixpoint read_statements (fuel : nat) (t : str) : option (list statement) :=
  match fuel with
  | O => None
  | S fuel =>
    match skip blank_line t with
    | [] => Some []
    | t =>
      match read_statement t with
      | None => None
      | Some (s, rest) => match read_statements fuel rest with Some l => Some (s :: l) | None => None end
      end
    end
  end.

(** a table: whether it is the element of an array, its name, its keys and values *)
Definition table : Type := bool * str * list (str * toml).

Fixpoint tables_of (l : list statement) : list (str * toml) * list table :=
  match l with
  | [] => ([], [])
  | Pair k v :: l => let (pairs, tables) := tables_of l in ((k, v) :: pairs, tables)
  | Header array name :: l => let (pairs, tables) := tables_of l in ([], (array, name, pairs) :: tables)
  end.

Fixpoint no_repetition (l : list str) : bool :=
  match l with [] => true | x :: l => negb (memb x l) && no_repetition l end.

(** no key is defined twice, no table is, and no array of tables has the name of a table *)
Definition valid_tables (tables : list table) : bool :=
  let single := map (fun t => snd (fst t)) (filter (fun t => negb (fst (fst t))) tables) in
  forallb (fun t => no_repetition (map fst (snd t))) tables && no_repetition single &&
  forallb (fun t => negb (fst (fst t)) || negb (memb (snd (fst t)) single)) tables.

Definition read_document (t : str) : option (list table) :=
  match read_statements (S (length t)) t with
  | None => None
  | Some l => match tables_of l with ([], tables) => if valid_tables tables then Some tables else None | _ => None end
  end.

(** ** HTML: tags without attributes, and the texts between them, without the blanks around *)
Inductive token := Open (name : str) | Close (name : str) | Text (s : str).

Fixpoint drop_blanks (s : str) : str := match s with c :: s' => if blank_line c then drop_blanks s' else s | [] => [] end.
Definition trim (s : str) : str := rev (drop_blanks (rev (drop_blanks s))).

Definition text (s : str) : list token := match trim s with [] => [] | s => [Text s] end.
Definition tag (s : str) : token := match s with c :: name => if (c =? 47)%N then Close name else Open s | [] => Open [] end.

(** [inside]: within a tag; [acc]: what has been read of it or of the text, backwards *)
Fixpoint tokens (inside : bool) (acc : str) (t : str) : list token :=
  match t with
  | [] => text (rev acc)
  | c :: t =>
    if inside then if (c =? 62)%N then tag (rev acc) :: tokens false [] t else tokens true (c :: acc) t
    else if (c =? 60)%N then text (rev acc) ++ tokens true [] t else tokens false (c :: acc) t
  end.
Definition read_html (t : str) : list token := tokens false [] t.

(** each tag is closed in turn: the tags still open at the end, None if a closing tag has no opening one *)
Fixpoint open_tags (stack : list str) (l : list token) : option (list str) :=
  match l with
  | [] => Some stack
  | Open n :: l => open_tags (n :: stack) l
  | Text _ :: l => open_tags stack l
  | Close n :: l => match stack with m :: stack => if eqb n m then open_tags stack l else None | [] => None end
  end.
Definition balanced (l : list token) : Prop := open_tags [] l = Some [].

(** the texts between <name> and </name>, when there is nothing else *)
Fixpoint contents (name : str) (l : list token) : list str :=
  match l with
  | Open n :: ((Text s :: Close m :: _) as l') => if eqb n name && eqb m name then s :: contents name l' else contents name l'
  | _ :: l' => contents name l'
  | [] => []
  end.

(** ** numbers with commas: groups of three digits, but the first one that has one to three *)
Fixpoint groups (l : str) (cur : str) : list str :=
  match l with
  | [] => [rev cur]
  | c :: l => if (c =? 44)%N then rev cur :: groups l [] else groups l (c :: cur)
  end.
Definition comma_number (t : str) : option N :=
  match groups t [] with
  | [] => None
  | first :: others =>
    if Nat.leb (length first) 3 && forallb (fun g => Nat.eqb (length g) 3 && forallb digit g) others then
      match integer first with
      | None => None
      | Some n => if (n =? 0)%N && negb (Nat.eqb (length others) 0) then None else Some (fold_left (fun acc g => 1000 * acc + number g)%N others n)
      end
    else None
  end.

(** ** durations, [D day[s], ]H:MM:SS[.ffffff], in microseconds *)
Definition read_clock (h : N) (t : str) : option N :=
  match t with
  | c1 :: m1 :: m2 :: c2 :: s1 :: s2 :: f =>
    if forallb digit [m1; m2; s1; s2] && ((c1 =? 58) && (c2 =? 58) && (h <? 24) && (two m1 m2 <? 60) && (two s1 s2 <? 60))%N then
      let s := (3600 * h + 60 * two m1 m2 + two s1 s2)%N in
      match f with
      | [] => Some (1000000 * s)%N
      | p :: f => if (p =? 46)%N && Nat.eqb (length f) 6 && forallb digit f && negb (number f =? 0)%N then Some (1000000 * s + number f)%N else None
      end
    else None
  | _ => None
  end.
Definition read_duration (t : str) : option N :=
  let (a, rest) := span digit t in
  match integer a with
  | None => None
  | Some n =>
    if starts_with (codes " day") rest then
      let suffix := codes (if (n =? 1)%N then " day, " else " days, ") in
      if starts_with suffix rest && negb (n =? 0)%N then
        let (b, rest) := span digit (skipn (length suffix) rest) in
        match integer b with
        | None => None
        | Some h => match read_clock h rest with Some us => Some (86400000000 * n + us)%N | None => None end
        end
      else None
    else read_clock n rest
  end.

(** a date of the calendar *)
Definition valid_date (y m d h i s : N) : Prop :=
  (y <= 9999 /\ 1 <= m <= 12 /\ 1 <= d <= days_in y m /\ h <= 23 /\ i <= 59 /\ s <= 59)%N.

(** ** what the TOML report says *)
Definition named (name : string) (v : toml) : str * toml := (codes name, v).
Definition count (n : nat) : toml := TInt (N.of_nat n).
Definition cluster_table (rc : report_cluster) : table :=
  (true, codes "cluster",
   [named "id" (count (rc_id rc)); named "nb_values" (count (rc_nb_values rc)); named "nb_rows" (count (rc_nb_rows rc));
    named "harmonized" (TString (rc_harmonized rc));
    named "values" (TArray (map (fun vn => TArray [TArray [TString (fst vn)]; TArray [count (snd vn)]]) (rc_values rc)));
    named "harmonize" (TBool false)]).
Definition report_tables (date time : N * N * N) (algorithm : str) (took : Q) (rep : report) : list table :=
  (false, codes "info", [named "date" (TDate date time); named "algorithm" (TString algorithm)]) ::
  (false, codes "stats",
   [named "lines" (count (r_lines rep)); named "nb_distinct_values" (count (r_nb_distinct_values rep));
    named "nb_clusters" (count (r_nb_clusters rep)); named "took" (TFloat took)]) ::
  map cluster_table (r_clusters rep).

(** ** what the HTML report says *)
Definition element (name : string) (l : list token) : list token := Open (codes name) :: l ++ [Close (codes name)].
Definition row (title : string) (value : str) : list token :=
  element "tr" (element "td" (element "b" (text (codes title))) ++ element "td" (text value)).
(** a caption and the values *)
Definition cluster_tokens (caption : str) (values : list str) : list token :=
  element "p" (text caption ++ element "ul" (concat (map (fun v => element "li" (text v)) values))).
Definition page (date algorithm lines distinct found took : str) (clusters : list (str * list str)) : list token :=
  element "head" (element "title" (text (codes "Clustering result")) ++ element "style" (text (codes "td {padding-right: 10px};"))) ++
  element "body" (
    element "h1" (text (codes "Clustering result")) ++
    element "div" (element "h2" (text (codes "Information:")) ++
      element "table" (row "Date" date ++ row "Algorithm used" algorithm)) ++
    element "div" (element "h2" (text (codes "Statistics:")) ++
      element "table" (row "Lines" lines ++ row "Distinct values" distinct ++ row "Found clusters" found ++ row "Took" took)) ++
    element "div" (element "h2" (text (codes "Clusters:")) ++
      concat (map (fun cv => cluster_tokens (fst cv) (snd cv)) clusters))).

(** the line above the values of a cluster *)
Definition is_caption (rc : report_cluster) (s : str) : Prop :=
  exists id nb_values nb_rows,
    s = codes "Cluster n" ++ [176%N] ++ id ++ codes " (" ++ nb_values ++ codes " unique values, " ++ nb_rows ++ codes " affected rows):" /\
    integer id = Some (N.of_nat (rc_id rc + 1)) /\ integer nb_values = Some (N.of_nat (rc_nb_values rc)) /\ integer nb_rows = Some (N.of_nat (rc_nb_rows rc)).

Definition not_blank (s : str) : bool := match trim s with [] => false | _ => true end.

(** the text of the cell at the right of a title *)
Fixpoint cell_after (title : string) (l : list token) : option str :=
  match l with
  | [] => None
  | Text t :: ((Close b :: Close d :: Open d' :: Text s :: Close d'' :: _) as l') =>
    if eqb t (codes title) && eqb b (codes "b") && eqb d (codes "td") && eqb d' (codes "td") && eqb d'' (codes "td") then Some s else cell_after title l'
  | _ :: l' => cell_after title l'
  end.
