(** Model of the commands of fog/cli as they read and write files: the csv module (excel dialect) is written out after CPython's
    Modules/_csv.c.  A file is its characters: encodings are left out.  Files are opened in text mode with the default newline:
    on reading \r and \r\n become \n, on writing nothing changes (posix).  Characters NUL are read as any other (CPython >= 3.11). *)
From Coq Require Import String.
From Verif Require Import Base LevModel StringsModel PhoneticsModel PairwiseModel GraphModel SortModel BlockingModel CliModel ReportModel.
Open Scope nat_scope.
Open Scope list_scope.
Notation length := List.length.
Notation concat := List.concat.

Definition LF : N := 10.
Definition CR : N := 13.
Definition QUOTE : N := 34.
Definition COMMA : N := 44.

(** ** Reading *)

(** io.TextIOWrapper, newline=None *)
Fixpoint universal_newlines (s : str) : str :=
  match s with
  | [] => []
  | c :: s' =>
    if (c =? CR)%N then LF :: match s' with d :: s'' => if (d =? LF)%N then universal_newlines s'' else universal_newlines s' | [] => [] end
    else c :: universal_newlines s'
  end.

(** for line in f: [cur]: the current line, backwards *)
Fixpoint file_lines (cur s : str) : list str :=
  match s with
  | [] => match cur with [] => [] | _ => [rev cur] end
  | c :: s' => if (c =? LF)%N then rev (c :: cur) :: file_lines [] s' else file_lines (c :: cur) s'
  end.

Inductive reader_state := START_RECORD | START_FIELD | IN_FIELD | IN_QUOTED_FIELD | QUOTE_IN_QUOTED_FIELD | EAT_CRNL.

(** the field is kept backwards, with its length; so are the fields *)
Record reader := { state : reader_state; field_len : N; field : str; fields : list str }.

Definition fresh : reader := {| state := START_RECORD; field_len := 0; field := []; fields := [] |}.

(** csv.field_size_limit() *)
Definition field_limit : N := 131072.

Definition to_state (s : reader_state) (r : reader) : reader :=
  {| state := s; field_len := field_len r; field := field r; fields := fields r |}.
(** parse_add_char *)
Definition add_char (c : N) (s : reader_state) (r : reader) : res reader :=
  if (field_limit <=? field_len r)%N then Err CsvError
  else Ok {| state := s; field_len := field_len r + 1; field := c :: field r; fields := fields r |}.
(** parse_save_field *)
Definition save_field (s : reader_state) (r : reader) : reader :=
  {| state := s; field_len := 0; field := []; fields := rev (field r) :: fields r |}.

Definition newline (c : N) : bool := (c =? LF)%N || (c =? CR)%N.

(** parse_process_char; None: the end of a line.  excel: delimiter ",", quotechar """", doublequote, not strict *)
Definition process_char (r : reader) (c : option N) : res reader :=
  match state r, c with
  | START_RECORD, None => Ok r
  | (START_RECORD | START_FIELD) as s, Some c =>
    if newline c then Ok (match s with START_RECORD => to_state EAT_CRNL r | _ => save_field EAT_CRNL r end)
    else if (c =? QUOTE)%N then Ok (to_state IN_QUOTED_FIELD r)
    else if (c =? COMMA)%N then Ok (save_field START_FIELD r)
    else add_char c IN_FIELD r
  | START_FIELD, None => Ok (save_field START_RECORD r)
  | IN_FIELD, Some c =>
    if newline c then Ok (save_field EAT_CRNL r)
    else if (c =? COMMA)%N then Ok (save_field START_FIELD r)
    else add_char c IN_FIELD r
  | IN_FIELD, None => Ok (save_field START_RECORD r)
  | IN_QUOTED_FIELD, Some c =>
    if (c =? QUOTE)%N then Ok (to_state QUOTE_IN_QUOTED_FIELD r) else add_char c IN_QUOTED_FIELD r
  | IN_QUOTED_FIELD, None => Ok r
  | QUOTE_IN_QUOTED_FIELD, Some c =>
    if (c =? QUOTE)%N then add_char c IN_QUOTED_FIELD r
    else if (c =? COMMA)%N then Ok (save_field START_FIELD r)
    else if newline c then Ok (save_field EAT_CRNL r)
    else add_char c IN_FIELD r
  | QUOTE_IN_QUOTED_FIELD, None => Ok (save_field START_RECORD r)
  | EAT_CRNL, Some c => if newline c then Ok r else Err CsvError
  | EAT_CRNL, None => Ok (to_state START_RECORD r)
  end.

(** Reader_iternext: a row, or None at the end of the file, and the lines that remain *)
Fixpoint next_record (r : reader) (lines : list str) : res (option (list str) * list str) :=
  match lines with
  | [] =>
    match state r with
    | IN_QUOTED_FIELD => Ok (Some (rev (fields (save_field IN_QUOTED_FIELD r))), [])
    | _ => if (field_len r =? 0)%N then Ok (None, []) else Ok (Some (rev (fields (save_field (state r) r))), [])
    end
  | line :: lines =>
    let! r := foldM process_char (map Some line ++ [None]) r in
    match state r with START_RECORD => Ok (Some (rev (fields r)), lines) | _ => next_record r lines end
  end.

(** for row in reader: the rows, and the exception that ends the loop, if any.  Each row takes a line: the fuel is their number *)
Fixpoint read_rows (fuel : nat) (lines : list str) : list (list str) * option exn :=
  match fuel with
  | 0 => ([], None)
  | S fuel =>
    match next_record fresh lines with
    | Err e => ([], Some e)
    | Ok (None, _) => ([], None)
    | Ok (Some row, lines) => let '(rows, e) := read_rows fuel lines in (row :: rows, e)
    end
  end.
Definition read_csv (text : str) : list (list str) * option exn :=
  let lines := file_lines [] (universal_newlines text) in read_rows (length lines) lines.

(** ** Writing *)

Definition special (c : N) : bool := (c =? COMMA)%N || (c =? QUOTE)%N || newline c.
(** join_append_data *)
Definition double_quotes (s : str) : str := flat_map (fun c => if (c =? QUOTE)%N then [QUOTE; QUOTE] else [c]) s.
Definition write_field (s : str) : str := if existsb special s then QUOTE :: double_quotes s ++ [QUOTE] else double_quotes s.
Fixpoint with_commas (l : list str) : str :=
  match l with [] => [] | [a] => a | a :: l' => a ++ COMMA :: with_commas l' end.
(** csv_writerow, of strings: a row whose only cell is empty is written with quotation marks *)
Definition writerow (row : list str) : str :=
  let record := with_commas (map write_field row) in
  match row, record with _ :: _, [] => [QUOTE; QUOTE] | _, _ => record end ++ [CR; LF].
Definition write_csv (rows : list (list str)) : str := concat (map writerow rows).

(** ** The commands: what is in the output file in the end, and the exception that ends the command, if any *)

(** one row at a time is read, and the rows that come from it are written *)
Fixpoint each_row (f : list str -> res (list (list str))) (rows : list (list str)) (stop : option exn) : str * option exn :=
  match rows with
  | [] => ([], stop)
  | row :: rows =>
    match f row with
    | Err e => ([], Some e)
    | Ok out => let '(text, e) := each_row f rows stop in (write_csv out ++ text, e)
    end
  end.

(** utils.py:10-21: next(reader, None) may raise too *)
Definition file_reader (text : str) (target_header : str) : res (list str * nat * (list (list str) * option exn)) :=
  match read_csv text with
  | ([], Some e) => Err e
  | ([], None) => Err AttributeError
  | (headers :: rows, stop) =>
    match index_of target_header headers with Some i => Ok (headers, i, (rows, stop)) | None => Err ValueError end
  end.

(** split.py:13-39 *)
Definition split_file (text column separator : str) (target_column rename_column : option str) : str * option exn :=
  match file_reader text column with
  | Err e => ([], Some e)
  | Ok (headers, position, (rows, stop)) =>
    let headers := match target_column with Some t => headers ++ [t] | None => headers end in
    let headers := match rename_column with Some r => set_nth position r headers | None => headers end in
    let '(out, e) := each_row (split_line separator target_column position) rows stop in
    (writerow headers ++ out, e)
  end.

(** what the operations of transform are applied to: a string, or the number that len gives *)
Inductive value := Text (s : str) | Number (n : nat).
(** str(): what csv writes *)
Definition written (v : value) : str := match v with Text s => s | Number n => py_nat n end.

Section Transform.
(** str.lower, str.strip, str.upper, unidecode and fingerprint on strings *)
Variable lower strip upper unidecode fingerprint : str -> str.

(** a method of str, or a function that calls one; a number has none *)
Definition method (f : str -> str) (v : value) : res value := match v with Text s => Ok (Text (f s)) | Number _ => Err AttributeError end.

(** transform.py:13-21; re.sub and len refuse numbers with a TypeError *)
Definition OPERATIONS (name : str) : option (value -> res value) :=
  if eqb name (codes "fingerprint") then Some (method fingerprint)
  else if eqb name (codes "len") then Some (fun v => match v with Text s => Ok (Number (length s)) | Number _ => Err TypeError end)
  else if eqb name (codes "lower") then Some (method lower)
  else if eqb name (codes "squeeze") then Some (fun v => match v with Text s => Ok (Text (squeeze s false)) | Number _ => Err TypeError end)
  else if eqb name (codes "strip") then Some (method strip)
  else if eqb name (codes "unidecode") then Some (method unidecode)
  else if eqb name (codes "upper") then Some (method upper)
  else None.

(** transform.py:29-30 *)
Definition operation_chain (operations : str) : res (list (value -> res value)) :=
  mapM (fun name => match OPERATIONS name with Some f => Ok f | None => Err KeyError end) (split_loop (codes ",") [] 0 operations).

(** transform.py:42-63; [change]: what is applied to a cell *)
Definition transform_row (change : str -> res value) (target after : bool) (position : nat) (line : list str) : res (list (list str)) :=
  let! cell := cell_at line position in
  let! new_value := change cell in
  let v := written new_value in
  if target then Ok [if after then insert_after position v line else line ++ [v]]
  else let! line := assign position v line in Ok [line].

(** [evaluate]: eval of the operations on a value, if --eval is given *)
Definition transform_file (text column operations : str) (target_column : option str) (after : bool) (evaluate : option (str -> res value)) : str * option exn :=
  let change :=
    match evaluate with
    | Some f => Ok f
    | None => let! chain := operation_chain operations in Ok (fun cell => foldM (fun v op => op v) chain (Text cell))
    end in
  match change with
  | Err e => ([], Some e)
  | Ok change =>
    match file_reader text column with
    | Err e => ([], Some e)
    | Ok (headers, position, (rows, stop)) =>
      let headers := match target_column with Some t => if after then insert_after position t headers else headers ++ [t] | None => headers end in
      let '(out, e) := each_row (transform_row change (match target_column with Some _ => true | None => false end) after position) rows stop in
      (writerow headers ++ out, e)
    end
  end.
End Transform.

(** cluster.py:30-56; the report is printed once all the rows have been read *)
Definition cluster_file (fingerprint : str -> str) (text algorithm kind column : str) (now : datetime) (took : QArith_base.Q) : res str :=
  if negb (eqb algorithm (codes "fingerprint_collision")) then Err KeyError
  else
    match file_reader text column with
    | Err e => Err e
    | Ok (headers, position, (rows, stop)) =>
      let! _ := mapM (fun line => cell_at line position) rows in
      match stop with
      | Some e => Err e
      | None => cluster_report fingerprint (headers :: rows) algorithm kind column now took
      end
    end.
