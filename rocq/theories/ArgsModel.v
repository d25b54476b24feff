(** Model of fog/cli/__main__.py: the command line is parsed as CPython 3.11's Lib/argparse.py does (ArgumentParser with subparsers, the
    prefix '-', abbreviations), files are opened while it is parsed, and the command runs on what was opened.
    Indices into the arguments are replaced by the arguments left.  The text of help and error messages is left out.
    Two names are two files. *)
From Coq Require Import QArith_base String.
From Verif Require Import Base LevModel StringsModel PhoneticsModel CliModel ReportModel CsvModel.
Open Scope nat_scope.
Open Scope list_scope.
Notation length := List.length.
Notation concat := List.concat.

Definition DASH : N := 45.
Definition EQUALS : N := 61.

(** ** What the parsers are made of *)

(** nargs: None, '?', 0, PARSER *)
Inductive nargs := One | AtMostOne | NoneAtAll | AllLeft.
(** type: str, FileType('r'), FileType('w') *)
Inductive conversion := AsText | AsInput | AsOutput.
Inductive kind := Store | StoreTrue | PrintHelp | RunParser.
(** what a namespace holds; None as a name: the standard input and output; [EmptyList]: [] *)
Inductive setting := Nothing | Flag (b : bool) | Word (s : str) | Input (name : option str) | Output (name : option str) | EmptyList.
Record action := { strings : list str; dest : str; takes : nargs; conv : conversion; choices : option (list str); does : kind; required : bool; default : setting }.
Definition parser := list action.
Definition namespace := dict str setting.
Definition is_positional (a : action) : bool := match strings a with [] => true | _ => false end.

(** the files there are, by name *)
Definition files := dict str str.
(** sys.exit: with the status 2 after a message, with the status 0 after the help; [Endless] marks a loop out of fuel *)
Inductive stop := Usage | Help | Endless.
(** a function that opens files, and may end the program *)
Definition run (A : Type) : Type := files -> files * (A + stop).
Definition ret {A} (x : A) : run A := fun f => (f, inl x).
Definition halt {A} (s : stop) : run A := fun f => (f, inr s).
Definition and_then {A B} (x : run A) (k : A -> run B) : run B := fun f => match x f with (f, inl a) => k a f | (f, inr s) => (f, inr s) end.
Notation "'do' x <- a ; b" := (and_then a (fun x => b)) (at level 200, x pattern, a at level 100, b at level 200).

Section Parse.
(** \d, and the files that can be opened for writing *)
Variable digit : N -> bool.
Variable writable : str -> bool.

(** ** _parse_optional *)

(** an option: its action if there is one, the string it was found by, whether '=' was there, the argument in the same word *)
Record found := { act : option action; by_string : str; sep : bool; explicit : option str }.
Inductive reading := Positional | Option (t : found) | Ambiguous.

Definition find_option (p : parser) (s : str) : option action := find (fun a => memb s (strings a)) p.
Fixpoint starts_with (prefix s : str) : bool :=
  match prefix, s with
  | [], _ => true
  | c :: prefix, d :: s => N.eqb c d && starts_with prefix s
  | _, [] => false
  end.
(** str.partition('=') *)
Fixpoint partition_equals (s : str) : str * option str :=
  match s with
  | [] => ([], None)
  | c :: s => if N.eqb c EQUALS then ([], Some s) else let '(before, after) := partition_equals s in (c :: before, after)
  end.
(** _negative_number_matcher: -\d+ or -\d*.\d+, a newline being allowed at the end *)
Definition all_digits (s : str) : bool := forallb digit s.
Definition without_newline (s : str) : str := match rev s with c :: r => if N.eqb c 10 then rev r else s | [] => s end.
Fixpoint digits_dot (s : str) : bool :=
  match s with
  | c :: s => if N.eqb c 46 then negb (eqb s []) && all_digits s else digit c && digits_dot s
  | [] => false
  end.
Definition negative_number (s : str) : bool :=
  match s with
  | c :: s =>
    let number s := (negb (eqb s []) && all_digits s) || digits_dot s in
    N.eqb c DASH && (number s || number (without_newline s))
  | [] => false
  end.

(** _get_option_tuples, for a string of two characters or more *)
Definition option_tuples (p : parser) (arg : str) : list found :=
  match arg with
  | c :: d :: tail =>
    if N.eqb d DASH then
      let '(prefix, argument) := partition_equals arg in
      flat_map (fun a => flat_map (fun s => if starts_with prefix s then
        [{| act := Some a; by_string := s; sep := match argument with Some _ => true | None => false end; explicit := argument |}] else []) (strings a)) p
    else
      flat_map (fun a => flat_map (fun s =>
        if eqb s [c; d] then [{| act := Some a; by_string := s; sep := false; explicit := Some tail |}]
        else if starts_with arg s then [{| act := Some a; by_string := s; sep := false; explicit := None |}] else []) (strings a)) p
  | _ => []
  end.

Definition parse_optional (p : parser) (arg : str) : reading :=
  match arg with
  | [] => Positional
  | c :: tail =>
    if negb (N.eqb c DASH) then Positional
    else
      match find_option p arg with
      | Some a => Option {| act := Some a; by_string := arg; sep := false; explicit := None |}
      | None =>
        if eqb tail [] then Positional
        else
          let '(option_string, argument) := partition_equals arg in
          match argument, find_option p option_string with
          | Some e, Some a => Option {| act := Some a; by_string := option_string; sep := true; explicit := Some e |}
          | _, _ =>
            match option_tuples p arg with
            | _ :: _ :: _ => Ambiguous
            | [t] => Option t
            | [] =>
              if negative_number arg then Positional
              else if memb 32%N arg then Positional
              else Option {| act := None; by_string := arg; sep := false; explicit := None |}
            end
          end
      end
  end.

(** ** _parse_known_args *)

(** the pattern of the arguments: an argument, '--', an option *)
Inductive mark := A | D | O (t : found).
Fixpoint classify (p : parser) (args : list str) : option (list (str * mark)) :=
  match args with
  | [] => Some []
  | x :: args =>
    if eqb x [DASH; DASH] then Some ((x, D) :: map (fun y => (y, A)) args)
    else
      match parse_optional p x with
      | Ambiguous => None
      | Positional => option_map (cons (x, A)) (classify p args)
      | Option t => option_map (cons (x, O t)) (classify p args)
      end
  end.

(** the regular expressions of _get_nargs_pattern, for positionals, and their match with the first marks.  The search is greedy:
    giving back marks never helps when '?' comes last, as it does here *)
Fixpoint dashes (ms : list mark) : nat := match ms with D :: ms => S (dashes ms) | _ => 0 end.
Definition match_group (n : nargs) (ms : list mark) : option nat :=
  let d := dashes ms in
  match n, skipn d ms with
  | One, A :: ms | AtMostOne, A :: ms => Some (d + 1 + dashes ms)
  | AtMostOne, _ => Some d
  | AllLeft, A :: ms => Some (d + 1 + length ms)
  | _, _ => None
  end.
Fixpoint match_groups (l : list action) (ms : list mark) : option (list nat) :=
  match l with
  | [] => Some []
  | a :: l =>
    match match_group (takes a) ms with
    | None => None
    | Some n => option_map (cons n) (match_groups l (skipn n ms))
    end
  end.
(** _match_arguments_partial: as many positionals as possible *)
Fixpoint match_partial (n : nat) (l : list action) (ms : list mark) : list nat :=
  match n with
  | 0 => []
  | S m => match match_groups (firstn n l) ms with Some counts => counts | None => match_partial m l ms end
  end.

Record state := { ns : namespace; positionals : list action; seen : list str; extras : list str; unrecognized : list str }.
Definition set_in (st : state) (d : str) (v : setting) : state :=
  {| ns := dset (ns st) d v; positionals := positionals st; seen := seen st; extras := extras st; unrecognized := unrecognized st |}.
Definition saw (st : state) (d : str) : state :=
  {| ns := ns st; positionals := positionals st; seen := d :: seen st; extras := extras st; unrecognized := unrecognized st |}.
Definition extra (st : state) (l : list str) : state :=
  {| ns := ns st; positionals := positionals st; seen := seen st; extras := extras st ++ l; unrecognized := unrecognized st |}.
Definition left_positionals (st : state) (l : list action) : state :=
  {| ns := ns st; positionals := l; seen := seen st; extras := extras st; unrecognized := unrecognized st |}.

(** _get_value; FileType.__call__ *)
Definition get_value (c : conversion) (s : str) : run setting := fun fs =>
  match c with
  | AsText => (fs, inl (Word s))
  | AsInput => if eqb s [DASH] then (fs, inl (Input None)) else match dget fs s with Some _ => (fs, inl (Input (Some s))) | None => (fs, inr Usage) end
  | AsOutput => if eqb s [DASH] then (fs, inl (Output None)) else if writable s then (dset fs s [], inl (Output (Some s))) else (fs, inr Usage)
  end.
(** _check_value *)
Definition check_value (a : action) (s : str) : run unit :=
  match choices a with Some l => if memb s l then ret tt else halt Usage | None => ret tt end.
(** list.remove('--'), if there is one *)
Fixpoint remove_dashes (l : list str) : list str :=
  match l with [] => [] | x :: l => if eqb x [DASH; DASH] then l else x :: remove_dashes l end.

(** [enter]: the parser of a subcommand *)
Variable enter : str -> list str -> run (namespace * list str).

(** take_action, with _get_values *)
Definition take_action (a : action) (args : list str) (st : state) : run state :=
  let st := saw st (dest a) in
  let args := match takes a with AllLeft => args | _ => if is_positional a then remove_dashes args else args end in
  match does a, takes a, args with
  | StoreTrue, _, _ => ret (set_in st (dest a) (Flag true))
  | PrintHelp, _, _ => halt Help
  | RunParser, _, name :: rest =>
    do _ <- check_value a name;
    do (sub, others) <- enter name rest;
    let st := set_in st (dest a) (Word name) in
    ret {| ns := fold_left (fun n kv => dset n (fst kv) (snd kv)) sub (ns st); positionals := positionals st; seen := seen st; extras := extras st;
           unrecognized := unrecognized st ++ others |}
  | Store, AtMostOne, [] => ret (set_in st (dest a) (default a))
  | Store, _, [x] => do v <- get_value (conv a) x; do _ <- check_value a x; ret (set_in st (dest a) v)
  | _, _, _ => ret (set_in st (dest a) EmptyList)
  end.

(** consume_optional: the actions to take with their arguments, the extras, and how many of the next arguments are used *)
Fixpoint plan (p : parser) (fuel : nat) (a : action) (string : str) (has_sep : bool) (argument : option str) (next : list (str * mark))
    : option (list (action * list str) * list str * nat) :=
  match argument with
  | None =>
    match takes a, next with
    | One, (x, A) :: _ => Some ([(a, [x])], [], 1)
    | NoneAtAll, _ => Some ([(a, [])], [], 0)
    | _, _ => None
    end
  | Some e =>
    match takes a, fuel, string, e with
    | One, _, _, _ => Some ([(a, [e])], [], 0)
    | NoneAtAll, S fuel, c :: d :: _, x :: e' =>
      if N.eqb d DASH || has_sep || N.eqb x DASH then None
      else
        match find_option p [c; x] with
        | None => Some ([(a, [])], [c :: e], 0)
        | Some b =>
          option_map (fun '(l, extras, n) => ((a, []) :: l, extras, n))
            match e' with
            | [] => plan p fuel b [c; x] false None next
            | y :: e'' => if N.eqb y EQUALS then plan p fuel b [c; x] true (Some e'') next else plan p fuel b [c; x] false (Some e') next
            end
        end
    | _, _, _, _ => None
    end
  end.

Fixpoint take_all (l : list (action * list str)) (st : state) : run state :=
  match l with
  | [] => ret st
  | (a, args) :: l => do st <- take_action a args st; take_all l st
  end.
(** the option [x], and what is left after its arguments *)
Definition consume_optional (p : parser) (x : str) (t : found) (next : list (str * mark)) (st : state) : run (state * list (str * mark)) :=
  match act t with
  | None => ret (extra st [x], next)
  | Some a =>
    match plan p (S (length x)) a (by_string t) (sep t) (explicit t) next with
    | None => halt Usage
    | Some (l, more, n) => do st <- take_all l (extra st more); ret (st, skipn n next)
    end
  end.

Fixpoint take_positionals (l : list action) (counts : list nat) (rest : list (str * mark)) (st : state) : run (state * list (str * mark)) :=
  match l, counts with
  | a :: l, n :: counts =>
    do st <- take_action a (map fst (firstn n rest)) st;
    take_positionals l counts (skipn n rest) st
  | _, _ => ret (left_positionals st l, rest)
  end.
Definition consume_positionals (rest : list (str * mark)) (st : state) : run (state * list (str * mark)) :=
  let l := positionals st in
  take_positionals l (match_partial (length l) l (map snd rest)) rest st.

Definition is_option (m : str * mark) : bool := match snd m with O _ => true | _ => false end.
Fixpoint until_option (rest : list (str * mark)) : list str * list (str * mark) :=
  match rest with
  | m :: rest' => if is_option m then ([], rest) else let '(l, r) := until_option rest' in (fst m :: l, r)
  | [] => ([], [])
  end.
Fixpoint parse_loop (p : parser) (fuel : nat) (rest : list (str * mark)) (st : state) : run state :=
  match fuel with
  | 0 => halt Endless
  | S fuel =>
    if existsb is_option rest then
      match rest with
      | (x, O t) :: next => do (st, rest) <- consume_optional p x t next st; parse_loop p fuel rest st
      | _ =>
        do (st, rest') <- consume_positionals rest st;
        if Nat.ltb (length rest') (length rest) then parse_loop p fuel rest' st
        else let '(l, rest) := until_option rest in parse_loop p fuel rest (extra st l)
      end
    else
      do (st, rest) <- consume_positionals rest st;
      ret (extra st (map fst rest))
  end.

(** parse_known_args *)
Definition defaults (p : parser) : namespace :=
  flat_map (fun a => match does a with PrintHelp => [] | _ => [(dest a, default a)] end) p.
Definition parse_known (p : parser) (args : list str) : run (namespace * list str) :=
  match classify p args with
  | None => halt Usage
  | Some rest =>
    do st <- parse_loop p (S (length rest)) rest {| ns := defaults p; positionals := filter is_positional p; seen := []; extras := []; unrecognized := [] |};
    if existsb (fun a => required a && negb (memb (dest a) (seen st))) p then halt Usage
    else ret (ns st, extras st ++ unrecognized st)
  end.
End Parse.

(** ** The parsers: __main__.py:18-56 *)
Definition help_option : action :=
  {| strings := [codes "-h"; codes "--help"]; dest := codes "help"; takes := NoneAtAll; conv := AsText; choices := None; does := PrintHelp; required := false; default := Nothing |}.
Definition word_argument (name : string) : action :=
  {| strings := []; dest := codes name; takes := One; conv := AsText; choices := None; does := Store; required := true; default := Nothing |}.
Definition file_argument : action :=
  {| strings := []; dest := codes "file"; takes := AtMostOne; conv := AsInput; choices := None; does := Store; required := false; default := Input None |}.
Definition output_option : action :=
  {| strings := [codes "-o"; codes "--output"]; dest := codes "output"; takes := One; conv := AsOutput; choices := None; does := Store; required := false; default := Output None |}.
Definition text_option (short long name : string) (among : option (list str)) (d : setting) : action :=
  {| strings := [codes short; codes long]; dest := codes name; takes := One; conv := AsText; choices := among; does := Store; required := false; default := d |}.
Definition flag_option (l : list str) (name : string) : action :=
  {| strings := l; dest := codes name; takes := NoneAtAll; conv := AsText; choices := None; does := StoreTrue; required := false; default := Flag false |}.

Definition cluster_parser : parser :=
  [help_option; word_argument "column"; file_argument; output_option;
   text_option "-a" "--algorithm" "algorithm" (Some [codes "fingerprint_collision"]) (Word (codes "fingerprint_collision"));
   text_option "-t" "--type" "type" (Some [codes "html"; codes "toml"]) (Word (codes "toml"))].
Definition split_parser : parser :=
  [help_option; word_argument "column"; file_argument; output_option;
   text_option "-s" "--separator" "separator" None (Word (codes "|"));
   text_option "-t" "--target-column" "target_column" None Nothing;
   text_option "-r" "--rename-column" "rename_column" None Nothing].
Definition transform_parser : parser :=
  [help_option; word_argument "column"; word_argument "operations"; file_argument; output_option;
   text_option "-t" "--target-column" "target_column" None Nothing;
   flag_option [codes "-a"; codes "--after"] "after";
   flag_option [codes "--eval"] "eval"].
Definition help_parser : parser := [help_option; word_argument "subcommand"].
Definition commands : dict str parser :=
  [(codes "cluster", cluster_parser); (codes "split", split_parser); (codes "transform", transform_parser); (codes "help", help_parser)].
Definition main_parser : parser :=
  [help_option;
   {| strings := []; dest := codes "action"; takes := AllLeft; conv := AsText; choices := Some (dkeys commands); does := RunParser; required := false; default := Nothing |}].

Section Main.
Variable digit : N -> bool.
Variable writable : str -> bool.
(** the subparsers have no subparsers *)
Definition enter_command (name : str) (args : list str) : run (namespace * list str) :=
  match dget commands name with
  | Some p => parse_known digit writable (fun _ _ => halt Usage) p args
  | None => halt Usage
  end.
(** parse_args *)
Definition parse_args (argv : list str) : run namespace :=
  do (ns, others) <- parse_known digit writable enter_command main_parser argv;
  if eqb others [] then ret ns else halt Usage.

(** ** __main__.py:58-73, and what the commands take from the namespace *)
Variable lower strip upper unidecode fingerprint : str -> str.
(** eval of an expression on a value; the clock *)
Variable evaluate : str -> str -> res value.
Variable now : datetime.
Variable took : Q.
Variable stdin : str.

(** the program ended, exited with a message about its arguments, showed some help, or raised an exception *)
Inductive ending := Done | BadUsage | HelpShown | Raised (e : exn) | NoEnd.
Definition setting_of (ns : namespace) (name : string) : setting := match dget ns (codes name) with Some v => v | None => Nothing end.
Definition word_of (v : setting) : str := match v with Word s => s | _ => [] end.
Definition word_or_none (v : setting) : option str := match v with Word s => Some s | _ => None end.
Definition flag_of (v : setting) : bool := match v with Flag b => b | _ => false end.
(** reading namespace.file *)
Definition content (fs : files) (v : setting) : str :=
  match v with Input (Some name) => match dget fs name with Some s => s | None => [] end | _ => stdin end.
(** what is written to namespace.output: the files and the standard output in the end *)
Definition write_to (fs : files) (v : setting) (out : str) : files * str :=
  match v with Output (Some name) => (dset fs name out, []) | _ => (fs, out) end.
Definition ended (e : option exn) : ending := match e with Some e => Raised e | None => Done end.

Definition run_command (ns : namespace) (fs : files) : files * str * ending :=
  let text := content fs (setting_of ns "file") in
  let column := word_of (setting_of ns "column") in
  let write out e := (write_to fs (setting_of ns "output") out, ended e) in
  match setting_of ns "action" with
  | Word c =>
    if eqb c (codes "help") then (fs, [], HelpShown)
    else if eqb c (codes "cluster") then
      match cluster_file fingerprint text (word_of (setting_of ns "algorithm")) (word_of (setting_of ns "type")) column now took with
      | Ok out => write out None
      | Err e => write [] (Some e)
      end
    else if eqb c (codes "split") then
      let '(out, e) := split_file text column (word_of (setting_of ns "separator")) (word_or_none (setting_of ns "target_column")) (word_or_none (setting_of ns "rename_column")) in
      write out e
    else if eqb c (codes "transform") then
      let eval := flag_of (setting_of ns "eval") in
      match setting_of ns "operations", eval with
      | Word operations, _ =>
        let '(out, e) := transform_file lower strip upper unidecode fingerprint text column operations (word_or_none (setting_of ns "target_column"))
          (flag_of (setting_of ns "after")) (if eval then Some (evaluate operations) else None) in
        write out e
      (** [] has no method split, and eval refuses it *)
      | _, false => write [] (Some AttributeError)
      | _, true =>
        let '(out, e) := transform_file lower strip upper unidecode fingerprint text column [] (word_or_none (setting_of ns "target_column"))
          (flag_of (setting_of ns "after")) (Some (fun _ => Err TypeError)) in
        write out e
      end
    else (fs, [], Done)
  | _ => (fs, [], HelpShown)
  end.

(** __main__.py:18-73: the files, the standard output (without help messages) and how the program ended *)
Definition main (argv : list str) (fs : files) : files * str * ending :=
  match parse_args argv fs with
  | (fs, inl ns) => run_command ns fs
  | (fs, inr Usage) => (fs, [], BadUsage)
  | (fs, inr Help) => (fs, [], HelpShown)
  | (fs, inr Endless) => (fs, [], NoEnd)
  end.
End Main.
