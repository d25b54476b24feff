(** The usage of the commands of fog, and what a command line means, independently of the parser. *)
From Coq Require Import String.
From Verif Require Import Base LevModel StringsModel PhoneticsModel ArgsModel.
Open Scope nat_scope.
Open Scope list_scope.

(** ** Usage *)
(** what an option is followed by: a text, maybe among some, the name of a file to write, nothing *)
Inductive wants := AText (among : option (list str)) | AFile | ASwitch.
Record usage := { short : option N; long : str; name : str; value : wants }.
Definition usage_option (c l n : string) (w : wants) : usage := {| short := hd_error (codes c); long := codes l; name := codes n; value := w |}.
Definition split_usage : list usage :=
  [usage_option "o" "output" "output" AFile; usage_option "s" "separator" "separator" (AText None);
   usage_option "t" "target-column" "target_column" (AText None); usage_option "r" "rename-column" "rename_column" (AText None)].
Definition transform_usage : list usage :=
  [usage_option "o" "output" "output" AFile; usage_option "t" "target-column" "target_column" (AText None);
   usage_option "a" "after" "after" ASwitch; usage_option "" "eval" "eval" ASwitch].
Definition cluster_usage : list usage :=
  [usage_option "o" "output" "output" AFile; usage_option "a" "algorithm" "algorithm" (AText (Some [codes "fingerprint_collision"]));
   usage_option "t" "type" "type" (AText (Some [codes "html"; codes "toml"]))].

(** ** Spelling *)
(** a word that is not taken for an option *)
Definition word (v : str) : Prop := v = [] \/ v = [45%N] \/ exists c s, v = c :: s /\ c <> 45%N.
Definition prefix (a b : str) : Prop := exists s, b = a ++ s.
(** a long option may be abbreviated as long as it is the only one meant *)
Definition abbreviates (u : list usage) (a : str) (o : usage) : Prop :=
  In o u /\ prefix a (long o) /\ a <> [] /\ (a = long o \/ (forall o', In o' u -> prefix a (long o') -> o' = o) /\ ~ prefix a (codes "help")).
(** the words that spell options with their values, in order: -o v, -ov, -o=v, --output v, --output=v; switches have no value *)
Inductive spelled (u : list usage) : list str -> list (usage * str) -> Prop :=
| spelled_nil : spelled u [] []
| spelled_short o c v ws l : In o u -> short o = Some c -> value o <> ASwitch -> word v -> spelled u ws l -> spelled u ([45%N; c] :: v :: ws) ((o, v) :: l)
| spelled_joined o c v ws l : In o u -> short o = Some c -> value o <> ASwitch -> v <> [] -> hd_error v <> Some 61%N -> spelled u ws l ->
    spelled u ((45%N :: c :: v) :: ws) ((o, v) :: l)
| spelled_equals o c v ws l : In o u -> short o = Some c -> value o <> ASwitch -> spelled u ws l -> spelled u ((45%N :: c :: 61%N :: v) :: ws) ((o, v) :: l)
| spelled_long o a v ws l : abbreviates u a o -> value o <> ASwitch -> word v -> spelled u ws l -> spelled u ((45%N :: 45%N :: a) :: v :: ws) ((o, v) :: l)
| spelled_long_equals o a v ws l : abbreviates u a o -> value o <> ASwitch -> spelled u ws l -> spelled u ((45%N :: 45%N :: a ++ 61%N :: v) :: ws) ((o, v) :: l)
| spelled_switch o c ws l : In o u -> short o = Some c -> value o = ASwitch -> spelled u ws l -> spelled u ([45%N; c] :: ws) ((o, []) :: l)
| spelled_long_switch o a ws l : abbreviates u a o -> value o = ASwitch -> spelled u ws l -> spelled u ((45%N :: 45%N :: a) :: ws) ((o, []) :: l).

(** ** Meaning *)
(** the settings so far, the latest last, and the files; a value may be refused *)
Definition bindings := list (str * setting).
Definition outcome : Type := (bindings * files) + files.
Definition set_option (writable : str -> bool) (o : usage) (v : str) (x : bindings * files) : outcome :=
  let '(bs, fs) := x in
  match value o with
  | AText None => inl (bs ++ [(name o, Word v)], fs)
  | AText (Some l) => if memb v l then inl (bs ++ [(name o, Word v)], fs) else inr fs
  | AFile => if eqb v [45%N] then inl (bs ++ [(name o, Output None)], fs)
             else if writable v then inl (bs ++ [(name o, Output (Some v))], dset fs v []) else inr fs
  | ASwitch => inl (bs ++ [(name o, Flag true)], fs)
  end.
Definition next (x : outcome) (f : bindings * files -> outcome) : outcome := match x with inl y => f y | inr fs => inr fs end.
Fixpoint set_options (writable : str -> bool) (l : list (usage * str)) (x : bindings * files) : outcome :=
  match l with [] => inl x | (o, v) :: l => next (set_option writable o v x) (set_options writable l) end.
Definition set_word (n : string) (v : str) (x : bindings * files) : outcome := inl (fst x ++ [(codes n, Word v)], snd x).
(** the file to read: the standard input when there is none *)
Definition set_input (v : option str) (x : bindings * files) : outcome :=
  let '(bs, fs) := x in
  match v with
  | None => inl (bs ++ [(codes "file", Input None)], fs)
  | Some v => if eqb v [45%N] then inl (bs ++ [(codes "file", Input None)], fs)
              else match dget fs v with Some _ => inl (bs ++ [(codes "file", Input (Some v))], fs) | None => inr fs end
  end.
(** the latest setting *)
Fixpoint latest (bs : bindings) (n : str) : option setting :=
  match bs with
  | [] => None
  | (m, v) :: bs => match latest bs n with Some w => Some w | None => if eq_dec n m then Some v else None end
  end.
(** what a parse gives: the settings, or an error about the arguments *)
Definition gives (r : files * (namespace + stop)) (x : outcome) : Prop :=
  match x with
  | inl (bs, fs) => exists ns, r = (fs, inl ns) /\ forall n, dget ns n = latest bs n
  | inr fs => r = (fs, inr Usage)
  end.

(** the settings at first *)
Definition split_defaults : bindings :=
  [(codes "action", Word (codes "split")); (codes "column", Nothing); (codes "file", Input None); (codes "output", Output None); (codes "separator", Word (codes "|"));
   (codes "target_column", Nothing); (codes "rename_column", Nothing)].
Definition transform_defaults : bindings :=
  [(codes "action", Word (codes "transform")); (codes "column", Nothing); (codes "operations", Nothing); (codes "file", Input None); (codes "output", Output None);
   (codes "target_column", Nothing); (codes "after", Flag false); (codes "eval", Flag false)].
Definition cluster_defaults : bindings :=
  [(codes "action", Word (codes "cluster")); (codes "column", Nothing); (codes "file", Input None); (codes "output", Output None);
   (codes "algorithm", Word (codes "fingerprint_collision")); (codes "type", Word (codes "toml"))].
Definition opt_word (v : option str) : list str := match v with Some v => [v] | None => [] end.

(** the lines of the commands: options, the words, options *)
Definition split_meaning (writable : str -> bool) (l1 : list (usage * str)) (column : str) (file : option str) (l2 : list (usage * str)) (fs : files) : outcome :=
  next (set_options writable l1 (split_defaults, fs)) (fun z => next (set_word "column" column z) (fun z => next (set_input file z) (set_options writable l2))).
Definition cluster_meaning (writable : str -> bool) (l1 : list (usage * str)) (column : str) (file : option str) (l2 : list (usage * str)) (fs : files) : outcome :=
  next (set_options writable l1 (cluster_defaults, fs)) (fun z => next (set_word "column" column z) (fun z => next (set_input file z) (set_options writable l2))).
Definition transform_meaning (writable : str -> bool) (l1 : list (usage * str)) (column : str) (l2 : list (usage * str)) (operations : str) (file : option str) (l3 : list (usage * str)) (fs : files) : outcome :=
  next (set_options writable l1 (transform_defaults, fs)) (fun z => next (set_word "column" column z) (fun z => next (set_options writable l2 z)
    (fun z => next (set_word "operations" operations z) (fun z => next (set_input file z) (set_options writable l3))))).
(** the files in the end *)
Definition after (x : outcome) : files := match x with inl (_, fs) => fs | inr fs => fs end.

(** what the commands take from the settings, what they read, what they write *)
Definition text_set (bs : bindings) (n : string) : option str := match latest bs (codes n) with Some (Word s) => Some s | _ => None end.
Definition text_or (d : string) (v : option str) : str := match v with Some s => s | None => codes d end.
Definition switched (bs : bindings) (n : string) : bool := match latest bs (codes n) with Some (Flag b) => b | _ => false end.
Definition read (stdin : str) (fs : files) (file : option str) : str :=
  match file with None => stdin | Some f => if eqb f [45%N] then stdin else match dget fs f with Some s => s | None => [] end end.
Definition written (bs : bindings) (fs : files) (out : str) : files * str :=
  match latest bs (codes "output") with Some (Output (Some f)) => (dset fs f out, []) | _ => (fs, out) end.
