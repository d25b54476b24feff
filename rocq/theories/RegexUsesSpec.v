(** What the models assume about the texts and the options given to the functions that use regular expressions. *)
From Coq Require Import String Ascii.
From Verif Require Import Base LevModel StringsModel PhoneticsModel FingerprintModel RegexModel RegexUsesModel.
Open Scope nat_scope.
Open Scope list_scope.

Definition no_newline (s : str) : Prop := Forall (fun c => c <> 10%N) s.
(** what is left of a name after the rules of rusalka *)
Definition sign (c : N) : Prop := is_lower_letter c = true \/ c = chr "J" \/ c = ESH \/ c = EZH.
(** the options of the model of FingerprintTokenizer: no minimal size is a size of 0, and only the characters of the list of separators count *)
Definition options_of (o : re_options) : FingerprintModel.options :=
  {| keep_digits := re_keep_digits o; min_token_size := match re_min_token_size o with Some n => n | None => 0 end;
     FingerprintModel.split := option_map (fun cs => List.concat cs) (re_split_chars o); stopwords := re_stopwords o; squeeze_tokens := re_squeeze o |}.
(** the options whose patterns python accepts *)
Definition accepted (o : re_options) : Prop :=
  match re_split_chars o with Some cs => List.concat cs <> [] | None => True end /\
  match re_min_token_size o with Some n => (N.of_nat n < MAXREPEAT)%N | None => True end.
(** the text of a group, which is None if it was not matched *)
Definition said (o : option str) : str := match o with Some w => w | None => [] end.
