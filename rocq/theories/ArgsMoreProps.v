(** More lines of the command line of fog: joined switches, values that look like options, '--', lines that are refused. *)
From Coq Require Import QArith_base String Lia.
From Verif Require Import Base BaseFacts LevModel StringsModel PhoneticsModel CliModel ReportModel CsvModel ArgsModel ArgsSpec ArgsProofs ArgsProps.
Open Scope nat_scope.
Open Scope list_scope.
Notation w := codes.

Section Words.
Variables (u : list usage) (p : parser).
Hypothesis R : represents u p.
Variable digit : N -> bool.
(** the letter of an option with what follows it in the same word *)
Definition read_letter (c : N) (v : str) (b : action) : found :=
  match v with
  | [] => {| act := Some b; by_string := [45%N; c]; sep := false; explicit := None |}
  | x :: v' => if N.eqb x 61 then {| act := Some b; by_string := [45%N; c]; sep := true; explicit := Some v' |}
               else {| act := Some b; by_string := [45%N; c]; sep := false; explicit := Some v |}
  end.
Lemma letter_option c v b : In b p -> In [45%N; c] (strings b) -> parse_optional digit p (45%N :: c :: v) = Option (read_letter c v b).
Proof.
  intros I J. destruct v as [|x v].
  - exact (exact_option u p R digit b _ I J).
  - cbn [read_letter]. destruct (N.eqb_spec x 61) as [->|NE].
    + exact (short_option_equals u p R digit c v b I J).
    + apply (short_option_joined u p R digit c (x :: v) b I J); [discriminate|cbn; congruence].
Qed.
Lemma letter_not_dashes c v b : In b p -> In [45%N; c] (strings b) -> 45%N :: c :: v <> [45%N; 45%N].
Proof. intros I J E. injection E as E _. exact (proj1 (short_char u p R b c I J) E). Qed.
(** a dash with a letter that is neither a digit, a point nor an option *)
Lemma unknown_letter c v : c <> 45%N -> c <> 46%N -> digit c = false -> (forall b, In b p -> ~ In [45%N; c] (strings b)) -> ~ In 32%N (c :: v) ->
  parse_optional digit p (45%N :: c :: v) = Option {| act := None; by_string := 45%N :: c :: v; sep := false; explicit := None |}.
Proof.
  intros N1 N2 D NO NS. assert (NF : forall s, find_option p (45%N :: c :: s) = None).
  { intros s. destruct (find_option p (45%N :: c :: s)) as [a|] eqn:F; [|reflexivity]. exfalso. apply find_option_some in F. destruct F as [Ia Is].
    destruct (rep_form _ _ R _ _ Ia Is) as [(d & E & _)|(n & E & _)]; [|injection E as E _; congruence]. injection E as E1 E2. rewrite E2 in Is. exact (NO a Ia Is). }
  assert (NF1 : find_option p [45%N] = None). { apply (find_option_not u p R). intros [(d & E & _)|(n & E & _)]; discriminate E. }
  assert (T : option_tuples p (45%N :: c :: v) = []).
  { cbn [option_tuples]. unfold DASH. rewrite (proj2 (N.eqb_neq c 45) N1). rewrite (flat_map_ext_in _ (fun _ => [])); [clear; induction p as [|? ? IH]; auto|]. intros a Ia.
    rewrite (flat_map_ext_in _ (fun _ => [])); [clear; induction (strings a) as [|? ? IH]; auto|]. intros s Is. destruct (eqb s [45%N; c]) eqn:E; [apply (proj1 (eqb_true _ _)) in E; subst s; exfalso; exact (NO a Ia Is)|].
    destruct (starts_with (45%N :: c :: v) s) eqn:S1; [|reflexivity]. exfalso. apply starts_with_true in S1. destruct S1 as [t ->]. destruct (rep_form _ _ R _ _ Ia Is) as [(d & E1 & _)|(n & E1 & _)]; [|injection E1 as E1 _; congruence].
    injection E1 as E1 E2. cbn [app] in Is. rewrite E2 in Is. exact (NO a Ia Is). }
  assert (NN : negative_number digit (45%N :: c :: v) = false).
  { assert (H : forall s, (negb (eqb (c :: s) []) && all_digits digit (c :: s)) || digits_dot digit (c :: s) = false).
    { intros s. cbn [all_digits forallb digits_dot]. rewrite D, (proj2 (N.eqb_neq c 46) N2). rewrite andb_false_r. reflexivity. }
    cbn [negative_number]. unfold DASH. cbn [N.eqb Pos.eqb andb]. rewrite H. cbn [orb]. unfold without_newline. destruct (rev (c :: v)) as [|d r] eqn:E; [apply H|]. destruct (N.eqb d 10); [|apply H].
    assert (E2 : c :: v = rev r ++ [d]) by (rewrite <- (rev_involutive (c :: v)), E; reflexivity). destruct (rev r) as [|e r']; [reflexivity|]. cbn in E2. injection E2 as <- _. apply H. }
  cbn [parse_optional]. unfold DASH at 1. cbn [N.eqb Pos.eqb negb]. rewrite NF. replace (eqb (c :: v) []) with false by (symmetry; apply eqb_false; discriminate).
  destruct (partition_equals (45%N :: c :: v)) as [s e] eqn:P. assert (NF2 : find_option p s = None).
  { cbn [partition_equals] in P. unfold EQUALS in P. cbn [N.eqb Pos.eqb] in P. destruct (N.eqb c 61); [injection P as <- _; exact NF1|]. destruct (partition_equals v) as [s' e']. injection P as <- _. apply NF. }
  rewrite NF2, T, NN. replace (memb 32%N (45%N :: c :: v)) with false by (symmetry; apply memb_false; intros [E|I]; [discriminate E|exact (NS I)]).
  destruct e; reflexivity.
Qed.
(** a negative number, when no option is a digit *)
Lemma number_word ds : (forall b c, In b p -> In [45%N; c] (strings b) -> digit c = false) -> digit 45%N = false -> digit 61%N = false -> ds <> [] -> all_digits digit ds = true ->
  parse_optional digit p (45%N :: ds) = Positional.
Proof.
  intros NL D1 D2 NE AD. destruct ds as [|c ds]; [congruence|]. cbn [all_digits forallb] in AD. apply andb_true_iff in AD. destruct AD as [Dc AD].
  assert (N1 : c <> 45%N) by congruence. assert (N2 : c <> 61%N) by congruence.
  assert (NO : forall b, In b p -> ~ In [45%N; c] (strings b)) by (intros b Ib I; rewrite (NL b c Ib I) in Dc; discriminate).
  assert (NF : forall s, find_option p (45%N :: c :: s) = None).
  { intros s. destruct (find_option p (45%N :: c :: s)) as [a|] eqn:F; [|reflexivity]. exfalso. apply find_option_some in F. destruct F as [Ia Is].
    destruct (rep_form _ _ R _ _ Ia Is) as [(d & E & _)|(n & E & _)]; [|injection E as E _; congruence]. injection E as E1 E2. rewrite E2 in Is. exact (NO a Ia Is). }
  assert (T : option_tuples p (45%N :: c :: ds) = []).
  { cbn [option_tuples]. unfold DASH. rewrite (proj2 (N.eqb_neq c 45) N1). rewrite (flat_map_ext_in _ (fun _ => [])); [clear; induction p as [|? ? IH]; auto|]. intros a Ia.
    rewrite (flat_map_ext_in _ (fun _ => [])); [clear; induction (strings a) as [|? ? IH]; auto|]. intros s Is. destruct (eqb s [45%N; c]) eqn:E; [apply (proj1 (eqb_true _ _)) in E; subst s; exfalso; exact (NO a Ia Is)|].
    destruct (starts_with (45%N :: c :: ds) s) eqn:S1; [|reflexivity]. exfalso. apply starts_with_true in S1. destruct S1 as [t ->]. destruct (rep_form _ _ R _ _ Ia Is) as [(d & E1 & _)|(n & E1 & _)]; [|injection E1 as E1 _; congruence].
    injection E1 as E1 E2. cbn [app] in Is. rewrite E2 in Is. exact (NO a Ia Is). }
  assert (P : partition_equals (45%N :: c :: ds) = (45%N :: c :: ds, None)).
  { assert (H : forall s, forallb digit s = true -> partition_equals s = (s, None)). { clear - D2. induction s as [|d s IH]; [reflexivity|]. cbn [forallb]. rewrite andb_true_iff. intros [Hd Hs]. cbn [partition_equals]. unfold EQUALS. destruct (N.eqb_spec d 61); [congruence|]. rewrite (IH Hs). reflexivity. }
    cbn [partition_equals]. unfold EQUALS. cbn [N.eqb Pos.eqb]. rewrite (proj2 (N.eqb_neq c 61) N2), (H ds AD). reflexivity. }
  cbn [parse_optional]. unfold DASH at 1. cbn [N.eqb Pos.eqb negb]. rewrite NF. replace (eqb (c :: ds) []) with false by (symmetry; apply eqb_false; discriminate).
  rewrite P, T. cbn [negative_number]. unfold DASH, all_digits. cbn [N.eqb Pos.eqb andb forallb]. rewrite Dc, AD. replace (eqb (c :: ds) []) with false by (symmetry; apply eqb_false; discriminate). reflexivity.
Qed.
End Words.

Lemma loop_turn writable enter p n x t next st fs : parse_loop writable enter p (S n) ((x, O t) :: next) st fs =
  match consume_optional writable enter p x t next st fs with (fs', inl (st', rest)) => parse_loop writable enter p n rest st' fs' | (fs', inr s) => (fs', inr s) end.
Proof. cbn [parse_loop existsb is_option snd orb]. unfold and_then. destruct (consume_optional writable enter p x t next st fs) as [fs' [[st' rest]|s]]; reflexivity. Qed.
Lemma loop_unfold writable enter p n rest st : parse_loop writable enter p (S n) rest st =
  if existsb is_option rest then
    match rest with
    | (x, O t) :: next => do (st, rest) <- consume_optional writable enter p x t next st; parse_loop writable enter p n rest st
    | _ => do (st, rest') <- consume_positionals writable enter rest st; if Nat.ltb (length rest') (length rest) then parse_loop writable enter p n rest' st
      else let '(l, rest) := until_option rest in parse_loop writable enter p n rest (extra st l)
    end
  else do (st, rest) <- consume_positionals writable enter rest st; ret (extra st (map fst rest)).
Proof. reflexivity. Qed.
Lemma loop_more writable enter p n rest st fs : snd (parse_loop writable enter p n rest st fs) <> inr Endless -> parse_loop writable enter p (S n) rest st fs = parse_loop writable enter p n rest st fs.
Proof.
  revert rest st fs. induction n as [|n IH]; intros rest st fs NE; [exfalso; apply NE; reflexivity|].
  rewrite (loop_unfold _ _ _ n) in NE. rewrite (loop_unfold _ _ _ (S n)), (loop_unfold _ _ _ n rest st).
  destruct (existsb is_option rest).
  2:{ reflexivity. }
  assert (Pos : snd ((do (st, rest') <- consume_positionals writable enter rest st; if Nat.ltb (length rest') (length rest) then parse_loop writable enter p n rest' st
      else let '(l, rest) := until_option rest in parse_loop writable enter p n rest (extra st l)) fs) <> inr Endless ->
    (do (st, rest') <- consume_positionals writable enter rest st; if Nat.ltb (length rest') (length rest) then parse_loop writable enter p (S n) rest' st
      else let '(l, rest) := until_option rest in parse_loop writable enter p (S n) rest (extra st l)) fs =
    (do (st, rest') <- consume_positionals writable enter rest st; if Nat.ltb (length rest') (length rest) then parse_loop writable enter p n rest' st
      else let '(l, rest) := until_option rest in parse_loop writable enter p n rest (extra st l)) fs).
  { clear NE. unfold and_then. destruct (consume_positionals writable enter rest st fs) as [fs' [[st' rest']|s]]; [|reflexivity].
    destruct (Nat.ltb (length rest') (length rest)); [apply IH|]. destruct (until_option rest) as [l r]. apply IH. }
  destruct rest as [|[x [| |t]] next]; [exact (Pos NE)|exact (Pos NE)|exact (Pos NE)|]. clear Pos. unfold and_then in *.
  destruct (consume_optional writable enter p x t next st fs) as [fs' [[st' rest']|s]]; [|reflexivity]. apply IH. exact NE.
Qed.
(** what is extra stays *)
Lemma action_extras writable enter a l st fs st' fs' : take_action writable enter a l st fs = (fs', inl st') -> extras st' = extras st.
Proof.
  unfold take_action. set (l' := match takes a with AllLeft => l | _ => _ end). clearbody l'. unfold and_then, ret, halt.
  destruct (does a).
  - destruct (takes a), l' as [|x [|y l']]; try (intros E; injection E as <- <-; reflexivity);
      destruct (get_value writable (conv a) x fs) as [f [v|s]]; try discriminate; destruct (check_value a x f) as [f' [[]|s]]; try discriminate; intros E; injection E as <- <-; reflexivity.
  - intros E; injection E as <- <-; reflexivity.
  - discriminate.
  - destruct l' as [|x l']; [destruct (takes a); intros E; injection E as <- <-; reflexivity|].
    destruct (check_value a x fs) as [f' [[]|s]]; try discriminate. destruct (enter x l' f') as [f2 [[sub others]|s]]; try discriminate. intros E; injection E as <- <-; reflexivity.
Qed.
Lemma all_extras writable enter l st fs st' fs' : take_all writable enter l st fs = (fs', inl st') -> extras st' = extras st.
Proof.
  revert st fs. induction l as [|[a args] l IH]; intros st fs; cbn [take_all]; unfold and_then, ret; [intros E; injection E as <- <-; reflexivity|].
  destruct (take_action writable enter a args st fs) as [f [s|s]] eqn:E; [|discriminate]. intros H. rewrite (IH _ _ H). exact (action_extras _ _ _ _ _ _ _ _ E).
Qed.
Lemma positionals_extras writable enter l counts rest st fs st' rest' fs' : take_positionals writable enter l counts rest st fs = (fs', inl (st', rest')) -> extras st' = extras st.
Proof.
  revert counts rest st fs. induction l as [|a l IH]; intros counts rest st fs; cbn [take_positionals]; unfold and_then, ret; [intros E; injection E as <- <- <-; reflexivity|].
  destruct counts as [|n counts]; [intros E; injection E as <- <- <-; reflexivity|].
  destruct (take_action writable enter a _ st fs) as [f [s|s]] eqn:E; [|discriminate]. intros H. rewrite (IH _ _ _ _ H). exact (action_extras _ _ _ _ _ _ _ _ E).
Qed.
Lemma loop_extras writable enter p n rest st fs : forall st' fs', parse_loop writable enter p n rest st fs = (fs', inl st') -> exists l, extras st' = extras st ++ l.
Proof.
  revert rest st fs. induction n as [|n IH]; intros rest st fs st' fs'; [discriminate|]. rewrite loop_unfold.
  assert (Pos : (do (st, rest') <- consume_positionals writable enter rest st; if Nat.ltb (length rest') (length rest) then parse_loop writable enter p n rest' st
      else let '(l, rest) := until_option rest in parse_loop writable enter p n rest (extra st l)) fs = (fs', inl st') -> exists l, extras st' = extras st ++ l).
  { unfold and_then. destruct (consume_positionals writable enter rest st fs) as [f [[s r]|s]] eqn:C; [|discriminate]. apply positionals_extras in C. rewrite <- C.
    destruct (Nat.ltb (length r) (length rest)); [apply IH|]. destruct (until_option rest) as [l r']. intros H. apply IH in H. destruct H as [l' H]. cbn [extras extra] in H. rewrite <- app_assoc in H. exists (l ++ l'). exact H. }
  destruct (existsb is_option rest).
  2:{ unfold and_then, ret. destruct (consume_positionals writable enter rest st fs) as [f [[s r]|s]] eqn:C; [|discriminate]. apply positionals_extras in C. intros E. injection E as <- <-. cbn [extras extra]. rewrite C. exists (map fst r). reflexivity. }
  destruct rest as [|[x [| |t]] next]; [exact Pos|exact Pos|exact Pos|]. clear Pos. unfold and_then. unfold consume_optional.
  destruct (act t) as [a|]; [|unfold ret; intros H; apply IH in H; destruct H as [l H]; cbn [extras extra] in H; rewrite <- app_assoc in H; eexists; exact H].
  destruct (plan _ _ _ _ _ _ _) as [[[l more] k]|]; [|discriminate]. unfold and_then, ret. destruct (take_all writable enter l (extra st more) fs) as [f [s|s]] eqn:T; [|discriminate].
  apply all_extras in T. intros H. apply IH in H. destruct H as [l' H]. rewrite T in H. cbn [extras extra] in H. rewrite <- app_assoc in H. eexists; exact H.
Qed.
(** the value of an option that takes one *)
Definition value_of (b : action) (e : option str) (next : list (str * mark)) : option (list (action * list str) * list str * nat) :=
  match e with Some e => Some ([(b, [e])], [], 0) | None => match next with (x, A) :: _ => Some ([(b, [x])], [], 1) | _ => None end end.
Lemma plan_one p fuel b s sp e next : takes b = One -> plan p fuel b s sp e next = value_of b e next.
Proof. intros T. destruct fuel, e as [e|]; cbn [plan value_of]; rewrite T; try reflexivity; destruct next as [|[x []] next]; reflexivity. Qed.
Lemma letter_by c v b : by_string (read_letter c v b) = [45%N; c].
Proof. destruct v as [|x v]; [reflexivity|]. cbn [read_letter]. destruct (N.eqb x 61); reflexivity. Qed.
Lemma letter_act c v b : act (read_letter c v b) = Some b.
Proof. destruct v as [|x v]; [reflexivity|]. cbn [read_letter]. destruct (N.eqb x 61); reflexivity. Qed.
Lemma plan_switch p fuel a c d v b next : takes a = NoneAtAll -> takes b = One -> c <> 45%N -> d <> 45%N -> d <> 61%N -> find_option p [45%N; d] = Some b ->
  plan p (S fuel) a [45%N; c] false (Some (d :: v)) next = option_map (fun '(l, extras, n) => ((a, []) :: l, extras, n)) (value_of b (explicit (read_letter d v b)) next).
Proof.
  intros Ta Tb N1 N2 N3 F. cbn [plan]. rewrite Ta. unfold DASH. rewrite (proj2 (N.eqb_neq c 45) N1), (proj2 (N.eqb_neq d 45) N2). cbn [orb]. rewrite F. f_equal. destruct v as [|y v]; [apply plan_one; exact Tb|].
  cbn [read_letter]. unfold EQUALS. destruct (N.eqb y 61); apply plan_one; exact Tb.
Qed.

Section More.
Variable digit : N -> bool.
Variable writable : str -> bool.
Notation args := (parse_args digit writable).
Notation known := (parse_known digit writable (fun _ _ => halt Usage)).

(** a switch joined with the letter of an option that follows it *)
Theorem C142_joined_switch : forall c v tail fs, In c (w "ot") -> args (w "transform" :: (45%N :: 97%N :: c :: v) :: tail) fs = args (w "transform" :: [45%N; 97%N] :: (45%N :: c :: v) :: tail) fs.
Proof.
  intros c v tail fs I. rewrite !(args_command digit writable _ transform_parser) by reflexivity. f_equal.
  assert (X : exists b, In b transform_parser /\ In [45%N; c] (strings b) /\ takes b = One /\ c <> 45%N /\ c <> 61%N /\ find_option transform_parser [45%N; c] = Some b).
  { destruct I as [<-|[<-|[]]]; [exists output_option|exists (text_option "-t" "--target-column" "target_column" None Nothing)]; (split; [unfold transform_parser; in_any|]); (split; [left; reflexivity|]); repeat split; discriminate. }
  destruct X as (b & Ib & Sb & Tb & N1 & N2 & Fb). set (a := flag_option [w "-a"; w "--after"] "after"). assert (Ia : In a transform_parser) by (unfold transform_parser; do 6 right; left; reflexivity). assert (Sa : In [45%N; 97%N] (strings a)) by (left; reflexivity).
  pose proof (letter_option _ _ transform_represents digit 97 (c :: v) a Ia Sa) as P1. pose proof (letter_option _ _ transform_represents digit 97 [] a Ia Sa) as P2. pose proof (letter_option _ _ transform_represents digit c v b Ib Sb) as P3.
  assert (D : forall s, 45%N :: 97%N :: s <> [45%N; 45%N]) by (intros s E; discriminate E).
  destruct (classify digit transform_parser tail) as [r|] eqn:CT.
  2:{ unfold parse_known. rewrite (classify_option transform_parser digit _ _ _ (D _) P1), (classify_option transform_parser digit _ _ _ (D _) P2), (classify_option transform_parser digit _ _ _ (letter_not_dashes _ _ transform_represents c v b Ib Sb) P3), CT. reflexivity. }
  assert (CL : classify digit transform_parser ((45%N :: 97%N :: c :: v) :: tail) = Some ((45%N :: 97%N :: c :: v, O (read_letter 97 (c :: v) a)) :: r)) by (rewrite (classify_option transform_parser digit _ _ _ (D _) P1), CT; reflexivity).
  assert (CR : classify digit transform_parser ([45%N; 97%N] :: (45%N :: c :: v) :: tail) = Some (([45%N; 97%N], O (read_letter 97 [] a)) :: (45%N :: c :: v, O (read_letter c v b)) :: r))
    by (rewrite (classify_option transform_parser digit _ _ _ (D _) P2), (classify_option transform_parser digit _ _ _ (letter_not_dashes _ _ transform_represents c v b Ib Sb) P3), CT; reflexivity).
  rewrite (known_loop _ _ _ _ _ _ fs CL), (known_loop _ _ _ _ _ _ fs CR).
  match goal with |- match ?x with _ => _ end = match ?y with _ => _ end => assert (E : x = y); [|rewrite E; reflexivity] end.
  cbn [length]. rewrite !loop_turn. unfold consume_optional at 1 2. rewrite !letter_act, !letter_by. cbn [read_letter]. rewrite (proj2 (N.eqb_neq c 61) N2). cbn [sep explicit].
  rewrite (plan_switch transform_parser _ a 97 c v b r eq_refl Tb ltac:(discriminate) N1 N2 Fb). cbn [plan takes flag_option a].
  unfold and_then at 2. cbn [take_all]. fold a. rewrite extra_nil. unfold and_then at 2. set (st1 := set_in (saw (start transform_parser) (dest a)) (dest a) (Flag true)).
  change (take_action writable (fun _ _ => halt Usage) a [] (start transform_parser) fs) with (fs, @inl state stop st1). cbn iota. unfold ret at 2. cbn iota. unfold ret at 2. cbn [skipn]. rewrite loop_turn. unfold consume_optional. rewrite letter_act, letter_by, (plan_one _ _ b _ _ _ _ Tb).
  destruct (value_of b (explicit (read_letter c v b)) r) as [[[l more] n]|]; [|reflexivity]. cbn [option_map]. reflexivity.
Qed.
(** a switch has no value *)
Theorem C142_switch_value : forall v tail fs,
  args (w "transform" :: (w "-a=" ++ v) :: tail) fs = (fs, inr Usage) /\ args (w "transform" :: (w "--after=" ++ v) :: tail) fs = (fs, inr Usage) /\ args (w "transform" :: (w "--eval=" ++ v) :: tail) fs = (fs, inr Usage).
Proof.
  intros v tail fs. rewrite !(args_command digit writable _ transform_parser) by reflexivity.
  assert (H : forall x a s e, x <> [45%N; 45%N] -> takes a = NoneAtAll -> parse_optional digit transform_parser x = Option {| act := Some a; by_string := s; sep := true; explicit := Some e |} ->
    through (w "transform") (known transform_parser (x :: tail) fs) = (fs, inr Usage)).
  { intros x a s e NE T P. destruct (classify digit transform_parser tail) as [r|] eqn:CT.
    - assert (CL : classify digit transform_parser (x :: tail) = Some ((x, O {| act := Some a; by_string := s; sep := true; explicit := Some e |}) :: r)) by (rewrite (classify_option transform_parser digit _ _ _ NE P), CT; reflexivity).
      rewrite (known_loop _ _ _ _ _ _ fs CL). cbn [length]. rewrite loop_turn. unfold consume_optional. cbn [act by_string sep explicit plan]. rewrite T. destruct s as [|c [|d s]], e as [|y e]; try reflexivity. rewrite orb_true_r. reflexivity.
    - unfold parse_known. rewrite (classify_option transform_parser digit _ _ _ NE P), CT. reflexivity. }
  set (a := flag_option [w "-a"; w "--after"] "after"). assert (Ia : In a transform_parser) by (unfold transform_parser; in_any).
  set (b := flag_option [w "--eval"] "eval"). assert (Ib : In b transform_parser) by (unfold transform_parser; in_any).
  split; [|split].
  - apply (H _ a [45%N; 97%N] v); [discriminate|reflexivity|]. apply (letter_option _ _ transform_represents digit 97 (61%N :: v) a Ia). left; reflexivity.
  - destruct (long_option_equals _ _ transform_represents digit (w "after") v A_ a) as [s E]; [|exact Ia|repeat split|].
    + split; [unfold transform_usage; in_any|]. split; [exists []; reflexivity|]. split; [discriminate|]. left; reflexivity.
    + apply (H _ a s v); [discriminate|reflexivity|exact E].
  - destruct (long_option_equals _ _ transform_represents digit (w "eval") v (usage_option "" "eval" "eval" ASwitch) b) as [s E]; [|exact Ib|repeat split|].
    + split; [unfold transform_usage; in_any|]. split; [exists []; reflexivity|]. split; [discriminate|]. left; reflexivity.
    + apply (H _ b s v); [discriminate|reflexivity|exact E].
Qed.
(** an option that is not in the usage *)
Theorem C142_unknown_option : forall c v column file fs, c <> 45%N -> c <> 46%N -> digit c = false -> ~ In c (w "hostr") -> ~ In 32%N (c :: v) -> word column -> (forall f, file = Some f -> word f) ->
  args (w "split" :: (45%N :: c :: v) :: column :: opt_word file) fs = (fs, inr Usage).
Proof.
  intros c v column file fs N1 N2 Dc NL NS Wc Wf. rewrite (args_command digit writable _ split_parser) by reflexivity.
  pose proof (unknown_letter _ _ split_represents digit c v N1 N2 Dc) as P. specialize (P ltac:(intros b Ib I; unfold split_parser in Ib; in_cases; cbn in I; repeat (destruct I as [I|I]; [injection I; intros; subst; apply NL; cbn; tauto|]); exact I) NS).
  assert (D : 45%N :: c :: v <> [45%N; 45%N]) by congruence. set (t := {| act := None; by_string := 45%N :: c :: v; sep := false; explicit := None |}) in P.
  assert (CL : classify digit split_parser ((45%N :: c :: v) :: column :: opt_word file) = Some ((45%N :: c :: v, O t) :: (column, A) :: arguments file)).
  { rewrite (classify_option split_parser digit _ _ _ D P). pose proof (classify_words _ _ split_represents digit (column :: opt_word file) [] (Forall_cons _ Wc (opt_words file Wf))) as CW. rewrite app_nil_r in CW. rewrite CW. cbn [classify option_map]. rewrite app_nil_r. reflexivity. }
  rewrite (known_loop _ _ _ _ _ _ fs CL). cbn [length]. rewrite loop_turn. unfold consume_optional. cbn [act t]. unfold ret.
  match goal with |- context [extra (start split_parser) ?l] => set (st := extra (start split_parser) l) end.
  assert (HS : holds (w "split") split_defaults st) by exact split_holds.
  pose proof (block_file split_parser writable (fun _ _ => halt Usage) (w "split") (length (arguments file)) "column" column file [] st split_defaults fs eq_refl Wc Wf (or_introl eq_refl) HS) as B. rewrite app_nil_r in B.
  assert (FS : forall z, match next (set_word "column" column (split_defaults, fs)) (set_input file) with inl (_, fs') | inr fs' => fs' = z -> fs = z end).
  { intros z. cbn [set_word next fst snd set_input]. destruct file as [f|]; [|auto]. destruct (eqb f [45%N]); [auto|]. destruct (dget fs f); auto. }
  destruct (next (set_word "column" column (split_defaults, fs)) (set_input file)) as [[bs' fs']|fs'].
  - destruct B as (st' & _ & (M1 & M2 & M3 & M4) & E). rewrite E, (loop_end split_parser) by exact M1. rewrite (required_seen split_parser [codes "column"] st'); [|exact split_required|intros e I; apply M4; apply in_or_app; left; exact I].
    rewrite M2, M3. cbn [extras unrecognized st extra start app through]. rewrite (FS fs' eq_refl). reflexivity.
  - rewrite B. cbn [through]. rewrite (FS fs' eq_refl). reflexivity.
Qed.
(** an option, or what looks like one, is not the value of the option before it *)
Theorem C142_option_as_value : forall c v tail fs, c <> 45%N -> c <> 46%N -> digit c = false -> ~ In 32%N (c :: v) -> args (w "split" :: w "-s" :: (45%N :: c :: v) :: tail) fs = (fs, inr Usage).
Proof.
  intros c v tail fs N1 N2 Dc NS. rewrite (args_command digit writable _ split_parser) by reflexivity.
  assert (P : exists t, parse_optional digit split_parser (45%N :: c :: v) = Option t).
  { destruct (existsb (fun b => memb [45%N; c] (strings b)) split_parser) eqn:E.
    - apply existsb_exists in E. destruct E as (b & Ib & M). apply memb_true in M. eexists. exact (letter_option _ _ split_represents digit c v b Ib M).
    - eexists. apply (unknown_letter _ _ split_represents digit c v N1 N2 Dc); [|exact NS]. intros b Ib I. rewrite <- not_true_iff_false in E. apply E. apply existsb_exists. exists b. split; [exact Ib|]. apply memb_true. exact I. }
  destruct P as [t P]. set (b := text_option "-s" "--separator" "separator" None (Word (w "|"))). assert (Ib : In b split_parser) by (unfold split_parser; in_any).
  pose proof (letter_option _ _ split_represents digit 115 [] b Ib ltac:(left; reflexivity)) as PS. assert (D1 : [45%N; 115%N] <> [45%N; 45%N]) by discriminate. assert (D2 : 45%N :: c :: v <> [45%N; 45%N]) by congruence.
  destruct (classify digit split_parser tail) as [r|] eqn:CT.
  - assert (CL : classify digit split_parser (w "-s" :: (45%N :: c :: v) :: tail) = Some ((w "-s", O (read_letter 115 [] b)) :: (45%N :: c :: v, O t) :: r)).
    { change (w "-s") with [45%N; 115%N]. rewrite (classify_option split_parser digit _ _ _ D1 PS), (classify_option split_parser digit _ _ _ D2 P), CT. reflexivity. }
    rewrite (known_loop _ _ _ _ _ _ fs CL). cbn [length]. rewrite loop_turn. reflexivity.
  - unfold parse_known. change (w "-s") with [45%N; 115%N]. rewrite (classify_option split_parser digit _ _ _ D1 PS), (classify_option split_parser digit _ _ _ D2 P), CT. reflexivity.
Qed.
(** a negative number is a value: -s -1 is -s=-1 *)
Theorem C142_negative_value : forall ds tail fs, (forall c, In c (w "hostr-=") -> digit c = false) -> ds <> [] -> forallb digit ds = true ->
  args (w "split" :: w "-s" :: (45%N :: ds) :: tail) fs = args (w "split" :: (w "-s=-" ++ ds) :: tail) fs.
Proof.
  intros ds tail fs ND NE AD. rewrite !(args_command digit writable _ split_parser) by reflexivity. f_equal.
  set (b := text_option "-s" "--separator" "separator" None (Word (w "|"))). assert (Ib : In b split_parser) by (unfold split_parser; in_any).
  pose proof (letter_option _ _ split_represents digit 115 [] b Ib ltac:(left; reflexivity)) as P1. pose proof (letter_option _ _ split_represents digit 115 (61%N :: 45%N :: ds) b Ib ltac:(left; reflexivity)) as P2.
  assert (P3 : parse_optional digit split_parser (45%N :: ds) = Positional).
  { apply (number_word _ _ split_represents digit ds); [|apply ND; cbn; tauto|apply ND; cbn; tauto|exact NE|exact AD]. intros x c Ix I. apply ND. unfold split_parser in Ix. in_cases; cbn in I; repeat (destruct I as [I|I]; [injection I; intros; subst; cbn; tauto|]); contradiction I. }
  assert (D1 : forall s, 45%N :: 115%N :: s <> [45%N; 45%N]) by (intros s E; discriminate E).
  assert (D2 : eqb (45%N :: ds) [DASH; DASH] = false). { apply eqb_false. intros E. injection E as ->. pose proof (ND 45%N ltac:(cbn; tauto)) as N45. cbn in AD. change DASH with 45%N in AD. rewrite N45 in AD. discriminate. }
  assert (C3 : classify digit split_parser ((45%N :: ds) :: tail) = option_map (cons (45%N :: ds, A)) (classify digit split_parser tail)) by (cbn [classify]; match goal with |- context [eqb ?a ?b] => replace (eqb a b) with false by (symmetry; exact D2) end; match goal with |- context [parse_optional ?a ?b ?c] => replace (parse_optional a b c) with Positional by (symmetry; exact P3) end; reflexivity).
  destruct (classify digit split_parser tail) as [r|] eqn:CT.
  2:{ unfold parse_known. change (w "-s") with [45%N; 115%N]. change (w "-s=-" ++ ds) with (45%N :: 115%N :: 61%N :: 45%N :: ds). rewrite (classify_option split_parser digit _ _ _ (D1 _) P1), (classify_option split_parser digit _ _ _ (D1 _) P2), C3, CT. reflexivity. }
  assert (CL : classify digit split_parser (w "-s" :: (45%N :: ds) :: tail) = Some ((w "-s", O (read_letter 115 [] b)) :: (45%N :: ds, A) :: r)) by (change (w "-s") with [45%N; 115%N]; rewrite (classify_option split_parser digit _ _ _ (D1 _) P1), C3; reflexivity).
  assert (CR : classify digit split_parser ((w "-s=-" ++ ds) :: tail) = Some ((w "-s=-" ++ ds, O (read_letter 115 (61%N :: 45%N :: ds) b)) :: r)) by (change (w "-s=-" ++ ds) with (45%N :: 115%N :: 61%N :: 45%N :: ds); rewrite (classify_option split_parser digit _ _ _ (D1 _) P2), CT; reflexivity).
  rewrite (known_loop _ _ _ _ _ _ fs CL), (known_loop _ _ _ _ _ _ fs CR). cbn [length].
  match goal with |- match ?x with _ => _ end = match ?y with _ => _ end => assert (E : x = y); [|rewrite E; reflexivity] end.
  rewrite !loop_turn. unfold consume_optional. cbn [read_letter N.eqb Pos.eqb act by_string sep explicit]. rewrite !plan_one by reflexivity. cbn [value_of skipn]. 
unfold and_then, ret.
  match goal with |- context [take_all writable ?e ?l ?st fs] => destruct (take_all writable e l st fs) as [fs' [st'|s']]; [|reflexivity] end.
  apply loop_more. intros E. pose proof (loop_ends writable (fun _ _ => halt Usage) (fun _ _ => result_usage _) split_parser (S (length r)) r st' (le_n _) fs') as L.
  match type of E with snd ?x = _ => change x with (parse_loop writable (fun _ _ => halt Usage) split_parser (S (length r)) r st' fs') in E end. destruct (parse_loop writable (fun _ _ => halt Usage) split_parser (S (length r)) r st' fs') as [f [x|x]]; cbn in E, L; congruence.
Qed.
(** a letter that is not in the usage, after a switch in the same word: the line is refused whatever follows, unless it asks for help *)
Theorem C142_joined_unknown : forall c v tail fs, c <> 61%N -> ~ In c (w "ahot") ->
  snd (args (w "transform" :: (45%N :: 97%N :: c :: v) :: tail) fs) = inr Usage \/ snd (args (w "transform" :: (45%N :: 97%N :: c :: v) :: tail) fs) = inr Help.
Proof.
  intros c v tail fs N2 NL.
  assert (NE : forall x, snd (args (w "transform" :: (45%N :: 97%N :: c :: v) :: tail) fs) <> inl x).
  2:{ pose proof (args_end digit writable (w "transform" :: (45%N :: 97%N :: c :: v) :: tail) fs) as H. destruct (args (w "transform" :: (45%N :: 97%N :: c :: v) :: tail) fs) as [fs' [x|[]]]; cbn in *; [exfalso; exact (NE x eq_refl)|auto|auto|congruence]. }
  intros x. rewrite (args_command digit writable _ transform_parser) by reflexivity.
  set (a := flag_option [w "-a"; w "--after"] "after"). assert (Ia : In a transform_parser) by (unfold transform_parser; in_any).
  pose proof (letter_option _ _ transform_represents digit 97 (c :: v) a Ia ltac:(left; reflexivity)) as P1. assert (D : 45%N :: 97%N :: c :: v <> [45%N; 45%N]) by discriminate.
  destruct (classify digit transform_parser tail) as [r|] eqn:CT.
  2:{ unfold parse_known. rewrite (classify_option transform_parser digit _ _ _ D P1), CT. discriminate. }
  assert (CL : classify digit transform_parser ((45%N :: 97%N :: c :: v) :: tail) = Some ((45%N :: 97%N :: c :: v, O (read_letter 97 (c :: v) a)) :: r)) by (rewrite (classify_option transform_parser digit _ _ _ D P1), CT; reflexivity).
  rewrite (known_loop _ _ _ _ _ _ fs CL). cbn [length]. rewrite loop_turn. unfold consume_optional. rewrite letter_act, letter_by. cbn [read_letter]. rewrite (proj2 (N.eqb_neq c 61) N2). cbn [sep explicit].
  assert (F : find_option transform_parser [45%N; c] = None).
  { destruct (find_option transform_parser [45%N; c]) as [b|] eqn:F; [|reflexivity]. exfalso. apply find_option_some in F. destruct F as [Ib Sb]. unfold transform_parser in Ib. in_cases; cbn in Sb; repeat (destruct Sb as [Sb|Sb]; [first [discriminate Sb | injection Sb; intros; subst; apply NL; cbn; tauto]|]); exact Sb. }
  match goal with |- context [plan ?p (S ?n) ?b ?s ?h ?e ?r] => assert (PL : plan p (S n) b s h e r = if N.eqb c 45 then None else Some ([(a, [])], [45%N :: c :: v], 0)) end.
  { cbn [plan takes a flag_option]. change DASH with 45%N. cbn [N.eqb Pos.eqb orb]. destruct (N.eqb c 45); [reflexivity|]. rewrite F. reflexivity. }
  rewrite PL. clear PL. destruct (N.eqb c 45); [discriminate|].
  match goal with |- context [extra (start transform_parser) ?l] => set (st0 := extra (start transform_parser) l) end.
  match goal with |- context [and_then ?x ?k fs] => change (and_then x k fs) with (fs, @inl (state * list (str * mark)) stop (set_in (saw st0 (dest a)) (dest a) (Flag true), r)) end. cbv beta iota.
  match goal with |- context [parse_loop writable ?e ?p ?n ?l ?st fs] => pose proof (loop_extras writable e p n l st fs) as LE; destruct (parse_loop writable e p n l st fs) as [fs' [st'|s']]; [|cbn; discriminate] end.
  destruct (existsb _ transform_parser); [cbn; discriminate|]. specialize (LE st' fs' eq_refl). destruct LE as [l LE]. cbn [through]. rewrite LE. cbn. discriminate.
Qed.
(** what is missing *)
Theorem C142_missing : forall c x fs, In c [w "split"; w "cluster"; w "transform"; w "help"] -> word x -> args [c] fs = (fs, inr Usage) /\ args [w "transform"; x] fs = (fs, inr Usage).
Proof.
  intros c x fs I W. split; [destruct I as [<-|[<-|[<-|[<-|[]]]]]; reflexivity|].
  rewrite (args_command digit writable _ transform_parser) by reflexivity.
  assert (CL : classify digit transform_parser [x] = Some [(x, A)]) by exact (classify_words _ _ transform_represents digit [x] [] (Forall_cons _ W (Forall_nil _))).
  rewrite (known_loop _ _ _ _ _ _ fs CL). cbn [length]. rewrite loop_unfold. cbn [existsb is_option snd orb].
  cbn. rewrite (word_not_dashes x W). reflexivity.
Qed.
(** the word -- : all that follows is arguments *)
Theorem C142_dashes : forall column file fs, file <> Some (w "--") -> gives (args (w "split" :: w "--" :: column :: opt_word file) fs) (split_meaning writable [] column file [] fs).
Proof.
  intros column file fs NF. apply (known_args digit writable _ split_parser); [reflexivity|].
  assert (CL : classify digit split_parser (w "--" :: column :: opt_word file) = Some ((w "--", D) :: (column, A) :: arguments file)) by (destruct file; reflexivity).
  rewrite (known_loop _ _ _ _ _ _ fs CL). clear CL.
  assert (HS : forall v, holds (w "split") (split_defaults ++ [(w "column", Word column)] ++ [(w "file", v)]) (set_in (saw (set_in (saw (start split_parser) (w "column")) (w "column") (Word column)) (w "file")) (w "file") v)).
  { intros v. rewrite app_assoc. apply (holds_set (w "split")), (holds_set (w "split")), split_holds. }
  assert (K : forall v, file = v -> v <> Some (w "--") -> known_gives (w "split") (split_meaning writable [] column v [] fs) []
    match parse_loop writable (fun _ _ => halt Usage) split_parser (S (length ((w "--", D) :: (column, A) :: arguments v))) ((w "--", D) :: (column, A) :: arguments v) (start split_parser) fs with
    | (fs, inl st) => if existsb (fun a => required a && negb (memb (dest a) (seen st))) split_parser then (fs, inr Usage) else (fs, inl (ns st, extras st ++ unrecognized st))
    | (fs, inr s) => (fs, inr s) end); [|exact (K file eq_refl NF)].
  intros v _ NV. destruct v as [f|].
  - assert (EF : eqb f [45%N; 45%N] = false) by (apply eqb_false; intros ->; apply NV; reflexivity). unfold split_meaning. cbn [set_options next set_word fst snd set_input].
    cbn. unfold and_then, ret, get_value. change DASH with 45%N. rewrite EF. cbn. destruct (eqb f [45%N]); [refine (ex_intro _ _ (conj _ (HS (Input None)))); reflexivity|]. destruct (dget fs f); [refine (ex_intro _ _ (conj _ (HS (Input (Some f))))); reflexivity|reflexivity].
  - refine (ex_intro _ _ (conj _ (HS (Input None)))). reflexivity.
Qed.
(** no command, and the command help *)
Theorem C145_help : forall lower strip upper unidecode fingerprint evaluate now took stdin s fs, word s ->
  main digit writable lower strip upper unidecode fingerprint evaluate now took stdin [] fs = (fs, [], HelpShown) /\
  main digit writable lower strip upper unidecode fingerprint evaluate now took stdin [w "help"; s] fs = (fs, [], HelpShown).
Proof.
  intros lower strip upper unidecode fingerprint evaluate now took stdin s fs W. split; [reflexivity|].
  unfold main. rewrite (args_command digit writable _ help_parser) by reflexivity.
  assert (CL : classify digit help_parser [s] = Some [(s, A)]) by exact (classify_words _ _ help_represents digit [s] [] (Forall_cons _ W (Forall_nil _))).
  rewrite (known_loop _ _ _ _ _ _ fs CL). cbn [length]. rewrite loop_unfold. cbn [existsb is_option snd orb].
  cbn. rewrite (word_not_dashes s W). reflexivity.
Qed.
End More.

Open Scope string_scope.
Open Scope list_scope.
Example C142_joined_switch_ex : parse ["transform"; "-ato"; "a"; "upper"] [] = parse ["transform"; "-a"; "-to"; "a"; "upper"] [] /\
  taken (parse ["transform"; "-at"; "o"; "a"; "upper"] []) ["after"; "target_column"] = Some [Some (Flag true); Some (Word (w "o"))].
Proof. split; vm_compute; reflexivity. Qed.
Example C142_switch_value_ex : parse ["transform"; "--after=1"; "a"; "upper"] [] = ([], inr Usage).
Proof. vm_compute. reflexivity. Qed.
Example C142_unknown_option_ex : parse ["split"; "-x"; "a"] [] = ([], inr Usage) /\ snd (parse ["split"; "-s"; "x"; "a"] []) <> inr Usage.
Proof. split; vm_compute; [reflexivity|discriminate]. Qed.
Example C142_joined_unknown_ex : snd (parse ["transform"; "-ax"; "a"; "upper"] []) = inr Usage /\ snd (parse ["transform"; "-ax"; "-h"] []) = inr Help.
Proof. split; vm_compute; reflexivity. Qed.
Example C142_option_as_value_ex : parse ["split"; "-s"; "-x"; "a"] [] = ([], inr Usage).
Proof. vm_compute. reflexivity. Qed.
Example C142_negative_value_ex : taken (parse ["split"; "-s"; "-12"; "a"] []) ["separator"] = Some [Some (Word (w "-12"))].
Proof. vm_compute. reflexivity. Qed.
Example C142_dashes_ex : taken (parse ["split"; "--"; "-s"; "in.csv"] one_file) ["column"; "file"] = Some [Some (Word (w "-s")); Some (Input (Some (w "in.csv")))] /\
  taken (parse ["split"; "--"; "--"] []) ["column"] = Some [Some (Word (w "--"))].
Proof. split; vm_compute; reflexivity. Qed.
Example C142_missing_ex : parse ["transform"; "a"] one_file = (one_file, inr Usage).
Proof. vm_compute. reflexivity. Qed.
Example C145_help_ex : fog_ex ["help"; "split"] [] "" = ([], [], HelpShown).
Proof. vm_compute. reflexivity. Qed.

Print Assumptions C142_joined_switch.
Print Assumptions C142_switch_value.
Print Assumptions C142_unknown_option.
Print Assumptions C142_joined_unknown.
Print Assumptions C142_option_as_value.
Print Assumptions C142_negative_value.
Print Assumptions C142_missing.
Print Assumptions C142_dashes.
Print Assumptions C145_help.
