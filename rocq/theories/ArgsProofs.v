(** Lemmas for the theorems of ArgsProps.v. *)
From Coq Require Import QArith_base String Lia.
From Verif Require Import Base BaseFacts LevModel StringsModel PhoneticsModel CliModel ReportModel CsvModel ArgsModel ArgsSpec.
Open Scope nat_scope.
Open Scope list_scope.

(** ** Lists *)
Lemma flat_map_ext_in {X Y} (f g : X -> list Y) l : (forall x, In x l -> f x = g x) -> flat_map f l = flat_map g l.
Proof. induction l as [|x l IH]; intros E; cbn; [reflexivity|]. rewrite E by (left; reflexivity). rewrite IH; [reflexivity|]. intros; apply E; right; assumption. Qed.
Lemma filter_unique {X} (f : X -> bool) l x : NoDup l -> In x l -> f x = true -> (forall y, In y l -> f y = true -> y = x) -> filter f l = [x].
Proof.
  induction l as [|y l IH]; intros ND I F U; [contradiction|]. inversion ND as [|? ? NI ND']; subst. cbn.
  destruct (f y) eqn:E.
  - assert (y = x) by (apply U; [left; reflexivity|exact E]); subst y. f_equal.
    apply filter_none. intros z Z. destruct (f z) eqn:Ez; [|reflexivity]. exfalso. apply NI. rewrite <- (U z); auto. right; exact Z.
  - destruct I as [->|I]; [congruence|]. apply IH; auto. intros z Z; apply U; right; exact Z.
Qed.
Definition pairs (p : parser) : list (action * str) := flat_map (fun a => map (pair a) (strings a)) p.
Lemma in_pairs p a s : In (a, s) (pairs p) <-> In a p /\ In s (strings a).
Proof.
  unfold pairs. rewrite in_flat_map. split.
  - intros (b & B & I). apply in_map_iff in I. destruct I as (s' & E & I). injection E; intros; subst. auto.
  - intros [I J]. exists a. split; [exact I|]. apply in_map_iff. eauto.
Qed.
Lemma tuples_filter {Y} (f : str -> bool) (g : action -> str -> Y) p :
  flat_map (fun a => flat_map (fun s => if f s then [g a s] else []) (strings a)) p = map (fun q => g (fst q) (snd q)) (filter (fun q => f (snd q)) (pairs p)).
Proof.
  induction p as [|a p IH]; [reflexivity|]. unfold pairs; cbn. fold (pairs p). rewrite filter_app, map_app, <- IH. f_equal.
  induction (strings a) as [|s l IHl]; [reflexivity|]. cbn. rewrite IHl. destruct (f s); reflexivity.
Qed.

(** ** Strings *)
Lemma starts_with_true a s : starts_with a s = true <-> prefix a s.
Proof.
  unfold prefix. revert s; induction a as [|c a IH]; intros s; cbn.
  - split; [intros _; exists s; reflexivity|reflexivity].
  - destruct s as [|d s].
    + split; [discriminate|]. intros [t E]; discriminate E.
    + rewrite andb_true_iff, N.eqb_eq, IH. split.
      * intros [-> [t ->]]. exists t; reflexivity.
      * intros [t E]. injection E; intros; subst. split; [reflexivity|]. exists t; reflexivity.
Qed.
Lemma partition_none s : ~ In 61%N s -> partition_equals s = (s, None).
Proof.
  induction s as [|c s IH]; intros NI; [reflexivity|]. cbn. unfold EQUALS. destruct (N.eqb_spec c 61) as [->|E]; [exfalso; apply NI; left; reflexivity|].
  rewrite IH; [reflexivity|]. intros I; apply NI; right; exact I.
Qed.
Lemma partition_some s v : ~ In 61%N s -> partition_equals (s ++ 61%N :: v) = (s, Some v).
Proof.
  induction s as [|c s IH]; intros NI; [reflexivity|]. cbn. unfold EQUALS. destruct (N.eqb_spec c 61) as [->|E]; [exfalso; apply NI; left; reflexivity|].
  rewrite IH; [reflexivity|]. intros I; apply NI; right; exact I.
Qed.

(** ** A parser and its usage *)
Definition like (o : usage) (a : action) : Prop :=
  strings a = match short o with Some c => [[45%N; c]] | None => [] end ++ [45%N :: 45%N :: long o] /\
  dest a = name o /\
  takes a = match value o with ASwitch => NoneAtAll | _ => One end /\
  conv a = match value o with AFile => AsOutput | _ => AsText end /\
  choices a = match value o with AText l => l | _ => None end /\
  does a = match value o with ASwitch => StoreTrue | _ => Store end.
Record represents (u : list usage) (p : parser) : Prop := {
  rep_opt : forall o, In o u -> exists a, In a p /\ like o a;
  rep_rev : forall a s, In a p -> In s (strings a) -> a = help_option \/ exists o, In o u /\ like o a;
  rep_inj : forall a b s, In a p -> In b p -> In s (strings a) -> In s (strings b) -> a = b;
  rep_form : forall a s, In a p -> In s (strings a) -> (exists c, s = [45%N; c] /\ c <> 45%N /\ c <> 61%N) \/ (exists n, s = 45%N :: 45%N :: n /\ n <> [] /\ ~ In 61%N n);
  rep_nodup : NoDup (pairs p) }.

(** the options of a parser with the string, decided *)
Definition form_ok (s : str) : bool :=
  match s with
  | [c; d] => eqb c 45%N && negb (eqb d 45%N) && negb (eqb d 61%N)
  | c :: d :: n => eqb c 45%N && eqb d 45%N && negb (memb 61%N n)
  | _ => false
  end.
Lemma form_ok_true s : form_ok s = true -> (exists c, s = [45%N; c] /\ c <> 45%N /\ c <> 61%N) \/ (exists n, s = 45%N :: 45%N :: n /\ n <> [] /\ ~ In 61%N n).
Proof.
  destruct s as [|c [|d [|e n]]]; cbn [form_ok]; try discriminate; rewrite !andb_true_iff, ?negb_true_iff, ?eqb_true, ?eqb_false, ?memb_false.
  - intros [[-> H1] H2]. left. eauto.
  - intros [[-> ->] H]. right. exists (e :: n). repeat split; [discriminate|exact H].
Qed.
Ltac in_cases := repeat match goal with
  | H : In _ (_ :: _) |- _ => destruct H as [<-|H]
  | H : In _ [] |- _ => contradiction H
  end.
Ltac in_any := (left; reflexivity) + (right; in_any).
Ltac represent u p :=
  constructor;
  [ intros o I; unfold u in I; in_cases; eexists; (split; [unfold p; in_any|repeat split; reflexivity])
  | intros a s I J; unfold p in I; in_cases; cbn [strings word_argument file_argument] in J; try contradiction J;
      first [left; reflexivity | right; eexists; (split; [unfold u; in_any|repeat split; reflexivity])]
  | intros a b s I J Ha Hb; unfold p in I, J; in_cases; first [reflexivity | exfalso; cbn in Ha, Hb; intuition (subst; discriminate)]
  | intros a s I J; apply form_ok_true; unfold p in I; in_cases; cbn in J; repeat (destruct J as [J|J]; [subst s; reflexivity|]); contradiction J
  | vm_compute; repeat constructor; cbn; intros I; repeat (destruct I as [I|I]; [discriminate I|]); exact I ].
Lemma split_represents : represents split_usage split_parser.
Proof. represent split_usage split_parser. Qed.
Lemma transform_represents : represents transform_usage transform_parser.
Proof. represent transform_usage transform_parser. Qed.
Lemma cluster_represents : represents cluster_usage cluster_parser.
Proof. represent cluster_usage cluster_parser. Qed.

Definition no_usage : list usage := [].
Lemma help_represents : represents no_usage help_parser.
Proof. represent no_usage help_parser. Qed.
Lemma main_represents : represents no_usage main_parser.
Proof. represent no_usage main_parser. Qed.

Section Parsing.
Variable u : list usage.
Variable p : parser.
Hypothesis R : represents u p.
Variable digit : N -> bool.

Lemma find_option_is a s : In a p -> In s (strings a) -> find_option p s = Some a.
Proof.
  intros I J. unfold find_option. destruct (find _ p) as [b|] eqn:F.
  - apply find_some in F. destruct F as [Ib M]. apply memb_true in M. f_equal. exact (rep_inj _ _ R _ _ _ Ib I M J).
  - exfalso. apply (find_none _ _ F) in I. apply memb_false in I. contradiction.
Qed.
Lemma find_option_some a s : find_option p s = Some a -> In a p /\ In s (strings a).
Proof. intros F. apply find_some in F. destruct F as [I M]. apply memb_true in M. auto. Qed.
Lemma find_option_form s : find_option p s <> None ->
  (exists c, s = [45%N; c] /\ c <> 45%N /\ c <> 61%N) \/ (exists n, s = 45%N :: 45%N :: n /\ n <> [] /\ ~ In 61%N n).
Proof. destruct (find_option p s) as [a|] eqn:F; [|congruence]. intros _. apply find_option_some in F. destruct F. eapply (rep_form _ _ R); eassumption. Qed.
Lemma find_option_not s : ~ ((exists c, s = [45%N; c] /\ c <> 45%N /\ c <> 61%N) \/ (exists n, s = 45%N :: 45%N :: n /\ n <> [] /\ ~ In 61%N n)) -> find_option p s = None.
Proof. intros H. destruct (find_option p s) eqn:F; [|reflexivity]. exfalso. apply H. apply find_option_form. congruence. Qed.

(** the action of an option *)
Lemma action_of o : In o u -> exists a, In a p /\ like o a /\ In (45%N :: 45%N :: long o) (strings a) /\ (forall c, short o = Some c -> In [45%N; c] (strings a)).
Proof.
  intros I. destruct (rep_opt _ _ R o I) as (a & Ia & L). exists a. repeat split; auto; try apply L.
  - rewrite (proj1 L). apply in_or_app; right; left; reflexivity.
  - intros c E. rewrite (proj1 L), E. left; reflexivity.
Qed.
Lemma like_unique o a b : In o u -> In a p -> In b p -> like o a -> like o b -> a = b.
Proof.
  intros I Ia Ib La Lb. refine (rep_inj _ _ R _ _ (45%N :: 45%N :: long o) Ia Ib _ _).
  - rewrite (proj1 La). apply in_or_app; right; left; reflexivity.
  - rewrite (proj1 Lb). apply in_or_app; right; left; reflexivity.
Qed.
Lemma short_char a c : In a p -> In [45%N; c] (strings a) -> c <> 45%N /\ c <> 61%N.
Proof.
  intros Ia I. destruct (rep_form _ _ R _ _ Ia I) as [(d & E & H1 & H2)|(n & E & H & _)].
  - injection E; intros; subst. auto.
  - injection E; intros; subst. congruence.
Qed.
Lemma long_no_equals o : In o u -> ~ In 61%N (long o).
Proof.
  intros I. destruct (action_of o I) as (a & Ia & _ & S1 & _). destruct (rep_form _ _ R _ _ Ia S1) as [(d & E & H1 & H2)|(n & E & H & NI)].
  - injection E; intros; subst. congruence.
  - injection E; intros; subst. exact NI.
Qed.
Lemma abbr_no_equals a o : abbreviates u a o -> ~ In 61%N a.
Proof. intros (I & [s E] & _) J. apply (long_no_equals o I). rewrite E. apply in_or_app; left; exact J. Qed.

Lemma word_positional v : word v -> parse_optional digit p v = Positional.
Proof.
  intros [->|[->|(c & s & -> & NE)]].
  - reflexivity.
  - cbn [parse_optional]. unfold DASH. cbn [N.eqb Pos.eqb negb]. rewrite (find_option_not [45%N]); [reflexivity|].
    intros [(c & E & _)|(n & E & _)]; discriminate E.
  - cbn [parse_optional]. unfold DASH. apply N.eqb_neq in NE. rewrite NE. reflexivity.
Qed.
Lemma word_not_dashes v : word v -> eqb v [DASH; DASH] = false.
Proof. intros W. apply eqb_false. intros ->. destruct W as [E|[E|(c & s & E & NE)]]; try discriminate E. injection E; intros; subst. apply NE; reflexivity. Qed.

Lemma exact_option a s : In a p -> In s (strings a) -> parse_optional digit p s = Option {| act := Some a; by_string := s; sep := false; explicit := None |}.
Proof.
  intros Ia I. pose proof (find_option_is _ _ Ia I) as F. destruct (rep_form _ _ R _ _ Ia I) as [(c & -> & _)|(n & -> & _)]; cbn [parse_optional]; rewrite F; reflexivity.
Qed.

(** the only option an abbreviation stands for *)
Lemma abbr_filter a o b : abbreviates u a o -> a <> long o -> In b p -> like o b ->
  filter (fun q => starts_with (45%N :: 45%N :: a) (snd q)) (pairs p) = [(b, 45%N :: 45%N :: long o)].
Proof.
  intros (Io & [s E] & NE & [X|[U NH]]) NL Ib L; [contradiction|].
  apply filter_unique.
  - apply (rep_nodup _ _ R).
  - apply in_pairs. split; [exact Ib|]. rewrite (proj1 L). apply in_or_app; right; left; reflexivity.
  - cbn [snd]. apply starts_with_true. exists s. rewrite E. reflexivity.
  - intros [b' s'] I H. cbn [snd] in H. apply starts_with_true in H. destruct H as [t Et]. apply in_pairs in I. destruct I as [Ib' Is'].
    destruct (rep_rev _ _ R _ _ Ib' Is') as [->|(o' & Io' & L')].
    + exfalso. cbn in Is'. destruct Is' as [<-|[<-|[]]].
      * discriminate Et.
      * apply NH. injection Et; intros Et'. exists t. exact Et'.
    + rewrite (proj1 L') in Is'. assert (s' = 45%N :: 45%N :: long o') as ->.
      { pose proof Is' as Is0. rewrite <- (proj1 L') in Is0. apply in_app_or in Is'. destruct Is' as [Is'|[<-|[]]]; [|reflexivity].
        destruct (short o'); [|contradiction]. destruct Is' as [<-|[]].
        exfalso. destruct (short_char b' n Ib' Is0) as [H1 _]. injection Et; intros; subst. congruence. }
      injection Et; intros Et'. assert (o' = o) as -> by (apply U; [exact Io'|exists t; exact Et']).
      f_equal. apply (like_unique o); auto.
Qed.

Lemma abbr_not_found a o b : abbreviates u a o -> a <> long o -> In b p -> like o b -> find_option p (45%N :: 45%N :: a) = None.
Proof.
  intros Ab NL Ib L. destruct (find_option p (45%N :: 45%N :: a)) as [b'|] eqn:F; [|reflexivity]. exfalso. apply find_option_some in F.
  pose proof (abbr_filter a o b Ab NL Ib L) as E.
  assert (I : In (b', 45%N :: 45%N :: a) (filter (fun q => starts_with (45%N :: 45%N :: a) (snd q)) (pairs p))).
  { apply filter_In. split; [apply in_pairs; exact F|]. apply starts_with_true. exists []. rewrite app_nil_r. reflexivity. }
  rewrite E in I. destruct I as [I|[]]. injection I; intros. congruence.
Qed.
Lemma not_in_dashes a : ~ In 61%N a -> ~ In 61%N (45%N :: 45%N :: a).
Proof. intros H [E|[E|I]]; try discriminate E. auto. Qed.
Lemma long_option a o b : abbreviates u a o -> In b p -> like o b ->
  exists s, parse_optional digit p (45%N :: 45%N :: a) = Option {| act := Some b; by_string := s; sep := false; explicit := None |}.
Proof.
  intros Ab Ib L. pose proof (abbr_no_equals _ _ Ab) as NEq. destruct (eq_dec a (long o)) as [->|NL].
  - eexists. apply exact_option; [exact Ib|]. rewrite (proj1 L). apply in_or_app; right; left; reflexivity.
  - exists (45%N :: 45%N :: long o). cbn [parse_optional]. unfold DASH at 1. cbn [N.eqb Pos.eqb negb].
    rewrite (abbr_not_found a o b) by assumption. replace (eqb (45%N :: a) []) with false by (symmetry; apply eqb_false; discriminate).
    rewrite partition_none by (apply not_in_dashes; assumption).
    cbn [option_tuples]. unfold DASH at 1. cbn [N.eqb Pos.eqb]. rewrite partition_none by (apply not_in_dashes; assumption).
    rewrite (tuples_filter (starts_with (45%N :: 45%N :: a)) (fun x s => {| act := Some x; by_string := s; sep := false; explicit := None |})).
    rewrite (abbr_filter a o b) by assumption. reflexivity.
Qed.
Lemma long_option_equals a v o b : abbreviates u a o -> In b p -> like o b ->
  exists s, parse_optional digit p (45%N :: 45%N :: a ++ 61%N :: v) = Option {| act := Some b; by_string := s; sep := true; explicit := Some v |}.
Proof.
  intros Ab Ib L. pose proof (abbr_no_equals _ _ Ab) as NEq.
  assert (P : partition_equals (45%N :: 45%N :: a ++ 61%N :: v) = (45%N :: 45%N :: a, Some v)).
  { apply (partition_some (45%N :: 45%N :: a)). apply not_in_dashes. assumption. }
  assert (F : find_option p (45%N :: 45%N :: a ++ 61%N :: v) = None).
  { apply find_option_not. intros [(c & E & _)|(n & E & _ & NI)].
    - destruct a; discriminate E.
    - injection E; intros <-. apply NI. apply in_or_app; right; left; reflexivity. }
  cbn [parse_optional]. unfold DASH at 1. cbn [N.eqb Pos.eqb negb]. rewrite F.
  replace (eqb (45%N :: a ++ 61%N :: v) []) with false by (symmetry; apply eqb_false; discriminate). rewrite P.
  destruct (eq_dec a (long o)) as [->|NL].
  - eexists. rewrite (find_option_is b); [reflexivity|exact Ib|]. rewrite (proj1 L). apply in_or_app; right; left; reflexivity.
  - eexists. rewrite (abbr_not_found a o b) by assumption.
    cbn [option_tuples]. unfold DASH at 1. cbn [N.eqb Pos.eqb]. rewrite P.
    rewrite (tuples_filter (starts_with (45%N :: 45%N :: a)) (fun x s => {| act := Some x; by_string := s; sep := true; explicit := Some v |})).
    rewrite (abbr_filter a o b) by assumption. reflexivity.
Qed.
Lemma short_option_equals c v b : In b p -> In [45%N; c] (strings b) ->
  parse_optional digit p (45%N :: c :: 61%N :: v) = Option {| act := Some b; by_string := [45%N; c]; sep := true; explicit := Some v |}.
Proof.
  intros Ib I. destruct (short_char _ _ Ib I) as [N1 N2].
  assert (P : partition_equals (45%N :: c :: 61%N :: v) = ([45%N; c], Some v)).
  { apply (partition_some [45%N; c]). intros [E|[E|[]]]; congruence. }
  assert (F : find_option p (45%N :: c :: 61%N :: v) = None).
  { apply find_option_not. intros [(d & E & _)|(n & E & _ & NI)]; [discriminate E|]. injection E; intros; subst. congruence. }
  cbn [parse_optional]. unfold DASH at 1. cbn [N.eqb Pos.eqb negb]. rewrite F.
  replace (eqb (c :: 61%N :: v) []) with false by (symmetry; apply eqb_false; discriminate). rewrite P.
  rewrite (find_option_is b) by assumption. reflexivity.
Qed.
Lemma short_option_joined c v b : In b p -> In [45%N; c] (strings b) -> v <> [] -> hd_error v <> Some 61%N ->
  parse_optional digit p (45%N :: c :: v) = Option {| act := Some b; by_string := [45%N; c]; sep := false; explicit := Some v |}.
Proof.
  intros Ib I NV HV. destruct (short_char _ _ Ib I) as [N1 N2]. destruct v as [|x v]; [congruence|]. cbn in HV.
  assert (Nx : x <> 61%N) by congruence.
  assert (NF : forall s, find_option p (45%N :: c :: x :: s) = None).
  { intros s. apply find_option_not. intros [(d & E & _)|(n & E & _ & NI)]; [discriminate E|]. injection E; intros; subst. congruence. }
  cbn [parse_optional]. unfold DASH at 1. cbn [N.eqb Pos.eqb negb]. rewrite NF.
  replace (eqb (c :: x :: v) []) with false by (symmetry; apply eqb_false; discriminate).
  assert (P : partition_equals (45%N :: c :: x :: v) = (45%N :: c :: x :: fst (partition_equals v), snd (partition_equals v))).
  { cbn [partition_equals]. unfold EQUALS. apply N.eqb_neq in N2. apply N.eqb_neq in Nx. rewrite N2, Nx. cbn [N.eqb Pos.eqb]. destruct (partition_equals v); reflexivity. }
  rewrite P, NF.
  assert (T : option_tuples p (45%N :: c :: x :: v) = [{| act := Some b; by_string := [45%N; c]; sep := false; explicit := Some (x :: v) |}]).
  { cbn [option_tuples]. unfold DASH. rewrite (proj2 (N.eqb_neq c 45) N1).
    transitivity (flat_map (fun a => flat_map (fun s => if eqb s [45%N; c] then [{| act := Some a; by_string := s; sep := false; explicit := Some (x :: v) |}] else []) (strings a)) p).
    - apply flat_map_ext_in. intros a Ia. apply flat_map_ext_in. intros s Is. destruct (eqb s [45%N; c]); [reflexivity|].
      destruct (starts_with (45%N :: c :: x :: v) s) eqn:E; [|reflexivity]. exfalso. apply starts_with_true in E. destruct E as [t ->].
      destruct (rep_form _ _ R _ _ Ia Is) as [(d & E & _)|(n & E & _ & NI)]; [discriminate E|]. injection E; intros; subst. congruence.
    - rewrite (tuples_filter (fun s => eqb s [45%N; c]) (fun a s => {| act := Some a; by_string := s; sep := false; explicit := Some (x :: v) |})).
      rewrite (filter_unique _ _ (b, [45%N; c])).
      + reflexivity.
      + apply (rep_nodup _ _ R).
      + apply in_pairs; auto.
      + apply eqb_refl.
      + intros [b' s] J E. cbn [snd] in E. apply (proj1 (eqb_true _ _)) in E. subst s. apply in_pairs in J. destruct J as [Ib' J]. f_equal. exact (rep_inj _ _ R _ _ _ Ib' Ib J I). }
  rewrite T. destruct (snd (partition_equals v)); reflexivity.
Qed.

(** ** Taking options *)
Variable writable : str -> bool.
Variable enter : str -> list str -> run (namespace * list str).
Variable command : str.
(** the settings in a state, in the command [command] *)
Definition holds (bs : bindings) (st : state) : Prop :=
  NoDup (dkeys (ns st)) /\ forall n, latest bs n = match dget (ns st) n with Some w => Some w | None => if eq_dec n (codes "action") then Some (Word command) else None end.
Definition same (st st' : state) : Prop :=
  positionals st' = positionals st /\ extras st' = extras st /\ unrecognized st' = unrecognized st /\ incl (seen st) (seen st').
Lemma same_refl st : same st st.
Proof. repeat split. apply incl_refl. Qed.
Lemma same_trans a b c : same a b -> same b c -> same a c.
Proof. intros (P1 & P2 & P3 & P4) (Q1 & Q2 & Q3 & Q4). repeat split; try congruence. eapply incl_tran; eassumption. Qed.
Lemma latest_snoc bs m v n : latest (bs ++ [(m, v)]) n = if eq_dec n m then Some v else latest bs n.
Proof.
  induction bs as [|[k w] bs IH]; cbn [latest app]; [destruct (eq_dec n m); reflexivity|]. rewrite IH. destruct (eq_dec n m); [reflexivity|]. reflexivity.
Qed.
Lemma holds_set bs st d v : holds bs st -> holds (bs ++ [(d, v)]) (set_in (saw st d) d v).
Proof.
  intros [ND H]. split.
  - cbn [ns set_in saw]. unfold dset. rewrite dkeys_dmodify. apply sadd_NoDup. exact ND.
  - intros n. rewrite latest_snoc. cbn [ns set_in saw]. unfold dset. destruct (eq_dec n d) as [->|NE].
    + rewrite dget_dmodify_same. reflexivity.
    + rewrite dget_dmodify_other by congruence. apply H.
Qed.
Lemma same_set st d v : same st (set_in (saw st d) d v).
Proof. repeat split. cbn. apply incl_tl, incl_refl. Qed.

(** what a run gives *)
Definition follows (x : outcome) (r : files * (state + stop)) (Q : state -> Prop) : Prop :=
  match x with
  | inl (bs, fs) => exists st, r = (fs, inl st) /\ holds bs st /\ Q st
  | inr fs => r = (fs, inr Usage)
  end.
Definition args_of (o : usage) (v : str) : list str := match value o with ASwitch => [] | _ => [v] end.
Lemma take_option o a v bs st fs : like o a -> holds bs st ->
  follows (set_option writable o v (bs, fs)) (take_action writable enter a (args_of o v) st fs) (same st).
Proof.
  intros (Ls & Ld & Lt & Lc & Lh & Lo) H. unfold take_action, is_positional, args_of, set_option. rewrite Ls, Lt, Lc, Lo, Ld.
  pose proof (holds_set bs st (name o)) as HS. pose proof (same_set st (name o)) as SS.
  assert (forall T (x y : T), match match short o with Some c => [[45%N; c]] | None => [] end ++ [45%N :: 45%N :: long o] with [] => x | _ => y end = y) as NP
    by (intros; destruct (short o); reflexivity).
  rewrite NP. unfold check_value. rewrite Lh.
  destruct (value o) as [[l|]| |]; cbn [get_value and_then ret halt].
  - unfold and_then, get_value, ret, halt. destruct (memb v l); cbn [follows]; [eexists; eauto|reflexivity].
  - unfold and_then, get_value, ret. cbn [follows]. eexists; eauto.
  - unfold and_then, get_value, ret, DASH. destruct (eqb v [45%N]); [cbn [follows]; eexists; eauto|]. destruct (writable v); cbn [follows]; [eexists; eauto|reflexivity].
  - cbn [follows]. unfold ret. eexists; eauto.
Qed.
Lemma extra_nil st : extra st [] = st.
Proof. destruct st; unfold extra; cbn. rewrite app_nil_r. reflexivity. Qed.
Notation loop := (parse_loop writable enter p).

(** one option: how it is classified, and the turn of the loop that takes it *)
Lemma option_turn n x t next rest st bs fs o a v k :
  act t = Some a -> like o a -> plan p (S (length x)) a (by_string t) (sep t) (explicit t) (next ++ rest) = Some ([(a, args_of o v)], [], k) -> skipn k (next ++ rest) = rest ->
  holds bs st ->
  match set_option writable o v (bs, fs) with
  | inl (bs', fs') => exists st', holds bs' st' /\ same st st' /\ loop (S n) ((x, O t) :: next ++ rest) st fs = loop n rest st' fs'
  | inr fs' => loop (S n) ((x, O t) :: next ++ rest) st fs = (fs', inr Usage)
  end.
Proof.
  intros Ea L P K H. pose proof (take_option o a v bs st fs L H) as F. cbn [parse_loop existsb is_option snd orb].
  unfold consume_optional. rewrite Ea, P, extra_nil. cbn [take_all]. unfold and_then, ret. unfold follows in F.
  destruct (set_option writable o v (bs, fs)) as [[bs' fs']|fs'].
  - destruct F as (st' & E & H' & S'). exists st'. split; [exact H'|]. split; [exact S'|]. rewrite E, K. reflexivity.
  - rewrite F. reflexivity.
Qed.

Lemma classify_word v tail : word v -> classify digit p (v :: tail) = option_map (cons (v, A)) (classify digit p tail).
Proof. intros W. cbn [classify]. rewrite (word_not_dashes v W), (word_positional v W). reflexivity. Qed.
Lemma classify_option x t tail : x <> [45%N; 45%N] -> parse_optional digit p x = Option t -> classify digit p (x :: tail) = option_map (cons (x, O t)) (classify digit p tail).
Proof. intros NE E. cbn [classify]. replace (eqb x [DASH; DASH]) with false by (symmetry; apply eqb_false; exact NE). rewrite E. reflexivity. Qed.

Definition option_marks (ws : list str) (l : list (usage * str)) (ms : list (str * mark)) : Prop :=
  length l <= length ms /\
  (forall tail r, classify digit p tail = Some r -> classify digit p (ws ++ tail) = Some (ms ++ r)) /\
  (forall tail, classify digit p tail = None -> classify digit p (ws ++ tail) = None) /\
  (ms = [] /\ ws = [] \/ exists x t ms', ms = (x, O t) :: ms') /\
  forall n rest st bs fs, holds bs st ->
    match set_options writable l (bs, fs) with
    | inl (bs', fs') => exists st', holds bs' st' /\ same st st' /\ loop (length l + n) (ms ++ rest) st fs = loop n rest st' fs'
    | inr fs' => loop (length l + n) (ms ++ rest) st fs = (fs', inr Usage)
    end.

Lemma option_cons ws l ms o a v x t (next : list str) :
  option_marks ws l ms -> like o a -> act t = Some a -> x <> [45%N; 45%N] -> parse_optional digit p x = Option t -> Forall word next -> length next <= 1 ->
  (forall rest, plan p (S (length x)) a (by_string t) (sep t) (explicit t) (map (fun w => (w, A)) next ++ rest) = Some ([(a, args_of o v)], [], length next)) ->
  exists ms', option_marks (x :: next ++ ws) ((o, v) :: l) ms'.
Proof.
  intros (Len & Cl & Cn & _ & Lo) L Ea NE Po W LN P. exists ((x, O t) :: map (fun w => (w, A)) next ++ ms). unfold option_marks.
  assert (CW : forall tail, classify digit p (next ++ tail) = option_map (app (map (fun w => (w, A)) next)) (classify digit p tail)).
  { clear - W R. induction W as [|w next Hw W IH]; intros tail; cbn [app map]; [destruct (classify digit p tail); reflexivity|].
    rewrite classify_word by exact Hw. rewrite IH. destruct (classify digit p tail); reflexivity. }
  split; [cbn [length]; rewrite app_length; lia|]. split; [|split; [|split]].
  - intros tail r E. cbn [app]. rewrite (classify_option x t) by assumption. rewrite <- app_assoc, CW, (Cl tail r E). cbn. rewrite app_assoc. reflexivity.
  - intros tail E. cbn [app]. rewrite (classify_option x t) by assumption. rewrite <- app_assoc, CW, (Cn tail E). reflexivity.
  - right. eauto.
  - intros n rest st bs fs H. cbn [set_options length app Nat.add]. rewrite <- app_assoc.
    pose proof (option_turn (length l + n) x t (map (fun w => (w, A)) next) (ms ++ rest) st bs fs o a v (length next) Ea L (P (ms ++ rest))) as T.
    specialize (T ltac:(rewrite skipn_app, skipn_all2 by (rewrite map_length; lia); rewrite map_length, Nat.sub_diag; reflexivity) H).
    destruct (set_option writable o v (bs, fs)) as [[bs1 fs1]|fs1]; cbn [ArgsSpec.next].
    + destruct T as (st1 & H1 & S1 & E1). specialize (Lo n rest st1 bs1 fs1 H1). destruct (set_options writable l (bs1, fs1)) as [[bs2 fs2]|fs2].
      * destruct Lo as (st2 & H2 & S2 & E2). exists st2. split; [exact H2|]. split; [eapply same_trans; eassumption|]. exact (eq_trans E1 E2).
      * exact (eq_trans E1 Lo).
    + exact T.
Qed.

Lemma takes_one o a : like o a -> value o <> ASwitch -> takes a = One.
Proof. intros (_ & _ & -> & _) NE. destruct (value o); congruence. Qed.
Lemma takes_none o a : like o a -> value o = ASwitch -> takes a = NoneAtAll.
Proof. intros (_ & _ & -> & _) ->. reflexivity. Qed.
Lemma args_one o v : value o <> ASwitch -> args_of o v = [v].
Proof. unfold args_of. destruct (value o); congruence. Qed.
Lemma args_none o v : value o = ASwitch -> args_of o v = [].
Proof. unfold args_of. intros ->. reflexivity. Qed.

Lemma spelled_marks ws l : spelled u ws l -> exists ms, option_marks ws l ms.
Proof.
  induction 1 as [|o c v ws l Io Sh NS W SP [ms IH]|o c v ws l Io Sh NS NV HV SP [ms IH]|o c v ws l Io Sh NS SP [ms IH]|o a v ws l Ab NS W SP [ms IH]
    |o a v ws l Ab NS SP [ms IH]|o c ws l Io Sh ES SP [ms IH]|o a ws l Ab ES SP [ms IH]].
  - exists []. split; [apply le_n|]. split; [auto|]. split; [auto|]. split; [auto|]. intros n rest st bs fs H. cbn. exists st. split; [exact H|]. split; [apply same_refl|reflexivity].
  - destruct (action_of o Io) as (b & Ib & L & _ & Hs). specialize (Hs c Sh). destruct (short_char b c Ib Hs) as [N1 N2].
    refine (option_cons ws l ms o b v [45%N; c] _ [v] IH L _ _ (exact_option b _ Ib Hs) _ _ _); [reflexivity|congruence|auto|auto|].
    intros rest. cbn [sep explicit by_string plan map app length]. rewrite (takes_one o b L NS), (args_one o v NS). reflexivity.
  - destruct (action_of o Io) as (b & Ib & L & _ & Hs). specialize (Hs c Sh). destruct (short_char b c Ib Hs) as [N1 N2].
    refine (option_cons ws l ms o b v (45%N :: c :: v) _ [] IH L _ _ (short_option_joined c v b Ib Hs NV HV) _ _ _); [reflexivity|destruct v; congruence|auto|auto|].
    intros rest. cbn [sep explicit by_string plan map app length]. rewrite (takes_one o b L NS), (args_one o v NS). reflexivity.
  - destruct (action_of o Io) as (b & Ib & L & _ & Hs). specialize (Hs c Sh). destruct (short_char b c Ib Hs) as [N1 N2].
    refine (option_cons ws l ms o b v (45%N :: c :: 61%N :: v) _ [] IH L _ _ (short_option_equals c v b Ib Hs) _ _ _); [reflexivity|congruence|auto|auto|].
    intros rest. cbn [sep explicit by_string plan map app length]. rewrite (takes_one o b L NS), (args_one o v NS). reflexivity.
  - destruct (action_of o (proj1 Ab)) as (b & Ib & L & _). destruct (long_option a o b Ab Ib L) as [s E].
    refine (option_cons ws l ms o b v (45%N :: 45%N :: a) _ [v] IH L _ _ E _ _ _); [reflexivity|destruct Ab as (_ & _ & NE & _); congruence|auto|auto|].
    intros rest. cbn [sep explicit by_string plan map app length]. rewrite (takes_one o b L NS), (args_one o v NS). reflexivity.
  - destruct (action_of o (proj1 Ab)) as (b & Ib & L & _). destruct (long_option_equals a v o b Ab Ib L) as [s E].
    refine (option_cons ws l ms o b v (45%N :: 45%N :: a ++ 61%N :: v) _ [] IH L _ _ E _ _ _); [reflexivity|destruct a; discriminate|auto|auto|].
    intros rest. cbn [sep explicit by_string plan map app length]. rewrite (takes_one o b L NS), (args_one o v NS). reflexivity.
  - destruct (action_of o Io) as (b & Ib & L & _ & Hs). specialize (Hs c Sh). destruct (short_char b c Ib Hs) as [N1 N2].
    refine (option_cons ws l ms o b [] [45%N; c] _ [] IH L _ _ (exact_option b _ Ib Hs) _ _ _); [reflexivity|congruence|auto|auto|].
    intros rest. cbn [sep explicit by_string plan map app length]. rewrite (takes_none o b L ES), (args_none o [] ES). reflexivity.
  - destruct (action_of o (proj1 Ab)) as (b & Ib & L & _). destruct (long_option a o b Ab Ib L) as [s E].
    refine (option_cons ws l ms o b [] (45%N :: 45%N :: a) _ [] IH L _ _ E _ _ _); [reflexivity|destruct Ab as (_ & _ & NE & _); congruence|auto|auto|].
    intros rest. cbn [sep explicit by_string plan map app length]. rewrite (takes_none o b L ES), (args_none o [] ES). reflexivity.
Qed.

(** ** Taking positionals *)
Definition starts (rest : list (str * mark)) : Prop := rest = [] \/ exists x t r, rest = (x, O t) :: r.
Definition moved (st st' : state) (ps : list action) (ds : list str) : Prop :=
  positionals st' = ps /\ extras st' = extras st /\ unrecognized st' = unrecognized st /\ incl (ds ++ seen st) (seen st').
Lemma left_same st : positionals st = [] -> left_positionals st [] = st.
Proof. destruct st; cbn. intros ->. reflexivity. Qed.
Lemma loop_end n st fs : positionals st = [] -> loop (S n) [] st fs = (fs, inl st).
Proof. intros E. cbn [parse_loop existsb]. unfold consume_positionals. rewrite E. cbn [length match_partial map take_positionals]. unfold and_then, ret. rewrite extra_nil, left_same by exact E. reflexivity. Qed.
Lemma starts_option rest : starts rest -> existsb is_option rest = negb (match rest with [] => true | _ => false end).
Proof. intros [->|(x & t & r & ->)]; reflexivity. Qed.
Lemma block_turn n x block rest st fs fs' st' : starts rest -> Forall (fun m => snd m = A) block ->
  consume_positionals writable enter (((x, A) :: block) ++ rest) st fs = (fs', inl (st', rest)) -> (rest = [] -> positionals st' = []) ->
  loop (S (S n)) (((x, A) :: block) ++ rest) st fs = loop (S n) rest st' fs'.
Proof.
  intros SR FA E PE. assert (EX : existsb is_option (((x, A) :: block) ++ rest) = existsb is_option rest).
  { rewrite existsb_app. cbn. replace (existsb is_option block) with false; [reflexivity|]. symmetry. clear - FA.
    induction FA as [|m block Hm FA IH]; [reflexivity|]. cbn. unfold is_option at 1. rewrite Hm. exact IH. }
  remember (S n) as m eqn:Em. cbn [parse_loop]. rewrite EX, (starts_option rest SR). destruct rest as [|r rest].
  - cbn [negb]. unfold and_then. rewrite E. unfold ret. cbn [map]. rewrite extra_nil. subst m. rewrite loop_end by (apply PE; reflexivity). reflexivity.
  - cbn [negb app]. unfold and_then. change ((x, A) :: block ++ r :: rest) with (((x, A) :: block) ++ r :: rest). rewrite E.
    replace (Nat.ltb (length (r :: rest)) (length (((x, A) :: block) ++ r :: rest))) with true; [reflexivity|].
    symmetry. apply Nat.ltb_lt. rewrite app_length. cbn. lia.
Qed.
Lemma block_stop n x block rest st fs fs' : starts rest -> Forall (fun m => snd m = A) block ->
  consume_positionals writable enter (((x, A) :: block) ++ rest) st fs = (fs', inr Usage) -> loop (S n) (((x, A) :: block) ++ rest) st fs = (fs', inr Usage).
Proof.
  intros SR FA E. cbn [parse_loop]. destruct (existsb is_option (((x, A) :: block) ++ rest)).
  - cbn [app]. unfold and_then. change ((x, A) :: block ++ rest) with (((x, A) :: block) ++ rest). rewrite E. reflexivity.
  - unfold and_then. rewrite E. reflexivity.
Qed.

Lemma take_word c x st fs : word x -> take_action writable enter (word_argument c) [x] st fs = (fs, inl (set_in (saw st (codes c)) (codes c) (Word x))).
Proof. intros W. unfold take_action. cbn [takes word_argument is_positional strings remove_dashes]. rewrite (word_not_dashes x W). reflexivity. Qed.
Lemma take_file v bs st fs : (forall f, v = Some f -> word f) -> holds bs st ->
  follows (set_input v (bs, fs)) (take_action writable enter file_argument (opt_word v) st fs) (same st).
Proof.
  intros W H. pose proof (holds_set bs st (codes "file")) as HS. pose proof (same_set st (codes "file")) as SS.
  unfold take_action. cbn [takes file_argument is_positional strings]. destruct v as [f|]; cbn [opt_word remove_dashes set_input].
  - rewrite (word_not_dashes f (W f eq_refl)). cbn [does conv dest choices file_argument]. unfold and_then, get_value, check_value. cbn [choices file_argument]. unfold DASH, ret.
    destruct (eqb f [45%N]); [cbn [follows]; eexists; split; [reflexivity|split; [apply HS; exact H|apply SS]]|]. destruct (dget fs f); cbn [follows]; [eexists; split; [reflexivity|split; [apply HS; exact H|apply SS]]|reflexivity].
  - cbn [does dest default follows file_argument]. unfold ret. eexists; split; [reflexivity|split; [apply HS; exact H|apply SS]].
Qed.

Lemma moved_steps st d v st' : same (set_in (saw st d) d v) st' -> moved st (left_positionals st' []) [] [d].
Proof. intros (P1 & P2 & P3 & P4). repeat split; cbn in *; auto. Qed.
Lemma holds_left bs st ps : holds bs st -> holds bs (left_positionals st ps).
Proof. exact (fun H => H). Qed.
Definition arguments (v : option str) : list (str * mark) := map (fun w => (w, A)) (opt_word v).
Lemma arguments_A v : Forall (fun m => snd m = A) (arguments v).
Proof. destruct v; repeat constructor. Qed.

(** a word and maybe a file *)
Lemma block_file n c x v rest st bs fs : positionals st = [word_argument c; file_argument] -> word x -> (forall f, v = Some f -> word f) -> starts rest -> holds bs st ->
  match next (set_word c x (bs, fs)) (set_input v) with
  | inl (bs', fs') => exists st', holds bs' st' /\ moved st st' [] [codes c] /\ loop (S (S n)) ((x, A) :: arguments v ++ rest) st fs = loop (S n) rest st' fs'
  | inr fs' => loop (S (S n)) ((x, A) :: arguments v ++ rest) st fs = (fs', inr Usage)
  end.
Proof.
  intros EP W WF SR H. cbn [set_word next fst snd].
  assert (C : consume_positionals writable enter (((x, A) :: arguments v) ++ rest) st fs =
    match take_action writable enter file_argument (opt_word v) (set_in (saw st (codes c)) (codes c) (Word x)) fs with
    | (fs, inl st) => (fs, inl (left_positionals st [], rest)) | (fs, inr s) => (fs, inr s) end).
  { unfold consume_positionals. rewrite EP. destruct v as [f|]; destruct SR as [->|(y & t & r & ->)]; cbn [arguments opt_word map app length firstn match_partial match_groups match_group
      takes word_argument file_argument dashes skipn snd fst Nat.add option_map take_positionals]; unfold and_then, ret; fold (word_argument c); fold file_argument; rewrite take_word by exact W; reflexivity. }
  pose proof (take_file v _ (set_in (saw st (codes c)) (codes c) (Word x)) fs WF (holds_set bs st (codes c) (Word x) H)) as F.
  destruct (set_input v _) as [[bs' fs']|fs']; cbn [follows] in F.
  - destruct F as (st' & E & H' & S'). rewrite E in C. exists (left_positionals st' []). split; [exact H'|]. split; [eapply moved_steps; exact S'|].
    exact (block_turn n x (arguments v) rest st fs fs' _ SR (arguments_A v) C (fun _ => eq_refl)).
  - rewrite F in C. exact (block_stop (S n) x (arguments v) rest st fs fs' SR (arguments_A v) C).
Qed.
(** two words and maybe a file *)
Lemma block_two n c x d y v rest st bs fs : positionals st = [word_argument c; word_argument d; file_argument] -> word x -> word y -> (forall f, v = Some f -> word f) -> starts rest -> holds bs st ->
  match next (set_word c x (bs, fs)) (fun z => next (set_word d y z) (set_input v)) with
  | inl (bs', fs') => exists st', holds bs' st' /\ moved st st' [] [codes d; codes c] /\ loop (S (S n)) ((x, A) :: (y, A) :: arguments v ++ rest) st fs = loop (S n) rest st' fs'
  | inr fs' => loop (S (S n)) ((x, A) :: (y, A) :: arguments v ++ rest) st fs = (fs', inr Usage)
  end.
Proof.
  intros EP W Wy WF SR H. cbn [set_word next fst snd]. set (st1 := set_in (saw st (codes c)) (codes c) (Word x)).
  assert (C : consume_positionals writable enter (((x, A) :: (y, A) :: arguments v) ++ rest) st fs =
    match take_action writable enter file_argument (opt_word v) (set_in (saw st1 (codes d)) (codes d) (Word y)) fs with
    | (fs, inl st) => (fs, inl (left_positionals st [], rest)) | (fs, inr s) => (fs, inr s) end).
  { unfold consume_positionals. rewrite EP. destruct v as [f|]; destruct SR as [->|(z & t & r & ->)]; cbn [arguments opt_word map app length firstn match_partial match_groups match_group
      takes word_argument file_argument dashes skipn snd fst Nat.add option_map take_positionals]; unfold and_then, ret; fold (word_argument c); fold (word_argument d); fold file_argument;
      rewrite take_word by exact W; rewrite take_word by exact Wy; reflexivity. }
  pose proof (take_file v _ (set_in (saw st1 (codes d)) (codes d) (Word y)) fs WF (holds_set _ st1 (codes d) (Word y) (holds_set bs st (codes c) (Word x) H))) as F.
  destruct (set_input v _) as [[bs' fs']|fs']; cbn [follows] in F.
  - destruct F as (st' & E & H' & S'). rewrite E in C. exists (left_positionals st' []). split; [exact H'|]. split.
    + destruct S' as (P1 & P2 & P3 & P4). repeat split; cbn in *; auto.
    + exact (block_turn n x ((y, A) :: arguments v) rest st fs fs' _ SR ltac:(constructor; [reflexivity|apply arguments_A]) C (fun _ => eq_refl)).
  - rewrite F in C. exact (block_stop (S n) x ((y, A) :: arguments v) rest st fs fs' SR ltac:(constructor; [reflexivity|apply arguments_A]) C).
Qed.
(** one word out of two *)
Lemma block_one n c x d rest st bs fs : positionals st = [word_argument c; word_argument d; file_argument] -> word x -> (exists y t r, rest = (y, O t) :: r) -> holds bs st ->
  exists st', holds (bs ++ [(codes c, Word x)]) st' /\ moved st st' [word_argument d; file_argument] [codes c] /\ loop (S (S n)) ((x, A) :: rest) st fs = loop (S n) rest st' fs.
Proof.
  intros EP W (y & t & r & ->) H. set (st1 := set_in (saw st (codes c)) (codes c) (Word x)). exists (left_positionals st1 [word_argument d; file_argument]).
  split; [apply holds_set; exact H|]. split; [repeat split; cbn; apply incl_refl|].
  apply (block_turn n x [] ((y, O t) :: r) st fs fs).
  - right; eauto.
  - constructor.
  - unfold consume_positionals. rewrite EP. cbn [map app length firstn match_partial match_groups match_group
      takes word_argument file_argument dashes skipn snd fst Nat.add option_map take_positionals]. unfold and_then, ret. fold (word_argument c). rewrite take_word by exact W. reflexivity.
  - discriminate.
Qed.
(** a word too many *)
Lemma block_extra n x rest st fs : positionals st = [] -> starts rest -> loop (S (S n)) ((x, A) :: rest) st fs = loop (S n) rest (extra st [x]) fs.
Proof.
  intros EP SR. assert (C : forall r, consume_positionals writable enter r st fs = (fs, inl (st, r))).
  { intros r. unfold consume_positionals. rewrite EP. cbn [length match_partial take_positionals]. unfold ret. rewrite left_same by exact EP. reflexivity. }
  remember (S n) as m eqn:Em. cbn [parse_loop existsb is_option snd orb]. rewrite (starts_option rest SR). destruct SR as [->|(y & t & r & ->)].
  - cbn [negb]. unfold and_then. rewrite C. cbn [map fst]. unfold ret. subst m. rewrite loop_end by exact EP. reflexivity.
  - cbn [negb]. unfold and_then. rewrite C, Nat.ltb_irrefl. reflexivity.
Qed.
End Parsing.

(** ** Whole command lines *)
Lemma next_next x f g : next (next x f) g = next x (fun z => next (f z) g).
Proof. destruct x as [y|fs]; reflexivity. Qed.

Section Lines.
Variable u : list usage.
Variable p : parser.
Hypothesis R : represents u p.
Variable digit : N -> bool.
Variable writable : str -> bool.
Variable enter : str -> list str -> run (namespace * list str).
Variable command : str.
Variable bs0 : bindings.
Notation holds := (holds command).
Notation loop := (parse_loop writable enter p).
Notation known := (parse_known digit writable enter p).
Definition start : state := {| ns := defaults p; positionals := filter is_positional p; seen := []; extras := []; unrecognized := [] |}.
Hypothesis H0 : holds bs0 start.

(** the namespace and the arguments left *)
Definition known_gives (x : outcome) (l : list str) (r : files * (namespace * list str + stop)) : Prop :=
  match x with
  | inl (bs, fs) => exists st, r = (fs, inl (ns st, l)) /\ holds bs st
  | inr fs => r = (fs, inr Usage)
  end.
Lemma known_loop args rest fs : classify digit p args = Some rest ->
  known args fs = match loop (S (length rest)) rest start fs with
    | (fs, inl st) => if existsb (fun a => required a && negb (memb (dest a) (seen st))) p then (fs, inr Usage) else (fs, inl (ns st, extras st ++ unrecognized st))
    | (fs, inr s) => (fs, inr s) end.
Proof.
  intros E. unfold parse_known. rewrite E. unfold and_then, start. destruct (loop (S (length rest)) rest _ fs) as [fs' [st|s]]; [|reflexivity].
  destruct (existsb _ p); reflexivity.
Qed.
Lemma required_seen ds st : (forall a, In a p -> required a = true -> In (dest a) ds) -> incl ds (seen st) -> existsb (fun a => required a && negb (memb (dest a) (seen st))) p = false.
Proof.
  intros Rq I. destruct (existsb _ p) eqn:E; [|reflexivity]. exfalso. apply existsb_exists in E. destruct E as (a & Ia & Ha). apply andb_true_iff in Ha. destruct Ha as [H1 H2].
  apply negb_true_iff, memb_false in H2. apply H2, I, Rq; assumption.
Qed.
Lemma classify_words ws tail : Forall word ws -> classify digit p (ws ++ tail) = option_map (app (map (fun w => (w, A)) ws)) (classify digit p tail).
Proof.
  intros W. induction W as [|w ws Hw W IH]; cbn [app map]; [destruct (classify digit p tail); reflexivity|].
  rewrite (classify_word u p R digit) by exact Hw. rewrite IH. destruct (classify digit p tail); reflexivity.
Qed.
Lemma marks_nil ws l ms : option_marks p digit writable enter command ws l ms -> classify digit p ws = Some ms.
Proof. intros (_ & C & _). specialize (C [] [] eq_refl). rewrite !app_nil_r in C. exact C. Qed.
Lemma marks_start ws l ms : option_marks p digit writable enter command ws l ms -> starts ms.
Proof. intros (_ & _ & _ & [[-> _]|S1] & _); [left; reflexivity|right; exact S1]. Qed.
Lemma opt_words v : (forall f, v = Some f -> word f) -> Forall word (opt_word v).
Proof. intros W. destruct v as [f|]; constructor; [apply W; reflexivity|constructor]. Qed.

Lemma line_file c ws1 l1 x v ws2 l2 fs : filter is_positional p = [word_argument c; file_argument] -> (forall a, In a p -> required a = true -> In (dest a) [codes c]) ->
  spelled u ws1 l1 -> word x -> (forall f, v = Some f -> word f) -> spelled u ws2 l2 ->
  known_gives (next (set_options writable l1 (bs0, fs)) (fun z => next (set_word c x z) (fun z => next (set_input v z) (set_options writable l2)))) []
    (known (ws1 ++ x :: opt_word v ++ ws2) fs).
Proof.
  intros EP Rq S1 W WF S2.
  destruct (spelled_marks u p R digit writable enter command ws1 l1 S1) as [ms1 M1]. destruct (spelled_marks u p R digit writable enter command ws2 l2 S2) as [ms2 M2].
  assert (Cl : classify digit p (ws1 ++ x :: opt_word v ++ ws2) = Some (ms1 ++ (x, A) :: arguments v ++ ms2)).
  { apply (proj1 (proj2 M1)). change (x :: opt_word v ++ ws2) with ((x :: opt_word v) ++ ws2). rewrite classify_words by (constructor; [exact W|apply opt_words; exact WF]).
    rewrite (marks_nil _ _ _ M2). reflexivity. }
  rewrite (known_loop _ _ fs Cl). pose proof (marks_start _ _ _ M2) as St.
  destruct M1 as (Len1 & _ & _ & _ & Lo1). destruct M2 as (Len2 & _ & _ & _ & Lo2).
  set (n2 := length ms1 + length (arguments v) + length ms2 - length l1 - length l2).
  replace (S (length (ms1 ++ (x, A) :: arguments v ++ ms2))) with (length l1 + S (S (length l2 + n2))) by (rewrite app_length; cbn [length]; rewrite app_length; subst n2; lia).
  specialize (Lo1 (S (S (length l2 + n2))) ((x, A) :: arguments v ++ ms2) start bs0 fs H0).
  destruct (set_options writable l1 (bs0, fs)) as [[bs1 fs1]|fs1]; cbn [next]; [|cbn [known_gives]; rewrite Lo1; reflexivity].
  destruct Lo1 as (st1 & H1 & (P1 & E1 & U1 & I1) & ->).
  pose proof (block_file p writable enter command (length l2 + n2) c x v ms2 st1 bs1 fs1 (eq_trans P1 EP) W WF St H1) as B.
  rewrite <- next_next. destruct (next (set_word c x (bs1, fs1)) (set_input v)) as [[bs2 fs2]|fs2]; cbn [next]; [|cbn [known_gives]; rewrite B; reflexivity].
  destruct B as (st2 & H2 & (P2 & E2 & U2 & I2) & ->).
  specialize (Lo2 (S n2) [] st2 bs2 fs2 H2). rewrite app_nil_r, Nat.add_succ_r in Lo2.
  destruct (set_options writable l2 (bs2, fs2)) as [[bs3 fs3]|fs3]; [|cbn [known_gives]; rewrite Lo2; reflexivity].
  destruct Lo2 as (st3 & H3 & (P3 & E3 & U3 & I3) & ->). rewrite (loop_end p writable enter) by congruence. cbn [known_gives]. exists st3. split; [|exact H3].
  rewrite (required_seen [codes c]); [|exact Rq|].
  - rewrite E3, U3, E2, U2, E1, U1. reflexivity.
  - intros d [<-|[]]. apply I3, I2. left; reflexivity.
Qed.

Lemma line_two c d ws1 l1 x y v ws2 l2 fs : filter is_positional p = [word_argument c; word_argument d; file_argument] ->
  (forall a, In a p -> required a = true -> In (dest a) [codes d; codes c]) ->
  spelled u ws1 l1 -> word x -> word y -> (forall f, v = Some f -> word f) -> spelled u ws2 l2 ->
  known_gives (next (set_options writable l1 (bs0, fs)) (fun z => next (set_word c x z) (fun z => next (set_word d y z) (fun z => next (set_input v z) (set_options writable l2))))) []
    (known (ws1 ++ x :: y :: opt_word v ++ ws2) fs).
Proof.
  intros EP Rq S1 W Wy WF S2.
  destruct (spelled_marks u p R digit writable enter command ws1 l1 S1) as [ms1 M1]. destruct (spelled_marks u p R digit writable enter command ws2 l2 S2) as [ms2 M2].
  assert (Cl : classify digit p (ws1 ++ x :: y :: opt_word v ++ ws2) = Some (ms1 ++ (x, A) :: (y, A) :: arguments v ++ ms2)).
  { apply (proj1 (proj2 M1)). change (x :: y :: opt_word v ++ ws2) with ((x :: y :: opt_word v) ++ ws2). rewrite classify_words by (constructor; [exact W|constructor; [exact Wy|apply opt_words; exact WF]]).
    rewrite (marks_nil _ _ _ M2). reflexivity. }
  rewrite (known_loop _ _ fs Cl). pose proof (marks_start _ _ _ M2) as St.
  destruct M1 as (Len1 & _ & _ & _ & Lo1). destruct M2 as (Len2 & _ & _ & _ & Lo2).
  set (n2 := S (length ms1 + length (arguments v) + length ms2) - length l1 - length l2).
  replace (S (length (ms1 ++ (x, A) :: (y, A) :: arguments v ++ ms2))) with (length l1 + S (S (length l2 + n2))) by (rewrite app_length; cbn [length]; rewrite app_length; subst n2; lia).
  specialize (Lo1 (S (S (length l2 + n2))) ((x, A) :: (y, A) :: arguments v ++ ms2) start bs0 fs H0).
  destruct (set_options writable l1 (bs0, fs)) as [[bs1 fs1]|fs1]; cbn [next]; [|cbn [known_gives]; rewrite Lo1; reflexivity].
  destruct Lo1 as (st1 & H1 & (P1 & E1 & U1 & I1) & ->).
  pose proof (block_two p writable enter command (length l2 + n2) c x d y v ms2 st1 bs1 fs1 (eq_trans P1 EP) W Wy WF St H1) as B.
  set (g := fun z => next (set_word d y z) (set_input v)) in B.
  replace (next (set_word c x (bs1, fs1)) (fun z => next (set_word d y z) (fun z => next (set_input v z) (set_options writable l2))))
    with (next (next (set_word c x (bs1, fs1)) g) (set_options writable l2)) by reflexivity.
  destruct (next (set_word c x (bs1, fs1)) g) as [[bs2 fs2]|fs2]; cbn [next]; [|cbn [known_gives]; rewrite B; reflexivity].
  destruct B as (st2 & H2 & (P2 & E2 & U2 & I2) & ->).
  specialize (Lo2 (S n2) [] st2 bs2 fs2 H2). rewrite app_nil_r, Nat.add_succ_r in Lo2.
  destruct (set_options writable l2 (bs2, fs2)) as [[bs3 fs3]|fs3]; [|cbn [known_gives]; rewrite Lo2; reflexivity].
  destruct Lo2 as (st3 & H3 & (P3 & E3 & U3 & I3) & ->). rewrite (loop_end p writable enter) by congruence. cbn [known_gives]. exists st3. split; [|exact H3].
  rewrite (required_seen [codes d; codes c]); [|exact Rq|].
  - rewrite E3, U3, E2, U2, E1, U1. reflexivity.
  - intros e Ie. apply I3, I2. apply in_or_app; left; exact Ie.
Qed.

(** options between the two words *)
Lemma line_between c d ws1 l1 x ws2 l2 y v ws3 l3 fs : filter is_positional p = [word_argument c; word_argument d; file_argument] ->
  (forall a, In a p -> required a = true -> In (dest a) [codes d; codes c]) ->
  spelled u ws1 l1 -> word x -> spelled u ws2 l2 -> ws2 <> [] -> word y -> (forall f, v = Some f -> word f) -> spelled u ws3 l3 ->
  known_gives (next (set_options writable l1 (bs0, fs)) (fun z => next (set_word c x z) (fun z => next (set_options writable l2 z)
      (fun z => next (set_word d y z) (fun z => next (set_input v z) (set_options writable l3)))))) []
    (known (ws1 ++ x :: ws2 ++ y :: opt_word v ++ ws3) fs).
Proof.
  intros EP Rq S1 W S2 NE Wy WF S3.
  destruct (spelled_marks u p R digit writable enter command ws1 l1 S1) as [ms1 M1]. destruct (spelled_marks u p R digit writable enter command ws2 l2 S2) as [ms2 M2].
  destruct (spelled_marks u p R digit writable enter command ws3 l3 S3) as [ms3 M3].
  assert (Cl : classify digit p (ws1 ++ x :: ws2 ++ y :: opt_word v ++ ws3) = Some (ms1 ++ (x, A) :: ms2 ++ (y, A) :: arguments v ++ ms3)).
  { apply (proj1 (proj2 M1)). rewrite (classify_word u p R digit) by exact W. rewrite (proj1 (proj2 M2) (y :: opt_word v ++ ws3) ((y, A) :: arguments v ++ ms3)); [reflexivity|].
    change (y :: opt_word v ++ ws3) with ((y :: opt_word v) ++ ws3). rewrite classify_words by (constructor; [exact Wy|apply opt_words; exact WF]).
    rewrite (marks_nil _ _ _ M3). reflexivity. }
  rewrite (known_loop _ _ fs Cl). pose proof (marks_start _ _ _ M3) as St.
  assert (St2 : exists z t r, ms2 ++ (y, A) :: arguments v ++ ms3 = (z, O t) :: r).
  { destruct M2 as (_ & _ & _ & [[_ E]|(z & t & r & ->)] & _); [congruence|]. cbn. eauto. }
  destruct M1 as (Len1 & _ & _ & _ & Lo1). destruct M2 as (Len2 & _ & _ & _ & Lo2). destruct M3 as (Len3 & _ & _ & _ & Lo3).
  set (n3 := length ms1 + length ms2 + length (arguments v) + length ms3 - length l1 - length l2 - length l3).
  replace (S (length (ms1 ++ (x, A) :: ms2 ++ (y, A) :: arguments v ++ ms3))) with (length l1 + S (S (length l2 + S (length l3 + n3))))
    by (rewrite app_length; cbn [length]; rewrite app_length; cbn [length]; rewrite app_length; subst n3; lia).
  specialize (Lo1 (S (S (length l2 + S (length l3 + n3)))) ((x, A) :: ms2 ++ (y, A) :: arguments v ++ ms3) start bs0 fs H0).
  destruct (set_options writable l1 (bs0, fs)) as [[bs1 fs1]|fs1]; cbn [next]; [|cbn [known_gives]; rewrite Lo1; reflexivity].
  destruct Lo1 as (st1 & H1 & (P1 & E1 & U1 & I1) & ->).
  destruct (block_one p writable enter command (length l2 + S (length l3 + n3)) c x d _ st1 bs1 fs1 (eq_trans P1 EP) W St2 H1) as (st2 & H2 & (P2 & E2 & U2 & I2) & ->).
  cbn [set_word next fst snd]. specialize (Lo2 (S (S (length l3 + n3))) ((y, A) :: arguments v ++ ms3) st2 _ fs1 H2). rewrite Nat.add_succ_r in Lo2.
  destruct (set_options writable l2 _) as [[bs3 fs3]|fs3]; cbn [next]; [|cbn [known_gives]; rewrite Lo2; reflexivity].
  destruct Lo2 as (st3 & H3 & (P3 & E3 & U3 & I3) & ->).
  pose proof (block_file p writable enter command (length l3 + n3) d y v ms3 st3 bs3 fs3 (eq_trans P3 P2) Wy WF St H3) as B.
  cbn [set_word next fst snd] in B. destruct (set_input v _) as [[bs4 fs4]|fs4]; cbn [next]; [|cbn [known_gives]; rewrite B; reflexivity].
  destruct B as (st4 & H4 & (P4 & E4 & U4 & I4) & ->).
  specialize (Lo3 (S n3) [] st4 bs4 fs4 H4). rewrite app_nil_r, Nat.add_succ_r in Lo3.
  destruct (set_options writable l3 (bs4, fs4)) as [[bs5 fs5]|fs5]; [|cbn [known_gives]; rewrite Lo3; reflexivity].
  destruct Lo3 as (st5 & H5 & (P5 & E5 & U5 & I5) & ->). rewrite (loop_end p writable enter) by congruence. cbn [known_gives]. exists st5. split; [|exact H5].
  rewrite (required_seen [codes d; codes c]); [|exact Rq|].
  - rewrite E5, U5, E4, U4, E3, U3, E2, U2, E1, U1. reflexivity.
  - intros e [<-|[<-|[]]]; apply I5, I4; [left; reflexivity|]. right. apply I3, I2. left; reflexivity.
Qed.

(** options before the file: there is a word too many *)
Lemma line_late c ws1 l1 x ws2 l2 f ws3 l3 fs : filter is_positional p = [word_argument c; file_argument] ->
  (forall a, In a p -> required a = true -> In (dest a) [codes c]) ->
  spelled u ws1 l1 -> word x -> spelled u ws2 l2 -> ws2 <> [] -> word f -> spelled u ws3 l3 ->
  known_gives (next (set_options writable l1 (bs0, fs)) (fun z => next (set_word c x z) (fun z => next (set_input None z) (fun z => next (set_options writable l2 z) (set_options writable l3))))) [f]
    (known (ws1 ++ x :: ws2 ++ f :: ws3) fs).
Proof.
  intros EP Rq S1 W S2 NE Wf S3.
  destruct (spelled_marks u p R digit writable enter command ws1 l1 S1) as [ms1 M1]. destruct (spelled_marks u p R digit writable enter command ws2 l2 S2) as [ms2 M2].
  destruct (spelled_marks u p R digit writable enter command ws3 l3 S3) as [ms3 M3].
  assert (Cl : classify digit p (ws1 ++ x :: ws2 ++ f :: ws3) = Some (ms1 ++ (x, A) :: ms2 ++ (f, A) :: ms3)).
  { apply (proj1 (proj2 M1)). rewrite (classify_word u p R digit) by exact W. rewrite (proj1 (proj2 M2) (f :: ws3) ((f, A) :: ms3)); [reflexivity|].
    rewrite (classify_word u p R digit) by exact Wf. rewrite (marks_nil _ _ _ M3). reflexivity. }
  rewrite (known_loop _ _ fs Cl). pose proof (marks_start _ _ _ M3) as St.
  assert (St2 : starts (ms2 ++ (f, A) :: ms3)).
  { destruct M2 as (_ & _ & _ & [[_ E]|(z & t & r & ->)] & _); [congruence|]. right. cbn. eauto. }
  destruct M1 as (Len1 & _ & _ & _ & Lo1). destruct M2 as (Len2 & _ & _ & _ & Lo2). destruct M3 as (Len3 & _ & _ & _ & Lo3).
  set (n3 := length ms1 + length ms2 + length ms3 - length l1 - length l2 - length l3).
  replace (S (length (ms1 ++ (x, A) :: ms2 ++ (f, A) :: ms3))) with (length l1 + S (S (length l2 + S (length l3 + n3))))
    by (rewrite app_length; cbn [length]; rewrite app_length; cbn [length]; subst n3; lia).
  specialize (Lo1 (S (S (length l2 + S (length l3 + n3)))) ((x, A) :: ms2 ++ (f, A) :: ms3) start bs0 fs H0).
  destruct (set_options writable l1 (bs0, fs)) as [[bs1 fs1]|fs1]; cbn [next]; [|cbn [known_gives]; rewrite Lo1; reflexivity].
  destruct Lo1 as (st1 & H1 & (P1 & E1 & U1 & I1) & ->).
  pose proof (block_file p writable enter command (length l2 + S (length l3 + n3)) c x None _ st1 bs1 fs1 (eq_trans P1 EP) W ltac:(discriminate) St2 H1) as B.
  cbn [set_word next fst snd set_input arguments opt_word map app] in *. destruct B as (st2 & H2 & (P2 & E2 & U2 & I2) & ->).
  specialize (Lo2 (S (S (length l3 + n3))) ((f, A) :: ms3) st2 _ fs1 H2). rewrite Nat.add_succ_r in Lo2.
  destruct (set_options writable l2 _) as [[bs3 fs3]|fs3]; cbn [next]; [|cbn [known_gives]; rewrite Lo2; reflexivity].
  destruct Lo2 as (st3 & H3 & (P3 & E3 & U3 & I3) & ->).
  rewrite (block_extra p writable enter) by (congruence || exact St).
  specialize (Lo3 (S n3) [] (extra st3 [f]) bs3 fs3 H3). rewrite app_nil_r, Nat.add_succ_r in Lo3.
  destruct (set_options writable l3 (bs3, fs3)) as [[bs5 fs5]|fs5]; [|cbn [known_gives]; rewrite Lo3; reflexivity].
  destruct Lo3 as (st5 & H5 & (P5 & E5 & U5 & I5) & ->). rewrite (loop_end p writable enter) by (rewrite P5; cbn; congruence). cbn [known_gives]. exists st5. split; [|exact H5].
  rewrite (required_seen [codes c]); [|exact Rq|].
  - cbn [extra extras unrecognized] in E5, U5. rewrite E5, U5, E3, U3, E2, U2, E1, U1. reflexivity.
  - intros e [<-|[]]. apply I5. cbn [extra seen]. apply I3, I2. left; reflexivity.
Qed.

(** the same with two words *)
Lemma line_two_late c d ws1 l1 x y ws2 l2 f ws3 l3 fs : filter is_positional p = [word_argument c; word_argument d; file_argument] ->
  (forall a, In a p -> required a = true -> In (dest a) [codes d; codes c]) ->
  spelled u ws1 l1 -> word x -> word y -> spelled u ws2 l2 -> ws2 <> [] -> word f -> spelled u ws3 l3 ->
  known_gives (next (set_options writable l1 (bs0, fs)) (fun z => next (set_word c x z) (fun z => next (set_word d y z) (fun z => next (set_input None z)
      (fun z => next (set_options writable l2 z) (set_options writable l3)))))) [f]
    (known (ws1 ++ x :: y :: ws2 ++ f :: ws3) fs).
Proof.
  intros EP Rq S1 W Wy S2 NE Wf S3.
  destruct (spelled_marks u p R digit writable enter command ws1 l1 S1) as [ms1 M1]. destruct (spelled_marks u p R digit writable enter command ws2 l2 S2) as [ms2 M2].
  destruct (spelled_marks u p R digit writable enter command ws3 l3 S3) as [ms3 M3].
  assert (Cl : classify digit p (ws1 ++ x :: y :: ws2 ++ f :: ws3) = Some (ms1 ++ (x, A) :: (y, A) :: ms2 ++ (f, A) :: ms3)).
  { apply (proj1 (proj2 M1)). rewrite (classify_word u p R digit) by exact W. rewrite (classify_word u p R digit) by exact Wy. rewrite (proj1 (proj2 M2) (f :: ws3) ((f, A) :: ms3)); [reflexivity|].
    rewrite (classify_word u p R digit) by exact Wf. rewrite (marks_nil _ _ _ M3). reflexivity. }
  rewrite (known_loop _ _ fs Cl). pose proof (marks_start _ _ _ M3) as St.
  assert (St2 : starts (ms2 ++ (f, A) :: ms3)).
  { destruct M2 as (_ & _ & _ & [[_ E]|(z & t & r & ->)] & _); [congruence|]. right. cbn. eauto. }
  destruct M1 as (Len1 & _ & _ & _ & Lo1). destruct M2 as (Len2 & _ & _ & _ & Lo2). destruct M3 as (Len3 & _ & _ & _ & Lo3).
  set (n3 := S (length ms1 + length ms2 + length ms3) - length l1 - length l2 - length l3).
  replace (S (length (ms1 ++ (x, A) :: (y, A) :: ms2 ++ (f, A) :: ms3))) with (length l1 + S (S (length l2 + S (length l3 + n3))))
    by (rewrite app_length; cbn [length]; rewrite app_length; cbn [length]; subst n3; lia).
  specialize (Lo1 (S (S (length l2 + S (length l3 + n3)))) ((x, A) :: (y, A) :: ms2 ++ (f, A) :: ms3) start bs0 fs H0).
  destruct (set_options writable l1 (bs0, fs)) as [[bs1 fs1]|fs1]; cbn [next]; [|cbn [known_gives]; rewrite Lo1; reflexivity].
  destruct Lo1 as (st1 & H1 & (P1 & E1 & U1 & I1) & ->).
  pose proof (block_two p writable enter command (length l2 + S (length l3 + n3)) c x d y None _ st1 bs1 fs1 (eq_trans P1 EP) W Wy ltac:(discriminate) St2 H1) as B.
  cbn [set_word next fst snd set_input arguments opt_word map app] in *. destruct B as (st2 & H2 & (P2 & E2 & U2 & I2) & ->).
  specialize (Lo2 (S (S (length l3 + n3))) ((f, A) :: ms3) st2 _ fs1 H2). rewrite Nat.add_succ_r in Lo2.
  destruct (set_options writable l2 _) as [[bs3 fs3]|fs3]; cbn [next]; [|cbn [known_gives]; rewrite Lo2; reflexivity].
  destruct Lo2 as (st3 & H3 & (P3 & E3 & U3 & I3) & ->).
  rewrite (block_extra p writable enter) by (congruence || exact St).
  specialize (Lo3 (S n3) [] (extra st3 [f]) bs3 fs3 H3). rewrite app_nil_r, Nat.add_succ_r in Lo3.
  destruct (set_options writable l3 (bs3, fs3)) as [[bs5 fs5]|fs5]; [|cbn [known_gives]; rewrite Lo3; reflexivity].
  destruct Lo3 as (st5 & H5 & (P5 & E5 & U5 & I5) & ->). rewrite (loop_end p writable enter) by (rewrite P5; cbn; congruence). cbn [known_gives]. exists st5. split; [|exact H5].
  rewrite (required_seen [codes d; codes c]); [|exact Rq|].
  - cbn [extra extras unrecognized] in E5, U5. rewrite E5, U5, E3, U3, E2, U2, E1, U1. reflexivity.
  - intros e Ie. apply I5. cbn [extra seen]. apply I3, I2. apply in_or_app; left; exact Ie.
Qed.
End Lines.

(** ** The main parser *)
Lemma latest_dget bs n : NoDup (map fst bs) -> latest bs n = dget bs n.
Proof.
  induction bs as [|[m v] bs IH]; intros ND; [reflexivity|]. inversion ND as [|? ? NI ND']; subst. cbn [latest dget]. rewrite IH by exact ND'. destruct (eq_dec n m) as [->|NE].
  - destruct (dget bs m) eqn:E; [|destruct (eq_dec m m); [reflexivity|congruence]]. exfalso. apply NI. apply dget_Some_In in E. apply in_map_iff. exists (m, s). auto.
  - destruct (eq_dec m n) as [->|_]; [congruence|]. destruct (dget bs n); reflexivity.
Qed.
Lemma defaults_hold command p bs : NoDup (dkeys (defaults p)) -> bs = (codes "action", Word command) :: defaults p -> holds command bs (start p).
Proof.
  intros ND ->. split; [exact ND|]. intros n. cbn [latest start ns]. rewrite latest_dget by exact ND. reflexivity.
Qed.
Lemma dget_fold (sub base : namespace) n : NoDup (dkeys sub) ->
  dget (fold_left (fun d kv => dset d (fst kv) (snd kv)) sub base) n = match dget sub n with Some w => Some w | None => dget base n end.
Proof.
  revert base. induction sub as [|[k v] sub IH]; intros base ND; [reflexivity|]. inversion ND as [|? ? NI ND']; subst. cbn [fold_left fst snd dget].
  rewrite IH by exact ND'. unfold dset. destruct (eq_dec k n) as [->|NE].
  - destruct (dget sub n) eqn:E; [exfalso; apply NI; apply dget_Some_In in E; apply in_map_iff; exists (n, s); auto|]. rewrite dget_dmodify_same. destruct (eq_dec n n); [reflexivity|congruence].
  - rewrite dget_dmodify_other by congruence. destruct (eq_dec n k); [congruence|reflexivity].
Qed.

Lemma main_tuples d t : length (option_tuples main_parser (45%N :: d :: t)) <= 1.
Proof.
  cbn [option_tuples]. change (codes "-h") with [45%N; 104%N]. destruct (N.eqb_spec d DASH) as [->|ND].
  - cbn [partition_equals]. destruct (partition_equals t) as [b a] eqn:P. cbn [N.eqb Pos.eqb EQUALS DASH].
    cbn [flat_map main_parser help_option strings]. change (codes "-h") with [45%N; 104%N]. change (codes "--help") with [45%N; 45%N; 104%N; 101%N; 108%N; 112%N].
    unfold DASH. cbn [starts_with N.eqb Pos.eqb andb app]. destruct (starts_with b [104%N; 101%N; 108%N; 112%N]); cbn; lia.
  - cbn [flat_map main_parser help_option strings]. change (codes "-h") with [45%N; 104%N]. change (codes "--help") with [45%N; 45%N; 104%N; 101%N; 108%N; 112%N].
    rewrite !app_nil_r. replace (starts_with (45%N :: d :: t) [45%N; 45%N; 104%N; 101%N; 108%N; 112%N]) with false.
    + replace (eqb [45%N; 45%N; 104%N; 101%N; 108%N; 112%N] [45%N; d]) with false by (symmetry; apply eqb_false; discriminate).
      destruct (eqb [45%N; 104%N] [45%N; d]), (starts_with (45%N :: d :: t) [45%N; 104%N]); cbn; lia.
    + cbn [starts_with]. rewrite (proj2 (N.eqb_neq d 45) ND). rewrite andb_false_r. reflexivity.
Qed.
Lemma main_reading digit x : parse_optional digit main_parser x <> Ambiguous.
Proof.
  destruct x as [|c t]; [discriminate|]. cbn [parse_optional]. destruct (N.eqb_spec c DASH) as [->|NE]; [|discriminate]. cbn [negb].
  destruct (find_option main_parser (DASH :: t)); [discriminate|]. destruct (eqb t []) eqn:Et; [discriminate|].
  destruct (partition_equals (DASH :: t)) as [os arg]. destruct t as [|d t]; [discriminate Et|]. pose proof (main_tuples d t) as L. fold DASH in L.
  assert (X : match option_tuples main_parser (DASH :: d :: t) with
    | [] => if negative_number digit (DASH :: d :: t) then Positional else if memb 32%N (DASH :: d :: t) then Positional else Option {| act := None; by_string := DASH :: d :: t; sep := false; explicit := None |}
    | [f] => Option f | _ => Ambiguous end <> Ambiguous).
  { destruct (option_tuples main_parser (DASH :: d :: t)) as [|f [|g l]].
    - destruct (negative_number _ _); [discriminate|]. destruct (memb _ _); discriminate.
    - discriminate.
    - exfalso. cbn in L. lia. }
  destruct arg as [e|]; [|exact X]. destruct (find_option main_parser os); [discriminate|exact X].
Qed.
Lemma main_classify digit args : exists ms, classify digit main_parser args = Some ms /\ map fst ms = args.
Proof.
  induction args as [|x args (ms & E & F)]; [exists []; auto|]. cbn [classify]. destruct (eqb x [DASH; DASH]).
  - eexists. split; [reflexivity|]. cbn. f_equal. clear. induction args as [|y args IH]; [reflexivity|]. cbn. f_equal. exact IH.
  - pose proof (main_reading digit x) as NA. destruct (parse_optional digit main_parser x) as [|t|]; [| |congruence]; rewrite E; eexists; (split; [reflexivity|cbn; f_equal; exact F]).
Qed.

Section Commands.
Variable digit : N -> bool.
Variable writable : str -> bool.
Notation known := (parse_known digit writable (fun _ _ => halt Usage)).
Notation args := (parse_args digit writable).
Definition through (c : str) (r : files * (namespace * list str + stop)) : files * (namespace + stop) :=
  match r with
  | (fs, inl (n, others)) => if eqb others [] then (fs, inl (fold_left (fun d kv => dset d (fst kv) (snd kv)) n [(codes "action", Word c)])) else (fs, inr Usage)
  | (fs, inr s) => (fs, inr s)
  end.
Lemma args_command c p l fs : dget commands c = Some p -> args (c :: l) fs = through c (known p l fs).
Proof.
  intros D. assert (W : word c /\ memb c (dkeys commands) = true).
  { split.
    - apply dget_Some_In in D. cbn in D. right; right. intuition (match goal with H : _ = _ |- _ => injection H; intros <- <- end); eexists; eexists; (split; [reflexivity|discriminate]).
    - apply memb_true. apply dget_Some_In in D. apply in_map_iff. exists (c, p). auto. }
  destruct W as [W M]. destruct (main_classify digit l) as (ms & E & F).
  unfold parse_args, parse_known at 1. cbn [classify]. rewrite (word_not_dashes c W), (word_positional no_usage main_parser main_represents digit c W), E. cbn [option_map].
  assert (C : forall st, positionals st = filter is_positional main_parser -> consume_positionals writable (enter_command digit writable) ((c, A) :: ms) st fs =
    match known p l fs with
    | (fs, inl (n, others)) => (fs, inl ({| ns := fold_left (fun d kv => dset d (fst kv) (snd kv)) n (dset (ns st) (codes "action") (Word c)); positionals := []; seen := codes "action" :: seen st;
        extras := extras st; unrecognized := unrecognized st ++ others |}, []))
    | (fs, inr s) => (fs, inr s) end).
  { intros st EP. unfold consume_positionals. rewrite EP. change (filter is_positional main_parser) with (tl main_parser). cbn [tl main_parser length firstn map match_partial match_groups match_group takes dashes skipn snd
      fst option_map Nat.add take_positionals].
    rewrite (map_length snd ms), firstn_all, skipn_all, F.
    unfold and_then, take_action, ret. cbn [takes does is_positional strings dest]. unfold check_value. cbn [choices]. rewrite M. unfold and_then, ret, enter_command. rewrite D.
    destruct (known p l fs) as [fs' [[n others]|s]]; reflexivity. }
  cbn [length]. set (st0 := {| ns := defaults main_parser; positionals := filter is_positional main_parser; seen := []; extras := []; unrecognized := [] |}).
  specialize (C st0 eq_refl). unfold and_then at 1 2.
  assert (Lp : parse_loop writable (enter_command digit writable) main_parser (S (S (length ms))) ((c, A) :: ms) st0 fs =
    match known p l fs with
    | (fs, inl (n, others)) => (fs, inl {| ns := fold_left (fun d kv => dset d (fst kv) (snd kv)) n [(codes "action", Word c)]; positionals := []; seen := [codes "action"]; extras := []; unrecognized := others |})
    | (fs, inr s) => (fs, inr s) end).
  { remember (S (length ms)) as k eqn:Ek. cbn [parse_loop]. destruct (existsb is_option ((c, A) :: ms)).
    - unfold and_then. rewrite C. destruct (known p l fs) as [fs' [[n others]|s]]; [|reflexivity].
      cbn [length Nat.ltb Nat.leb]. subst k. rewrite loop_end by reflexivity. reflexivity.
    - unfold and_then. rewrite C. destruct (known p l fs) as [fs' [[n others]|s]]; [|reflexivity]. reflexivity. }
  rewrite Lp. unfold through. destruct (known p l fs) as [fs' [[n others]|s]]; [|reflexivity]. cbn [existsb main_parser required andb orb help_option].
  unfold ret. cbn [ns extras unrecognized app]. destruct (eqb others []); reflexivity.
Qed.

Lemma known_args c p l fs x : dget commands c = Some p -> known_gives c x [] (known p l fs) -> gives (args (c :: l) fs) x.
Proof.
  intros D K. rewrite (args_command c p l fs D). destruct x as [[bs fs']|fs']; cbn [known_gives gives] in *.
  - destruct K as (st & -> & ND & H). eexists. split; [reflexivity|]. intros n. rewrite dget_fold by exact ND. rewrite H. destruct (dget (ns st) n); [reflexivity|].
    cbn [dget]. destruct (eq_dec (codes "action") n) as [<-|NE]; destruct (eq_dec _ _); congruence.
  - rewrite K. reflexivity.
Qed.
(** a line refused: the files are what they would have been *)
Lemma known_refused c p l fs x f : dget commands c = Some p -> known_gives c x [f] (known p l fs) -> args (c :: l) fs = (after x, inr Usage).
Proof.
  intros D K. rewrite (args_command c p l fs D). destruct x as [[bs fs']|fs']; cbn [known_gives after] in *.
  - destruct K as (st & -> & _). reflexivity.
  - rewrite K. reflexivity.
Qed.
End Commands.

(** ** The end *)
Definition result {X} (r : run X) (P : X -> Prop) : Prop := forall fs, match r fs with (_, inl x) => P x | (_, inr s) => s <> Endless end.
Lemma result_ret {X} (x : X) (P : X -> Prop) : P x -> result (ret x) P.
Proof. intros H fs. exact H. Qed.
Lemma result_usage {X} (P : X -> Prop) : result (halt Usage) P.
Proof. intros fs. discriminate. Qed.
Lemma result_then {X Y} (r : run X) (k : X -> run Y) P Q : result r P -> (forall x, P x -> result (k x) Q) -> result (and_then r k) Q.
Proof. intros R K fs. unfold and_then. specialize (R fs). destruct (r fs) as [fs' [x|s]]; [apply K; exact R|exact R]. Qed.

Section End.
Variable digit : N -> bool.
Variable writable : str -> bool.
Variable enter : str -> list str -> run (namespace * list str).
Hypothesis EN : forall c l, result (enter c l) (fun _ => True).
Variable p : parser.
Let any {X} (_ : X) := True.
Lemma check_ends a s : result (check_value a s) any.
Proof. unfold check_value. destruct (choices a) as [l|]; [destruct (memb s l)|]; intros fs; cbn; (exact I || discriminate). Qed.
Lemma value_ends c s : result (get_value writable c s) any.
Proof. intros fs. unfold get_value. destruct c; [exact I| |]; destruct (eqb s [DASH]); try exact I; [destruct (dget fs s)|destruct (writable s)]; (exact I || discriminate). Qed.
Lemma take_ends a args st : result (take_action writable enter a args st) any.
Proof.
  unfold take_action. set (l := match takes a with AllLeft => args | _ => _ end). clearbody l.
  destruct (does a).
  - destruct (takes a), l as [|x [|y l]]; try (apply result_ret; exact I);
      (eapply result_then; [apply value_ends|]; intros v _; eapply result_then; [apply check_ends|]; intros [] _; apply result_ret; exact I).
  - apply result_ret; exact I.
  - intros fs; discriminate.
  - destruct l as [|x l]; [destruct (takes a); apply result_ret; exact I|].
    eapply result_then; [apply check_ends|]. intros [] _. eapply result_then; [apply EN|]. intros [sub others] _. apply result_ret. exact I.
Qed.
Lemma all_ends l st : result (take_all writable enter l st) any.
Proof. revert st. induction l as [|[a args] l IH]; intros st; [apply result_ret; exact I|]. cbn [take_all]. eapply result_then; [apply take_ends|]. intros st' _. apply IH. Qed.
Lemma optional_ends x t next st : result (consume_optional writable enter p x t next st) (fun r => length (snd r) <= length next).
Proof.
  unfold consume_optional. destruct (act t); [|apply result_ret; apply le_n]. destruct (plan _ _ _ _ _ _ _) as [[[l more] n]|]; [|apply result_usage].
  eapply result_then; [apply all_ends|]. intros st' _. apply result_ret. cbn [snd]. rewrite skipn_length. lia.
Qed.
Lemma positionals_end l counts rest st : result (take_positionals writable enter l counts rest st) (fun r => length (snd r) <= length rest).
Proof.
  revert counts rest st. induction l as [|a l IH]; intros counts rest st; [destruct counts; apply result_ret; apply le_n|].
  destruct counts as [|n counts]; [apply result_ret; apply le_n|]. cbn [take_positionals]. eapply result_then; [apply take_ends|]. intros st' _.
  intros fs. specialize (IH counts (skipn n rest) st' fs). destruct (take_positionals _ _ _ _ _ _ fs) as [fs' [r|s]]; [|exact IH]. rewrite skipn_length in IH. lia.
Qed.
Lemma until_shorter rest l r : until_option rest = (l, r) -> length r <= length rest.
Proof.
  revert l r. induction rest as [|m rest IH]; intros l r E; cbn [until_option] in E; [injection E; intros; subst; apply le_n|].
  destruct (is_option m); [injection E; intros; subst; apply le_n|]. destruct (until_option rest) as [l' r']. injection E; intros; subst. specialize (IH _ _ eq_refl). cbn. lia.
Qed.
Lemma loop_ends fuel rest st : length rest < fuel -> result (parse_loop writable enter p fuel rest st) any.
Proof.
  revert rest st. induction fuel as [|fuel IH]; intros rest st L; [lia|]. cbn [parse_loop].
  assert (Pos : forall x m next, rest = (x, m) :: next -> is_option (x, m) = false ->
    result (do (st, rest') <- consume_positionals writable enter rest st;
      if Nat.ltb (length rest') (length rest) then parse_loop writable enter p fuel rest' st
      else let '(l, rest) := until_option rest in parse_loop writable enter p fuel rest (extra st l)) any).
  { intros x m next -> NO. eapply result_then; [apply positionals_end|]. intros [st' rest'] _. destruct (Nat.ltb_spec (length rest') (length ((x, m) :: next))) as [H|_].
    - apply IH. cbn in *. lia.
    - cbn [until_option]. rewrite NO. destruct (until_option next) as [l r] eqn:E. apply until_shorter in E. apply IH. cbn in L. lia. }
  destruct (existsb is_option rest) eqn:EX.
  - destruct rest as [|[x m] next]; [discriminate EX|]. specialize (Pos x m next eq_refl). destruct m as [| |t].
    + apply Pos; reflexivity.
    + apply Pos; reflexivity.
    + eapply result_then; [apply optional_ends|]. intros [st' rest'] H. apply IH. cbn in *. lia.
  - eapply result_then; [apply positionals_end|]. intros [st' rest'] _. apply result_ret. exact I.
Qed.
Lemma known_ends args : result (parse_known digit writable enter p args) any.
Proof.
  unfold parse_known. destruct (classify digit p args) as [rest|]; [|apply result_usage]. eapply result_then; [apply loop_ends; lia|]. intros st _.
  destruct (existsb _ p); [apply result_usage|apply result_ret; exact I].
Qed.
End End.
Lemma args_end digit writable argv : result (parse_args digit writable argv) (fun _ => True).
Proof.
  unfold parse_args. eapply result_then.
  - apply known_ends. intros c l. unfold enter_command. destruct (dget commands c); [|apply result_usage]. apply known_ends. intros; apply result_usage.
  - intros [n others] _. destruct (eqb others []); [apply result_ret; exact I|apply result_usage].
Qed.

(** ** Help *)
Lemma line_help u p digit writable enter command bs0 ws l tail fs : represents u p -> In help_option p -> holds command bs0 (start p) -> spelled u ws l -> Forall word tail ->
  forall h, h = codes "-h" \/ h = codes "--help" ->
  parse_known digit writable enter p (ws ++ h :: tail) fs = (after (set_options writable l (bs0, fs)), inr match set_options writable l (bs0, fs) with inl _ => Help | inr _ => Usage end).
Proof.
  intros R HI H0 SP W h Eh. destruct (spelled_marks u p R digit writable enter command ws l SP) as [ms M].
  assert (Hs : In h (strings help_option)) by (destruct Eh as [->| ->]; cbn; auto).
  assert (Cl : classify digit p (ws ++ h :: tail) = Some (ms ++ (h, O {| act := Some help_option; by_string := h; sep := false; explicit := None |}) :: map (fun w => (w, A)) tail)).
  { apply (proj1 (proj2 M)). etransitivity; [apply (classify_option p digit h _ tail ltac:(destruct Eh as [->| ->]; discriminate) (exact_option u p R digit help_option h HI Hs))|].
    rewrite <- (app_nil_r tail) at 1. rewrite (classify_words u p R digit) by exact W. cbn [classify option_map]. rewrite app_nil_r. reflexivity. }
  unfold parse_known. rewrite Cl. destruct M as (Len & _ & _ & _ & Lo). set (rest := (h, _) :: _).
  replace (S (length (ms ++ rest))) with (length l + S (length ms + length tail + 1 - length l)) by (rewrite app_length; subst rest; cbn [length]; rewrite map_length; lia).
  specialize (Lo (S (length ms + length tail + 1 - length l)) rest (start p) bs0 fs H0). unfold and_then. fold (start p).
  destruct (set_options writable l (bs0, fs)) as [[bs fs1]|fs1]; cbn [after].
  - destruct Lo as (st & _ & _ & ->). subst rest. cbn [parse_loop existsb is_option snd orb]. unfold and_then, consume_optional. cbn [act plan explicit takes help_option].
    cbn [take_all]. unfold and_then, take_action. cbn [does]. reflexivity.
  - rewrite Lo. reflexivity.
Qed.

(** ** What the commands read *)
Lemma set_options_other writable l bs fs bs' fs' n : set_options writable l (bs, fs) = inl (bs', fs') -> (forall o v, In (o, v) l -> name o <> n) -> latest bs' n = latest bs n.
Proof.
  revert bs fs. induction l as [|[o v] l IH]; intros bs fs E NO; cbn [set_options] in E; [injection E; intros; subst; reflexivity|].
  destruct (set_option writable o v (bs, fs)) as [[bs1 fs1]|fs1] eqn:E1; cbn [next] in E; [|discriminate E].
  rewrite (IH bs1 fs1 E) by (intros; eapply NO; right; eassumption). unfold set_option in E1.
  assert (NE : n <> name o) by (intros ->; eapply NO; [left; reflexivity|reflexivity]).
  destruct (value o) as [[among|]| |]; repeat match type of E1 with (if ?b then _ else _) = _ => destruct b end; try discriminate E1; injection E1; intros; subst; rewrite latest_snoc; destruct (eq_dec n (name o)); congruence.
Qed.
Lemma spelled_in u ws l : spelled u ws l -> forall o v, In (o, v) l -> In o u.
Proof. induction 1 as [| | | | | | | ]; intros o' v' I; try contradiction; (destruct I as [E|I]; [injection E; intros; subst|eauto]); auto; match goal with A : abbreviates _ _ _ |- _ => apply A end. Qed.
(** only the files to write are changed *)
Lemma set_options_files writable l bs fs f : (forall o, In (o, f) l -> value o <> AFile) -> dget (after (set_options writable l (bs, fs))) f = dget fs f.
Proof.
  revert bs fs. induction l as [|[o v] l IH]; intros bs fs NO; cbn [set_options]; [reflexivity|].
  assert (E1 : dget (after (set_option writable o v (bs, fs))) f = dget fs f).
  { unfold set_option. destruct (value o) as [[among|]| |] eqn:V; try reflexivity; [destruct (memb v among); reflexivity|].
    destruct (eqb v [45%N]); [reflexivity|]. destruct (writable v); [|reflexivity]. cbn [after]. unfold dset. apply dget_dmodify_other. intros ->. eapply NO; [left; reflexivity|exact V]. }
  destruct (set_option writable o v (bs, fs)) as [[bs1 fs1]|fs1]; cbn [next]; [|exact E1]. rewrite IH by (intros; apply NO; right; assumption). exact E1.
Qed.

(** ** What the lines set *)
Definition input_of (v : option str) : setting := Input match v with Some f => if eqb f [45%N] then None else Some f | None => None end.
Lemma set_input_is v bs fs bs' fs' : set_input v (bs, fs) = inl (bs', fs') -> bs' = bs ++ [(codes "file", input_of v)] /\ fs' = fs.
Proof.
  unfold set_input, input_of. destruct v as [f|]; [|intros E; injection E; auto]. destruct (eqb f [45%N]); [intros E; injection E; auto|].
  destruct (dget fs f); [intros E; injection E; auto|discriminate].
Qed.
Lemma content_read stdin fs v n : dget n (codes "file") = Some (input_of v) -> content stdin fs (setting_of n "file") = read stdin fs v.
Proof. intros E. unfold setting_of. rewrite E. unfold input_of, read, content. destruct v as [f|]; [|reflexivity]. destruct (eqb f [45%N]); reflexivity. Qed.
(** the names that options do not set *)
Definition not_set (u : list usage) (n : str) : Prop := forall o, In o u -> name o <> n.
Lemma spelled_other writable u ws l bs fs bs' fs' n : spelled u ws l -> set_options writable l (bs, fs) = inl (bs', fs') -> not_set u n -> latest bs' n = latest bs n.
Proof. intros S1 E NS. eapply set_options_other; [exact E|]. intros o v I. apply NS. eapply spelled_in; eassumption. Qed.

Lemma meaning_file writable u d c ws1 l1 x v ws2 l2 fs bs fs' :
  spelled u ws1 l1 -> spelled u ws2 l2 -> not_set u (codes "action") -> not_set u (codes c) -> not_set u (codes "file") -> codes c <> codes "action" -> codes c <> codes "file" ->
  next (set_options writable l1 (d, fs)) (fun z => next (set_word c x z) (fun z => next (set_input v z) (set_options writable l2))) = inl (bs, fs') ->
  latest bs (codes "action") = latest d (codes "action") /\ latest bs (codes c) = Some (Word x) /\ latest bs (codes "file") = Some (input_of v).
Proof.
  intros S1 S2 Na Nc Nf Ca Cf E. destruct (set_options writable l1 (d, fs)) as [[bs1 fs1]|] eqn:E1; [|discriminate E]. cbn [next set_word fst snd] in E.
  destruct (set_input v _) as [[bs2 fs2]|] eqn:E2; [|discriminate E]. cbn [next] in E. apply set_input_is in E2. destruct E2 as [-> ->].
  repeat split; rewrite (spelled_other writable u ws2 l2 _ _ _ _ _ S2 E) by assumption; rewrite !latest_snoc.
  - destruct (eq_dec (codes "action") (codes "file")) as [X|_]; [discriminate X|]. destruct (eq_dec (codes "action") (codes c)); [congruence|].
    apply (spelled_other writable u ws1 l1 _ _ _ _ _ S1 E1 Na).
  - destruct (eq_dec (codes c) (codes "file")); [congruence|]. destruct (eq_dec (codes c) (codes c)); [reflexivity|congruence].
  - destruct (eq_dec (codes "file") (codes "file")); [reflexivity|congruence].
Qed.
Lemma meaning_transform writable ws1 l1 x ws2 l2 y v ws3 l3 fs bs fs' :
  spelled transform_usage ws1 l1 -> spelled transform_usage ws2 l2 -> spelled transform_usage ws3 l3 ->
  not_set transform_usage (codes "action") -> not_set transform_usage (codes "column") -> not_set transform_usage (codes "operations") -> not_set transform_usage (codes "file") ->
  transform_meaning writable l1 x l2 y v l3 fs = inl (bs, fs') ->
  latest bs (codes "action") = Some (Word (codes "transform")) /\ latest bs (codes "column") = Some (Word x) /\ latest bs (codes "operations") = Some (Word y) /\ latest bs (codes "file") = Some (input_of v).
Proof.
  intros S1 S2 S3 Na Nc No Nf E. unfold transform_meaning in E. destruct (set_options writable l1 _) as [[bs1 fs1]|] eqn:E1; [|discriminate E]. cbn [next set_word fst snd] in E.
  destruct (set_options writable l2 _) as [[bs2 fs2]|] eqn:E2; [|discriminate E]. cbn [next set_word fst snd] in E.
  destruct (set_input v _) as [[bs3 fs3]|] eqn:E3; [|discriminate E]. cbn [next] in E. apply set_input_is in E3. destruct E3 as [-> ->].
  repeat split; rewrite (spelled_other writable _ ws3 l3 _ _ _ _ _ S3 E) by assumption; rewrite !latest_snoc.
  - rewrite (spelled_other writable _ ws2 l2 _ _ _ _ _ S2 E2) by assumption. rewrite latest_snoc.
    rewrite (spelled_other writable _ ws1 l1 _ _ _ _ _ S1 E1) by assumption. reflexivity.
  - rewrite (spelled_other writable _ ws2 l2 _ _ _ _ _ S2 E2) by assumption. rewrite latest_snoc. reflexivity.
  - reflexivity.
  - reflexivity.
Qed.

(** the files to write are empty when the command runs, and no other file is changed *)
Definition emptied (x : bindings * files) : Prop := forall n f, In (n, Output (Some f)) (fst x) -> dget (snd x) f = Some [].
Definition named (l : list (usage * str)) (bs : bindings) : Prop := forall n f, In (n, Output (Some f)) bs -> exists o, In (o, f) l /\ value o = AFile.
Lemma emptied_options writable l x y : set_options writable l x = inl y -> emptied x -> emptied y.
Proof.
  revert x. induction l as [|[o v] l IH]; intros x E H; cbn [set_options] in E; [injection E; intros; subst; exact H|].
  destruct (set_option writable o v x) as [z|] eqn:E1; [|discriminate E]. apply (IH z E). destruct x as [bs fs]. unfold set_option in E1.
  assert (Text : forall w, (forall f, w <> Output (Some f)) -> emptied (bs ++ [(name o, w)], fs)).
  { intros w NW n f I. cbn [fst snd] in *. apply in_app_or in I. destruct I as [I|[I|[]]]; [exact (H n f I)|]. injection I; intros; subst. exfalso. eapply NW; reflexivity. }
  destruct (value o) as [[among|]| |]; repeat match type of E1 with (if ?b then _ else _) = _ => destruct b end; try discriminate E1; injection E1; intros; subst; try (apply Text; discriminate).
  intros n f I. cbn [fst snd] in *. unfold dset. destruct (eq_dec f v) as [->|NE]; [apply dget_dmodify_same|]. rewrite dget_dmodify_other by congruence.
  apply in_app_or in I. destruct I as [I|[I|[]]]; [exact (H n f I)|]. congruence.
Qed.
Lemma named_options writable l0 l bs fs bs' fs' : set_options writable l (bs, fs) = inl (bs', fs') -> named l0 bs -> named (l0 ++ l) bs'.
Proof.
  revert l0 bs fs. induction l as [|[o v] l IH]; intros l0 bs fs E H; cbn [set_options] in E; [injection E; intros; subst; rewrite app_nil_r; exact H|].
  destruct (set_option writable o v (bs, fs)) as [[bs1 fs1]|] eqn:E1; [|discriminate E]. cbn [next] in E.
  replace (l0 ++ (o, v) :: l) with ((l0 ++ [(o, v)]) ++ l) by (rewrite <- app_assoc; reflexivity). apply (IH _ _ _ E). unfold set_option in E1.
  assert (Old : named (l0 ++ [(o, v)]) bs) by (intros n f I; destruct (H n f I) as (o' & I' & V'); exists o'; split; [apply in_or_app; left; exact I'|exact V']).
  destruct (value o) as [[among|]| |] eqn:V; repeat match type of E1 with (if ?b then _ else _) = _ => destruct b end; try discriminate E1; injection E1; intros; subst;
    intros n f I; (apply in_app_or in I; destruct I as [I|[I|[]]]; [exact (Old n f I)|]); try discriminate I.
  injection I; intros; subst. exists o. split; [apply in_or_app; right; left; reflexivity|exact V].
Qed.
Lemma emptied_snoc n w bs fs : (forall f, w <> Output (Some f)) -> emptied (bs, fs) -> emptied (bs ++ [(n, w)], fs).
Proof. intros NW H m f I. cbn [fst snd] in *. apply in_app_or in I. destruct I as [I|[I|[]]]; [exact (H m f I)|]. injection I; intros; subst. exfalso. eapply NW; reflexivity. Qed.
Lemma named_snoc l n w bs : (forall f, w <> Output (Some f)) -> named l bs -> named l (bs ++ [(n, w)]).
Proof. intros NW H m f I. apply in_app_or in I. destruct I as [I|[I|[]]]; [exact (H m f I)|]. injection I; intros; subst. exfalso. eapply NW; reflexivity. Qed.
Lemma latest_In bs n v : latest bs n = Some v -> In (n, v) bs.
Proof.
  induction bs as [|[m x] bs IH]; cbn [latest]; [discriminate|]. destruct (latest bs n); [intros E; right; apply IH; exact E|].
  destruct (eq_dec n m) as [->|_]; [|discriminate]. intros E; injection E; intros ->. left; reflexivity.
Qed.
Lemma meaning_output writable d c l1 x v l2 fs bs fs' : emptied (d, fs) -> named [] d ->
  next (set_options writable l1 (d, fs)) (fun z => next (set_word c x z) (fun z => next (set_input v z) (set_options writable l2))) = inl (bs, fs') ->
  emptied (bs, fs') /\ named (l1 ++ l2) bs /\ forall f, (forall o, In (o, f) (l1 ++ l2) -> value o <> AFile) -> dget fs' f = dget fs f.
Proof.
  intros He Hn E. destruct (set_options writable l1 (d, fs)) as [[bs1 fs1]|] eqn:E1; [|discriminate E]. cbn [next set_word fst snd] in E.
  destruct (set_input v _) as [[bs2 fs2]|] eqn:E2; [|discriminate E]. cbn [next] in E. apply set_input_is in E2. destruct E2 as [-> ->].
  assert (NI : forall f, input_of v <> Output (Some f)) by discriminate. repeat split.
  - apply (emptied_options _ _ _ _ E). repeat apply emptied_snoc; try (discriminate || exact NI). exact (emptied_options _ _ _ _ E1 He).
  - apply (named_options _ l1 _ _ _ _ _ E). repeat apply named_snoc; try (discriminate || exact NI). exact (named_options _ [] _ _ _ _ _ E1 Hn).
  - intros f NF. pose proof (set_options_files writable l2 ((bs1 ++ [(codes c, Word x)]) ++ [(codes "file", input_of v)]) fs1 f) as F2. rewrite E in F2. cbn [after] in F2.
    rewrite F2 by (intros o I; apply NF; apply in_or_app; right; exact I).
    pose proof (set_options_files writable l1 d fs f) as F1. rewrite E1 in F1. cbn [after] in F1. apply F1. intros o I; apply NF; apply in_or_app; left; exact I.
Qed.

(** a file that no option names *)
Definition untouched (fs : files) (f : str) (x : outcome) : Prop :=
  dget (after x) f = dget fs f /\ match x with inl (bs, _) => forall n, ~ In (n, Output (Some f)) bs | inr _ => True end.
Lemma untouched_next fs f x k : untouched fs f x -> (forall z, untouched fs f (inl z) -> untouched fs f (k z)) -> untouched fs f (next x k).
Proof. intros H K. destruct x as [z|g]; [apply K; exact H|exact H]. Qed.
Lemma untouched_snoc fs f bs g n v : untouched fs f (inl (bs, g)) -> v <> Output (Some f) -> untouched fs f (inl (bs ++ [(n, v)], g)).
Proof. intros [H1 H2] NV. split; [exact H1|]. intros m I. apply in_app_or in I. destruct I as [I|[I|[]]]; [exact (H2 m I)|]. injection I; intros; subst. apply NV; reflexivity. Qed.
Lemma untouched_options fs f writable l x : (forall o, In (o, f) l -> value o <> AFile) -> untouched fs f (inl x) -> untouched fs f (set_options writable l x).
Proof.
  revert x. induction l as [|[o v] l IH]; intros x NO H; cbn [set_options]; [exact H|]. apply untouched_next; [|intros z; apply IH; intros o' I'; apply NO; right; exact I'].
  destruct x as [bs g]. unfold set_option. destruct (value o) as [[among|]| |] eqn:V; try (apply untouched_snoc; [exact H|discriminate]).
  - destruct (memb v among); [apply untouched_snoc; [exact H|discriminate]|split; [exact (proj1 H)|exact Logic.I]].
  - assert (NE : v <> f) by (intros ->; eapply NO; [left; reflexivity|exact V]).
    destruct (eqb v [45%N]); [apply untouched_snoc; [exact H|discriminate]|]. destruct (writable v); [|split; [exact (proj1 H)|exact Logic.I]].
    assert (H' : untouched fs f (inl (bs, dset g v []))).
    { destruct H as [H1 H2]. split; [|exact H2]. cbn [after] in *. unfold dset. rewrite dget_dmodify_other by congruence. exact H1. }
    apply untouched_snoc; [exact H'|congruence].
Qed.
Lemma untouched_word fs f n v z : untouched fs f (inl z) -> untouched fs f (set_word n v z).
Proof. intros H. destruct z as [bs g]. apply untouched_snoc; [exact H|discriminate]. Qed.
Lemma untouched_input fs f v z : untouched fs f (inl z) -> untouched fs f (set_input v z).
Proof.
  intros H. destruct z as [bs g]. unfold set_input. destruct v as [v|]; [|apply untouched_snoc; [exact H|discriminate]].
  destruct (eqb v [45%N]); [apply untouched_snoc; [exact H|discriminate]|]. destruct (dget g v); [apply untouched_snoc; [exact H|discriminate]|split; [exact (proj1 H)|exact Logic.I]].
Qed.
Lemma untouched_written fs f bs g out : untouched fs f (inl (bs, g)) -> dget (fst (written bs g out)) f = dget fs f.
Proof.
  intros [H1 H2]. cbn [after] in H1. unfold written. destruct (latest bs (codes "output")) as [[| | | |[v|]|]|] eqn:L; try exact H1.
  cbn [fst]. unfold dset. rewrite dget_dmodify_other; [exact H1|]. intros ->. exact (H2 _ (latest_In _ _ _ L)).
Qed.
