(** The command line of fog: what the lines that follow the usage mean, and the lines that are refused. *)
From Coq Require Import QArith_base String Lia.
From Verif Require Import Base BaseFacts LevModel StringsModel PhoneticsModel CliModel ReportModel CsvModel ArgsModel ArgsSpec ArgsProofs.
Open Scope nat_scope.
Open Scope list_scope.
Notation w := codes.

Ltac distinct := vm_compute; repeat constructor; cbn [In]; intros I; repeat (destruct I as [I|I]; [discriminate I|]); exact I.
Lemma split_holds : holds (w "split") split_defaults (start split_parser).
Proof. apply defaults_hold; [|reflexivity]. distinct. Qed.
Lemma cluster_holds : holds (w "cluster") cluster_defaults (start cluster_parser).
Proof. apply defaults_hold; [|reflexivity]. distinct. Qed.
Lemma transform_holds : holds (w "transform") transform_defaults (start transform_parser).
Proof. apply defaults_hold; [|reflexivity]. distinct. Qed.
Ltac required_are := intros a I H; cbn in I; repeat (destruct I as [<-|I]; [try discriminate H; cbn; tauto|]); contradiction I.
Lemma split_required a : In a split_parser -> required a = true -> In (dest a) [w "column"].
Proof. revert a. required_are. Qed.
Lemma cluster_required a : In a cluster_parser -> required a = true -> In (dest a) [w "column"].
Proof. revert a. required_are. Qed.
Lemma transform_required a : In a transform_parser -> required a = true -> In (dest a) [w "operations"; w "column"].
Proof. revert a. required_are. Qed.

(** C142: options before the words and after them, in any of their spellings, set what they are to set, the latest first; for the rest there are the defaults. *)
Theorem C142_split digit writable ws1 l1 column file ws2 l2 fs :
  spelled split_usage ws1 l1 -> word column -> (forall f, file = Some f -> word f) -> spelled split_usage ws2 l2 ->
  gives (parse_args digit writable (w "split" :: ws1 ++ column :: opt_word file ++ ws2) fs) (split_meaning writable l1 column file l2 fs).
Proof.
  intros S1 W F S2. apply (known_args digit writable _ split_parser); [reflexivity|].
  exact (line_file _ _ split_represents digit writable _ _ _ split_holds "column" ws1 l1 column file ws2 l2 fs eq_refl split_required S1 W F S2).
Qed.
Theorem C142_cluster digit writable ws1 l1 column file ws2 l2 fs :
  spelled cluster_usage ws1 l1 -> word column -> (forall f, file = Some f -> word f) -> spelled cluster_usage ws2 l2 ->
  gives (parse_args digit writable (w "cluster" :: ws1 ++ column :: opt_word file ++ ws2) fs) (cluster_meaning writable l1 column file l2 fs).
Proof.
  intros S1 W F S2. apply (known_args digit writable _ cluster_parser); [reflexivity|].
  exact (line_file _ _ cluster_represents digit writable _ _ _ cluster_holds "column" ws1 l1 column file ws2 l2 fs eq_refl cluster_required S1 W F S2).
Qed.
(** the column and the operations of transform may be apart *)
Theorem C142_transform digit writable ws1 l1 column ws2 l2 operations file ws3 l3 fs :
  spelled transform_usage ws1 l1 -> word column -> spelled transform_usage ws2 l2 -> word operations -> (forall f, file = Some f -> word f) -> spelled transform_usage ws3 l3 ->
  gives (parse_args digit writable (w "transform" :: ws1 ++ column :: ws2 ++ operations :: opt_word file ++ ws3) fs) (transform_meaning writable l1 column l2 operations file l3 fs).
Proof.
  intros S1 W S2 Wo F S3. apply (known_args digit writable _ transform_parser); [reflexivity|].
  assert (ws2 = [] /\ l2 = [] \/ ws2 <> []) as [[-> ->]|NE] by (destruct S2; [left; auto| | | | | | | ]; right; discriminate).
  - exact (line_two _ _ transform_represents digit writable _ _ _ transform_holds "column" "operations" ws1 l1 column operations file ws3 l3 fs eq_refl transform_required S1 W Wo F S3).
  - exact (line_between _ _ transform_represents digit writable _ _ _ transform_holds "column" "operations" ws1 l1 column ws2 l2 operations file ws3 l3 fs eq_refl transform_required S1 W S2 NE Wo F S3).
Qed.
(** -h after some options, before the words: the help *)
Theorem C142_help_split digit writable ws l words fs h : h = w "-h" \/ h = w "--help" -> spelled split_usage ws l -> Forall word words ->
  parse_args digit writable (w "split" :: ws ++ h :: words) fs =
  match set_options writable l (split_defaults, fs) with inl (_, fs) => (fs, inr Help) | inr fs => (fs, inr Usage) end.
Proof.
  intros Eh S1 W. rewrite (args_command digit writable _ split_parser) by reflexivity.
  rewrite (line_help _ _ digit writable _ _ _ ws l words fs split_represents ltac:(left; reflexivity) split_holds S1 W h Eh).
  destruct (set_options writable l (split_defaults, fs)) as [[bs fs']|fs']; reflexivity.
Qed.
Theorem C142_help_cluster digit writable ws l words fs h : h = w "-h" \/ h = w "--help" -> spelled cluster_usage ws l -> Forall word words ->
  parse_args digit writable (w "cluster" :: ws ++ h :: words) fs =
  match set_options writable l (cluster_defaults, fs) with inl (_, fs) => (fs, inr Help) | inr fs => (fs, inr Usage) end.
Proof.
  intros Eh S1 W. rewrite (args_command digit writable _ cluster_parser) by reflexivity.
  rewrite (line_help _ _ digit writable _ _ _ ws l words fs cluster_represents ltac:(left; reflexivity) cluster_holds S1 W h Eh).
  destruct (set_options writable l (cluster_defaults, fs)) as [[bs fs']|fs']; reflexivity.
Qed.
Theorem C142_help_transform digit writable ws l words fs h : h = w "-h" \/ h = w "--help" -> spelled transform_usage ws l -> Forall word words ->
  parse_args digit writable (w "transform" :: ws ++ h :: words) fs =
  match set_options writable l (transform_defaults, fs) with inl (_, fs) => (fs, inr Help) | inr fs => (fs, inr Usage) end.
Proof.
  intros Eh S1 W. rewrite (args_command digit writable _ transform_parser) by reflexivity.
  rewrite (line_help _ _ digit writable _ _ _ ws l words fs transform_represents ltac:(left; reflexivity) transform_holds S1 W h Eh).
  destruct (set_options writable l (transform_defaults, fs)) as [[bs fs']|fs']; reflexivity.
Qed.
(** every other word after fog itself is refused *)
Theorem C142_commands digit writable c words fs : Forall word words -> word c -> ~ In c [w "split"; w "cluster"; w "transform"; w "help"] ->
  parse_args digit writable (c :: words) fs = (fs, inr Usage).
Proof.
  intros Ws W NI. assert (M : memb c (dkeys commands) = false) by (apply memb_false; intros I; apply NI; cbn in *; tauto).
  unfold parse_args, parse_known at 1.
  replace (classify digit main_parser (c :: words)) with (Some (map (fun x => (x, A)) (c :: words))).
  - cbn [map length]. unfold and_then. cbn [parse_loop existsb is_option snd orb].
    replace (existsb is_option (map (fun x => (x, A)) words)) with false by (clear; induction words; [reflexivity|assumption]).
    unfold and_then, consume_positionals. cbn [positionals]. change (filter is_positional main_parser) with (tl main_parser).
    cbn [tl main_parser length firstn map match_partial match_groups match_group takes dashes skipn snd fst option_map Nat.add take_positionals].
    unfold and_then, take_action. cbn [takes does is_positional strings dest]. unfold check_value. cbn [choices]. rewrite M. reflexivity.
  - pose proof (classify_words no_usage main_parser main_represents digit (c :: words) [] (Forall_cons c W Ws)) as C. rewrite app_nil_r in C. rewrite C. cbn [classify option_map]. rewrite app_nil_r. reflexivity.
Qed.

(** C143: an option between the words and the file *)
Theorem C143_split_refuted : ~ (forall digit writable column ws l file fs, word column -> spelled split_usage ws l -> word file ->
  gives (parse_args digit writable (w "split" :: column :: ws ++ [file]) fs) (next (set_options writable l (split_defaults ++ [(w "column", Word column)], fs)) (set_input (Some file)))).
Proof.
  intros H. specialize (H (fun _ => false) (fun _ => true) (w "a") [w "-s"; w ","] [(usage_option "s" "separator" "separator" (AText None), w ",")] (w "in.csv") [(w "in.csv", w "a")]).
  destruct H as (ns & E & _).
  - right; right; eexists; eexists; split; [reflexivity|discriminate].
  - eapply (spelled_short _ _ 115%N); [right; left; reflexivity|reflexivity|discriminate|right; right; eexists; eexists; split; [reflexivity|discriminate]|constructor].
  - right; right; eexists; eexists; split; [reflexivity|discriminate].
  - vm_compute in E. discriminate E.
Qed.

(** C144: such a line is always refused, the files to write having been emptied *)
Theorem C144_split digit writable ws1 l1 column ws2 l2 file ws3 l3 fs :
  spelled split_usage ws1 l1 -> word column -> spelled split_usage ws2 l2 -> ws2 <> [] -> word file -> spelled split_usage ws3 l3 ->
  parse_args digit writable (w "split" :: ws1 ++ column :: ws2 ++ file :: ws3) fs = (after (next (split_meaning writable l1 column None l2 fs) (set_options writable l3)), inr Usage).
Proof.
  intros S1 W S2 NE F S3. unfold split_meaning. rewrite !next_next.
  apply (known_refused digit writable _ split_parser _ _ _ file); [reflexivity|].
  pose proof (line_late _ _ split_represents digit writable (fun _ _ => halt Usage) _ _ split_holds "column" ws1 l1 column ws2 l2 file ws3 l3 fs eq_refl split_required S1 W S2 NE F S3) as L.
  destruct (set_options writable l1 (split_defaults, fs)) as [[bs1 fs1]|fs1]; exact L.
Qed.
Theorem C144_cluster digit writable ws1 l1 column ws2 l2 file ws3 l3 fs :
  spelled cluster_usage ws1 l1 -> word column -> spelled cluster_usage ws2 l2 -> ws2 <> [] -> word file -> spelled cluster_usage ws3 l3 ->
  parse_args digit writable (w "cluster" :: ws1 ++ column :: ws2 ++ file :: ws3) fs = (after (next (cluster_meaning writable l1 column None l2 fs) (set_options writable l3)), inr Usage).
Proof.
  intros S1 W S2 NE F S3. unfold cluster_meaning. rewrite !next_next.
  apply (known_refused digit writable _ cluster_parser _ _ _ file); [reflexivity|].
  pose proof (line_late _ _ cluster_represents digit writable (fun _ _ => halt Usage) _ _ cluster_holds "column" ws1 l1 column ws2 l2 file ws3 l3 fs eq_refl cluster_required S1 W S2 NE F S3) as L.
  destruct (set_options writable l1 (cluster_defaults, fs)) as [[bs1 fs1]|fs1]; exact L.
Qed.
Theorem C144_transform digit writable ws1 l1 column operations ws2 l2 file ws3 l3 fs :
  spelled transform_usage ws1 l1 -> word column -> word operations -> spelled transform_usage ws2 l2 -> ws2 <> [] -> word file -> spelled transform_usage ws3 l3 ->
  parse_args digit writable (w "transform" :: ws1 ++ column :: operations :: ws2 ++ file :: ws3) fs =
  (after (next (transform_meaning writable l1 column [] operations None l2 fs) (set_options writable l3)), inr Usage).
Proof.
  intros S1 W Wo S2 NE F S3. unfold transform_meaning. rewrite !next_next.
  apply (known_refused digit writable _ transform_parser _ _ _ file); [reflexivity|].
  pose proof (line_two_late _ _ transform_represents digit writable (fun _ _ => halt Usage) _ _ transform_holds "column" "operations" ws1 l1 column operations ws2 l2 file ws3 l3 fs eq_refl transform_required S1 W Wo S2 NE F S3) as L.
  destruct (set_options writable l1 (transform_defaults, fs)) as [[bs1 fs1]|fs1]; exact L.
Qed.


(** C145: the command runs on what the line names *)
Section Run.
Variable digit : N -> bool.
Variable writable : str -> bool.
Variable lower strip upper unidecode fingerprint : str -> str.
Variable evaluate : str -> str -> res CsvModel.value.
Variable now : datetime.
Variable took : Q.
Variable stdin : str.
Notation fog := (main digit writable lower strip upper unidecode fingerprint evaluate now took stdin).
Ltac unset := intros o I; cbn in I; repeat (destruct I as [<-|I]; [discriminate|]); contradiction I.
Definition how (e : option exn) : ending := match e with Some e => Raised e | None => Done end.

Theorem C145_split ws1 l1 column file ws2 l2 fs :
  spelled split_usage ws1 l1 -> word column -> (forall f, file = Some f -> word f) -> spelled split_usage ws2 l2 ->
  fog (w "split" :: ws1 ++ column :: opt_word file ++ ws2) fs =
  match split_meaning writable l1 column file l2 fs with
  | inr fs => (fs, [], BadUsage)
  | inl (bs, fs) =>
    let '(out, e) := split_file (read stdin fs file) column (text_or "" (text_set bs "separator")) (text_set bs "target_column") (text_set bs "rename_column") in
    (written bs fs out, how e)
  end.
Proof.
  intros S1 W F S2. pose proof (C142_split digit writable ws1 l1 column file ws2 l2 fs S1 W F S2) as G. unfold main.
  destruct (split_meaning writable l1 column file l2 fs) as [[bs fs']|fs'] eqn:E; cbn [gives] in G; [|rewrite G; reflexivity].
  destruct G as (n & -> & L).
  destruct (meaning_file writable split_usage split_defaults "column" ws1 l1 column file ws2 l2 fs bs fs' S1 S2 ltac:(unset) ltac:(unset) ltac:(unset) ltac:(discriminate) ltac:(discriminate) E) as (La & Lc & Lf).
  unfold run_command. rewrite (content_read stdin fs' file n) by (rewrite L; exact Lf).
  unfold setting_of. rewrite !L, La, Lc. change (latest split_defaults (codes "action")) with (Some (Word (w "split"))). cbn [word_of].
  change (eqb (w "split") (w "help")) with false. change (eqb (w "split") (w "cluster")) with false. change (eqb (w "split") (w "split")) with true. cbv beta iota.
  unfold text_set, written.
  replace (word_of match latest bs (codes "separator") with Some v => v | None => Nothing end) with (text_or "" match latest bs (codes "separator") with Some (Word s) => Some s | _ => None end)
    by (destruct (latest bs (codes "separator")) as [[]|]; reflexivity).
  assert (WN : forall m, word_or_none match latest bs m with Some v => v | None => Nothing end = match latest bs m with Some (Word s) => Some s | _ => None end)
    by (intros m; destruct (latest bs m) as [[]|]; reflexivity).
  rewrite !WN. destruct (split_file _ _ _ _ _) as [out e].
  destruct (latest bs (codes "output")) as [[| | | |[f|]|]|]; destruct e; reflexivity.
Qed.
Theorem C145_cluster ws1 l1 column file ws2 l2 fs :
  spelled cluster_usage ws1 l1 -> word column -> (forall f, file = Some f -> word f) -> spelled cluster_usage ws2 l2 ->
  fog (w "cluster" :: ws1 ++ column :: opt_word file ++ ws2) fs =
  match cluster_meaning writable l1 column file l2 fs with
  | inr fs => (fs, [], BadUsage)
  | inl (bs, fs) =>
    match cluster_file fingerprint (read stdin fs file) (text_or "" (text_set bs "algorithm")) (text_or "" (text_set bs "type")) column now took with
    | Ok out => (written bs fs out, Done)
    | Err e => (written bs fs [], Raised e)
    end
  end.
Proof.
  intros S1 W F S2. pose proof (C142_cluster digit writable ws1 l1 column file ws2 l2 fs S1 W F S2) as G. unfold main.
  destruct (cluster_meaning writable l1 column file l2 fs) as [[bs fs']|fs'] eqn:E; cbn [gives] in G; [|rewrite G; reflexivity].
  destruct G as (n & -> & L).
  destruct (meaning_file writable cluster_usage cluster_defaults "column" ws1 l1 column file ws2 l2 fs bs fs' S1 S2 ltac:(unset) ltac:(unset) ltac:(unset) ltac:(discriminate) ltac:(discriminate) E) as (La & Lc & Lf).
  unfold run_command. rewrite (content_read stdin fs' file n) by (rewrite L; exact Lf).
  unfold setting_of. rewrite !L, La, Lc. change (latest cluster_defaults (codes "action")) with (Some (Word (w "cluster"))). cbn [word_of].
  change (eqb (w "cluster") (w "help")) with false. change (eqb (w "cluster") (w "cluster")) with true. cbv beta iota.
  unfold text_set, written.
  assert (WN : forall m, word_of match latest bs m with Some v => v | None => Nothing end = text_or "" match latest bs m with Some (Word s) => Some s | _ => None end)
    by (intros m; destruct (latest bs m) as [[]|]; reflexivity).
  rewrite !WN. destruct (cluster_file _ _ _ _ _ _ _) as [out|e]; destruct (latest bs (codes "output")) as [[| | | |[f|]|]|]; reflexivity.
Qed.
Theorem C145_transform ws1 l1 column ws2 l2 operations file ws3 l3 fs :
  spelled transform_usage ws1 l1 -> word column -> spelled transform_usage ws2 l2 -> word operations -> (forall f, file = Some f -> word f) -> spelled transform_usage ws3 l3 ->
  fog (w "transform" :: ws1 ++ column :: ws2 ++ operations :: opt_word file ++ ws3) fs =
  match transform_meaning writable l1 column l2 operations file l3 fs with
  | inr fs => (fs, [], BadUsage)
  | inl (bs, fs) =>
    let '(out, e) := transform_file lower strip upper unidecode fingerprint (read stdin fs file) column operations (text_set bs "target_column") (switched bs "after")
      (if switched bs "eval" then Some (evaluate operations) else None) in
    (written bs fs out, how e)
  end.
Proof.
  intros S1 W S2 Wo F S3. pose proof (C142_transform digit writable ws1 l1 column ws2 l2 operations file ws3 l3 fs S1 W S2 Wo F S3) as G. unfold main.
  destruct (transform_meaning writable l1 column l2 operations file l3 fs) as [[bs fs']|fs'] eqn:E; cbn [gives] in G; [|rewrite G; reflexivity].
  destruct G as (n & -> & L).
  destruct (meaning_transform writable ws1 l1 column ws2 l2 operations file ws3 l3 fs bs fs' S1 S2 S3 ltac:(unset) ltac:(unset) ltac:(unset) ltac:(unset) E) as (La & Lc & Lo & Lf).
  unfold run_command. rewrite (content_read stdin fs' file n) by (rewrite L; exact Lf).
  unfold setting_of. rewrite !L, La, Lc, Lo. cbn [word_of].
  change (eqb (w "transform") (w "help")) with false. change (eqb (w "transform") (w "cluster")) with false. change (eqb (w "transform") (w "split")) with false.
  change (eqb (w "transform") (w "transform")) with true. cbv beta iota zeta.
  unfold text_set, written, switched.
  assert (WN : word_or_none match latest bs (codes "target_column") with Some v => v | None => Nothing end = match latest bs (codes "target_column") with Some (Word s) => Some s | _ => None end)
    by (destruct (latest bs (codes "target_column")) as [[]|]; reflexivity).
  assert (FN : forall m, flag_of match latest bs m with Some v => v | None => Nothing end = match latest bs m with Some (Flag b) => b | _ => false end)
    by (intros m; destruct (latest bs m) as [[]|]; reflexivity).
  rewrite WN, !FN. destruct (transform_file _ _ _ _ _ _ _ _ _ _ _) as [out e].
  destruct (latest bs (codes "output")) as [[| | | |[f|]|]|]; destruct e; reflexivity.
Qed.

(** the file of the output was emptied before the command reads: it is no good as an input *)
Theorem C145_same_file ws1 l1 column f ws2 l2 fs bs fs' :
  spelled split_usage ws1 l1 -> word column -> word f -> f <> w "-" -> spelled split_usage ws2 l2 ->
  split_meaning writable l1 column (Some f) l2 fs = inl (bs, fs') -> latest bs (w "output") = Some (Output (Some f)) ->
  exists fs'', fog (w "split" :: ws1 ++ column :: f :: ws2) fs = (fs'', [], Raised AttributeError) /\ dget fs'' f = Some [].
Proof.
  intros S1 W F NE S2 E Lo. pose proof (C145_split ws1 l1 column (Some f) ws2 l2 fs S1 W ltac:(intros g Eg; injection Eg; intros <-; exact F) S2) as M. rewrite E in M.
  destruct (meaning_output writable split_defaults "column" l1 column (Some f) l2 fs bs fs') as (He & _ & _);
    [intros n g I; cbn in I; repeat (destruct I as [I|I]; [discriminate I|]); contradiction I|intros n g I; cbn in I; repeat (destruct I as [I|I]; [discriminate I|]); contradiction I|exact E|].
  specialize (He _ _ (latest_In _ _ _ Lo)). cbn [snd] in He.
  unfold read in M. replace (eqb f [45%N]) with false in M by (symmetry; apply eqb_false; exact NE). rewrite He in M.
  replace (split_file [] column (text_or "" (text_set bs "separator")) (text_set bs "target_column") (text_set bs "rename_column")) with (@nil N, Some AttributeError) in M by reflexivity.
  unfold written in M. rewrite Lo in M. exists (dset fs' f []). split; [exact M|]. unfold dset. apply dget_dmodify_same.
Qed.
(** no other file is changed *)
Ltac at_first := split; [reflexivity|intros n I; cbn in I; repeat (destruct I as [I|I]; [discriminate I|]); contradiction I].
Theorem C145_kept_split ws1 l1 column file ws2 l2 fs f :
  spelled split_usage ws1 l1 -> word column -> (forall f, file = Some f -> word f) -> spelled split_usage ws2 l2 -> (forall o, In (o, f) (l1 ++ l2) -> value o <> AFile) ->
  dget (fst (fst (fog (w "split" :: ws1 ++ column :: opt_word file ++ ws2) fs))) f = dget fs f.
Proof.
  intros S1 W F S2 NF. rewrite (C145_split ws1 l1 column file ws2 l2 fs S1 W F S2).
  assert (U : untouched fs f (split_meaning writable l1 column file l2 fs)).
  { apply untouched_next; [apply untouched_options; [intros o I; apply NF; apply in_or_app; left; exact I|at_first]|]. intros z U. apply untouched_next; [apply untouched_word; exact U|].
    clear z U. intros z U. apply untouched_next; [apply untouched_input; exact U|]. clear z U. intros z U. apply untouched_options; [intros o I; apply NF; apply in_or_app; right; exact I|exact U]. }
  destruct (split_meaning writable l1 column file l2 fs) as [[bs fs']|fs']; [|exact (proj1 U)].
  destruct (split_file _ _ _ _ _) as [out e]. cbn [fst]. apply untouched_written. exact U.
Qed.
Theorem C145_kept_cluster ws1 l1 column file ws2 l2 fs f :
  spelled cluster_usage ws1 l1 -> word column -> (forall f, file = Some f -> word f) -> spelled cluster_usage ws2 l2 -> (forall o, In (o, f) (l1 ++ l2) -> value o <> AFile) ->
  dget (fst (fst (fog (w "cluster" :: ws1 ++ column :: opt_word file ++ ws2) fs))) f = dget fs f.
Proof.
  intros S1 W F S2 NF. rewrite (C145_cluster ws1 l1 column file ws2 l2 fs S1 W F S2).
  assert (U : untouched fs f (cluster_meaning writable l1 column file l2 fs)).
  { apply untouched_next; [apply untouched_options; [intros o I; apply NF; apply in_or_app; left; exact I|at_first]|]. intros z U. apply untouched_next; [apply untouched_word; exact U|].
    clear z U. intros z U. apply untouched_next; [apply untouched_input; exact U|]. clear z U. intros z U. apply untouched_options; [intros o I; apply NF; apply in_or_app; right; exact I|exact U]. }
  destruct (cluster_meaning writable l1 column file l2 fs) as [[bs fs']|fs']; [|exact (proj1 U)].
  destruct (cluster_file _ _ _ _ _ _ _) as [out|e]; cbn [fst]; apply untouched_written; exact U.
Qed.
Theorem C145_kept_transform ws1 l1 column ws2 l2 operations file ws3 l3 fs f :
  spelled transform_usage ws1 l1 -> word column -> spelled transform_usage ws2 l2 -> word operations -> (forall f, file = Some f -> word f) -> spelled transform_usage ws3 l3 ->
  (forall o, In (o, f) (l1 ++ l2 ++ l3) -> value o <> AFile) ->
  dget (fst (fst (fog (w "transform" :: ws1 ++ column :: ws2 ++ operations :: opt_word file ++ ws3) fs))) f = dget fs f.
Proof.
  intros S1 W S2 Wo F S3 NF. rewrite (C145_transform ws1 l1 column ws2 l2 operations file ws3 l3 fs S1 W S2 Wo F S3).
  assert (U : untouched fs f (transform_meaning writable l1 column l2 operations file l3 fs)).
  { apply untouched_next; [apply untouched_options; [intros o I; apply NF; apply in_or_app; left; exact I|at_first]|]. intros z U. apply untouched_next; [apply untouched_word; exact U|].
    clear z U. intros z U. apply untouched_next; [apply untouched_options; [intros o I; apply NF; apply in_or_app; right; apply in_or_app; left; exact I|exact U]|].
    clear z U. intros z U. apply untouched_next; [apply untouched_word; exact U|]. clear z U. intros z U. apply untouched_next; [apply untouched_input; exact U|].
    clear z U. intros z U. apply untouched_options; [intros o I; apply NF; apply in_or_app; right; apply in_or_app; right; exact I|exact U]. }
  destruct (transform_meaning writable l1 column l2 operations file l3 fs) as [[bs fs']|fs']; [|exact (proj1 U)].
  destruct (transform_file _ _ _ _ _ _ _ _ _ _ _) as [out e]. cbn [fst]. apply untouched_written. exact U.
Qed.
(** every line comes to an end *)
Theorem C145_ends argv fs : snd (fog argv fs) <> NoEnd.
Proof.
  unfold main. pose proof (args_end digit writable argv fs) as E. destruct (parse_args digit writable argv fs) as [fs' [n|s]].
  - unfold run_command. destruct (setting_of n "action"); try discriminate.
    destruct (eqb s (w "help")); [discriminate|]. destruct (eqb s (w "cluster")); [destruct (cluster_file _ _ _ _ _ _ _); discriminate|].
    destruct (eqb s (w "split")); [destruct (split_file _ _ _ _ _) as [out [e|]]; discriminate|]. destruct (eqb s (w "transform")); [|discriminate].
    destruct (setting_of n "operations"); try (destruct (flag_of _); [destruct (transform_file _ _ _ _ _ _ _ _ _ _ _) as [out [e|]]|]; discriminate).
    destruct (transform_file _ _ _ _ _ _ _ _ _ _ _) as [out [e|]]; discriminate.
  - destruct s; try discriminate. congruence.
Qed.
End Run.


(** ** Examples *)
Definition O_ := usage_option "o" "output" "output" AFile.
Definition S_ := usage_option "s" "separator" "separator" (AText None).
Definition T_ := usage_option "t" "target-column" "target_column" (AText None).
Definition A_ := usage_option "a" "after" "after" ASwitch.
Ltac a_word := right; right; eexists; eexists; split; [reflexivity|discriminate].
Ltac only_one := intros ? I [? P]; cbn in I; repeat (destruct I as [<-|I]; [reflexivity || discriminate P|]); contradiction I.
Ltac not_help := intros [? P]; discriminate P.
(** -s , --sep=; -t-x -o=- --output out.csv *)
Example spelled_all : spelled split_usage [w "-s"; w ","; w "--sep=;"; w "-t-x"; w "-o=-"; w "--output"; w "out.csv"] [(S_, w ","); (S_, w ";"); (T_, w "-x"); (O_, w "-"); (O_, w "out.csv")].
Proof.
  apply (spelled_short _ S_ 115%N (w ",")); [in_any|reflexivity|discriminate|a_word|].
  apply (spelled_long_equals _ S_ (w "sep") (w ";")); [|discriminate|].
  { split; [in_any|]. split; [exists (w "arator"); reflexivity|]. split; [discriminate|]. right. split; [only_one|not_help]. }
  apply (spelled_joined _ T_ 116%N (w "-x")); [in_any|reflexivity|discriminate|discriminate|discriminate|].
  apply (spelled_equals _ O_ 111%N (w "-")); [in_any|reflexivity|discriminate|].
  apply (spelled_long _ O_ (w "output") (w "out.csv")); [|discriminate|a_word|constructor].
  split; [in_any|]. split; [exists []; reflexivity|]. split; [discriminate|]. left; reflexivity.
Qed.
Example spelled_switches : spelled transform_usage [w "-a"; w "--ev"] [(A_, []); (usage_option "" "eval" "eval" ASwitch, [])].
Proof.
  apply (spelled_switch _ A_ 97%N); [in_any|reflexivity|reflexivity|]. apply (spelled_long_switch _ (usage_option "" "eval" "eval" ASwitch) (w "ev")); [|reflexivity|constructor].
  split; [in_any|]. split; [exists (w "al"); reflexivity|]. split; [discriminate|]. right. split; [only_one|not_help].
Qed.
Definition ascii_digit (c : N) : bool := (N.leb 48 c && N.leb c 57)%bool.
Local Open Scope string_scope.
Local Open Scope list_scope.
Definition parse (l : list string) (fs : files) := parse_args ascii_digit (fun s => negb (eqb s (w "/"))) (map codes l) fs.
Definition taken (r : files * (namespace + stop)) (l : list string) : option (list (option setting)) :=
  match r with (_, inl n) => Some (map (fun x => dget n (codes x)) l) | _ => None end.
Definition one_file : files := [(w "in.csv", w "a")].
Example C142_ex : taken (parse ["split"; "-s"; ","; "--sep=;"; "a"; "in.csv"; "-t-x"; "-o=-"; "--output"; "out.csv"] one_file)
    ["action"; "column"; "file"; "output"; "separator"; "target_column"; "rename_column"] =
  Some [Some (Word (w "split")); Some (Word (w "a")); Some (Input (Some (w "in.csv"))); Some (Output (Some (w "out.csv"))); Some (Word (w ";")); Some (Word (w "-x")); Some Nothing].
Proof. vm_compute. reflexivity. Qed.
Example C142_between_ex : taken (parse ["transform"; "a"; "-t"; "b"; "upper"; "-ato"] one_file) ["column"; "operations"; "file"; "target_column"; "after"; "eval"] =
  Some [Some (Word (w "a")); Some (Word (w "upper")); Some (Input None); Some (Word (w "o")); Some (Flag true); Some (Flag false)].
Proof. vm_compute. reflexivity. Qed.
(** a value that looks like an option; a negative number does not *)
Example value_like_option : parse ["split"; "a"; "in.csv"; "-s"; "-x"] one_file = (one_file, inr Usage).
Proof. vm_compute. reflexivity. Qed.
Example value_like_number : taken (parse ["split"; "a"; "in.csv"; "-s"; "-1"] one_file) ["separator"] = Some [Some (Word (w "-1"))].
Proof. vm_compute. reflexivity. Qed.
(** --t stands for --target-column, -- for every option *)
Example abbreviation : taken (parse ["split"; "--t"; "b"; "a"] []) ["target_column"] = Some [Some (Word (w "b"))].
Proof. vm_compute. reflexivity. Qed.
Example ambiguous : parse ["split"; "--=b"; "a"] one_file = (one_file, inr Usage).
Proof. vm_compute. reflexivity. Qed.
Example only_dashes : taken (parse ["transform"; "a"; "--"; "--"] []) ["operations"] = Some [Some EmptyList].
Proof. vm_compute. reflexivity. Qed.
Example choice : parse ["cluster"; "a"; "-t"; "json"] [] = ([], inr Usage).
Proof. vm_compute. reflexivity. Qed.
Example C142_help_ex : parse ["split"; "-o"; "in.csv"; "-h"; "a"] one_file = ([(w "in.csv", [])], inr Help).
Proof. vm_compute. reflexivity. Qed.
Example C142_commands_ex : parse ["sort"; "a"] one_file = (one_file, inr Usage).
Proof. vm_compute. reflexivity. Qed.
(** the output is emptied though the line is refused *)
Example C144_ex : parse ["split"; "a"; "-o"; "in.csv"; "in.csv"] one_file = ([(w "in.csv", [])], inr Usage).
Proof. vm_compute. reflexivity. Qed.
Definition fog_ex (l : list string) (fs : files) (stdin : string) :=
  main ascii_digit (fun s => negb (eqb s (w "/"))) (fun s => s) (fun s => s) (fun s => rev s) (fun s => s) (fun s => s) (fun _ _ => Err TypeError) {| year := 0; month := 0; day := 0; hour := 0; minute := 0; second := 0; microsecond := 0 |} (0 # 1)%Q (w stdin)
    (map codes l) fs.
Definition lines (l : list string) (e : list N) : str := flat_map (fun s => codes s ++ e) l.
Example C145_ex : fog_ex ["split"; "a"; "in.csv"; "-o"; "out.csv"; "-s"; ";"] [(w "in.csv", lines ["a,b"; "x;y,1"] [10%N])] "" =
  ([(w "in.csv", lines ["a,b"; "x;y,1"] [10%N]); (w "out.csv", lines ["a,b"; "x,1"; "y,1"] [13%N; 10%N])], [], Done).
Proof. vm_compute. reflexivity. Qed.
Example C145_stdin_ex : fog_ex ["transform"; "a"; "upper"] [] "a
xy" = ([], lines ["a"; "yx"] [13%N; 10%N], Done).
Proof. vm_compute. reflexivity. Qed.
Example C145_same_ex : fog_ex ["split"; "a"; "in.csv"; "-o"; "in.csv"] [(w "in.csv", lines ["a"; "x"] [10%N])] "" = ([(w "in.csv", [])], [], Raised AttributeError).
Proof. vm_compute. reflexivity. Qed.
Example no_command : fog_ex [] [] "" = ([], [], HelpShown).
Proof. vm_compute. reflexivity. Qed.
Example help_command : fog_ex ["help"; "foo"] [] "" = ([], [], HelpShown).
Proof. vm_compute. reflexivity. Qed.
Example unknown_option : fog_ex ["-x"; "split"; "a"] [] "" = ([], [], BadUsage).
Proof. vm_compute. reflexivity. Qed.

Print Assumptions C142_split.
Print Assumptions C142_cluster.
Print Assumptions C142_transform.
Print Assumptions C142_help_split.
Print Assumptions C142_help_cluster.
Print Assumptions C142_help_transform.
Print Assumptions C142_commands.
Print Assumptions C143_split_refuted.
Print Assumptions C144_split.
Print Assumptions C144_cluster.
Print Assumptions C144_transform.
Print Assumptions C145_split.
Print Assumptions C145_cluster.
Print Assumptions C145_transform.
Print Assumptions C145_same_file.
Print Assumptions C145_kept_split.
Print Assumptions C145_kept_cluster.
Print Assumptions C145_kept_transform.
Print Assumptions C145_ends.
