(** Proofs about the commands that read and write csv files *)
From Coq Require Import String Lia.
From Verif Require Import Base BaseFacts LevModel StringsModel PairwiseModel GraphModel CliModel CliSpec CliProofs ReportModel CsvModel CsvSpec CsvProofs.
Open Scope nat_scope.
Open Scope list_scope.
Notation length := List.length.
Notation concat := List.concat.

(** ** What is written is a csv file *)
Lemma double_quotes_ok s : doubled s (double_quotes s).
Proof.
  induction s as [|c s IH]; [constructor|]. unfold double_quotes. cbn [flat_map]. fold (double_quotes s).
  destruct (N.eqb_spec c QUOTE) as [->|Hc]; [apply d_quote; exact IH|apply d_other; [exact IH|exact Hc]].
Qed.
Lemma write_field_ok s : cell_text s (write_field s).
Proof.
  unfold write_field. destruct (existsb special s) eqn:E; [apply ct_quoted; apply double_quotes_ok|].
  assert (B : Forall bare_char s).
  { apply Forall_forall. intros c Hc. assert (F : special c = false).
    { destruct (special c) eqn:Ec; [|reflexivity]. rewrite <- E. symmetry. apply existsb_exists. eauto. }
    unfold special, newline, COMMA, QUOTE, LF, CR in F. apply orb_false_iff in F as [F1 F2]. apply orb_false_iff in F1 as [F1 F3]. apply orb_false_iff in F2 as [F2 F4].
    apply N.eqb_neq in F1, F2, F3, F4. repeat split; assumption. }
  replace (double_quotes s) with s; [apply ct_bare; exact B|]. clear E. induction B as [|c s Hc B IH]; [reflexivity|].
  unfold double_quotes. cbn [flat_map]. fold (double_quotes s). rewrite <- IH. destruct Hc as (_ & Hq & _). unfold QUOTE. rewrite (proj2 (N.eqb_neq c 34) Hq). reflexivity.
Qed.
Lemma with_commas_ok row : row <> [] -> cells_text row (with_commas (map write_field row)).
Proof.
  induction row as [|s row IH]; [congruence|]. intros _. destruct row as [|s' row]; [apply ct_one; apply write_field_ok|].
  cbn [map with_commas]. apply ct_more; [apply write_field_ok|apply IH; discriminate].
Qed.
Lemma writerow_ok row : exists t, writerow row = t ++ [CR; LF] /\ row_text row t.
Proof.
  unfold writerow. destruct row as [|s row]; [exists []; split; [reflexivity|constructor]|].
  pose proof (with_commas_ok (s :: row) ltac:(discriminate)) as H. destruct (with_commas (map write_field (s :: row))) as [|c t] eqn:E.
  - exists [QUOTE; QUOTE]. split; [reflexivity|]. apply rt_cells; [|discriminate].
    destruct row as [|s' row]; [|exfalso; cbn [map with_commas] in E; destruct (write_field s); discriminate].
    inversion H as [s0 t0 H0|s0 t0 row0 u0 H0 H1 E0 E1]; subst; [|inversion H1]. apply cell_empty in H0 as ->. apply ct_one. apply (ct_quoted [] []). constructor.
  - exists (c :: t). split; [reflexivity|]. apply rt_cells; [exact H|discriminate].
Qed.
Lemma write_csv_ok rows : file_text rows (write_csv rows).
Proof.
  induction rows as [|row rows IH]; [constructor|]. unfold write_csv. cbn [map concat]. destruct (writerow_ok row) as (t & -> & H).
  rewrite <- app_assoc. apply ft_more; [exact H|apply le_crlf|exact IH].
Qed.
Notation good := plain_cell.
Lemma map_U_good rows : Forall (Forall good) rows -> map (map U) rows = rows.
Proof.
  induction 1 as [|row rows H HF IH]; [reflexivity|]. cbn [map]. rewrite IH. f_equal. clear IH HF. induction H as [|c row [Hc _] H IH]; [reflexivity|].
  cbn [map]. rewrite IH, universal_id by exact Hc. reflexivity.
Qed.
Lemma good_readable rows : Forall (Forall good) rows -> Forall (Forall readable) rows.
Proof. apply Forall_impl. intros row. apply Forall_impl. intros c [_ H]. exact H. Qed.
Theorem read_file rows t : file_text rows t -> Forall (Forall good) rows -> read_csv t = (rows, None).
Proof. intros H G. rewrite (read_csv_file rows t H), map_U_good by exact G. apply upto_readable. apply good_readable. exact G. Qed.
Theorem read_back rows : Forall (Forall good) rows -> read_csv (write_csv rows) = (rows, None).
Proof. intros G. apply read_file; [apply write_csv_ok|exact G]. Qed.

(** ** What is read has no carriage return and is not too long *)
Definition sound (r : reader) : Prop :=
  field_len r = N.of_nat (length (field r)) /\ (field_len r <= field_limit)%N /\ ~ In CR (field r) /\ Forall good (fields r).
Lemma sound_state s r : sound r -> sound (to_state s r).
Proof. intros (H1 & H2 & H3 & H4). repeat split; auto. Qed.
Lemma sound_save s r : sound r -> sound (save_field s r).
Proof.
  intros (H1 & H2 & H3 & H4). split; [reflexivity|]. split; [discriminate|]. split; [intros []|]. constructor; [|exact H4].
  split; [intros H; apply H3; apply in_rev; exact H|]. unfold readable. rewrite rev_length, <- H1. exact H2.
Qed.
Lemma sound_add c s r r' : c <> CR -> sound r -> add_char c s r = Ok r' -> sound r'.
Proof.
  intros Hc (H1 & H2 & H3 & H4). unfold add_char. destruct (N.leb_spec field_limit (field_len r)) as [L|L]; [discriminate|].
  intros E. injection E as <-. split; [cbn [field_len field length]; rewrite H1; lia|]. split; [cbn [field_len]; lia|].
  split; [intros [E|H]; [apply Hc; exact E|apply H3; exact H]|exact H4].
Qed.
Lemma sound_process r c r' : (forall x, c = Some x -> x <> CR) -> sound r -> process_char r c = Ok r' -> sound r'.
Proof.
  intros Hc Hr E. assert (A : forall x s, c = Some x -> add_char x s r = Ok r' -> sound r') by (intros x s Ex; apply sound_add; auto).
  unfold process_char in E. destruct (state r), c as [x|];
    repeat match type of E with context [if ?b then _ else _] => destruct b end; try discriminate E;
    try (eapply A; [reflexivity|exact E]); try (injection E as <-; auto using sound_state, sound_save).
Qed.
Lemma sound_fold l r r' : (forall x, In (Some x) l -> x <> CR) -> sound r -> foldM process_char l r = Ok r' -> sound r'.
Proof.
  revert r. induction l as [|c l IH]; intros r Hl Hr E; simpl in E; [injection E as <-; exact Hr|].
  destruct (process_char r c) as [r1|] eqn:E1; [|discriminate]. simpl in E. apply (IH r1); auto; [intros x Hx; apply Hl; right; exact Hx|].
  eapply sound_process; [|exact Hr|exact E1]. intros x ->. apply Hl. left. reflexivity.
Qed.
Lemma sound_next lines : (forall l, In l lines -> ~ In CR l) -> forall r row rest, sound r -> next_record r lines = Ok (Some row, rest) ->
  Forall good row /\ incl rest lines.
Proof.
  intros Hl. induction lines as [|line lines IH]; intros r row rest Hr E; simpl in E.
  - assert (G : forall s, Forall good (rev (fields (save_field s r)))) by (intros s; apply Forall_rev; apply (sound_save s r Hr)).
    destruct (state r), (field_len r =? 0)%N; try discriminate E; injection E as <- <-; (split; [exact (G START_RECORD)|intros x []]).
  - destruct (foldM process_char (map Some line ++ [None]) r) as [r'|] eqn:Ef; [|discriminate]. simpl in E.
    assert (Hr' : sound r').
    { eapply sound_fold; [|exact Hr|exact Ef]. intros x Hx ->. apply in_app_iff in Hx as [Hx|[Hx|[]]]; [|discriminate Hx].
      apply in_map_iff in Hx as (y & Ey & Hy). injection Ey as ->. apply (Hl line (or_introl eq_refl)). exact Hy. }
    destruct (state r') eqn:Es; try (destruct (IH (fun l H => Hl l (or_intror H)) _ _ _ Hr' E) as [G1 G2]; split; [exact G1|apply incl_tl; exact G2]).
    injection E as <- <-. split; [apply Forall_rev; apply Hr'|apply incl_tl; apply incl_refl].
Qed.
Lemma sound_rows fuel lines : (forall l, In l lines -> ~ In CR l) -> Forall (Forall good) (fst (read_rows fuel lines)).
Proof.
  revert lines. induction fuel as [|fuel IH]; intros lines Hl; simpl; [constructor|].
  destruct (next_record fresh lines) as [[[row|] rest]|] eqn:E; try constructor.
  destruct (sound_next lines Hl fresh row rest) as [G1 G2]; [repeat split; [discriminate|intros []|constructor]|exact E|].
  specialize (IH rest (fun l H => Hl l (G2 l H))). destruct (read_rows fuel rest) as [rows e]. simpl in *. constructor; assumption.
Qed.
Lemma file_lines_chars cur s l c : In l (file_lines cur s) -> In c l -> In c cur \/ In c s.
Proof.
  revert cur. induction s as [|x s IH]; intros cur Hl Hc; simpl in Hl.
  - destruct cur as [|y cur]; [destruct Hl|]. destruct Hl as [<-|[]]. left. apply in_rev. exact Hc.
  - destruct (x =? LF)%N.
    + destruct Hl as [<-|Hl].
      * apply in_app_iff in Hc as [Hc|Hc]; [left; apply in_rev; exact Hc|right; left; destruct Hc as [Hc|[]]; exact Hc].
      * destruct (IH [] Hl Hc) as [[]|H]. right. right. exact H.
    + destruct (IH (x :: cur) Hl Hc) as [[H|H]|H]; [right; left; exact H|left; exact H|right; right; exact H].
Qed.
Theorem read_good t : Forall (Forall good) (fst (read_csv t)).
Proof.
  unfold read_csv. apply sound_rows. intros l Hl Hc. destruct (file_lines_chars _ _ _ _ Hl Hc) as [[]|H]. apply (universal_clean t H).
Qed.

(** ** The commands *)
Lemma each_row_ok f rows : (forall row, In row rows -> exists out, f row = Ok out) -> exists outs, mapM f rows = Ok outs /\ forall stop, each_row f rows stop = (write_csv (concat outs), stop).
Proof.
  intros H. induction rows as [|row rows IH]; [exists []; auto|]. destruct (H row (or_introl eq_refl)) as [out E].
  destruct IH as (outs & E1 & E2); [intros; apply H; right; auto|]. exists (out :: outs). split; [simpl; rewrite E; simpl; rewrite E1; reflexivity|].
  intros stop. cbn [each_row]. rewrite E, E2. unfold write_csv. cbn [concat]. rewrite map_app, concat_app. reflexivity.
Qed.
Lemma each_row_mapM f rows : match mapM f rows with
  | Ok outs => forall stop, each_row f rows stop = (write_csv (concat outs), stop)
  | Err e => exists text, forall stop, each_row f rows stop = (text, Some e)
  end.
Proof.
  induction rows as [|row rows IH]; [intros stop; reflexivity|]. cbn [mapM each_row]. destruct (f row) as [out|e]; [|exists []; reflexivity]. cbn [bind].
  revert IH. destruct (mapM f rows) as [outs|e]; cbn [bind]; intros IH.
  - intros stop. rewrite IH. unfold write_csv. cbn [concat]. rewrite map_app, concat_app. reflexivity.
  - destruct IH as [text IH]. exists (write_csv out ++ text). intros stop. rewrite IH. reflexivity.
Qed.
Lemma each_row_app f before after stop : (forall row, In row before -> exists out, f row = Ok out) ->
  each_row f (before ++ after) stop = (fst (each_row f before None) ++ fst (each_row f after stop), snd (each_row f after stop)).
Proof.
  intros H. induction before as [|row before IH]; [simpl; destruct (each_row f after stop); reflexivity|].
  destruct (H row (or_introl eq_refl)) as [out E]. cbn [app each_row]. rewrite E, IH by (intros; apply H; right; auto).
  destruct (each_row f before None) as [t e]. cbn [fst snd]. rewrite <- app_assoc. reflexivity.
Qed.

Theorem split_file_action t table column sep target rename : read_csv t = (table, None) ->
  match split_action table column sep target rename with
  | Ok out => split_file t column sep target rename = (write_csv out, None)
  | Err e => snd (split_file t column sep target rename) = Some e
  end.
Proof.
  intros E. unfold split_action, split_file, file_reader, custom_reader. rewrite E. destruct table as [|headers rows]; [reflexivity|].
  destruct (index_of column headers) as [position|] eqn:Ei; [|reflexivity]. cbn [bind].
  set (h1 := match target with Some t0 => headers ++ [t0] | None => headers end).
  assert (L : position < length h1) by (apply index_of_Some in Ei; unfold h1; destruct target; rewrite ?app_length; lia).
  assert (A : match rename with Some r => assign position r h1 | None => Ok h1 end = Ok (match rename with Some r => set_nth position r h1 | None => h1 end)).
  { destruct rename as [r|]; [|reflexivity]. unfold assign. rewrite (proj2 (Nat.ltb_lt _ _) L). reflexivity. }
  rewrite A. cbn [bind]. pose proof (each_row_mapM (split_line sep target position) rows) as G. revert G.
  destruct (mapM (split_line sep target position) rows) as [outs|e]; cbn [bind]; intros G.
  - rewrite G. reflexivity.
  - destruct G as [text G]. rewrite G. reflexivity.
Qed.

(** *** split: pieces of cells are as readable as the cells *)
Lemma is_split_part sep s pieces p : is_split sep s pieces -> In p pieces -> exists a b, s = a ++ p ++ b.
Proof.
  induction 1 as [s H|q s pieces H HS IH]; intros Hp.
  - destruct Hp as [<-|[]]. exists [], []. rewrite app_nil_r. reflexivity.
  - destruct Hp as [<-|Hp]; [exists [], (sep ++ s); reflexivity|]. destruct (IH Hp) as (a & b & ->). exists (q ++ sep ++ a), b. rewrite <- !app_assoc. reflexivity.
Qed.
Lemma good_part (a p b : str) : good (a ++ p ++ b) -> good p.
Proof.
  intros [H1 H2]. split; [intros H; apply H1; apply in_app_iff; right; apply in_app_iff; left; exact H|].
  unfold readable in *. rewrite !app_length in H2. lia.
Qed.
Lemma set_nth_Forall {A} (P : A -> Prop) i x l : Forall P l -> P x -> Forall P (set_nth i x l).
Proof. intros H Hx. revert i. induction H as [|y l Hy H IH]; intros [|i]; simpl; constructor; auto. Qed.
Lemma split_rows_good target position (line values : list str) rows : Forall good line -> Forall good values ->
  split_rows target position line values = Ok rows -> Forall (Forall good) rows.
Proof.
  intros Hl Hv. revert line rows Hl. induction Hv as [|v values Hv HF IH]; intros line rows Hl E; simpl in E; [injection E as <-; constructor|].
  assert (G : forall line', Forall good line' -> (let! rows := split_rows target position line' values in Ok (line' :: rows)) = Ok rows -> Forall (Forall good) rows).
  { intros line' Hl' E'. destruct (split_rows target position line' values) as [rows'|] eqn:Er; [|discriminate]. injection E' as <-. constructor; [exact Hl'|]. eapply IH; eauto. }
  destruct target.
  - apply (G (line ++ [v])); [apply Forall_app; auto|exact E].
  - unfold assign in E. destruct (Nat.ltb position (length line)); [|discriminate]. apply (G (set_nth position v line)); [apply set_nth_Forall; auto|exact E].
Qed.
Lemma split_line_good sep target position (line : list str) rows : Forall good line -> split_line sep target position line = Ok rows -> Forall (Forall good) rows.
Proof.
  intros Hl E. unfold split_line, cell_at in E. destruct (nth_error line position) as [cell|] eqn:Ec; [|discriminate]. simpl in E.
  destruct cell as [|c cell]; [injection E as <-; constructor; auto|].
  destruct sep as [|x sep]; [discriminate|]. destruct (split_str_ok (x :: sep) (c :: cell) ltac:(discriminate)) as (pieces & Ep & Hp). rewrite Ep in E. simpl in E.
  eapply split_rows_good; [exact Hl| |exact E]. apply Forall_forall. intros p Hin. destruct (is_split_part _ _ _ _ Hp Hin) as (a & b & Es).
  apply (good_part a p b). rewrite <- Es. rewrite Forall_forall in Hl. apply Hl. eapply nth_error_In; eauto.
Qed.
Lemma mapM_good f (rows : list (list str)) outs : (forall row out, In row rows -> f row = Ok out -> Forall (Forall good) out) -> mapM f rows = Ok outs ->
  Forall (Forall good) (concat outs).
Proof.
  revert outs. induction rows as [|row rows IH]; intros outs H E; simpl in E; [injection E as <-; constructor|].
  destruct (f row) as [out|] eqn:Ef; [|discriminate]. simpl in E. destruct (mapM f rows) as [outs'|] eqn:Em; [|discriminate]. injection E as <-.
  cbn [concat]. apply Forall_app. split; [eapply H; [left; reflexivity|exact Ef]|apply IH; [intros r o Hr; apply H; right; exact Hr|reflexivity]].
Qed.
Notation good_name := plain_name.
Lemma split_action_good (table : list (list str)) column sep target rename out : Forall (Forall good) table -> good_name target -> good_name rename ->
  split_action table column sep target rename = Ok out -> Forall (Forall good) out.
Proof.
  intros Ht Hn Hr E. unfold split_action, custom_reader in E. destruct table as [|headers rows]; [discriminate|].
  destruct (index_of column headers) as [position|]; [|discriminate]. cbn [bind] in E. inversion Ht as [|? ? Hh Hrows]; subst.
  set (h1 := match target with Some t0 => headers ++ [t0] | None => headers end) in *.
  assert (H1 : Forall good h1) by (unfold h1; destruct target; [apply Forall_app; auto|exact Hh]).
  destruct (match rename with Some r => assign position r h1 | None => Ok h1 end) as [h2|] eqn:Eh; [|discriminate]. cbn [bind] in E.
  assert (H2 : Forall good h2).
  { destruct rename as [r|]; [|injection Eh as <-; exact H1]. unfold assign in Eh. destruct (Nat.ltb position (length h1)); [|discriminate].
    injection Eh as <-. apply set_nth_Forall; auto. }
  destruct (mapM (split_line sep target position) rows) as [outs|] eqn:Em; [|discriminate]. injection E as <-. constructor; [exact H2|].
  eapply mapM_good; [|exact Em]. intros row o Hrow. apply split_line_good. rewrite Forall_forall in Hrows. apply Hrows. exact Hrow.
Qed.

(** *** transform: one operation on the text of the cells *)
Section Transform.
Variable change : str -> res value.
Definition op (cell : str) : res str := let! v := change cell in Ok (written v).

Lemma transform_row_line target after position line :
  transform_row change target after position line = let! row := transform_line [op] target after position line in Ok [row].
Proof.
  unfold transform_row, transform_line. destruct (cell_at line position) as [cell|e]; [|reflexivity]. cbn [bind foldM]. unfold op.
  destruct (change cell) as [v|e]; [|reflexivity]. cbn [bind]. destruct target; [reflexivity|]. destruct (assign position (written v) line); reflexivity.
Qed.
Lemma mapM_singletons target after position rows :
  mapM (transform_row change target after position) rows = let! out := mapM (transform_line [op] target after position) rows in Ok (map (fun r => [r]) out).
Proof.
  induction rows as [|row rows IH]; [reflexivity|]. cbn [mapM]. rewrite transform_row_line, IH.
  destruct (transform_line [op] target after position row); [|reflexivity]. cbn [bind]. destruct (mapM (transform_line [op] target after position) rows); reflexivity.
Qed.
Lemma concat_singletons {A} (l : list A) : concat (map (fun r => [r]) l) = l.
Proof. induction l as [|x l IH]; [reflexivity|]. simpl. rewrite IH. reflexivity. Qed.
End Transform.

Section TransformFile.
Variable lower strip upper unidecode fingerprint : str -> str.
Notation file := (transform_file lower strip upper unidecode fingerprint).

(** what is applied to a cell *)
Definition changes (operations : str) (evaluate : option (str -> res value)) : res (str -> res value) :=
  match evaluate with
  | Some f => Ok f
  | None => let! chain := operation_chain lower strip upper unidecode fingerprint operations in Ok (fun cell => foldM (fun v op => op v) chain (Text cell))
  end.

Theorem transform_file_action t table column operations target after evaluate change : read_csv t = (table, None) -> changes operations evaluate = Ok change ->
  match transform_action (fun _ => Some (op change)) table column [EmptyString] target after with
  | Ok out => file t column operations target after evaluate = (write_csv out, None)
  | Err e => snd (file t column operations target after evaluate) = Some e
  end.
Proof.
  intros E Ec. unfold transform_file. fold (changes operations evaluate). rewrite Ec. unfold transform_action, file_reader, custom_reader. rewrite E. cbn [mapM operation bind].
  destruct table as [|headers rows]; [reflexivity|].
  destruct (index_of column headers) as [position|] eqn:Ei; [|reflexivity]. cbn [bind].
  set (tgt := match target with Some _ => true | None => false end).
  pose proof (each_row_mapM (transform_row change tgt after position) rows) as G. rewrite mapM_singletons in G. revert G.
  destruct (mapM (transform_line [op change] tgt after position) rows) as [outs|e]; cbn [bind]; intros G.
  - rewrite G, concat_singletons. reflexivity.
  - destruct G as [text G]. rewrite G. reflexivity.
Qed.

(** *** The operations *)
Notation OPS := (OPERATIONS lower strip upper unidecode fingerprint).
Lemma eqb_str (a b : str) : eqb a b = true <-> a = b.
Proof. unfold eqb. destruct (eq_dec a b); split; congruence. Qed.
Lemma known_iff (name : str) : known name <-> OPS name <> None.
Proof.
  unfold known, OPERATIONS. split.
  - intros H. cbn [map In] in H. repeat destruct H as [<-|H]; try discriminate. destruct H.
  - Ltac one name x := destruct (eqb name (codes x)) eqn:E;
      [intros _; apply eqb_str in E; rewrite E; clear; cbn [map In]; repeat (first [left; reflexivity|right])|clear E].
    one name "fingerprint"%string. one name "len"%string. one name "lower"%string. one name "squeeze"%string. one name "strip"%string.
    one name "unidecode"%string. one name "upper"%string. intros H. exfalso. apply H. reflexivity.
Qed.
Lemma op_text name f s : OPS name = Some f -> if eqb name (codes "len") then f (Text s) = Ok (Number (length s)) else exists s', f (Text s) = Ok (Text s').
Proof.
  unfold OPERATIONS. intros E.
  repeat match type of E with context [if eqb name ?x then _ else _] => destruct (eqb name x) eqn:? end; try discriminate E;
    injection E as <-; try (eexists; reflexivity); try reflexivity;
    apply eqb_str in Heqb; subst name; eexists; reflexivity.
Qed.
Lemma op_number name f n : OPS name = Some f -> exists e, f (Number n) = Err e /\ (e = AttributeError \/ e = TypeError).
Proof.
  unfold OPERATIONS. intros E.
  repeat match type of E with context [if eqb name ?x then _ else _] => destruct (eqb name x) end; try discriminate E; injection E as <-;
    eexists; (split; [reflexivity|]); auto.
Qed.
Lemma chain_text names fs : Forall2 (fun name f => OPS name = Some f) names fs -> forall s,
  (len_last names -> exists v, foldM (fun v op => op v) fs (Text s) = Ok v) /\
  (~ len_last names -> exists e, foldM (fun v op => op v) fs (Text s) = Err e /\ (e = AttributeError \/ e = TypeError)).
Proof.
  induction 1 as [|name f names fs Hf HF IH]; intros s.
  - split; [intros _; exists (Text s); reflexivity|]. intros H. exfalso. apply H. intros a b E. destruct a; discriminate.
  - cbn [foldM]. pose proof (op_text name f s Hf) as Ht. destruct (eqb name (codes "len")) eqn:En.
    + apply eqb_str in En. subst name. rewrite Ht. cbn [bind]. split.
      * intros H. assert (names = []) as -> by (apply (H [] names); reflexivity). inversion HF; subst. eexists. reflexivity.
      * intros H. inversion HF as [|n2 f2 ns2 fs2 Hf2 HF2]; subst.
        -- exfalso. apply H. intros a b E. destruct a as [|x a]; [injection E as <-; reflexivity|]. injection E as _ E. destruct a; discriminate.
        -- cbn [foldM]. destruct (op_number n2 f2 (length s) Hf2) as (e & -> & He). exists e. split; [reflexivity|exact He].
    + destruct Ht as [s' ->]. cbn [bind]. destruct (IH s') as [I1 I2].
      assert (G : len_last (name :: names) <-> len_last names).
      { split; intros H a b E; [apply (H (name :: a)); rewrite E; reflexivity|]. destruct a as [|x a].
        - exfalso. apply (f_equal (hd [])) in E. apply eqb_str in E. change (eqb name (codes "len") = true) in E. rewrite En in E. discriminate E.
        - injection E as _ E. eapply H. exact E. }
      rewrite G. split; assumption.
Qed.
(** what is written *)
Definition meaning : list (str * (str -> str)) :=
  [(codes "fingerprint", fingerprint); (codes "lower", lower); (codes "squeeze", fun s => squeeze s false); (codes "strip", strip);
   (codes "unidecode", unidecode); (codes "upper", upper)].
Lemma op_meaning (name : str) f s s' : OPS name = Some f -> f (Text s) = Ok (Text s') -> exists g, In (name, g) meaning /\ s' = g s.
Proof.
  unfold OPERATIONS, meaning. intros E Ev.
  repeat match type of E with context [if eqb name ?x then _ else _] => destruct (eqb name x) eqn:? end; try discriminate E;
    injection E as <-; try discriminate Ev; injection Ev as <-; eexists; (split; [|reflexivity]);
    repeat match goal with H : eqb name _ = true |- _ => apply eqb_str in H; rewrite H; clear end; cbn [In]; repeat (first [left; reflexivity|right]).
Qed.
Lemma chain_applied names fs : Forall2 (fun name f => OPS name = Some f) names fs -> forall s v,
  foldM (fun v op => op v) fs (Text s) = Ok v -> applied meaning py_nat names s (written v).
Proof.
  induction 1 as [|name f names fs Hf HF IH]; intros s v E.
  - injection E as <-. constructor.
  - cbn [foldM] in E. pose proof (op_text name f s Hf) as Ht. destruct (eqb name (codes "len")) eqn:En.
    + apply eqb_str in En. subst name. rewrite Ht in E. cbn [bind] in E. inversion HF as [|n2 f2 ns2 fs2 Hf2 HF2]; subst.
      * injection E as <-. apply ap_len.
      * cbn [foldM] in E. destruct (op_number n2 f2 (length s) Hf2) as (e & Ee & _). rewrite Ee in E. discriminate.
    + destruct Ht as [s' Es]. rewrite Es in E. cbn [bind] in E. destruct (op_meaning name f s s' Hf Es) as (g & Hg & ->). eapply ap_more; [exact Hg|]. apply IH. exact E.
Qed.
End TransformFile.
