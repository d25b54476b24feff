(** Proofs about reading and writing csv *)
From Coq Require Import String Lia.
From Verif Require Import Base BaseFacts LevModel StringsModel GraphModel CliModel CsvModel CsvSpec.
Open Scope nat_scope.
Open Scope list_scope.
Notation length := List.length.
Notation concat := List.concat.

(** ** Line ends *)
Lemma universal_read s : newlines_read s (universal_newlines s).
Proof.
  assert (G : forall n s, length s <= n -> newlines_read s (universal_newlines s)); [|apply (G (length s)); auto].
  induction n as [|n IH]; intros [|c s'] L; simpl in L; try lia; [constructor|constructor|].
  cbn [universal_newlines]. destruct (N.eqb_spec c CR) as [->|Hc].
  - destruct s' as [|d s'']; [apply nr_cr; [constructor|discriminate]|].
    destruct (N.eqb_spec d LF) as [->|Hd]; [apply nr_crlf; apply IH; simpl in L; lia|].
    apply nr_cr; [apply IH; lia|]. intros s0 E. injection E as E _. apply Hd. exact E.
  - apply nr_other; [apply IH; lia|exact Hc].
Qed.
Lemma newlines_det s t u : newlines_read s t -> newlines_read s u -> t = u.
Proof.
  intros H. revert u. induction H as [|s t H IH|s t H IH Hs|c s t H IH Hc]; intros u Hu; inversion Hu; subst; auto;
    try congruence; try (f_equal; apply IH; assumption).
Qed.
Lemma universal_iff s t : newlines_read s t <-> universal_newlines s = t.
Proof. split; [intros H; eapply newlines_det; [apply universal_read|exact H]|intros <-; apply universal_read]. Qed.

Lemma universal_clean s : ~ In CR (universal_newlines s).
Proof.
  pose proof (universal_read s) as H. induction H as [|s t H IH|s t H IH Hs|c s t H IH Hc]; simpl; [tauto|..];
    intros [E|E]; try (apply IH; exact E); try discriminate E. apply Hc. exact E.
Qed.
Lemma universal_id s : ~ In CR s -> universal_newlines s = s.
Proof.
  intros Hs. apply universal_iff. induction s as [|c s IH]; [constructor|]. apply nr_other; [apply IH; intros H; apply Hs; right; auto|].
  intros ->. apply Hs. left. reflexivity.
Qed.
Definition starts_lf (s : str) : bool := match s with c :: _ => (c =? LF)%N | [] => false end.
Definition ends_cr (s : str) : bool := match rev s with c :: _ => (c =? CR)%N | [] => false end.
Lemma ends_cr_cons c s : s <> [] -> ends_cr (c :: s) = ends_cr s.
Proof. intros Hs. unfold ends_cr. simpl. destruct (rev s) eqn:E; [|reflexivity]. apply (f_equal (@rev N)) in E. rewrite rev_involutive in E. simpl in E. congruence. Qed.
Lemma universal_app a b : ends_cr a && starts_lf b = false -> universal_newlines (a ++ b) = universal_newlines a ++ universal_newlines b.
Proof.
  assert (G : forall n a, length a <= n -> ends_cr a && starts_lf b = false -> universal_newlines (a ++ b) = universal_newlines a ++ universal_newlines b); [|apply (G (length a)); auto].
  induction n as [|n IH]; intros [|c s] L Hab; simpl in L; try lia; [reflexivity|reflexivity|].
  destruct s as [|d s].
  - cbn [app universal_newlines]. destruct (N.eqb_spec c CR) as [->|Hc]; [|reflexivity].
    destruct b as [|e b]; [reflexivity|]. change (ends_cr [CR]) with true in Hab. simpl in Hab. rewrite Hab. reflexivity.
  - rewrite ends_cr_cons in Hab by discriminate. pose proof (IH (d :: s) ltac:(simpl in *; lia) Hab) as E1.
    change ((c :: d :: s) ++ b) with (c :: (d :: s ++ b)). cbn [universal_newlines]. destruct (N.eqb_spec c CR) as [->|Hc].
    + destruct (N.eqb_spec d LF) as [->|Hd].
      * destruct s as [|e s]; [reflexivity|]. rewrite ends_cr_cons in Hab by discriminate.
        rewrite IH; [reflexivity|simpl in *; lia|exact Hab].
      * change (universal_newlines ((d :: s) ++ b)) with (universal_newlines (d :: s ++ b)) in E1. cbn [app].
        cbn [universal_newlines] in E1. rewrite E1. reflexivity.
    + change (d :: s ++ b) with ((d :: s) ++ b). cbn [universal_newlines app] in E1. cbn [app universal_newlines]. rewrite E1. reflexivity.
Qed.

Notation U := universal_newlines.
Lemma U_other c s : c <> CR -> U (c :: s) = c :: U s.
Proof. intros Hc. cbn [universal_newlines]. rewrite (proj2 (N.eqb_neq c CR) Hc). reflexivity. Qed.

(** ** The grammar once the line ends are read *)
Lemma doubled_U s t : doubled s t -> doubled (U s) (U t).
Proof.
  pose proof (universal_read s) as H. remember (U s) as s' eqn:Es. clear Es. revert t.
  induction H as [|s s' H IH|s s' H IH Hs|c s s' H IH Hc]; intros t D.
  - inversion D; subst. constructor.
  - inversion D as [|x1 t1 D1 E|c1 x1 t1 D1 N1 E]; subst. inversion D1 as [|x2 t2 D2 E2|c2 x2 t2 D2 N2 E2]; subst.
    cbn [universal_newlines]. change (13 =? CR)%N with true. change (10 =? LF)%N with true. cbv iota.
    apply d_other; [apply IH; exact D2|discriminate].
  - inversion D as [|x1 t1 D1 E|c1 x1 t1 D1 N1 E]; subst. assert (E : U (13%N :: t1) = LF :: U t1).
    { cbn [universal_newlines]. change (13 =? CR)%N with true. cbv iota. destruct t1 as [|d t2]; [reflexivity|].
      destruct (N.eqb_spec d LF) as [->|Hd]; [|reflexivity]. exfalso. inversion D1; subst. eapply Hs. reflexivity. }
    rewrite E. apply d_other; [apply IH; exact D1|discriminate].
  - inversion D as [|x1 t1 D1 E|c1 x1 t1 D1 N1 E]; subst.
    + rewrite !U_other by discriminate. apply d_quote. apply IH. exact D1.
    + rewrite U_other by exact Hc. apply d_other; auto.
Qed.
Lemma ends_cr_last s c : c <> CR -> ends_cr (s ++ [c]) = false.
Proof. intros Hc. unfold ends_cr. rewrite rev_app_distr. simpl. apply N.eqb_neq. exact Hc. Qed.
Lemma ends_cr_clean s : ~ In CR s -> ends_cr s = false.
Proof.
  intros Hs. destruct s as [|c s] using rev_ind; [reflexivity|]. apply ends_cr_last. intros ->. apply Hs. apply in_app_iff. right. left. reflexivity.
Qed.
Lemma ends_cr_app a b : b <> [] -> ends_cr (a ++ b) = ends_cr b.
Proof. intros Hb. induction a as [|c a IH]; [reflexivity|]. simpl. rewrite ends_cr_cons; [exact IH|]. destruct a; [exact Hb|discriminate]. Qed.
Lemma bare_clean s : Forall bare_char s -> ~ In CR s.
Proof. intros H HI. rewrite Forall_forall in H. destruct (H _ HI) as (_ & _ & _ & E). apply E. reflexivity. Qed.

Lemma cell_U s t : cell_text s t -> cell_text (U s) (U t) /\ ends_cr t = false.
Proof.
  intros [s0 H|s0 t0 H].
  - rewrite universal_id by (apply bare_clean; auto). split; [apply ct_bare; exact H|]. apply ends_cr_clean. apply bare_clean. exact H.
  - rewrite U_other by discriminate. rewrite universal_app by (rewrite andb_comm; reflexivity).
    split; [|change (34%N :: t0 ++ [34%N]) with ((34%N :: t0) ++ [34%N]); apply ends_cr_last; discriminate].
    apply (ct_quoted (U s0) (U t0)). apply doubled_U. exact H.
Qed.
Lemma cells_U row t : cells_text row t -> cells_text (map U row) (U t) /\ ends_cr t = false.
Proof.
  induction 1 as [s t H|s t row u H HC [IH1 IH2]].
  - apply cell_U in H as [H1 H2]. split; [apply ct_one; exact H1|exact H2].
  - apply cell_U in H as [H1 H2]. split.
    + rewrite universal_app by (rewrite H2; reflexivity). rewrite U_other by discriminate. apply (ct_more (U s) (U t)); auto.
    + rewrite ends_cr_app by discriminate. destruct u as [|c u]; [reflexivity|]. rewrite ends_cr_cons by discriminate. exact IH2.
Qed.
Lemma U_nil s : U s = [] -> s = [].
Proof. destruct s as [|c s]; [auto|]. cbn [universal_newlines]. destruct (c =? CR)%N; discriminate. Qed.
Lemma row_U row t : row_text row t -> row_text (map U row) (U t) /\ ends_cr t = false.
Proof.
  intros [|row0 t0 H Hn]; [split; [constructor|reflexivity]|]. apply cells_U in H as [H1 H2]. split; [|exact H2].
  apply rt_cells; [exact H1|]. intros E. apply U_nil in E. congruence.
Qed.
Lemma end_U e u : line_end e u -> U (e ++ u) = LF :: U u /\ starts_lf (e ++ u) = starts_lf e.
Proof.
  intros [rest|rest|rest H]; split; try reflexivity. simpl app. cbn [universal_newlines]. change (13 =? CR)%N with true. cbv iota.
  destruct rest as [|d s]; [reflexivity|]. destruct (N.eqb_spec d LF) as [->|Hd]; [|reflexivity]. exfalso. eapply H. reflexivity.
Qed.

Inductive file_lf : list (list text) -> text -> Prop :=
| fl_nil : file_lf [] []
| fl_last row t : row_text row t -> t <> [] -> file_lf [row] t
| fl_more row t rows u : row_text row t -> file_lf rows u -> file_lf (row :: rows) (t ++ LF :: u).

Lemma file_U rows t : file_text rows t -> file_lf (map (map U) rows) (U t).
Proof.
  induction 1 as [|row t H Hn|row t e rows u H He Hf IH].
  - constructor.
  - apply row_U in H as [H1 H2]. apply (fl_last (map U row)); [exact H1|]. intros E. apply U_nil in E. congruence.
  - apply row_U in H as [H1 H2]. rewrite universal_app by (rewrite H2; reflexivity). destruct (end_U e u He) as [-> _].
    apply (fl_more (map U row)); auto.
Qed.

(** ** The reader, one character after the other *)
Definition at_end (r : reader) : res (option (list str) * str) :=
  match state r with
  | IN_QUOTED_FIELD => Ok (Some (rev (fields (save_field IN_QUOTED_FIELD r))), [])
  | _ => if (field_len r =? 0)%N then Ok (None, []) else Ok (Some (rev (fields (save_field (state r) r))), [])
  end.
Fixpoint scan (mid : bool) (r : reader) (s : str) : res (option (list str) * str) :=
  match s with
  | [] =>
    if mid then let! r := process_char r None in match state r with START_RECORD => Ok (Some (rev (fields r)), []) | _ => at_end r end
    else at_end r
  | c :: s' =>
    let! r := process_char r (Some c) in
    if (c =? LF)%N then
      let! r := process_char r None in
      match state r with START_RECORD => Ok (Some (rev (fields r)), s') | _ => scan false r s' end
    else scan true r s'
  end.

Lemma foldM_app {S B} (f : S -> B -> res S) l1 l2 s : foldM f (l1 ++ l2) s = let! s := foldM f l1 s in foldM f l2 s.
Proof. revert s. induction l1 as [|b l1 IH]; intros s; [reflexivity|]. simpl. destruct (f s b); simpl; [apply IH|reflexivity]. Qed.

Lemma file_lines_cur cur s : cur <> [] -> exists l ls, file_lines cur s = (rev cur ++ l) :: ls.
Proof.
  revert cur. induction s as [|c s IH]; intros cur Hc; simpl.
  - destruct cur; [congruence|]. exists [], []. rewrite app_nil_r. reflexivity.
  - destruct (c =? LF)%N.
    + exists [c], (file_lines [] s). reflexivity.
    + destruct (IH (c :: cur) ltac:(discriminate)) as (l & ls & E). exists (c :: l), ls. rewrite E. simpl. rewrite <- app_assoc. reflexivity.
Qed.
Lemma next_err cur s r0 e : cur <> [] -> foldM process_char (map Some (rev cur)) r0 = Err e -> next_record r0 (file_lines cur s) = Err e.
Proof.
  intros Hc E. destruct (file_lines_cur cur s Hc) as (l & ls & ->). cbn [next_record]. rewrite map_app, <- app_assoc, foldM_app, E. reflexivity.
Qed.
Lemma next_scan s : forall cur r0 r, foldM process_char (map Some (rev cur)) r0 = Ok r ->
  next_record r0 (file_lines cur s) = let! (x, rest) := scan (negb (match cur with [] => true | _ => false end)) r s in Ok (x, file_lines [] rest).
Proof.
  induction s as [|c s IH]; intros cur r0 r E.
  - simpl. destruct cur as [|d cur].
    + simpl in E. injection E as ->. cbn [next_record negb]. unfold at_end. destruct (state r); [destruct (field_len r =? 0)%N; reflexivity..|destruct (field_len r =? 0)%N; reflexivity|destruct (field_len r =? 0)%N; reflexivity].
    + cbn [next_record negb]. rewrite foldM_app, E. simpl. destruct (process_char r None) as [r'|e]; simpl; [|reflexivity].
      unfold at_end. destruct (state r'); try (destruct (field_len r' =? 0)%N); reflexivity.
  - cbn [file_lines scan]. destruct (process_char r (Some c)) as [r'|e] eqn:Ep.
    + assert (E' : foldM process_char (map Some (rev (c :: cur))) r0 = Ok r').
      { simpl rev. rewrite map_app, foldM_app, E. simpl. rewrite Ep. reflexivity. }
      destruct (c =? LF)%N.
      * cbn [next_record]. rewrite foldM_app, E'. simpl. destruct (process_char r' None) as [r2|e]; simpl; [|reflexivity].
        destruct (state r2) eqn:Es; try reflexivity; (rewrite (IH [] r2 r2); reflexivity).
      * rewrite (IH (c :: cur) r0 r' E'). reflexivity.
    + cbn [bind]. assert (E' : foldM process_char (map Some (rev (c :: cur))) r0 = Err e).
      { simpl rev. rewrite map_app, foldM_app, E. simpl. rewrite Ep. reflexivity. }
      destruct (c =? LF)%N.
      * cbn [next_record]. rewrite foldM_app, E'. reflexivity.
      * apply next_err; [discriminate|exact E'].
Qed.
Corollary next_scan0 s : next_record fresh (file_lines [] s) = let! (x, rest) := scan false fresh s in Ok (x, file_lines [] rest).
Proof. apply (next_scan s [] fresh fresh). reflexivity. Qed.

(** ** Reading a text of the grammar *)
Definition readableb (s : str) : bool := (N.of_nat (length s) <=? field_limit)%N.
Definition mk (st : reader_state) (k : N) (f : str) (fs : list str) : reader := {| state := st; field_len := k; field := f; fields := fs |}.

Lemma bare_tests c : bare_char c -> newline c = false /\ (c =? COMMA)%N = false /\ (c =? QUOTE)%N = false /\ (c =? LF)%N = false.
Proof.
  intros (H1 & H2 & H3 & H4). unfold newline, LF, CR, COMMA, QUOTE. rewrite !(proj2 (N.eqb_neq _ _)) by auto. auto.
Qed.
Lemma scan_bare s : Forall bare_char s -> forall k f fs rest, (k <= field_limit)%N ->
  scan true (mk IN_FIELD k f fs) (s ++ rest) =
  if (k + N.of_nat (length s) <=? field_limit)%N then scan true (mk IN_FIELD (k + N.of_nat (length s)) (rev s ++ f) fs) rest else Err CsvError.
Proof.
  induction 1 as [|c s Hc Hs IH]; intros k f fs rest Hk.
  - simpl length. rewrite N.add_0_r. rewrite (proj2 (N.leb_le _ _) Hk). reflexivity.
  - destruct (bare_tests c Hc) as (T1 & T2 & T3 & T4). cbn [app scan]. unfold process_char. cbn [state mk]. rewrite T1, T2. unfold add_char. cbn [field_len mk field fields].
    destruct (N.leb_spec field_limit k) as [L|L].
    + cbn [bind]. rewrite (proj2 (N.leb_gt _ _)); [reflexivity|]. simpl length. lia.
    + cbn [bind]. rewrite T4. change {| state := IN_FIELD; field_len := k + 1; field := c :: f; fields := fs |} with (mk IN_FIELD (k + 1) (c :: f) fs).
      rewrite IH by lia. replace (k + 1 + N.of_nat (length s))%N with (k + N.of_nat (length (c :: s)))%N by (simpl length; lia).
      simpl rev. rewrite <- app_assoc. reflexivity.
Qed.
Lemma scan_quoted s q : doubled s q -> forall mid k f fs rest, (k <= field_limit)%N ->
  scan mid (mk IN_QUOTED_FIELD k f fs) (q ++ QUOTE :: rest) =
  if (k + N.of_nat (length s) <=? field_limit)%N then scan true (mk QUOTE_IN_QUOTED_FIELD (k + N.of_nat (length s)) (rev s ++ f) fs) rest else Err CsvError.
Proof.
  induction 1 as [|s q D IH|c s q D IH Hc]; intros mid k f fs rest Hk.
  - simpl length. rewrite N.add_0_r. rewrite (proj2 (N.leb_le _ _) Hk). reflexivity.
  - cbn [app scan]. unfold process_char at 1. cbn [state mk]. change (34 =? QUOTE)%N with true. cbv iota. cbn [bind]. change (34 =? LF)%N with false. cbv iota.
    unfold process_char at 1. cbn [state to_state]. change (34 =? QUOTE)%N with true. cbv iota. unfold add_char. cbn [to_state field_len mk field fields].
    destruct (N.leb_spec field_limit k) as [L|L].
    + cbn [bind]. rewrite (proj2 (N.leb_gt _ _)); [reflexivity|]. simpl length. lia.
    + cbn [bind]. fold (mk IN_QUOTED_FIELD (k + 1) (34%N :: f) fs).
      rewrite IH by lia. replace (k + 1 + N.of_nat (length s))%N with (k + N.of_nat (length (34%N :: s)))%N by (simpl length; lia).
      simpl rev. rewrite <- app_assoc. reflexivity.
  - cbn [app scan]. unfold process_char at 1. cbn [state mk]. change QUOTE with 34%N at 1. rewrite (proj2 (N.eqb_neq c 34) Hc). unfold add_char. cbn [field_len mk field fields].
    destruct (N.leb_spec field_limit k) as [L|L].
    + cbn [bind]. rewrite (proj2 (N.leb_gt _ _)); [reflexivity|]. simpl length. lia.
    + cbn [bind]. fold (mk IN_QUOTED_FIELD (k + 1) (c :: f) fs).
      assert (E : forall mid, scan mid (mk IN_QUOTED_FIELD (k + 1) (c :: f) fs) (q ++ QUOTE :: rest) =
        if (k + N.of_nat (length (c :: s)) <=? field_limit)%N then scan true (mk QUOTE_IN_QUOTED_FIELD (k + N.of_nat (length (c :: s))) (rev (c :: s) ++ f) fs) rest else Err CsvError).
      { intros m. rewrite IH by lia. replace (k + 1 + N.of_nat (length s))%N with (k + N.of_nat (length (c :: s)))%N by (simpl length; lia).
        simpl rev. rewrite <- app_assoc. reflexivity. }
      destruct (c =? LF)%N; [|apply E]. unfold process_char. cbn [state mk bind]. apply E.
Qed.

(** a cell in front of [rest] *)
Lemma scan_cell s t : cell_text s t -> forall st mid fs rest, (st = START_FIELD \/ st = START_RECORD) -> t <> [] ->
  exists st', (st' = IN_FIELD \/ st' = QUOTE_IN_QUOTED_FIELD) /\
  scan mid (mk st 0 [] fs) (t ++ rest) = if readableb s then scan true (mk st' (N.of_nat (length s)) (rev s) fs) rest else Err CsvError.
Proof.
  intros [s0 H|s0 q D] st mid fs rest Hst Hn.
  - exists IN_FIELD. split; [auto|]. destruct s0 as [|c s1]; [congruence|]. inversion H as [|? ? Hc Hs]; subst.
    destruct (bare_tests c Hc) as (T1 & T2 & T3 & T4). cbn [app scan].
    assert (E : process_char (mk st 0 [] fs) (Some c) = Ok (mk IN_FIELD 1 [c] fs)).
    { unfold process_char. destruct Hst as [-> | ->]; cbn [state mk]; rewrite T1, T3, T2; reflexivity. }
    rewrite E. cbn [bind]. rewrite T4. rewrite scan_bare by (auto; discriminate).
    unfold readableb. replace (1 + N.of_nat (length s1))%N with (N.of_nat (length (c :: s1))) by (simpl length; lia). reflexivity.
  - exists QUOTE_IN_QUOTED_FIELD. split; [auto|]. cbn [app scan].
    assert (E : process_char (mk st 0 [] fs) (Some 34%N) = Ok (mk IN_QUOTED_FIELD 0 [] fs)).
    { unfold process_char. destruct Hst as [-> | ->]; reflexivity. }
    rewrite E. cbn [bind]. change (34 =? LF)%N with false. cbv iota. rewrite <- app_assoc. cbn [app]. change 34%N with QUOTE.
    rewrite (scan_quoted s0 q D) by discriminate. rewrite N.add_0_l, app_nil_r. reflexivity.
Qed.
Lemma cell_empty s : cell_text s [] -> s = [].
Proof. intros H. inversion H; auto. Qed.

(** the three things that may follow a cell *)
Lemma scan_cell_comma s t st mid fs rest : cell_text s t -> (st = START_FIELD \/ st = START_RECORD) ->
  scan mid (mk st 0 [] fs) (t ++ COMMA :: rest) = if readableb s then scan true (mk START_FIELD 0 [] (s :: fs)) rest else Err CsvError.
Proof.
  intros H Hst. destruct t as [|c t].
  - apply cell_empty in H as ->. change (readableb []) with true. destruct Hst as [-> | ->]; reflexivity.
  - destruct (scan_cell s (c :: t) H st mid fs (COMMA :: rest) Hst ltac:(discriminate)) as (st' & Hst' & ->).
    destruct (readableb s); [|reflexivity]. destruct Hst' as [-> | ->]; cbn -[N.eqb]; rewrite ?rev_involutive; change (COMMA =? LF)%N with false; unfold save_field; simpl; rewrite ?rev_involutive; reflexivity.
Qed.
Lemma scan_cell_lf s t st mid fs rest : cell_text s t -> (st = START_FIELD \/ st = START_RECORD /\ t <> []) ->
  scan mid (mk st 0 [] fs) (t ++ LF :: rest) = if readableb s then Ok (Some (rev (s :: fs)), rest) else Err CsvError.
Proof.
  intros H Hst. destruct t as [|c t].
  - apply cell_empty in H as ->. change (readableb []) with true. destruct Hst as [-> |[_ F]]; [reflexivity|congruence].
  - destruct (scan_cell s (c :: t) H st mid fs (LF :: rest) ltac:(tauto) ltac:(discriminate)) as (st' & Hst' & ->).
    destruct (readableb s); [|reflexivity]. destruct Hst' as [-> | ->]; simpl; rewrite ?rev_involutive; reflexivity.
Qed.
Lemma scan_cell_end s t st mid fs : cell_text s t -> (st = START_FIELD \/ st = START_RECORD /\ t <> []) -> mid = true \/ t <> [] ->
  scan mid (mk st 0 [] fs) t = if readableb s then Ok (Some (rev (s :: fs)), []) else Err CsvError.
Proof.
  intros H Hst Hm. destruct t as [|c t].
  - apply cell_empty in H as ->. change (readableb []) with true. destruct Hm as [-> |F]; [|congruence]. destruct Hst as [-> |[_ F]]; [reflexivity|congruence].
  - destruct (scan_cell s (c :: t) H st mid fs [] ltac:(tauto) ltac:(discriminate)) as (st' & Hst' & E). rewrite app_nil_r in E. rewrite E.
    destruct (readableb s); [|reflexivity]. destruct Hst' as [-> | ->]; simpl; rewrite ?rev_involutive; reflexivity.
Qed.
Lemma scan_cells row t : cells_text row t -> forall st mid fs, (st = START_FIELD \/ st = START_RECORD /\ t <> []) ->
  (forall rest, scan mid (mk st 0 [] fs) (t ++ LF :: rest) = if forallb readableb row then Ok (Some (rev fs ++ row), rest) else Err CsvError) /\
  (mid = true \/ t <> [] -> scan mid (mk st 0 [] fs) t = if forallb readableb row then Ok (Some (rev fs ++ row), []) else Err CsvError).
Proof.
  induction 1 as [s t H|s t row u H HC IH]; intros st mid fs Hst; (split; [intros rest|intros Hm]); cbn [forallb].
  - rewrite andb_true_r. rewrite (scan_cell_lf s t) by auto. reflexivity.
  - rewrite andb_true_r. rewrite (scan_cell_end s t) by auto. reflexivity.
  - rewrite <- app_assoc. cbn [app]. change 44%N with COMMA. rewrite (scan_cell_comma s t) by (auto; tauto). destruct (readableb s); [|reflexivity].
    cbn [andb]. destruct (IH START_FIELD true (s :: fs) ltac:(auto)) as [E _]. rewrite E. simpl rev. rewrite <- app_assoc. reflexivity.
  - change 44%N with COMMA. rewrite (scan_cell_comma s t) by (auto; tauto). destruct (readableb s); [|reflexivity].
    cbn [andb]. destruct (IH START_FIELD true (s :: fs) ltac:(auto)) as [_ E]. rewrite E by auto. simpl rev. rewrite <- app_assoc. reflexivity.
Qed.
Lemma scan_row row t : row_text row t ->
  (forall rest, scan false fresh (t ++ LF :: rest) = if forallb readableb row then Ok (Some row, rest) else Err CsvError) /\
  (t <> [] -> scan false fresh t = if forallb readableb row then Ok (Some row, []) else Err CsvError).
Proof.
  intros [|row0 t0 H Hn]; [split; [reflexivity|congruence]|].
  destruct (scan_cells row0 t0 H START_RECORD false [] ltac:(auto)) as [E1 E2]. split; [exact E1|]. intros _. apply E2. auto.
Qed.

(** the rows before the first one that has too long a cell *)
Fixpoint upto (rows : list (list str)) : list (list str) * option exn :=
  match rows with
  | [] => ([], None)
  | row :: rows => if forallb readableb row then let '(a, e) := upto rows in (row :: a, e) else ([], Some CsvError)
  end.
Lemma lines_more cur a u : S (length (file_lines [] u)) <= length (file_lines cur (a ++ LF :: u)).
Proof. revert cur. induction a as [|c a IH]; intros cur; simpl; [lia|]. destruct (c =? LF)%N; [simpl; specialize (IH []); lia|apply IH]. Qed.
Lemma lines_some cur a : cur <> [] \/ a <> [] -> 1 <= length (file_lines cur a).
Proof.
  revert cur. induction a as [|c a IH]; intros cur Hc; simpl; [destruct Hc as [Hc|Hc]; [destruct cur; [congruence|simpl; lia]|congruence]|].
  destruct (c =? LF)%N; [simpl; lia|apply IH; left; discriminate].
Qed.
Lemma read_rows_lf rows t : file_lf rows t -> forall fuel, length (file_lines [] t) <= fuel -> read_rows fuel (file_lines [] t) = upto rows.
Proof.
  induction 1 as [|row t H Hn|row t rows u H Hf IH]; intros fuel Hfuel.
  - destruct fuel; reflexivity.
  - pose proof (lines_some [] t (or_intror Hn)). destruct fuel as [|fuel]; [lia|]. cbn [read_rows]. rewrite next_scan0.
    destruct (scan_row row t H) as [_ E]. rewrite (E Hn). cbn [upto]. destruct (forallb readableb row); [|reflexivity]. cbn [bind]. destruct fuel; reflexivity.
  - pose proof (lines_more [] t u). destruct fuel as [|fuel]; [lia|]. cbn [read_rows]. rewrite next_scan0.
    destruct (scan_row row t H) as [E _]. rewrite E. cbn [upto]. destruct (forallb readableb row); [|reflexivity]. cbn [bind]. rewrite IH by lia. reflexivity.
Qed.
Theorem read_csv_file rows t : file_text rows t -> read_csv t = upto (map (map U) rows).
Proof. intros H. apply file_U in H. unfold read_csv. apply (read_rows_lf _ _ H). auto. Qed.

Lemma upto_readable rows : Forall (Forall readable) rows -> upto rows = (rows, None).
Proof.
  induction 1 as [|row rows H HF IH]; [reflexivity|]. cbn [upto]. rewrite IH.
  replace (forallb readableb row) with true; [reflexivity|]. symmetry. apply forallb_forall. rewrite Forall_forall in H.
  intros s Hs. apply N.leb_le. apply H. exact Hs.
Qed.
Lemma upto_long before row after : Forall (Forall readable) before -> ~ Forall readable row -> upto (before ++ row :: after) = (before, Some CsvError).
Proof.
  intros HB HR. induction HB as [|r before H HF IH]; cbn [app upto].
  - destruct (forallb readableb row) eqn:E; [|reflexivity]. exfalso. apply HR. rewrite forallb_forall in E. apply Forall_forall.
    intros s Hs. apply N.leb_le. apply E. exact Hs.
  - rewrite IH. replace (forallb readableb r) with true; [reflexivity|]. symmetry. apply forallb_forall. rewrite Forall_forall in H.
    intros s Hs. apply N.leb_le. apply H. exact Hs.
Qed.
Lemma rows_read_U rows : rows_read rows (map (map U) rows).
Proof.
  induction rows as [|row rows IH]; [constructor|]. constructor; [|exact IH]. induction row as [|s row IHr]; [constructor|].
  constructor; [apply universal_read|exact IHr].
Qed.
