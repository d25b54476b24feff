(** Proofs about the commands from text to text *)
From Coq Require Import String Lia.
From Verif Require Import Base BaseFacts LevModel StringsModel PhoneticsModel PairwiseModel GraphModel CliModel CliSpec CliProofs ReportModel CsvModel CsvSpec CsvProofs CsvCommandProofs.
Open Scope nat_scope.
Open Scope list_scope.
Notation length := List.length.
Notation concat := List.concat.

Lemma rows_read_eq raw rows : rows_read raw rows -> rows = map (map U) raw.
Proof.
  induction 1 as [|r r' raw rows H HF IH]; [reflexivity|]. cbn [map]. rewrite IH. f_equal. clear IH HF. induction H as [|c c' r r' Hc H IH]; [reflexivity|].
  cbn [map]. rewrite IH. f_equal. apply universal_iff in Hc. symmetry. exact Hc.
Qed.
Lemma holds_read t rows : holds t rows -> read_csv t = (rows, None).
Proof.
  intros (raw & Hf & Hr & Hs). rewrite (read_csv_file raw t Hf), <- (rows_read_eq raw rows Hr). apply upto_readable. exact Hs.
Qed.
Lemma holds_good t rows : holds t rows -> Forall (Forall good) rows.
Proof. intros H. pose proof (read_good t) as G. rewrite (holds_read t rows H) in G. exact G. Qed.
Lemma plain_holds t rows : file_text rows t -> plain rows -> holds t rows.
Proof.
  intros H G. exists rows. split; [exact H|]. split; [|apply good_readable; exact G]. rewrite <- (map_U_good rows G) at 2. apply rows_read_U.
Qed.
Lemma written_holds rows : plain rows -> holds (write_csv rows) rows.
Proof. intros G. apply plain_holds; [apply write_csv_ok|exact G]. Qed.

(** ** Without failing rows *)
Lemma split_plain_end t headers lines column sep rename : holds t (headers :: lines) ->
  In column headers -> sep <> [] -> rectangular (length headers) lines -> good_name rename ->
  exists position rows headers' out, nth_error headers position = Some column /\
    split_file t column sep None rename = (out, None) /\ holds out (headers' :: concat rows) /\
    match rename with None => headers' = headers | Some r => cell_replaced position headers r headers' end /\
    Forall2 (fun line rs => exists cell pieces, nth_error line position = Some cell /\ is_split sep cell pieces /\
               Forall2 (cell_replaced position line) pieces rs) lines rows.
Proof.
  intros Ht Hc Hs Hr Hn. destruct (split_action_plain headers lines column sep rename Hc Hs Hr) as (position & rows & headers' & H1 & H2 & H3 & H4 & _).
  exists position, rows, headers', (write_csv (headers' :: concat rows)). split; [exact H1|].
  pose proof (split_file_action t _ column sep None rename (holds_read t _ Ht)) as E. rewrite H2 in E. split; [exact E|]. split; [|split; assumption].
  apply written_holds. eapply split_action_good; [apply (holds_good t _ Ht)| | |exact H2]; [exact Logic.I|exact Hn].
Qed.
Lemma split_target_end t headers lines column sep c u : holds t (headers :: lines) ->
  In column headers -> sep <> [] -> rectangular (length headers) lines -> good (c :: u) ->
  exists position rows out, nth_error headers position = Some column /\
    split_file t column sep (Some (c :: u)) None = (out, None) /\ holds out ((headers ++ [c :: u]) :: concat rows) /\
    Forall2 (target_rows sep position) lines rows.
Proof.
  intros Ht Hc Hs Hr Hn. destruct (split_action_target headers lines column sep c u Hc Hs Hr) as (position & rows & H1 & H2 & H3).
  eexists position, rows, (write_csv _). split; [exact H1|].
  pose proof (split_file_action t _ column sep (Some (c :: u)) None (holds_read t _ Ht)) as E. rewrite H2 in E. split; [exact E|]. split; [|assumption].
  apply written_holds. eapply split_action_good; [apply (holds_good t _ Ht)| | |exact H2]; [exact Hn|exact Logic.I].
Qed.
Lemma cell_replaced_good i (line : list str) v row : Forall good line -> good v -> cell_replaced i line v row -> Forall good row.
Proof.
  intros Hl Hv (L & E & H). apply Forall_forall. intros c Hc. apply In_nth_error in Hc as [k Hk]. destruct (Nat.eq_dec k i) as [->|D]; [congruence|].
  rewrite H in Hk by exact D. rewrite Forall_forall in Hl. apply Hl. eapply nth_error_In; eauto.
Qed.
Lemma change_good target after position width (line : list str) v row : Forall good line -> good v -> change target after position width line v row -> Forall good row.
Proof.
  intros Hl Hv H. unfold change in H. destruct target; [|eapply cell_replaced_good; eauto]. destruct H as (a & b & -> & -> & _).
  apply Forall_app in Hl as [Ha Hb]. apply Forall_app. split; [exact Ha|]. constructor; assumption.
Qed.

Section Transform.
Variable lower strip upper unidecode fingerprint : str -> str.
Notation file := (transform_file lower strip upper unidecode fingerprint).
Notation chg := (changes lower strip upper unidecode fingerprint).

Lemma transform_end t headers lines column operations target after evaluate f : holds t (headers :: lines) ->
  In column headers -> rectangular (length headers) lines -> chg operations evaluate = Ok f -> good_name target ->
  (forall line cell position, In line lines -> nth_error headers position = Some column -> nth_error line position = Some cell ->
     exists v, f cell = Ok v /\ good (written v)) ->
  exists position headers' rows out, nth_error headers position = Some column /\
    file t column operations target after evaluate = (out, None) /\ holds out (headers' :: rows) /\
    match target with None => headers' = headers | Some n => change true after position (length headers) headers n headers' end /\
    Forall2 (fun line row => exists cell v, nth_error line position = Some cell /\ f cell = Ok v /\
               change (match target with Some _ => true | None => false end) after position (length headers) line (written v) row) lines rows.
Proof.
  intros Ht Hc Hr Hf Hn Hok.
  destruct (transform_action_ok (fun _ => Some (op f)) headers lines column [EmptyString] [op f] target after Hc Hr) as (position & headers' & rows & H1 & H2 & H3 & H4 & _).
  { repeat constructor. }
  { intros line cell position Hl Hp Hcell. destruct (Hok line cell position Hl Hp Hcell) as (v & Ev & _). exists (written v). cbn [foldM]. unfold op. rewrite Ev. reflexivity. }
  assert (H5 : Forall2 (fun line row => exists cell v, nth_error line position = Some cell /\ f cell = Ok v /\ good (written v) /\
               change (match target with Some _ => true | None => false end) after position (length headers) line (written v) row) lines rows).
  { assert (Hok' : forall line cell, In line lines -> nth_error line position = Some cell -> exists v, f cell = Ok v /\ good (written v)) by (intros; eapply Hok; eauto).
    clear -H4 Hok'. induction H4 as [|line row lines rows (cell & v & Hcell & Ev & Hch) H4 IH]; constructor.
    - destruct (Hok' line cell (or_introl eq_refl) Hcell) as (w & Ew & Gw). exists cell, w. cbn [foldM] in Ev. unfold op in Ev. rewrite Ew in Ev. cbn [bind] in Ev.
      injection Ev as <-. auto.
    - apply IH. intros; eapply Hok'; eauto. right. assumption. }
  exists position, headers', rows, (write_csv (headers' :: rows)). split; [exact H1|].
  pose proof (transform_file_action lower strip upper unidecode fingerprint t _ column operations target after evaluate f (holds_read t _ Ht) Hf) as E. rewrite H2 in E.
  split; [exact E|]. split; [|split; [exact H3|]].
  - apply written_holds. pose proof (holds_good t _ Ht) as G. inversion G as [|? ? Gh Gl]; subst. constructor.
    + destruct target as [n|]; [|subst; exact Gh]. eapply change_good; [exact Gh|exact Hn|exact H3].
    + clear -H5 Gl. induction H5 as [|line row lines rows (cell & v & _ & _ & Gv & Hch) H5 IH]; constructor; inversion Gl; subst; [|auto].
      eapply change_good; eauto.
  - clear -H5. induction H5 as [|line row lines rows (cell & v & A & B & _ & D) H5 IH]; constructor; eauto.
Qed.
End Transform.

Lemma cluster_end fingerprint t table algorithm kind column now took : holds t table ->
  cluster_file fingerprint t algorithm kind column now took = cluster_report fingerprint table algorithm kind column now took.
Proof.
  intros Ht. unfold cluster_file, cluster_report, file_reader. rewrite (holds_read t table Ht). destruct (negb _); [reflexivity|].
  destruct table as [|headers rows]; [reflexivity|]. unfold custom_reader. destruct (index_of column headers) as [n|] eqn:Ei; [|reflexivity]. cbn [bind].
  destruct (mapM (fun line => cell_at line n) rows) eqn:Em; cbn [bind]; [|reflexivity]. cbv beta iota. rewrite ?Ei. cbn [bind]. rewrite Em. reflexivity.
Qed.

(** ** Failing rows *)
Lemma index_of_at {A} `{EqDec A} (x : A) a b : ~ In x a -> index_of x (a ++ x :: b) = Some (length a).
Proof.
  induction a as [|y a IH]; intros H1; simpl.
  - unfold eqb. destruct (eq_dec x x); congruence.
  - unfold eqb. destruct (eq_dec x y) as [->|D]; [exfalso; apply H1; left; reflexivity|]. rewrite IH; [reflexivity|]. intros F. apply H1. right. exact F.
Qed.
Lemma each_row_none f rows stop t : each_row f rows stop = (t, None) -> forall row, In row rows -> exists out, f row = Ok out.
Proof.
  revert t. induction rows as [|row rows IH]; intros t E r Hr; [destruct Hr|]. cbn [each_row] in E. destruct (f row) as [out|e] eqn:Ef; [|discriminate].
  destruct (each_row f rows stop) as [t' e'] eqn:Et. injection E as _ ->. destruct Hr as [<-|Hr]; eauto.
Qed.
Lemma each_row_fails f before row after stop t e : each_row f before None = (t, None) -> f row = Err e -> each_row f (before ++ row :: after) stop = (t, Some e).
Proof.
  intros E Ef. rewrite each_row_app by (apply (each_row_none f before None t E)). rewrite E. cbn [each_row]. rewrite Ef. cbn [fst snd]. rewrite app_nil_r. reflexivity.
Qed.
Lemma each_row_stops f before stop t : each_row f before None = (t, None) -> each_row f before stop = (t, stop).
Proof.
  intros E. rewrite <- (app_nil_r before) at 1. rewrite each_row_app by (apply (each_row_none f before None t E)). rewrite E. cbn [each_row fst snd]. rewrite app_nil_r. reflexivity.
Qed.
Lemma short_cell (row : list str) i : length row <= i -> cell_at row i = Err IndexError.
Proof. intros H. unfold cell_at. rewrite (proj2 (nth_error_None row i) H). reflexivity. Qed.

Section Failing.
Variable t0 t column : str.
Variable h1 h2 : list str.
Variable before : list (list str).
Hypothesis Hh : ~ In column h1.
Notation headers := (h1 ++ column :: h2).
Hypothesis H0 : read_csv t0 = (headers :: before, None).

Lemma split_short short after stop sep target rename out :
  read_csv t = (headers :: before ++ short :: after, stop) -> length short <= length h1 ->
  split_file t0 column sep target rename = (out, None) -> split_file t column sep target rename = (out, Some IndexError).
Proof.
  intros H1 Hs E. unfold split_file, file_reader in *. rewrite H0 in E. rewrite H1. rewrite (index_of_at column h1 h2 Hh) in *.
  destruct (each_row (split_line sep target (length h1)) before None) as [o e] eqn:Eb. injection E as <- ->.
  rewrite (each_row_fails _ _ short after stop o IndexError Eb); [reflexivity|]. unfold split_line. rewrite short_cell by exact Hs. reflexivity.
Qed.
Lemma split_stop e sep target rename out :
  read_csv t = (headers :: before, Some e) -> split_file t0 column sep target rename = (out, None) -> split_file t column sep target rename = (out, Some e).
Proof.
  intros H1 E. unfold split_file, file_reader in *. rewrite H0 in E. rewrite H1. rewrite (index_of_at column h1 h2 Hh) in *.
  destruct (each_row (split_line sep target (length h1)) before None) as [o e'] eqn:Eb. injection E as <- ->.
  rewrite (each_row_stops _ _ (Some e) o Eb). reflexivity.
Qed.
Variable lower strip upper unidecode fingerprint : str -> str.
Notation file := (transform_file lower strip upper unidecode fingerprint).
Lemma transform_short short after stop operations target aft evaluate out :
  read_csv t = (headers :: before ++ short :: after, stop) -> length short <= length h1 ->
  file t0 column operations target aft evaluate = (out, None) -> file t column operations target aft evaluate = (out, Some IndexError).
Proof.
  intros H1 Hs E. unfold transform_file, file_reader in *. rewrite H0 in E. rewrite H1. rewrite (index_of_at column h1 h2 Hh) in *.
  match type of E with (match ?x with _ => _ end) = _ => destruct x as [f|e0]; [|discriminate] end.
  match type of E with (let '(_, _) := each_row ?g before None in _) = _ => destruct (each_row g before None) as [o e] eqn:Eb end. injection E as <- ->.
  rewrite (each_row_fails _ _ short after stop o IndexError Eb); [reflexivity|]. unfold transform_row. rewrite short_cell by exact Hs. reflexivity.
Qed.
Lemma transform_stop e operations target aft evaluate out :
  read_csv t = (headers :: before, Some e) -> file t0 column operations target aft evaluate = (out, None) -> file t column operations target aft evaluate = (out, Some e).
Proof.
  intros H1 E. unfold transform_file, file_reader in *. rewrite H0 in E. rewrite H1. rewrite (index_of_at column h1 h2 Hh) in *.
  match type of E with (match ?x with _ => _ end) = _ => destruct x as [f|e0]; [|discriminate] end.
  match type of E with (let '(_, _) := each_row ?g before None in _) = _ => destruct (each_row g before None) as [o e'] eqn:Eb end. injection E as <- ->.
  rewrite (each_row_stops _ _ (Some e) o Eb). reflexivity.
Qed.
End Failing.

Lemma cells_fail position rows : mapM (fun line : list str => cell_at line position) rows = Err IndexError \/ Forall (fun r => position < length r) rows.
Proof.
  induction rows as [|row rows IH]; [right; constructor|]. cbn [mapM]. unfold cell_at at 1. destruct (nth_error row position) eqn:E; [|left; reflexivity].
  cbn [bind]. destruct IH as [-> |IH]; [left; reflexivity|]. right. constructor; [|exact IH]. apply nth_error_Some. congruence.
Qed.
Lemma cluster_short fingerprint t h1 h2 rows stop short kind column now took : ~ In column h1 -> read_csv t = ((h1 ++ column :: h2) :: rows, stop) -> In short rows -> length short <= length h1 ->
  cluster_file fingerprint t (codes "fingerprint_collision") kind column now took = Err IndexError.
Proof.
  intros Hh H1 Hin Hs. unfold cluster_file, file_reader. rewrite H1, (index_of_at column h1 h2 Hh).
  replace (negb (eqb (codes "fingerprint_collision") (codes "fingerprint_collision"))) with false by (vm_compute; reflexivity).
  destruct (cells_fail (length h1) rows) as [-> |F]; [reflexivity|]. rewrite Forall_forall in F. specialize (F short Hin). lia.
Qed.

(** ** The operations *)
Section Operations.
Variable lower strip upper unidecode fingerprint : str -> str.
Notation file := (transform_file lower strip upper unidecode fingerprint).
Notation OPS := (OPERATIONS lower strip upper unidecode fingerprint).

Lemma split_names operations names : is_split (codes ",") operations names -> split_loop (codes ",") [] 0 operations = names.
Proof.
  intros H. apply (is_split_unique (codes ",") operations); [discriminate| |exact H].
  exact (split_loop_ok (codes ",") ltac:(discriminate) (length operations) operations [] (le_n _) ltac:(intros; cbn; lia)).
Qed.
Lemma names_known names : Forall known names -> exists fs, Forall2 (fun name f => OPS name = Some f) names fs /\
  mapM (fun name => match OPS name with Some f => Ok f | None => Err KeyError end) names = Ok fs.
Proof.
  induction 1 as [|name names H HF (fs & I1 & I2)]; [exists []; split; [constructor|reflexivity]|]. apply (known_iff lower strip upper unidecode fingerprint) in H.
  destruct (OPS name) as [f|] eqn:E; [|congruence]. exists (f :: fs). split; [constructor; assumption|]. cbn [mapM]. rewrite E. cbn [bind]. rewrite I2. reflexivity.
Qed.
Lemma names_unknown name names : In name names -> ~ known name ->
  mapM (fun name => match OPS name with Some f => Ok f | None => Err KeyError end) names = Err KeyError.
Proof.
  intros H K. induction names as [|n names IH]; [destruct H|]. cbn [mapM]. destruct (OPS n) eqn:E; [|reflexivity]. cbn [bind]. destruct H as [-> |H].
  - exfalso. apply K. apply (known_iff lower strip upper unidecode fingerprint). congruence.
  - rewrite IH by exact H. reflexivity.
Qed.
Lemma transform_unknown t column operations names name target after : is_split (codes ",") operations names -> In name names -> ~ known name ->
  file t column operations target after None = ([], Some KeyError).
Proof.
  intros H Hin K. unfold transform_file, operation_chain. rewrite (split_names operations names H), (names_unknown name names Hin K). reflexivity.
Qed.
Lemma chain_known operations names : is_split (codes ",") operations names -> Forall known names ->
  exists f, changes lower strip upper unidecode fingerprint operations None = Ok f /\
    (len_last names -> forall s, exists v, f s = Ok v) /\ (~ len_last names -> forall s, exists e, f s = Err e /\ (e = AttributeError \/ e = TypeError)) /\
    (forall s v, f s = Ok v -> applied (meaning lower strip upper unidecode fingerprint) py_nat names s (written v)).
Proof.
  intros H K. destruct (names_known names K) as (fs & F2 & E). eexists. split; [unfold changes, operation_chain; rewrite (split_names operations names H), E; reflexivity|].
  split; [|split]; try (intros L s; apply (chain_text lower strip upper unidecode fingerprint names fs F2 s); exact L).
  exact (chain_applied lower strip upper unidecode fingerprint names fs F2).
Qed.
Lemma transform_len_first t h1 h2 column row rows stop operations names target after :
  ~ In column h1 -> read_csv t = ((h1 ++ column :: h2) :: row :: rows, stop) -> length h1 < length row ->
  is_split (codes ",") operations names -> Forall known names -> ~ len_last names ->
  exists e headers', (e = AttributeError \/ e = TypeError) /\ file t column operations target after None = (writerow headers', Some e).
Proof.
  intros Hh H1 Hl Hs K L. destruct (chain_known operations names Hs K) as (f & Ef & _ & F & _). unfold transform_file. fold (changes lower strip upper unidecode fingerprint operations None).
  rewrite Ef. unfold file_reader. rewrite H1, (index_of_at column h1 h2 Hh). cbn [each_row]. unfold transform_row at 1, cell_at.
  destruct (nth_error row (length h1)) as [cell|] eqn:En; [|apply nth_error_None in En; lia]. cbn [bind]. destruct (F L cell) as (e & -> & He). cbn [bind].
  exists e. eexists. split; [exact He|]. rewrite app_nil_r. reflexivity.
Qed.
End Operations.

(** ** A cell without quotation marks is found in the file *)
Lemma doubled_same s t : doubled s t -> ~ In 34%N s -> t = s.
Proof.
  induction 1 as [|s t H IH|c s t H IH Hc]; intros N0; [reflexivity|exfalso; apply N0; left; reflexivity|]. rewrite IH; [reflexivity|]. intros F. apply N0. right. exact F.
Qed.
Lemma inside_app s t a b : inside s t -> inside s (a ++ t ++ b).
Proof. intros (x & y & ->). exists (a ++ x), (y ++ b). rewrite <- !app_assoc. reflexivity. Qed.
Lemma cell_inside s t : cell_text s t -> ~ In 34%N s -> inside s t.
Proof.
  intros H N0. destruct H as [s H|s t H]; [exists [], []; rewrite app_nil_r; reflexivity|]. apply doubled_same in H as ->; [|exact N0]. exists [34%N], [34%N]. reflexivity.
Qed.
Lemma cells_inside row t s : cells_text row t -> In s row -> ~ In 34%N s -> inside s t.
Proof.
  induction 1 as [s0 t H|s0 t row u H HR IH]; intros Hin N0.
  - destruct Hin as [-> |[]]. apply cell_inside; assumption.
  - destruct Hin as [-> |Hin].
    + change (t ++ 44%N :: u) with ([] ++ t ++ 44%N :: u). apply inside_app. apply cell_inside; assumption.
    + replace (t ++ 44%N :: u) with ((t ++ [44%N]) ++ u ++ []) by (rewrite app_nil_r, <- app_assoc; reflexivity). apply inside_app. auto.
Qed.
Lemma file_inside rows t row s : file_text rows t -> In row rows -> In s row -> ~ In 34%N s -> inside s t.
Proof.
  intros H. assert (R : forall row t, row_text row t -> In s row -> ~ In 34%N s -> inside s t) by (intros r u [|r' u' Hr _] Hin N0; [destruct Hin|eapply cells_inside; eauto]).
  induction H as [|r t Hr Hn|r t e rows u Hr He Hf IH]; intros Hin Hs N0.
  - destruct Hin.
  - destruct Hin as [-> |[]]. eapply R; eauto.
  - destruct Hin as [-> |Hin].
    + change (t ++ e ++ u) with ([] ++ t ++ (e ++ u)). apply inside_app. eapply R; eauto.
    + replace (t ++ e ++ u) with ((t ++ e) ++ u ++ []) by (rewrite app_nil_r, <- app_assoc; reflexivity). apply inside_app. auto.
Qed.
Fixpoint insideb (s t : str) : bool := starts_with s t || match t with [] => false | _ :: t => insideb s t end.
Lemma insideb_ok s t : inside s t -> insideb s t = true.
Proof.
  intros (a & b & ->). induction a as [|c a IH].
  - assert (starts_with s (s ++ b) = true) as E by (apply starts_with_iff; exists b; reflexivity). cbn [app]. destruct (s ++ b); cbn [insideb]; rewrite E; reflexivity.
  - cbn [app insideb]. rewrite IH. apply orb_true_r.
Qed.
