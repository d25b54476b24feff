(** C123 - C128: the csv files that the split, transform and cluster commands read and write *)
From Coq Require Import String Lia.
From Verif Require Import Base BaseFacts LevModel StringsModel PairwiseModel GraphModel CliModel CliSpec ReportModel CsvModel CsvSpec CsvProofs CsvCommandProofs CsvEndProofs CsvAnyProofs.
Open Scope nat_scope.
Open Scope list_scope.
Notation length := List.length.
Notation concat := List.concat.

(** a text with \r, \n, quotation marks and |: written as ^, $, ' and | *)
Definition T (s : string) : str :=
  map (fun c => if (c =? 94)%N then 13%N else if (c =? 36)%N then 10%N else if (c =? 39)%N then 34%N else c) (codes s).

(** * C123: reading *)

(** the rows of a csv file are read, whatever the quotation marks and the line ends used to write it; only the line ends within the cells change *)
Theorem C123_read raw rows t : file_text raw t -> rows_read raw rows -> Forall (Forall readable) rows -> read_csv t = (rows, None).
Proof. intros H1 H2 H3. apply holds_read. exists raw. auto. Qed.

(** each cell is read in one way *)
Theorem C123_line_ends s : exists! t, newlines_read s t.
Proof. exists (U s). split; [apply universal_read|]. intros t H. apply universal_iff in H. exact H. Qed.

(** two files of the same rows give the same reading, even one that fails *)
Theorem C123_same raw t t' : file_text raw t -> file_text raw t' -> read_csv t = read_csv t'.
Proof. intros H H'. rewrite (read_csv_file raw t H), (read_csv_file raw t' H'). reflexivity. Qed.

(** a cell of more than 131072 characters ends the reading, after the rows before it *)
Theorem C123_long before row after rows0 row0 t : file_text (before ++ row :: after) t -> rows_read before rows0 -> Forall2 newlines_read row row0 ->
  Forall (Forall readable) rows0 -> ~ Forall readable row0 -> read_csv t = (rows0, Some CsvError).
Proof.
  intros H1 H2 H3 H4 H5. rewrite (read_csv_file _ t H1), map_app. cbn [map]. rewrite <- (rows_read_eq before rows0 H2).
  assert (E : [row0] = map (map U) [row]) by (apply rows_read_eq; constructor; [exact H3|constructor]). cbn [map] in E. injection E as <-. apply upto_long; assumption.
Qed.

(** what is read from any text, csv or not, can be read again: no carriage return, no cell that is too long *)
Theorem C123_cells t : plain (fst (read_csv t)).
Proof. exact (read_good t). Qed.

(** any text that is not too long is read to its end, csv or not, and no character is lost but commas, quotation marks and line ends *)
Theorem C123_any t : (N.of_nat (length t) <= 131072)%N -> exists rows, read_csv t = (rows, None) /\
  forall c, c <> 44%N -> c <> 34%N -> c <> 10%N -> c <> 13%N -> count_occ N.eq_dec (concat (concat rows)) c = count_occ N.eq_dec t c.
Proof.
  intros L. destruct (read_any t L) as (rows & E & O). exists rows. split; [exact E|]. intros c H1 H2 H3 H4. apply (O c).
  unfold special, newline, COMMA, QUOTE, LF, CR. rewrite !(proj2 (N.eqb_neq _ _)) by assumption. reflexivity.
Qed.

Example read_mixed : read_csv (T "a,'b'^$'x|y','p''q'^'1$2',^$$z") = ([[T "a"; T "b"]; [T "x|y"; T "p'q"]; [T "1$2"; []]; []; [T "z"]], None).
Proof. vm_compute. reflexivity. Qed.
Example read_not_csv : read_csv (T "a,b'c'$'x'y,'open$z") = ([[T "a"; T "b'c'"]; [T "xy"; T "open$z"]], None).
Proof. vm_compute. reflexivity. Qed.
Example mixed_is_csv : file_text [[T "a"; T "b"]; []; [T "p'q"]] (T "a,'b'^$^'p''q'").
Proof.
  assert (Q : forall s t u, doubled s t -> u = (34 :: t ++ [34])%N -> cell_text s u) by (intros s t u H ->; apply ct_quoted; exact H).
  apply (ft_more _ (T "a,'b'") (T "^$") _ (T "^'p''q'")).
  - apply rt_cells; [|discriminate]. apply (ct_more _ (T "a") _ (T "'b'")); [apply ct_bare; repeat constructor; discriminate|].
    apply ct_one. apply (Q _ (T "b")); [repeat constructor; discriminate|reflexivity].
  - apply le_crlf.
  - apply (ft_more _ [] (T "^") _ (T "'p''q'")); [constructor|apply le_cr; discriminate|]. apply ft_last; [|discriminate]. apply rt_cells; [|discriminate].
    apply ct_one. apply (Q _ (T "p''q")); [repeat constructor; discriminate|reflexivity].
Qed.

(** * C125: what is written is read back *)

Theorem C125_write rows : file_text rows (write_csv rows).
Proof. exact (write_csv_ok rows). Qed.

(** exactly the tables without carriage returns and without cells that are too long are read back *)
Theorem C125_read_back rows : read_csv (write_csv rows) = (rows, None) <-> plain rows.
Proof.
  split; [|apply read_back]. intros E. pose proof (read_good (write_csv rows)) as H. rewrite E in H. exact H.
Qed.

(** a table that has been read, from any text, is written and read back unchanged *)
Theorem C125_stable t : read_csv (write_csv (fst (read_csv t))) = (fst (read_csv t), None).
Proof. apply read_back. apply read_good. Qed.

Example write_sample : write_csv [[T "a"; T "b,c"]; [[]]; []; [T "p'q$"; []]] = T "a,'b,c'^$''^$^$'p''q$',^$".
Proof. vm_compute. reflexivity. Qed.

(** * C124: the other cells are not always kept *)
(** nothing is to be split, and a cell of the other column is not in the output: its carriage return is lost *)
Theorem C124_kept_refuted : exists table t out other, file_text table t /\ In [other; T "x"] table /\ ~ In 34%N other /\
  split_file t (T "b") (T "|") None None = (out, None) /\ ~ inside other out.
Proof.
  exists [[T "a"; T "b"]; [T "1^2"; T "x"]], (T "a,b$'1^2',x$"), (T "a,b^$'1$2',x^$"), (T "1^2").
  split. { apply (ft_more _ (T "a,b") [10%N] [[T "1^2"; T "x"]] (T "'1^2',x$")); [|constructor|].
    - apply rt_cells; [|discriminate]. apply (ct_more _ (T "a") _ (T "b")); repeat constructor; discriminate.
    - apply (ft_more _ (T "'1^2',x") [10%N] [] []); [|constructor|constructor]. apply rt_cells; [|discriminate].
      apply (ct_more _ (T "'1^2'") _ (T "x")); [apply (ct_quoted _ (T "1^2")); repeat constructor; discriminate|]. repeat constructor; discriminate. }
  split; [right; left; reflexivity|]. split; [cbn; intros F; repeat destruct F as [F|F]; discriminate F || destruct F|].
  split; [vm_compute; reflexivity|]. intros F. apply insideb_ok in F. vm_compute in F. discriminate F.
Qed.
(** whereas it would be, had the line ends been kept when reading *)
Theorem C124_inside_partial rows t row s : file_text rows t -> In row rows -> In s row -> ~ In 34%N s -> inside s t.
Proof. exact (file_inside rows t row s). Qed.

(** * C126: the commands, from text to text *)

(** split: the output is the csv file of the expected table *)
Theorem C126_split t headers lines column sep rename : holds t (headers :: lines) ->
  In column headers -> sep <> [] -> rectangular (length headers) lines -> plain_name rename ->
  exists position rows headers' out, nth_error headers position = Some column /\
    split_file t column sep None rename = (out, None) /\ holds out (headers' :: concat rows) /\
    match rename with None => headers' = headers | Some r => cell_replaced position headers r headers' end /\
    Forall2 (fun line rs => exists cell pieces, nth_error line position = Some cell /\ is_split sep cell pieces /\
               Forall2 (cell_replaced position line) pieces rs) lines rows.
Proof. exact (split_plain_end t headers lines column sep rename). Qed.

Theorem C126_split_target t headers lines column sep c u : holds t (headers :: lines) ->
  In column headers -> sep <> [] -> rectangular (length headers) lines -> plain_cell (c :: u) ->
  exists position rows out, nth_error headers position = Some column /\
    split_file t column sep (Some (c :: u)) None = (out, None) /\ holds out ((headers ++ [c :: u]) :: concat rows) /\
    Forall2 (target_rows sep position) lines rows.
Proof. exact (split_target_end t headers lines column sep c u). Qed.

(** transform --eval, where [f] is what the expression gives *)
Theorem C126_transform_eval lower strip upper unidecode fingerprint t headers lines column operations target after f :
  holds t (headers :: lines) -> In column headers -> rectangular (length headers) lines -> plain_name target ->
  (forall line cell position, In line lines -> nth_error headers position = Some column -> nth_error line position = Some cell ->
     exists v, f cell = Ok v /\ plain_cell (written v)) ->
  exists position headers' rows out, nth_error headers position = Some column /\
    transform_file lower strip upper unidecode fingerprint t column operations target after (Some f) = (out, None) /\ holds out (headers' :: rows) /\
    match target with None => headers' = headers | Some n => change true after position (length headers) headers n headers' end /\
    Forall2 (fun line row => exists cell v, nth_error line position = Some cell /\ f cell = Ok v /\
               change (match target with Some _ => true | None => false end) after position (length headers) line (written v) row) lines rows.
Proof.
  intros H1 H2 H3 H4 H5. exact (transform_end lower strip upper unidecode fingerprint t headers lines column operations target after (Some f) f H1 H2 H3 eq_refl H4 H5).
Qed.

(** transform with operations: each cell of the column is changed by all the operations, in order *)
Theorem C126_transform lower strip upper unidecode fingerprint t headers lines column operations names target after :
  let does := applied [(codes "fingerprint", fingerprint); (codes "lower", lower); (codes "squeeze", fun s => squeeze s false); (codes "strip", strip);
                       (codes "unidecode", unidecode); (codes "upper", upper)] py_nat names in
  holds t (headers :: lines) -> In column headers -> rectangular (length headers) lines -> plain_name target ->
  is_split (codes ",") operations names -> Forall known names -> len_last names ->
  (forall s r, plain_cell s -> does s r -> plain_cell r) ->
  exists position headers' rows out, nth_error headers position = Some column /\
    transform_file lower strip upper unidecode fingerprint t column operations target after None = (out, None) /\ holds out (headers' :: rows) /\
    match target with None => headers' = headers | Some n => change true after position (length headers) headers n headers' end /\
    Forall2 (fun line row => exists cell r, nth_error line position = Some cell /\ does cell r /\
               change (match target with Some _ => true | None => false end) after position (length headers) line r row) lines rows.
Proof.
  intros does H1 H2 H3 H4 Hs Hk Hl Hp. destruct (chain_known lower strip upper unidecode fingerprint operations names Hs Hk) as (f & Ef & F1 & _ & F3).
  destruct (transform_end lower strip upper unidecode fingerprint t headers lines column operations target after None f H1 H2 H3 Ef H4) as (position & headers' & rows & out & A & B & C & D & E).
  - intros line cell position Hin _ Hc. destruct (F1 Hl cell) as [v Ev]. exists v. split; [exact Ev|]. apply (Hp cell); [|apply F3; exact Ev].
    pose proof (holds_good t _ H1) as G. inversion G as [|? ? _ Gl]; subst. rewrite Forall_forall in Gl. specialize (Gl line Hin). rewrite Forall_forall in Gl.
    apply Gl. eapply nth_error_In; eauto.
  - exists position, headers', rows, out. repeat (split; [assumption|]). clear -E F3. induction E as [|line row lines rows (cell & v & E1 & E2 & E3) E IH]; constructor; [|exact IH].
    exists cell, (written v). split; [exact E1|]. split; [apply F3; exact E2|exact E3].
Qed.

(** cluster: the report is the one of the table *)
Theorem C126_cluster fingerprint t table algorithm kind column now took : holds t table ->
  cluster_file fingerprint t algorithm kind column now took = cluster_report fingerprint table algorithm kind column now took.
Proof. exact (cluster_end fingerprint t table algorithm kind column now took). Qed.

Definition sample : str := T "id,v^$1,'a|b,c'^$2,^$".
Example split_sample : split_file sample (T "v") (T "|") None (Some (T "w")) = (T "id,w^$1,a^$1,'b,c'^$2,^$", None).
Proof. vm_compute. reflexivity. Qed.
Example split_sample_target : split_file sample (T "v") (T "|") (Some (T "w")) None = (T "id,v,w^$1,'a|b,c',a^$1,'a|b,c',a,'b,c'^$2,^$", None).
Proof. vm_compute. reflexivity. Qed.
Definition id (s : str) : str := s.
Example transform_sample : transform_file (@rev N) id id id id sample (T "v") (T "lower,squeeze,len") (Some (T "n")) true None = (T "id,v,n^$1,'a|b,c',5^$2,,0^$", None).
Proof. vm_compute. reflexivity. Qed.

(** * C127: the rows that make the commands fail *)
(** a row that does not reach the column: the rows before it have been written *)
Theorem C127_split_short t0 t column h1 h2 before short after sep target rename out : ~ In column h1 -> plain ((h1 ++ column :: h2) :: before ++ short :: after) ->
  file_text ((h1 ++ column :: h2) :: before ++ short :: after) t -> file_text ((h1 ++ column :: h2) :: before) t0 -> length short <= length h1 ->
  split_file t0 column sep target rename = (out, None) -> split_file t column sep target rename = (out, Some IndexError).
Proof.
  intros Hh Hp H H0 Hs. apply (split_short t0 t column h1 h2 before Hh) with (short := short) (after := after) (stop := None); [|apply holds_read; apply plain_holds; assumption|exact Hs].
  apply holds_read. apply plain_holds; [exact H0|]. unfold plain in *. inversion Hp as [|? ? G1 G2]; subst. constructor; [exact G1|]. apply Forall_app in G2 as [G2 _]. exact G2.
Qed.
Theorem C127_transform_short lower strip upper unidecode fingerprint t0 t column h1 h2 before short after operations target aft evaluate out :
  ~ In column h1 -> plain ((h1 ++ column :: h2) :: before ++ short :: after) ->
  file_text ((h1 ++ column :: h2) :: before ++ short :: after) t -> file_text ((h1 ++ column :: h2) :: before) t0 -> length short <= length h1 ->
  transform_file lower strip upper unidecode fingerprint t0 column operations target aft evaluate = (out, None) ->
  transform_file lower strip upper unidecode fingerprint t column operations target aft evaluate = (out, Some IndexError).
Proof.
  intros Hh Hp H H0 Hs. apply (transform_short t0 t column h1 h2 before Hh) with (short := short) (after := after) (stop := None); [|apply holds_read; apply plain_holds; assumption|exact Hs].
  apply holds_read. apply plain_holds; [exact H0|]. unfold plain in *. inversion Hp as [|? ? G1 G2]; subst. constructor; [exact G1|]. apply Forall_app in G2 as [G2 _]. exact G2.
Qed.
(** cluster prints nothing *)
Theorem C127_cluster_short fingerprint t column h1 h2 rows short kind now took : ~ In column h1 -> holds t ((h1 ++ column :: h2) :: rows) ->
  In short rows -> length short <= length h1 -> cluster_file fingerprint t (codes "fingerprint_collision") kind column now took = Err IndexError.
Proof. intros Hh H. apply (cluster_short fingerprint t h1 h2 rows None short kind column now took Hh). apply holds_read. exact H. Qed.
(** a cell that is too long: the rows before it have been written *)
Theorem C127_split_long t0 t column h1 h2 before row after sep target rename out : ~ In column h1 -> plain ((h1 ++ column :: h2) :: before) ->
  file_text ((h1 ++ column :: h2) :: before ++ row :: after) t -> file_text ((h1 ++ column :: h2) :: before) t0 -> Forall clean row -> ~ Forall readable row ->
  split_file t0 column sep target rename = (out, None) -> split_file t column sep target rename = (out, Some CsvError).
Proof.
  intros Hh Hp H H0 Hc Hr. apply (split_stop t0 t column h1 h2 before Hh); [apply holds_read; apply plain_holds; assumption|].
  apply (C123_long ((h1 ++ column :: h2) :: before) row after _ row); [exact H| | |apply good_readable; exact Hp|exact Hr].
  - rewrite <- (map_U_good _ Hp) at 2. apply rows_read_U.
  - clear -Hc. induction Hc as [|c row Hc HF IH]; constructor; [|exact IH]. apply universal_iff. apply universal_id. exact Hc.
Qed.
(** there is no row, or no such column: nothing is written *)
Theorem C127_split_nothing t column sep target rename : (holds t [] -> split_file t column sep target rename = ([], Some AttributeError)) /\
  (forall headers rows, holds t (headers :: rows) -> ~ In column headers -> split_file t column sep target rename = ([], Some ValueError)).
Proof.
  split; [intros H|intros headers rows H Hn]; unfold split_file, file_reader; rewrite (holds_read t _ H); [reflexivity|].
  replace (index_of column headers) with (@None nat); [reflexivity|]. symmetry. clear -Hn. induction headers as [|h headers IH]; [reflexivity|]. cbn [index_of].
  destruct (eqb column h) eqn:E; [exfalso; apply Hn; left; apply eqb_str in E; congruence|]. rewrite IH; [reflexivity|]. intros F. apply Hn. right. exact F.
Qed.

Example blank_line : split_file (T "id,v$1,a|b$$2,c$") (T "v") (T "|") None None = (T "id,v^$1,a^$1,b^$", Some IndexError).
Proof. vm_compute. reflexivity. Qed.

(** * C128: the operations of transform *)
(** a name that is not one of the seven: nothing is read, nothing is written *)
Theorem C128_unknown lower strip upper unidecode fingerprint t column operations names name target after :
  is_split (codes ",") operations names -> In name names -> ~ known name ->
  transform_file lower strip upper unidecode fingerprint t column operations target after None = ([], Some KeyError).
Proof. exact (transform_unknown lower strip upper unidecode fingerprint t column operations names name target after). Qed.
(** an operation after len: no row is written but the header *)
Theorem C128_len_last lower strip upper unidecode fingerprint t h1 h2 column row rows operations names target after :
  ~ In column h1 -> holds t ((h1 ++ column :: h2) :: row :: rows) -> length h1 < length row ->
  is_split (codes ",") operations names -> Forall known names -> ~ len_last names ->
  exists e headers', (e = AttributeError \/ e = TypeError) /\
    transform_file lower strip upper unidecode fingerprint t column operations target after None = (writerow headers', Some e).
Proof.
  intros Hh H. apply (transform_len_first lower strip upper unidecode fingerprint t h1 h2 column row rows None operations names target after Hh). apply holds_read. exact H.
Qed.
Example operations_fail : map (fun ops => snd (transform_file id id id id id sample (T "v") (T ops) None false None))
  ["lower"; "lower, upper"; ""; "len,lower"; "len,squeeze"; "strip,len"; "title"]%string =
  [None; Some KeyError; Some KeyError; Some AttributeError; Some TypeError; None; Some KeyError].
Proof. vm_compute. reflexivity. Qed.

Print Assumptions C123_read.
Print Assumptions C123_line_ends.
Print Assumptions C123_same.
Print Assumptions C123_long.
Print Assumptions C123_cells.
Print Assumptions C123_any.
Print Assumptions C124_kept_refuted.
Print Assumptions C124_inside_partial.
Print Assumptions C125_write.
Print Assumptions C125_read_back.
Print Assumptions C125_stable.
Print Assumptions C126_split.
Print Assumptions C126_split_target.
Print Assumptions C126_transform_eval.
Print Assumptions C126_transform.
Print Assumptions C126_cluster.
Print Assumptions C127_split_short.
Print Assumptions C127_transform_short.
Print Assumptions C127_cluster_short.
Print Assumptions C127_split_long.
Print Assumptions C127_split_nothing.
Print Assumptions C128_unknown.
Print Assumptions C128_len_last.
