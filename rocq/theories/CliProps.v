(** C51, C52, C72, C73, C74: the split, transform and cluster commands *)
From Coq Require Import String Sorted.
From Verif Require Import Base LevModel StringsModel GraphModel CliModel CliSpec CliProofs.
Open Scope nat_scope.
Open Scope list_scope.
Notation length := List.length.
Notation concat := List.concat.

(** C51: without a target column, split writes for each value of a cell one row where only that cell is changed, and all the
    rows have the width of the header *)
Theorem C51_split_partial headers lines column sep rename : In column headers -> sep <> [] -> rectangular (length headers) lines ->
  exists position rows headers', nth_error headers position = Some column /\
    split_action (headers :: lines) column sep None rename = Ok (headers' :: concat rows) /\
    match rename with None => headers' = headers | Some r => cell_replaced position headers r headers' end /\
    Forall2 (fun line rs => exists cell pieces, nth_error line position = Some cell /\ is_split sep cell pieces /\
               Forall2 (cell_replaced position line) pieces rs) lines rows /\
    rectangular (length headers) (headers' :: concat rows).
Proof. exact (split_action_plain headers lines column sep rename). Qed.

(** C51: what str.split gives is determined by the specification *)
Theorem C51_split_unique_partial sep s p1 p2 : sep <> [] -> is_split sep s p1 -> is_split sep s p2 -> p1 = p2.
Proof. exact (is_split_unique sep s p1 p2). Qed.

Example split_plain :
  split_action [[codes "id"; codes "v"]; [codes "1"; codes "a|b||c"]; [codes "2"; []]] (codes "v") (codes "|") None (Some (codes "w")) =
  Ok [[codes "id"; codes "w"]; [codes "1"; codes "a"]; [codes "1"; codes "b"]; [codes "1"; []]; [codes "1"; codes "c"]; [codes "2"; []]].
Proof. vm_compute. reflexivity. Qed.

Definition target_table : list (list str) := [[codes "id"; codes "v"]; [codes "1"; codes "a|b"]; [codes "2"; []]].

(** C51: with a target column, the rows do not have the width of the header *)
Theorem C51_split_target_refuted : exists out,
  rectangular 2 target_table /\ split_action target_table (codes "v") (codes "|") (Some (codes "w")) None = Ok out /\
  map (@List.length str) out = [3; 3; 4; 2].
Proof. eexists. split; [repeat constructor|]. split; vm_compute; reflexivity. Qed.

(** C51: transform rewrites the cell, or adds exactly one column, when the operations are known and succeed on the cells *)
Theorem C51_transform_partial {V} `{EqDec V} (OPERATIONS : string -> option (V -> res V)) headers lines column operations chain target after :
  In column headers -> rectangular (length headers) lines ->
  Forall2 (fun name op => OPERATIONS name = Some op) operations chain ->
  (forall line cell position, In line lines -> nth_error headers position = Some column -> nth_error line position = Some cell ->
     exists v, foldM (fun v op => op v) chain cell = Ok v) ->
  exists position headers' rows, nth_error headers position = Some column /\
    transform_action OPERATIONS (headers :: lines) column operations target after = Ok (headers' :: rows) /\
    match target with None => headers' = headers | Some t => change true after position (length headers) headers t headers' end /\
    Forall2 (fun line row => exists cell v, nth_error line position = Some cell /\ foldM (fun v op => op v) chain cell = Ok v /\
               change (match target with Some _ => true | None => false end) after position (length headers) line v row) lines rows /\
    rectangular (length headers + match target with Some _ => 1 | None => 0 end) (headers' :: rows).
Proof. exact (transform_action_ok OPERATIONS headers lines column operations chain target after). Qed.

Example transform_after :
  transform_action (fun name => if string_dec name "double" then Some (fun s : str => Ok (s ++ s)) else None)
    [[codes "a"; codes "b"]; [codes "x"; codes "y"]; [[]; codes "z"]] (codes "a") ["double"%string] (Some (codes "aa")) true =
  Ok [[codes "a"; codes "aa"; codes "b"]; [codes "x"; codes "xx"; codes "y"]; [[]; []; codes "z"]].
Proof. vm_compute. reflexivity. Qed.

(** C72: with a target column, the k-th row of a line is the line followed by its first k values *)
Theorem C72_split_target headers lines column sep c t : In column headers -> sep <> [] -> rectangular (length headers) lines ->
  exists position rows, nth_error headers position = Some column /\
    split_action (headers :: lines) column sep (Some (c :: t)) None = Ok ((headers ++ [c :: t]) :: concat rows) /\
    Forall2 (target_rows sep position) lines rows.
Proof. exact (split_action_target headers lines column sep c t). Qed.

(** C72: the result is rectangular exactly when no cell of the column is empty or contains the separator *)
Theorem C72_rectangular sep position width lines rows : sep <> [] -> rectangular width lines -> Forall2 (target_rows sep position) lines rows ->
  (rectangular (width + 1) (concat rows) <->
   Forall (fun line => exists cell, nth_error line position = Some cell /\ cell <> [] /\ forall a b, cell <> a ++ sep ++ b) lines).
Proof. exact (target_rectangular sep position width lines rows). Qed.

Example split_target_rows :
  split_action target_table (codes "v") (codes "|") (Some (codes "w")) None =
  Ok [[codes "id"; codes "v"; codes "w"]; [codes "1"; codes "a|b"; codes "a"]; [codes "1"; codes "a|b"; codes "a"; codes "b"]; [codes "2"; []]].
Proof. vm_compute. reflexivity. Qed.

(** C52: a backslash is written as it is, and reads back as something else, or not at all *)
Theorem C52_refuted :
  read_toml (escape_string (codes "C:\temp") ++ [34%N]) = Some (codes "C:" ++ 9%N :: codes "emp", []) /\
  read_toml (escape_string (codes "\d") ++ [34%N]) = None.
Proof. split; vm_compute; reflexivity. Qed.

(** C73: a string reads back exactly when it has no backslash and no control character but tabulations and line feeds *)
Theorem C73_read_back s tail : read_toml (escape_string s ++ 34%N :: tail) = Some (s, tail) <-> forallb safe s = true.
Proof. exact (read_toml_iff s tail). Qed.

Example read_back_quotes : read_toml (escape_string (codes "a ""b""" ++ 10%N :: codes "c") ++ [34%N; 93%N]) = Some (codes "a ""b""" ++ 10%N :: codes "c", [93%N]).
Proof. vm_compute. reflexivity. Qed.

(** C74: one cluster for each non-empty key shared by two distinct cell values *)
Theorem C74_report fingerprint headers lines column : In column headers -> rectangular (length headers) lines ->
  exists position cells ks rep, nth_error headers position = Some column /\
    Forall2 (fun line c => nth_error line position = Some c) lines cells /\
    cluster_action fingerprint (headers :: lines) column = Ok rep /\
    r_lines rep = length lines /\
    (exists vs, NoDup vs /\ (forall v, In v vs <-> In v cells) /\ r_nb_distinct_values rep = length vs) /\
    NoDup ks /\
    (forall k, In k ks <-> k <> [] /\ exists u v, In u cells /\ In v cells /\ u <> v /\ fingerprint u = k /\ fingerprint v = k) /\
    r_nb_clusters rep = length ks /\
    map rc_id (r_clusters rep) = seq 0 (length ks) /\
    Forall2 (cluster_of fingerprint cells) ks (r_clusters rep).
Proof. exact (cluster_action_ok fingerprint headers lines column). Qed.

Example report_example :
  cluster_action (fun s => firstn 1 s) [[codes "v"]; [codes "ab"]; [codes "ac"]; [codes "b"]; [codes "ac"]; [[]]] (codes "v") =
  Ok {| r_lines := 5; r_nb_distinct_values := 4; r_nb_clusters := 1;
        r_clusters := [ {| rc_id := 0; rc_nb_values := 2; rc_nb_rows := 3; rc_harmonized := codes "ac";
                           rc_values := [(codes "ac", 2); (codes "ab", 1)] |} ] |}.
Proof. vm_compute. reflexivity. Qed.

Print Assumptions C51_split_partial.
Print Assumptions C51_split_unique_partial.
Print Assumptions C51_split_target_refuted.
Print Assumptions C51_transform_partial.
Print Assumptions C72_split_target.
Print Assumptions C72_rectangular.
Print Assumptions C52_refuted.
Print Assumptions C73_read_back.
Print Assumptions C74_report.
