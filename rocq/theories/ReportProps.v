(** The reports of the clustering command. *)
From Coq Require Import Ascii String QArith Qabs Lia.
From Verif Require Import Base BaseFacts LevModel StringsModel PhoneticsModel PairwiseModel GraphModel SortModel BlockingModel CliModel CliSpec CliProofs.
From Verif Require Import ReportModel ReportSpec ReportProofs ReportHtmlProofs.
Open Scope nat_scope.
Open Scope list_scope.
Notation length := List.length.
Notation concat := List.concat.

Definition only : str := codes "fingerprint_collision".
Definition values_of (rc : report_cluster) : list str := map fst (rc_values rc).

(** ** C111: the TOML report reads back as the result of the command, which C74 describes *)
Theorem C111_toml fingerprint table column now took rep :
  cluster_action fingerprint table column = Ok rep ->
  Forall (fun rc => Forall (fun v => forallb safe v = true) (values_of rc)) (r_clusters rep) ->
  valid_date (year now) (month now) (day now) (hour now) (minute now) (second now) -> (0 <= took)%Q ->
  exists text seconds, cluster_report fingerprint table only (codes "toml") column now took = Ok text /\
    read_document text = Some (report_tables (year now, month now, day now) (hour now, minute now, second now) only seconds rep) /\
    (Qabs (seconds - took) <= 1 # 2000000)%Q.
Proof.
  intros E S D T. unfold cluster_action in E. unfold cluster_report. change (eqb only (codes "fingerprint_collision")) with true. cbn [negb]. cbv iota.
  destruct (custom_reader table column) as [[[headers position] reader]|]; [|discriminate E]. cbn [bind] in *.
  destruct (mapM _ reader) as [cells|]; [|discriminate E]. cbn [bind] in *. change (eqb (codes "toml") (codes "html")) with false. change (eqb (codes "toml") (codes "toml")) with true. cbv iota.
  set (clusters := key_collision_key _ _ _ _ _) in *. set (m := {| m_algorithm := only; m_took := took; m_date := now; m_lines := length reader |}).
  assert (S' : Forall (fun rc => Forall (fun vn => forallb safe (fst vn) = true) (rc_values rc)) (r_clusters rep)).
  { revert S. apply Forall_impl. intros rc. unfold values_of. rewrite Forall_map. exact (fun H => H). }
  destruct (report_read m (counter cells) clusters rep E S' D eq_refl) as (text & R & Doc). exists text, (Z.of_N (micro took) # 1000000)%Q.
  split; [exact R|]. split; [exact Doc|]. apply micro_near, T.
Qed.
Print Assumptions C111_toml.

(** the other types and algorithms are refused, a table without the column too *)
Theorem C111_refused fingerprint table algorithm kind column now took text :
  cluster_report fingerprint table algorithm kind column now took = Ok text -> algorithm = only /\ (kind = codes "toml" \/ kind = codes "html").
Proof.
  unfold cluster_report. fold only. destruct (eqb algorithm only) eqn:A; [|discriminate]. apply (proj1 (eqb_true _ _)) in A as ->. cbn [negb]. cbv iota.
  destruct (custom_reader table column) as [[[headers position] reader]|]; [|discriminate]. cbn [bind].
  destruct (mapM _ reader) as [cells|]; [|discriminate]. cbn [bind].
  destruct (eqb kind (codes "html")) eqn:H; [apply (proj1 (eqb_true _ _)) in H; auto|].
  destruct (eqb kind (codes "toml")) eqn:T; [apply (proj1 (eqb_true _ _)) in T; auto|discriminate].
Qed.
Print Assumptions C111_refused.

Definition at_noon : datetime := {| year := 2018; month := 2; day := 28; hour := 12; minute := 5; second := 0; microsecond := 120 |}.
Definition sample : list (list str) := [[codes "v"]; [codes "ab"]; [codes "a""c"]; [codes "b"]; [codes "a""c"]; [[]]].
Example toml_sample :
  match cluster_report (fun s => firstn 1 s) sample only (codes "toml") (codes "v") at_noon (5 # 4) with
  | Ok text => read_document text
  | Err _ => None
  end = Some [
    (false, codes "info", [named "date" (TDate (2018, 2, 28)%N (12, 5, 0)%N); named "algorithm" (TString only)]);
    (false, codes "stats", [named "lines" (TInt 5); named "nb_distinct_values" (TInt 4); named "nb_clusters" (TInt 1); named "took" (TFloat (1250000 # 1000000))]);
    (true, codes "cluster", [named "id" (TInt 0); named "nb_values" (TInt 2); named "nb_rows" (TInt 3); named "harmonized" (TString (codes "a""c"));
       named "values" (TArray [TArray [TArray [TString (codes "a""c")]; TArray [TInt 2]]; TArray [TArray [TString (codes "ab")]; TArray [TInt 1]]]);
       named "harmonize" (TBool false)])].
Proof. vm_compute. reflexivity. Qed.

(** ** C112: numbers and durations are written as they should *)
Theorem C112_numbers n : comma_number (py_grouped n) = Some (N.of_nat n).
Proof. apply py_grouped_number. Qed.
Print Assumptions C112_numbers.

(** a timedelta prints its number of microseconds, the nearest to what it was made of *)
Theorem C112_durations q : (0 <= q)%Q ->
  exists microseconds, read_duration (timedelta_str q) = Some microseconds /\ (Qabs (inject_Z (Z.of_N microseconds) - q) <= 1 # 2)%Q.
Proof.
  intros Q0. exists (Z.to_N (round_even q)). split; [apply timedelta_read|]. rewrite Z2N.id by now apply round_even_nonneg. apply round_even_near.
Qed.
Print Assumptions C112_durations.

Example numbers : py_grouped 0 = codes "0" /\ py_grouped 999 = codes "999" /\ py_grouped 1000 = codes "1,000" /\ py_grouped 4045 = codes "4,045" /\
  comma_number (codes "1000") = None /\ comma_number (codes "1,00") = None /\ comma_number (codes "0,100") = None /\ comma_number (codes "1,000,000") = Some 1000000%N.
Proof. vm_compute. repeat split. Qed.
Example durations :
  timedelta_str 0 = codes "0:00:00" /\ timedelta_str (3661000000 # 1) = codes "1:01:01" /\ timedelta_str (1 # 2) = codes "0:00:00" /\ timedelta_str (3 # 2) = codes "0:00:00.000002" /\
  timedelta_str (86400000000 # 1) = codes "1 day, 0:00:00" /\ timedelta_str (200000000001 # 1) = codes "2 days, 7:33:20.000001".
Proof. vm_compute. repeat split. Qed.

(** ** C113: the HTML report closes its tags, lists the values, says how long the command took; it does none of the three *)
Definition reported (fingerprint : str -> str) table column now took rep text : Prop :=
  cluster_action fingerprint table column = Ok rep /\ cluster_report fingerprint table only (codes "html") column now took = Ok text.

Theorem C113_closed_refuted :
  ~ (forall fingerprint table column now took rep text, reported fingerprint table column now took rep text -> balanced (read_html text)).
Proof.
  intros H. specialize (H (fun s => s) [[codes "v"]] (codes "v") at_noon 0%Q). unfold reported in H.
  specialize (H _ _ (conj eq_refl eq_refl)). vm_compute in H. discriminate H.
Qed.
Print Assumptions C113_closed_refuted.

Theorem C113_values_refuted :
  ~ (forall fingerprint table column now took rep text, reported fingerprint table column now took rep text ->
     contents (codes "li") (read_html text) = map trim (filter not_blank (concat (map values_of (r_clusters rep))))).
Proof.
  intros H. specialize (H (fun s => firstn 1 s) [[codes "v"]; [codes "a</li><li>b"]; [codes "ac"]] (codes "v") at_noon 0%Q). unfold reported in H.
  specialize (H _ _ (conj eq_refl eq_refl)). vm_compute in H. discriminate H.
Qed.
Print Assumptions C113_values_refuted.

(** one hour, one minute and one second are shown as 3661 microseconds *)
Theorem C113_took_refuted :
  ~ (forall fingerprint table column now took rep text, reported fingerprint table column now took rep text -> (0 <= took)%Q ->
     exists cell microseconds, cell_after "Took" (read_html text) = Some cell /\ read_duration cell = Some microseconds /\
       (Qabs (inject_Z (Z.of_N microseconds) - took * (1000000 # 1)) <= 1 # 2)%Q).
Proof.
  intros H. specialize (H (fun s => s) [[codes "v"]] (codes "v") at_noon (3661 # 1)%Q). unfold reported in H.
  specialize (H _ _ (conj eq_refl eq_refl) ltac:(discriminate)). destruct H as (cell & us & C & R & D).
  vm_compute in C. injection C as <-. vm_compute in R. injection R as <-. vm_compute in D. now apply D.
Qed.
Print Assumptions C113_took_refuted.

(** ** C114: what the HTML report is, as long as no value has the character < *)
Theorem C114_page fingerprint table column now took rep :
  cluster_action fingerprint table column = Ok rep -> Forall (fun rc => Forall (fun v => ~ In 60%N v) (values_of rc)) (r_clusters rep) ->
  valid_date (year now) (month now) (day now) 0 0 0 ->
  exists text date lines distinct found duration captions,
    cluster_report fingerprint table only (codes "html") column now took = Ok text /\
    read_html text =
      Open (codes "html") :: page date only lines distinct found duration (combine captions (map values_of (r_clusters rep))) ++ [Open (codes "html")] /\
    scalar (date ++ codes "T00:00:00") = Some (TDate (year now, month now, day now) (0, 0, 0)%N) /\
    comma_number lines = Some (N.of_nat (r_lines rep)) /\ comma_number distinct = Some (N.of_nat (r_nb_distinct_values rep)) /\
    comma_number found = Some (N.of_nat (r_nb_clusters rep)) /\ read_duration duration = Some (Z.to_N (round_even took)) /\
    Forall2 is_caption (r_clusters rep) captions.
Proof.
  intros E V D. unfold cluster_action in E. unfold cluster_report. change (eqb only (codes "fingerprint_collision")) with true. cbn [negb]. cbv iota.
  destruct (custom_reader table column) as [[[headers position] reader]|]; [|discriminate E]. cbn [bind] in *.
  destruct (mapM _ reader) as [cells|]; [|discriminate E]. cbn [bind] in *. change (eqb (codes "html") (codes "html")) with true. cbv iota.
  set (clusters := key_collision_key _ _ _ _ _) in *. set (m := {| m_algorithm := only; m_took := took; m_date := now; m_lines := length reader |}).
  unfold render in E. destruct (mapM _ (enumerate clusters)) as [rcs|] eqn:M; [|discriminate E]. cbn [bind] in E. injection E as <-.
  cbn [r_clusters r_lines r_nb_distinct_values r_nb_clusters] in *. rewrite enumerate_from in M. destruct (clusters_shown _ _ _ _ M) as [B C]. rewrite <- enumerate_from in B, C.
  eexists _, _, _, _, _, _, _. split; [reflexivity|]. split.
  { rewrite report_tokens; [rewrite shown_combine, B; reflexivity|reflexivity|]. clearbody clusters.
    assert (F : Forall (Forall no_lt) (map (fun ic : nat * list str => by_rows (counter cells) (snd ic)) (enumerate clusters))).
    { rewrite B. apply Forall_forall. intros vs I. apply in_map_iff in I. destruct I as (rc & <- & I). rewrite Forall_forall in V. specialize (V rc I).
      revert V. unfold values_of. apply Forall_impl. intros v. apply no_lt_in. }
    apply Forall_forall. intros c I. apply (by_rows_no_lt (counter cells)). rewrite Forall_forall in F. apply F. apply in_map_iff.
    destruct (In_nth_error _ _ I) as [i Hi]. exists (i, c). split; [reflexivity|]. apply (nth_error_In _ i). apply enumerate_nth, Hi. }
  split; [apply date_read, D|]. split; [apply py_grouped_number|]. split; [apply py_grouped_number|]. split; [apply py_grouped_number|].
  split; [apply timedelta_read|exact C].
Qed.
Print Assumptions C114_page.

(** so every value is an item of a list, but the blank ones; two tags are never closed, the last one should have closed the first *)
Theorem C114_lists date algorithm lines distinct found duration clusters :
  let html := Open (codes "html") :: page date algorithm lines distinct found duration clusters ++ [Open (codes "html")] in
  contents (codes "li") html = map trim (filter not_blank (concat (map snd clusters))) /\
  open_tags [] html = Some [codes "html"; codes "html"] /\
  balanced (Open (codes "html") :: page date algorithm lines distinct found duration clusters ++ [Close (codes "html")]).
Proof.
  intros html. unfold html, balanced. rewrite contents_skip by (intros n H; injection H as <-; reflexivity). rewrite lists_page. cbn [open_tags].
  rewrite !closed_page. cbn. rewrite app_nil_r. repeat split.
Qed.
Print Assumptions C114_lists.

Example html_sample :
  match cluster_report (fun s => firstn 1 s) sample only (codes "html") (codes "v") at_noon (5 # 4) with
  | Ok text => (contents (codes "li") (read_html text), contents (codes "td") (read_html text), open_tags [] (read_html text))
  | Err _ => ([], [], None)
  end = ([codes "a""c"; codes "ab"], [codes "2018-02-28"; only; codes "5"; codes "4"; codes "1"; codes "0:00:00.000001"], Some [codes "html"; codes "html"]).
Proof. vm_compute. reflexivity. Qed.
