(** Reading any text, csv or not. *)
From Coq Require Import String Lia.
From Verif Require Import Base LevModel PairwiseModel GraphModel CliModel GraphModel CsvModel CsvProofs.
Open Scope nat_scope.
Open Scope list_scope.
Notation length := List.length.
Notation concat := List.concat.

Definition occ (c : N) (s : str) : nat := count_occ N.eq_dec s c.
Lemma occ_app c a b : occ c (a ++ b) = occ c a + occ c b.
Proof. apply count_occ_app. Qed.
Lemma occ_cons c x s : occ c (x :: s) = (if N.eq_dec x c then 1 else 0) + occ c s.
Proof. unfold occ. cbn. destruct (N.eq_dec x c); lia. Qed.
Lemma occ_rev c s : occ c (rev s) = occ c s.
Proof. induction s as [|x s IH]; [reflexivity|]. cbn [rev]. rewrite occ_app, IH, !occ_cons. unfold occ. cbn. lia. Qed.
Lemma occ_concat_rev c l : occ c (concat (rev l)) = occ c (concat l).
Proof. induction l as [|x l IH]; [reflexivity|]. cbn [rev]. rewrite concat_app, occ_app, IH. cbn [concat]. rewrite app_nil_r, occ_app. lia. Qed.

(** lines *)
Definition clean_line (l : str) : Prop := exists a, ~ In LF a /\ ~ In CR a /\ (l = a \/ l = a ++ [LF]).
Lemma file_lines_clean s : ~ In CR s -> forall cur, ~ In LF cur -> ~ In CR cur -> Forall clean_line (file_lines cur s).
Proof.
  induction s as [|x s IH]; intros Hs cur H1 H2; cbn [file_lines].
  - destruct cur as [|y cur]; [constructor|]. constructor; [|constructor]. exists (rev (y :: cur)). rewrite <- !in_rev. auto.
  - destruct (N.eqb_spec x LF) as [->|Hx].
    + constructor; [|apply IH; cbn in *; tauto]. exists (rev cur). rewrite <- !in_rev. cbn [rev]. auto.
    + apply IH; cbn in *; intuition congruence.
Qed.
Lemma file_lines_concat s : forall cur, concat (file_lines cur s) = rev cur ++ s.
Proof.
  induction s as [|x s IH]; intros cur; cbn [file_lines].
  - destruct cur; [reflexivity|]. cbn [concat]. rewrite !app_nil_r. reflexivity.
  - destruct (x =? LF)%N; [cbn [concat]; rewrite IH; cbn [rev app]; rewrite <- app_assoc; reflexivity|]. rewrite IH. cbn [rev]. rewrite <- app_assoc. reflexivity.
Qed.

Section Count.
Variable c : N.
Hypothesis plain_c : special c = false.
Definition held (r : reader) : nat := occ c (field r) + occ c (concat (fields r)).
Lemma special_not x : special x = true -> x <> c.
Proof. intros H E. congruence. Qed.
Lemma held_save s r : held (save_field s r) = held r.
Proof. unfold held. cbn [save_field field fields concat]. rewrite occ_app, occ_rev. unfold occ at 1. cbn. lia. Qed.
Lemma held_add x s r r' : add_char x s r = Ok r' -> held r' = held r + occ c [x] /\ state r' = s /\ field_len r' = (field_len r + 1)%N.
Proof. unfold add_char. destruct (N.leb _ _); [discriminate|]. intros E. injection E as <-. unfold held. cbn [field fields state field_len]. rewrite !(occ_cons c x). unfold occ. cbn. split; [lia|auto]. Qed.
Lemma skip_special x : special x = true -> occ c [x] = 0.
Proof. intros H. rewrite occ_cons. destruct (N.eq_dec x c) as [->|]; [congruence|reflexivity]. Qed.

(** between records the current field is empty *)
Definition inv (r : reader) : Prop := match state r with START_RECORD | EAT_CRNL => field r = [] | _ => True end.
Lemma inv_process r o r' : inv r -> process_char r o = Ok r' -> inv r'.
Proof.
  intros H E. unfold process_char, add_char in E. unfold inv in *. destruct (state r) eqn:S, o as [x|];
    repeat match type of E with context [if ?b then _ else _] => destruct b end; try discriminate; injection E as <-; cbn [state field save_field to_state]; try exact I; try reflexivity; try exact H; rewrite ?S; auto.
Qed.
Lemma inv_fold l r r' : inv r -> foldM process_char l r = Ok r' -> inv r'.
Proof.
  revert r. induction l as [|o l IH]; intros r H E; cbn [foldM] in E; [injection E as <-; exact H|]. destruct (process_char r o) as [r1|] eqn:E1; [|discriminate].
  apply (IH r1); [exact (inv_process r o r1 H E1)|exact E].
Qed.

(** one character *)
Lemma process_some r x : state r <> EAT_CRNL -> (field_len r < field_limit)%N -> exists r', process_char r (Some x) = Ok r' /\
  (field_len r' <= field_len r + 1)%N /\ held r' = held r + occ c [x] /\ (newline x = false -> state r' <> EAT_CRNL).
Proof.
  intros S L.
  assert (A : forall s, s <> EAT_CRNL -> exists r', add_char x s r = Ok r' /\ (field_len r' <= field_len r + 1)%N /\ held r' = held r + occ c [x] /\ (newline x = false -> state r' <> EAT_CRNL)).
  { intros s Hs. destruct (add_char x s r) as [r'|] eqn:E; [|unfold add_char in E; rewrite (proj2 (N.leb_gt _ _) L) in E; discriminate].
    exists r'. destruct (held_add x s r r' E) as (H1 & H2 & H3). split; [reflexivity|]. split; [lia|]. split; [exact H1|]. congruence. }
  assert (Nl : newline x = true -> occ c [x] = 0) by (intros H; apply skip_special; unfold special; rewrite H; apply orb_true_r).
  assert (Nq : (x =? QUOTE)%N = true -> occ c [x] = 0) by (intros H; apply skip_special; unfold special; rewrite H; destruct (x =? COMMA)%N; reflexivity).
  assert (Nc : (x =? COMMA)%N = true -> occ c [x] = 0) by (intros H; apply skip_special; unfold special; rewrite H; reflexivity).
  unfold process_char. destruct (state r) eqn:Es; try congruence; destruct (newline x) eqn:E1, (x =? QUOTE)%N eqn:E2, (x =? COMMA)%N eqn:E3;
    try (apply A; discriminate); eexists; (split; [reflexivity|]); rewrite ?held_save; (split; [cbn; lia|]); (split; [|cbn; congruence]);
    try rewrite (Nl eq_refl); try rewrite (Nq eq_refl); try rewrite (Nc eq_refl); rewrite ?Nat.add_0_r; try reflexivity; unfold held; reflexivity.
Qed.
Lemma process_none r : exists r', process_char r None = Ok r' /\ (field_len r' <= field_len r)%N /\ held r' = held r /\ (state r' = START_RECORD \/ state r' = IN_QUOTED_FIELD).
Proof.
  unfold process_char. destruct (state r) eqn:E; eexists; (split; [reflexivity|]); rewrite ?held_save; cbn; (split; [lia|]); (split; [reflexivity|]); auto.
Qed.
Lemma process_line a : ~ In LF a -> ~ In CR a -> forall r, state r <> EAT_CRNL -> (field_len r + N.of_nat (length a) <= field_limit)%N ->
  exists r', foldM process_char (map Some a) r = Ok r' /\ (field_len r' <= field_len r + N.of_nat (length a))%N /\ held r' = held r + occ c a /\ state r' <> EAT_CRNL.
Proof.
  induction a as [|x a IH]; intros H1 H2 r S L; [exists r; cbn; repeat split; [lia|unfold occ; cbn; lia|exact S]|].
  cbn [map foldM]. cbn [length] in L. destruct (process_some r x S ltac:(lia)) as (r1 & E1 & L1 & O1 & S1). rewrite E1. cbn [bind].
  destruct (IH ltac:(cbn in H1; tauto) ltac:(cbn in H2; tauto) r1) as (r' & E & L' & O & S'); [|lia|].
  - apply S1. unfold newline. apply orb_false_iff. split; apply N.eqb_neq; intros ->; cbn in *; tauto.
  - exists r'. split; [exact E|]. cbn [length]. split; [lia|]. split; [|exact S']. rewrite O, O1. change (x :: a) with ([x] ++ a). rewrite occ_app. lia.
Qed.
Lemma foldM_app {A B} (f : B -> A -> res B) l1 l2 b : foldM f (l1 ++ l2) b = let! b := foldM f l1 b in foldM f l2 b.
Proof. revert b. induction l1 as [|a l1 IH]; intros b; [reflexivity|]. cbn [app foldM]. destruct (f b a); [cbn; apply IH|reflexivity]. Qed.
Lemma process_whole l : clean_line l -> forall r, state r <> EAT_CRNL -> (field_len r + N.of_nat (length l) <= field_limit)%N ->
  exists r', foldM process_char (map Some l ++ [None]) r = Ok r' /\ (field_len r' <= field_len r + N.of_nat (length l))%N /\ held r' = held r + occ c l /\
    (state r' = START_RECORD \/ state r' = IN_QUOTED_FIELD).
Proof.
  intros (a & H1 & H2 & El) r S L.
  assert (La : (N.of_nat (length a) <= N.of_nat (length l))%N) by (destruct El as [->| ->]; rewrite ?app_length; lia).
  destruct (process_line a H1 H2 r S ltac:(lia)) as (r1 & E1 & L1 & O1 & S1). destruct El as [->| ->].
  - rewrite foldM_app, E1. cbn [bind foldM]. destruct (process_none r1) as (r' & E & L' & O & S'). rewrite E. exists r'. split; [reflexivity|]. split; [lia|]. split; [lia|exact S'].
  - rewrite map_app, <- app_assoc, foldM_app, E1. cbn [bind map app foldM]. rewrite app_length in *. cbn [length] in *.
    destruct (process_some r1 LF S1 ltac:(lia)) as (r2 & E2 & L2 & O2 & _). rewrite E2. cbn [bind].
    destruct (process_none r2) as (r' & E & L' & O & S'). rewrite E. exists r'. split; [reflexivity|]. split; [lia|]. split; [rewrite occ_app; lia|exact S'].
Qed.
Lemma next_any lines : Forall clean_line lines -> forall r, inv r -> state r <> EAT_CRNL -> (state r = IN_QUOTED_FIELD \/ lines <> []) ->
  (field_len r + N.of_nat (length (concat lines)) <= field_limit)%N ->
  exists row used rest, next_record r lines = Ok (Some row, rest) /\ lines = used ++ rest /\ (lines <> [] -> used <> []) /\ occ c (concat row) = held r + occ c (concat used).
Proof.
  induction 1 as [|l lines Hl HF IH]; intros r V S Q L; cbn [next_record].
  - destruct Q as [Q|Q]; [|congruence]. rewrite Q. eexists _, [], []. split; [reflexivity|]. split; [reflexivity|]. split; [congruence|].
    rewrite occ_concat_rev. change (occ c (concat (fields (save_field IN_QUOTED_FIELD r)))) with (held (save_field IN_QUOTED_FIELD r)). rewrite held_save. unfold occ. cbn. lia.
  - cbn [concat] in L. rewrite app_length in L. destruct (process_whole l Hl r S ltac:(lia)) as (r' & E & L' & O & S'). rewrite E. cbn [bind]. destruct S' as [S'|S'].
    + rewrite S'. exists (rev (fields r')), [l], lines. split; [reflexivity|]. split; [reflexivity|]. split; [discriminate|]. rewrite occ_concat_rev. cbn [concat]. rewrite app_nil_r.
      rewrite <- O. unfold held. pose proof (inv_fold _ _ _ V E) as V'. unfold inv in V'. rewrite S' in V'. rewrite V'. reflexivity.
    + rewrite S'. destruct (IH r') as (row & used & rest & E2 & -> & _ & O2); [exact (inv_fold _ _ _ V E)|congruence|left; exact S'|lia|].
      exists row, (l :: used), rest. split; [exact E2|]. split; [reflexivity|]. split; [discriminate|]. cbn [concat]. rewrite occ_app. lia.
Qed.
Lemma rows_any fuel : forall lines, Forall clean_line lines -> length lines <= fuel -> (N.of_nat (length (concat lines)) <= field_limit)%N ->
  exists rows, read_rows fuel lines = (rows, None) /\ occ c (concat (concat rows)) = occ c (concat lines).
Proof.
  induction fuel as [|fuel IH]; intros lines H Lf L; cbn [read_rows].
  - destruct lines; [|cbn in Lf; lia]. exists []. auto.
  - destruct lines as [|l lines]; [exists []; auto|].
    destruct (next_any (l :: lines) H fresh) as (row & used & rest & E & El & Hu & O); [reflexivity|discriminate|right; discriminate|cbn [fresh field_len]; lia|].
    rewrite E. specialize (Hu ltac:(discriminate)). rewrite El in *. apply Forall_app in H as [_ Hr].
    destruct (IH rest Hr) as (rows & Er & Or).
    + rewrite app_length in Lf. destruct used; [congruence|cbn in Lf; lia].
    + rewrite concat_app, app_length in L. lia.
    + rewrite Er. exists (row :: rows). split; [reflexivity|]. cbn [concat]. rewrite !concat_app, !occ_app, Or, O. unfold held, occ. cbn. lia.
Qed.
Lemma universal_occ s : occ c (universal_newlines s) = occ c s.
Proof.
  assert (N1 : occ c [LF] = 0) by (apply skip_special; reflexivity). assert (N2 : occ c [CR] = 0) by (apply skip_special; reflexivity).
  assert (G : forall n s, length s <= n -> occ c (universal_newlines s) = occ c s); [|apply (G (length s)); lia].
  induction n as [|n IH]; intros t Hn; [destruct t; [reflexivity|cbn in Hn; lia]|]. destruct t as [|x t]; [reflexivity|]. cbn [universal_newlines]. cbn [length] in Hn.
  destruct (N.eqb_spec x CR) as [->|Hx].
  - destruct t as [|y t].
    + rewrite N1, N2. reflexivity.
    + cbn [length] in Hn. rewrite (occ_cons c LF), (occ_cons c CR). rewrite occ_cons in N1, N2. change (occ c []) with 0 in N1, N2.
      destruct (N.eqb_spec y LF) as [->|Hy].
      * rewrite (occ_cons c LF t), IH by lia. lia.
      * rewrite IH by (cbn [length]; lia). lia.
  - rewrite !(occ_cons c x), IH by lia. reflexivity.
Qed.
End Count.

Lemma universal_length s : length (universal_newlines s) <= length s.
Proof.
  assert (G : forall n s, length s <= n -> length (universal_newlines s) <= length s); [|apply (G (length s)); lia].
  induction n as [|n IH]; intros t Hn; [destruct t; [reflexivity|cbn in Hn; lia]|]. destruct t as [|x t]; [reflexivity|]. cbn [universal_newlines]. cbn [length] in Hn.
  destruct (x =? CR)%N; [destruct t as [|y t]; [reflexivity|]; cbn [length] in *; destruct (y =? LF)%N|]; cbn [length].
  - pose proof (IH t ltac:(lia)). lia.
  - pose proof (IH (y :: t) ltac:(cbn [length]; lia)). cbn [length] in *. lia.
  - pose proof (IH t ltac:(lia)). lia.
Qed.
(** a text that is not too long is read to its end, and no character is lost but the marks *)
Theorem read_any t : (N.of_nat (length t) <= field_limit)%N ->
  exists rows, read_csv t = (rows, None) /\ forall c, special c = false -> occ c (concat (concat rows)) = occ c t.
Proof.
  intros L. unfold read_csv. set (u := universal_newlines t).
  assert (Lu : length u <= length t) by apply universal_length.
  assert (F : Forall clean_line (file_lines [] u)) by (apply file_lines_clean; [apply universal_clean|auto..]).
  assert (C : concat (file_lines [] u) = u) by apply file_lines_concat.
  destruct (rows_any 65%N eq_refl (length (file_lines [] u)) (file_lines [] u) F (le_n _)) as (rows & E & _); [rewrite C; lia|].
  exists rows. split; [exact E|]. intros c Hc.
  destruct (rows_any c Hc (length (file_lines [] u)) (file_lines [] u) F (le_n _)) as (rows' & E' & O); [rewrite C; lia|].
  rewrite E in E'. injection E' as <-. rewrite O, C. apply (universal_occ c Hc).
Qed.

