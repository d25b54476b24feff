(** Proofs about the HTML report, the numbers with commas and the durations. *)
From Coq Require Import String QArith Lia ZArith Nnat.
From Coq Require Import Permutation.
From Verif Require Import Base BaseFacts LevModel StringsModel PhoneticsModel PairwiseModel GraphModel SortModel SortFacts BlockingModel CliModel CliSpec CliProofs ReportModel ReportSpec ReportProofs.
Open Scope nat_scope.
Open Scope list_scope.
Notation length := List.length.
Notation concat := List.concat.

(** ** trimming *)
Lemma drop_blanks_app b s : forallb blank_line b = true -> drop_blanks (b ++ s) = drop_blanks s.
Proof. intros B. induction b as [|c b IH]; [reflexivity|]. cbn in B. apply andb_prop in B. destruct B as [C B]. cbn [app drop_blanks]. rewrite C. now apply IH. Qed.

Lemma drop_blanks_end s b : forallb blank_line b = true -> exists b', drop_blanks (s ++ b) = drop_blanks s ++ b' /\ forallb blank_line b' = true.
Proof.
  intros B. induction s as [|c s IH]; cbn [app drop_blanks].
  - exists (drop_blanks b). split; [reflexivity|]. clear -B. induction b as [|c b IH]; [reflexivity|]. cbn in B |- *. apply andb_prop in B. destruct B as [C B]. rewrite C. now apply IH.
  - destruct (blank_line c); [exact IH|]. exists b. split; [reflexivity|exact B].
Qed.

Lemma forallb_rev {X} (p : X -> bool) l : forallb p (rev l) = forallb p l.
Proof. induction l as [|x l IH]; [reflexivity|]. cbn [rev forallb]. rewrite forallb_app, IH. cbn. rewrite andb_true_r. apply andb_comm. Qed.

Lemma trim_blanks a s b : forallb blank_line a = true -> forallb blank_line b = true -> trim (a ++ s ++ b) = trim s.
Proof.
  intros A B. unfold trim. rewrite drop_blanks_app by exact A. destruct (drop_blanks_end s b B) as (b' & -> & B').
  rewrite rev_app_distr. rewrite drop_blanks_app by (rewrite forallb_rev; exact B'). reflexivity.
Qed.

Lemma text_blanks a s b : forallb blank_line a = true -> forallb blank_line b = true -> text (a ++ s ++ b) = text s.
Proof. intros A B. unfold text. now rewrite trim_blanks. Qed.
Lemma text_blank a : forallb blank_line a = true -> text a = [].
Proof. intros A. pose proof (text_blanks a [] [] A eq_refl) as E. rewrite !app_nil_r in E. rewrite E. reflexivity. Qed.

(** ** reading lines *)
(** the tokens read, whether a tag is open, and what is read of the tag or of the text *)
Fixpoint run (inside : bool) (acc : str) (t : str) : list token * bool * str :=
  match t with
  | [] => ([], inside, acc)
  | c :: t =>
    if inside then if (c =? 62)%N then let '(l, i, a) := run false [] t in (tag (rev acc) :: l, i, a) else run true (c :: acc) t
    else if (c =? 60)%N then let '(l, i, a) := run true [] t in (text (rev acc) ++ l, i, a) else run false (c :: acc) t
  end.

Lemma tokens_run t : forall inside acc u, tokens inside acc (t ++ u) = let '(l, i, a) := run inside acc t in l ++ tokens i a u.
Proof.
  induction t as [|c t IH]; intros inside acc u; [reflexivity|]. cbn [app tokens run]. destruct inside.
  - destruct (c =? 62)%N; [|apply IH]. rewrite IH. destruct (run false [] t) as [[l i] a]. reflexivity.
  - destruct (c =? 60)%N; [|apply IH]. rewrite IH. destruct (run true [] t) as [[l i] a]. now rewrite app_assoc.
Qed.

Lemma run_app t : forall inside acc u, run inside acc (t ++ u) = let '(l, i, a) := run inside acc t in let '(l', i', a') := run i a u in (l ++ l', i', a').
Proof.
  induction t as [|c t IH]; intros inside acc u.
  - cbn [app run]. destruct (run inside acc u) as [[l i] a]. reflexivity.
  - cbn [app run]. destruct inside.
    + destruct (c =? 62)%N; [|apply IH]. rewrite IH. destruct (run false [] t) as [[l i] a]. destruct (run i a u) as [[l' i'] a']. reflexivity.
    + destruct (c =? 60)%N; [|apply IH]. rewrite IH. destruct (run true [] t) as [[l i] a]. destruct (run i a u) as [[l' i'] a']. now rewrite app_assoc.
Qed.

Lemma run_text s : forall acc, forallb (fun c => negb (c =? 60)%N) s = true -> run false acc s = ([], false, rev s ++ acc).
Proof.
  induction s as [|c s IH]; intros acc S; [reflexivity|]. cbn in S. apply andb_prop in S. destruct S as [C S]. apply negb_true_iff in C.
  cbn [run]. rewrite C, IH by exact S. cbn [rev]. now rewrite <- app_assoc.
Qed.

Lemma run_tag s : forall acc, forallb (fun c => negb (c =? 62)%N) s = true -> run true acc (s ++ [62%N]) = ([tag (rev acc ++ s)], false, []).
Proof.
  induction s as [|c s IH]; intros acc S.
  - cbn. now rewrite app_nil_r.
  - cbn in S. apply andb_prop in S. destruct S as [C S]. apply negb_true_iff in C. cbn [app run]. rewrite C, IH by exact S. cbn [rev]. now rewrite <- app_assoc.
Qed.

Lemma run_one_tag name acc : forallb (fun c => negb (c =? 62)%N) name = true ->
  run false acc (60%N :: name ++ [62%N]) = (text (rev acc) ++ [tag name], false, []).
Proof. intros S. cbn [run]. change (60 =? 60)%N with true. cbv iota. rewrite run_tag by exact S. reflexivity. Qed.

Lemma blank_no_tag b : forallb blank_line b = true -> forallb (fun c => negb (c =? 60)%N) b = true.
Proof. apply forallb_imp. intros x. destruct (N.eqb_spec x 60) as [->|]; [discriminate|reflexivity]. Qed.

(** lines that give [l], between two tags *)
Definition gives (lines : list str) (l : list token) : Prop :=
  forall acc, forallb blank_line acc = true -> exists acc', forallb blank_line acc' = true /\ run false acc (printed lines) = (l, false, acc').

Lemma gives_nil : gives [] [].
Proof. intros acc A. exists acc. split; [exact A|reflexivity]. Qed.

Lemma gives_app a b l l' : gives a l -> gives b l' -> gives (a ++ b) (l ++ l').
Proof.
  intros A B acc Hc. destruct (A acc Hc) as (acc1 & H1 & R1). destruct (B acc1 H1) as (acc2 & H2 & R2).
  exists acc2. split; [exact H2|]. rewrite printed_app, run_app, R1, R2. reflexivity.
Qed.

Lemma gives_cons x a t l : gives [x] t -> gives a l -> gives (x :: a) (t ++ l).
Proof. intros X A. apply (gives_app [x] a t l X A). Qed.

Lemma gives_concat {X} (f : X -> list str) (g : X -> list token) l : (forall x, In x l -> gives (f x) (g x)) -> gives (concat (map f l)) (concat (map g l)).
Proof.
  induction l as [|x l IH]; intros G; [apply gives_nil|]. cbn [map concat]. apply gives_app; [apply G; left; reflexivity|].
  apply IH. intros y Y. apply G. right. exact Y.
Qed.

(** a line with one tag *)
Lemma gives_tag b name : forallb blank_line b = true -> forallb (fun c => negb (c =? 62)%N) name = true ->
  gives [b ++ 60%N :: name ++ [62%N]] [tag name].
Proof.
  intros B N acc A. exists [10%N]. split; [reflexivity|]. rewrite printed_cons. change (printed []) with (@nil BinNums.N). rewrite <- app_assoc.
  rewrite run_app, run_text by (apply blank_no_tag, B). rewrite run_app, run_one_tag by exact N.
  rewrite (text_blank (rev (rev b ++ acc))) by (rewrite forallb_rev, forallb_app, forallb_rev, B; exact A). reflexivity.
Qed.

(** a line with a text within an element *)
Lemma gives_element b name name' s : forallb blank_line b = true -> forallb (fun c => negb (c =? 62)%N) name = true ->
  forallb (fun c => negb (c =? 62)%N) name' = true -> forallb (fun c => negb (c =? 60)%N) s = true ->
  gives [b ++ 60%N :: name ++ [62%N] ++ s ++ 60%N :: name' ++ [62%N]] (tag name :: text s ++ [tag name']).
Proof.
  intros B N N' S acc A. exists [10%N]. split; [reflexivity|]. rewrite printed_cons. change (printed []) with (@nil BinNums.N).
  rewrite <- app_assoc. rewrite run_app, run_text by (apply blank_no_tag, B).
  replace ((60%N :: name ++ [62%N] ++ s ++ 60%N :: name' ++ [62%N]) ++ [10%N]) with ((60%N :: name ++ [62%N]) ++ s ++ (60%N :: name' ++ [62%N]) ++ [10%N])
    by (repeat (progress (rewrite <- ?app_assoc; cbn [app])); reflexivity).
  rewrite run_app, run_one_tag by exact N. rewrite run_app, run_text by exact S. rewrite run_app, run_one_tag by exact N'.
  rewrite (text_blank (rev (rev b ++ acc))) by (rewrite forallb_rev, forallb_app, forallb_rev, B; exact A).
  rewrite app_nil_r, rev_involutive. cbn [run app]. change (10 =? 60)%N with false. cbv iota. now rewrite app_nil_r.
Qed.

(** three lines: a tag, a text, a tag *)
Lemma gives_lines b name b' s b'' name' : forallb blank_line b = true -> forallb blank_line b' = true -> forallb blank_line b'' = true ->
  forallb (fun c => negb (c =? 62)%N) name = true -> forallb (fun c => negb (c =? 62)%N) name' = true -> forallb (fun c => negb (c =? 60)%N) s = true ->
  gives [b ++ 60%N :: name ++ [62%N]; b' ++ s; b'' ++ 60%N :: name' ++ [62%N]] (tag name :: text s ++ [tag name']).
Proof.
  intros B B' B'' N N' S acc A. exists [10%N]. split; [reflexivity|]. rewrite !printed_cons. change (printed []) with (@nil BinNums.N).
  rewrite <- app_assoc. rewrite run_app, run_text by (apply blank_no_tag, B).
  rewrite run_app, run_one_tag by exact N.
  rewrite (text_blank (rev (rev b ++ acc))) by (rewrite forallb_rev, forallb_app, forallb_rev, B; exact A).
  replace (10%N :: (b' ++ s) ++ 10%N :: (b'' ++ 60%N :: name' ++ [62%N]) ++ [10%N])
    with ((10%N :: b') ++ s ++ (10%N :: b'') ++ (60%N :: name' ++ [62%N]) ++ [10%N])
    by (repeat (progress (rewrite <- ?app_assoc; cbn [app])); reflexivity).
  rewrite run_app, run_text by (apply blank_no_tag; cbn; exact B').
  rewrite run_app, run_text by exact S.
  rewrite run_app, run_text by (apply blank_no_tag; cbn; exact B'').
  rewrite run_app, run_one_tag by exact N'.
  replace (rev (rev (10%N :: b'') ++ rev s ++ rev (10%N :: b') ++ [])) with ((10%N :: b') ++ s ++ (10%N :: b'')).
  - rewrite text_blanks by (cbn; assumption). cbn [run app]. change (10 =? 60)%N with false. cbv iota. now rewrite app_nil_r.
  - rewrite app_nil_r, !rev_app_distr, !rev_involutive. now rewrite <- app_assoc.
Qed.

(** known lines that start and end with tags *)
Lemma run_start t acc : hd 0%N (drop_blanks t) = 60%N -> forallb blank_line acc = true -> run false acc t = run false [] t.
Proof.
  intros F A.
  assert (E : exists b rest, t = b ++ 60%N :: rest /\ forallb blank_line b = true).
  { induction t as [|c t IH]; [discriminate F|]. cbn [drop_blanks] in F. destruct (blank_line c) eqn:C.
    - destruct (IH F) as (b & rest & -> & B). exists (c :: b), rest. cbn [app forallb]. now rewrite C.
    - cbn in F. subst c. exists [], t. split; reflexivity. }
  destruct E as (b & rest & -> & B). rewrite !run_app, (run_text b acc), (run_text b []) by (apply blank_no_tag, B). cbn [run]. change (60 =? 60)%N with true. cbv iota.
  destruct (run true [] rest) as [[l' i] a].
  rewrite (text_blank (rev (rev b ++ acc))) by (rewrite forallb_rev, forallb_app, forallb_rev, B; exact A).
  rewrite (text_blank (rev (rev b ++ []))) by (rewrite app_nil_r, rev_involutive; exact B). reflexivity.
Qed.

Lemma gives_block lines l : hd 0%N (drop_blanks (printed lines)) = 60%N -> run false [] (printed lines) = (l, false, [10%N]) -> gives lines l.
Proof. intros F R acc A. exists [10%N]. split; [reflexivity|]. now rewrite run_start. Qed.

Lemma gives_line line l : hd 0%N (drop_blanks (printed [line])) = 60%N -> run false [] (printed [line]) = (l, false, [10%N]) -> gives [line] l.
Proof. apply gives_block. Qed.

Definition no_lt (s : str) : Prop := forallb (fun c => negb (c =? 60)%N) s = true.

Lemma gives_row title value : no_lt (codes title) -> no_lt value -> gives (html_row (codes title) value) (row title value).
Proof.
  intros T V. unfold html_row, row, element.
  change (codes "            <b>" ++ codes title ++ codes "</b>") with (codes "            " ++ 60%N :: codes "b" ++ [62%N] ++ codes title ++ 60%N :: codes "/b" ++ [62%N]).
  match goal with |- gives _ ?l =>
    replace l with ([Open (codes "tr")] ++ [Open (codes "td")] ++ (Open (codes "b") :: text (codes title) ++ [Close (codes "b")]) ++ [Close (codes "td")] ++
      (Open (codes "td") :: text value ++ [Close (codes "td")]) ++ [Close (codes "tr")]) by (repeat (progress (rewrite <- ?app_assoc; cbn [app])); reflexivity) end.
  apply gives_cons; [apply gives_line; reflexivity|]. apply gives_cons; [apply gives_line; reflexivity|].
  apply gives_cons; [apply (gives_element (codes "            ") (codes "b") (codes "/b")); reflexivity || exact T|].
  apply gives_cons; [apply gives_line; reflexivity|].
  apply (gives_app [codes "          <td>"; codes "            " ++ value; codes "          </td>"]); [|apply gives_line; reflexivity].
  apply (gives_lines (codes "          ") (codes "td") (codes "            ") value (codes "          ") (codes "/td")); reflexivity || exact V.
Qed.

Lemma digits_no_lt s : forallb digit s = true -> no_lt s.
Proof. apply digit_other. reflexivity. Qed.
Lemma py_nat_no_lt n : no_lt (py_nat n).
Proof. apply digits_no_lt, py_int_ok. Qed.
Lemma no_lt_app a b : no_lt a -> no_lt b -> no_lt (a ++ b).
Proof. unfold no_lt. intros A B. now rewrite forallb_app, A, B. Qed.

Definition caption (i nb_values nb_rows : nat) : str :=
  codes "Cluster n" ++ [176%N] ++ py_nat i ++ codes " (" ++ py_nat nb_values ++ codes " unique values, " ++ py_nat nb_rows ++ codes " affected rows):".

Lemma gives_cluster values i cluster : Forall no_lt cluster ->
  gives (html_cluster values i cluster) (cluster_tokens (caption (i + 1) (length cluster) (rows_of values cluster)) (by_rows values cluster)).
Proof.
  intros V. unfold html_cluster, cluster_tokens, element.
  match goal with |- gives _ ?l =>
    replace l with ((Open (codes "p") :: text (caption (i + 1) (length cluster) (rows_of values cluster)) ++ [Open (codes "ul")]) ++
      concat (map (fun v => element "li" (text v)) (by_rows values cluster)) ++ [Close (codes "ul")] ++ [Close (codes "p")])
      by (repeat (progress (rewrite <- ?app_assoc; cbn [app])); reflexivity) end.
  apply gives_app; [|apply gives_app].
  - apply (gives_lines (codes "      ") (codes "p") (codes "        ") (caption (i + 1) (length cluster) (rows_of values cluster)) (codes "      ") (codes "ul")); try reflexivity.
    unfold caption. match goal with |- forallb _ ?s = true => change (no_lt s) end. repeat first [apply py_nat_no_lt|reflexivity|match goal with |- no_lt (_ ++ _) => apply no_lt_app end].
  - apply gives_concat. intros v I. apply (gives_lines (codes "        ") (codes "li") (codes "          ") v (codes "        ") (codes "/li")); try reflexivity.
    rewrite Forall_forall in V. apply V. unfold by_rows in I. apply (Permutation_in _ (sort_by_perm _ _) I).
  - apply gives_cons; [apply gives_line; reflexivity|]. apply gives_line; reflexivity.
Qed.

(** ** numbers with commas *)
Lemma groups_app a b : forall cur, forallb digit a = true -> groups (a ++ b) cur = groups b (rev a ++ cur).
Proof.
  induction a as [|c a IH]; intros cur A; [reflexivity|]. cbn in A. apply andb_prop in A. destruct A as [C A]. cbn [app groups].
  destruct (N.eqb_spec c 44) as [->|]; [discriminate C|]. rewrite IH by exact A. cbn [rev]. now rewrite <- app_assoc.
Qed.

Lemma groups_digits a cur : forallb digit a = true -> groups a cur = [rev cur ++ a].
Proof. intros A. rewrite <- (app_nil_r a) at 1. rewrite groups_app by exact A. cbn [groups]. now rewrite rev_app_distr, rev_involutive. Qed.

Lemma groups_snoc t f : forall cur, forallb digit f = true -> groups (t ++ 44%N :: f) cur = groups t cur ++ [f].
Proof.
  induction t as [|c t IH]; intros cur F; cbn [app groups].
  - change (44 =? 44)%N with true. cbv iota. now rewrite groups_digits.
  - destruct (c =? 44)%N; [|now apply IH]. cbn [app]. now rewrite IH.
Qed.

Lemma number_bound s : forallb digit s = true -> (number s < 10 ^ N.of_nat (length s))%N.
Proof.
  intros D. induction s as [|c s IH] using rev_ind; [reflexivity|]. rewrite forallb_app in D. apply andb_prop in D. destruct D as [D C]. cbn in C. rewrite andb_true_r in C.
  rewrite number_snoc, app_length, Nat2N.inj_add, N.pow_add_r. specialize (IH D). rewrite digit_range in C. cbn [length]. change (10 ^ N.of_nat 1)%N with 10%N. lia.
Qed.

Lemma py_int_length n k : (n < 10 ^ N.of_nat k)%N -> (0 < k)%nat -> length (py_int n) <= k.
Proof.
  intros L P. destruct (py_int_ok n) as (V & D & c & l & E & NZ & Z). rewrite E in *. cbn [length].
  destruct (N.eq_dec n 0) as [->|Hn]; [rewrite Z by reflexivity; cbn; lia|].
  destruct (Nat.le_gt_cases (S (length l)) k) as [|G]; [assumption|exfalso].
  specialize (NZ Hn). cbn [forallb] in D. apply andb_prop in D. destruct D as [C D]. rewrite digit_range in C.
  assert (Q : forall u acc, fold_left (fun acc c => 10 * acc + (c - 48))%N u acc = (acc * 10 ^ N.of_nat (length u) + number u)%N).
  { clear. intros u. induction u as [|x u IH] using rev_ind; intros acc; [cbn; lia|]. rewrite fold_left_app, IH, number_snoc, app_length, Nat2N.inj_add, N.pow_add_r.
    cbn [fold_left length]. change (10 ^ N.of_nat 1)%N with 10%N. lia. }
  unfold number in V. cbn [fold_left] in V. rewrite Q in V.
  assert (M : (10 ^ N.of_nat k <= 10 ^ N.of_nat (length l))%N) by (apply N.pow_le_mono_r; lia).
  assert (1 * 10 ^ N.of_nat (length l) <= (10 * 0 + (c - 48)) * 10 ^ N.of_nat (length l))%N by (apply N.mul_le_mono_r; lia). lia.
Qed.

Lemma grouped_ok fuel : forall n, (n < 2 ^ N.of_nat fuel)%N -> (0 < fuel)%nat ->
  exists a (others : list str), groups (grouped fuel n) [] = py_int a :: others /\ (a < 1000)%N /\ (others <> [] -> a <> 0%N) /\
    forallb (fun g : str => Nat.eqb (length g) 3 && forallb digit g) others = true /\ fold_left (fun acc g => 1000 * acc + number g)%N others a = n.
Proof.
  induction fuel as [|fuel IH]; intros n L P; [lia|]. cbn [grouped]. destruct (N.ltb_spec n 1000) as [S|S].
  - exists n, []. rewrite groups_digits by apply py_int_ok. repeat split; [exact S|congruence].
  - assert (F : (0 < fuel)%nat) by (destruct fuel; [cbn in L; lia|lia]).
    assert (L' : (n / 1000 < 2 ^ N.of_nat fuel)%N).
    { apply N.div_lt_upper_bound; [lia|]. rewrite Nat2N.inj_succ, N.pow_succ_r' in L. lia. }
    destruct (IH (n / 1000)%N L' F) as (a & others & G & A & Z & O & V). exists a, (others ++ [fixed 3 (n mod 1000)]).
    change (codes ",") with [44%N]. cbn [app]. rewrite groups_snoc by apply fixed_digits. rewrite G. split; [reflexivity|]. split; [exact A|]. split.
    + intros _. destruct others as [|g others]; [|apply Z; discriminate]. cbn in V. intros ->.
      assert (1 <= n / 1000)%N by (apply N.div_le_lower_bound; lia). lia.
    + rewrite forallb_app, O, fold_left_app, V. cbn [forallb fold_left]. rewrite fixed_length, fixed_digits, Nat.eqb_refl. split; [reflexivity|].
      rewrite fixed_number by (apply N.mod_lt; lia). pose proof (N.div_mod n 1000 ltac:(lia)). lia.
Qed.

Lemma py_grouped_number n : comma_number (py_grouped n) = Some (N.of_nat n).
Proof.
  unfold comma_number, py_grouped. destruct (grouped_ok _ (N.of_nat n) (size_pow (N.of_nat n)) ltac:(lia)) as (a & others & -> & A & Z & O & V).
  unfold str in *. rewrite O, py_int_integer, V. rewrite (proj2 (Nat.leb_le _ 3)) by (apply py_int_length; [exact A|lia]). cbn [andb].
  destruct (N.eqb_spec a 0) as [->|]; [|reflexivity]. destruct others as [|g others]; [reflexivity|]. now destruct (Z ltac:(discriminate)).
Qed.

Lemma grouped_no_lt fuel : forall n, no_lt (grouped fuel n).
Proof.
  induction fuel as [|fuel IH]; intros n; cbn [grouped]; [reflexivity|]. destruct (n <? 1000)%N; [apply digits_no_lt, py_int_ok|].
  apply no_lt_app; [apply IH|]. apply no_lt_app; [reflexivity|]. apply digits_no_lt, fixed_digits.
Qed.

(** ** durations *)
Lemma mod_of_mod a b c : b <> 0%N -> c <> 0%N -> ((a mod (b * c)) mod b = a mod b)%N.
Proof. intros B C. rewrite N.mod_mul_r by assumption. rewrite (N.mul_comm b), N.mod_add by exact B. now apply N.mod_mod. Qed.
Lemma div_of_mod a b c : b <> 0%N -> c <> 0%N -> (a mod (b * c) / b = (a / b) mod c)%N.
Proof.
  intros B C. rewrite N.mod_mul_r by assumption. rewrite (N.mul_comm b), N.div_add by exact B. rewrite N.div_small by now apply N.mod_lt. reflexivity.
Qed.

Lemma read_clock_ok us : let s := (us / 1000000)%N in (s < 86400)%N ->
  read_clock (s / 3600) (58%N :: fixed 2 (s mod 3600 / 60) ++ 58%N :: fixed 2 (s mod 60) ++
    (if (us mod 1000000 =? 0)%N then [] else 46%N :: fixed 6 (us mod 1000000))) = Some us.
Proof.
  intros s L. unfold read_clock.
  assert (H : (s / 3600 < 24)%N) by (apply N.div_lt_upper_bound; lia).
  assert (M : (s mod 3600 / 60 < 60)%N) by (apply N.div_lt_upper_bound; [lia|]; pose proof (N.mod_lt s 3600 ltac:(lia)); lia).
  assert (Sc : (s mod 60 < 60)%N) by (apply N.mod_lt; lia).
  destruct (fixed_two (s mod 3600 / 60) ltac:(lia)) as (m1 & m2 & -> & D1 & D2 & V1).
  destruct (fixed_two (s mod 60) ltac:(lia)) as (s1 & s2 & -> & D3 & D4 & V2). cbn [app forallb]. rewrite D1, D2, D3, D4, V1, V2. change (58 =? 58)%N with true.
  rewrite (proj2 (N.ltb_lt _ 24) H), (proj2 (N.ltb_lt _ 60) M), (proj2 (N.ltb_lt _ 60) Sc). cbn [andb].
  assert (E : (3600 * (s / 3600) + 60 * (s mod 3600 / 60) + s mod 60 = s)%N).
  { pose proof (N.div_mod s 3600 ltac:(lia)). pose proof (N.div_mod (s mod 3600) 60 ltac:(lia)) as Q.
    assert (R : ((s mod 3600) mod 60 = s mod 60)%N).
    { change 3600%N with (60 * 60)%N. now apply mod_of_mod. }
    rewrite R in Q. lia. }
  rewrite E. pose proof (N.div_mod us 1000000 ltac:(lia)) as U. fold s in U. destruct (N.eqb_spec (us mod 1000000) 0) as [Z|Z].
  - f_equal. lia.
  - change (46 =? 46)%N with true. rewrite fixed_length, fixed_digits, fixed_number by (apply N.mod_lt; lia). rewrite (proj2 (N.eqb_neq _ 0) Z). cbn [andb negb Nat.eqb]. f_equal. lia.
Qed.

Lemma starts_app p s : starts_with p (p ++ s) = true.
Proof. apply starts_with_iff. eexists. reflexivity. Qed.

Lemma timedelta_read q : read_duration (timedelta_str q) = Some (Z.to_N (round_even q)).
Proof.
  unfold timedelta_str. set (us := Z.to_N (round_even q)). clearbody us. cbv zeta. set (s := (us / 1000000)%N). set (days := (s / 86400)%N).
  change (codes ":") with [58%N]. change (codes ".") with [46%N]. cbn [app].
  set (r := (us mod 86400000000)%N).
  assert (B : (86400000000 <> 0)%N) by lia.
  assert (D : days = (us / 86400000000)%N) by (unfold days, s; rewrite N.div_div by lia; reflexivity).
  assert (Rs : (r / 1000000 = s mod 86400)%N).
  { unfold r, s. change 86400000000%N with (1000000 * 86400)%N. now apply div_of_mod. }
  assert (Rm : (r mod 1000000 = us mod 1000000)%N).
  { unfold r. change 86400000000%N with (1000000 * 86400)%N. now apply mod_of_mod. }
  assert (M3 : ((s mod 86400) mod 3600 = s mod 3600)%N).
  { change 86400%N with (3600 * 24)%N. now apply mod_of_mod. }
  assert (M6 : ((s mod 86400) mod 60 = s mod 60)%N).
  { change 86400%N with (60 * 1440)%N. now apply mod_of_mod. }
  pose proof (read_clock_ok r) as C. cbv zeta in C. rewrite Rs, Rm, M3, M6 in C. specialize (C ltac:(apply N.mod_lt; lia)).
  set (clock := 58%N :: _) in *.
  assert (Clock : span digit (py_int (s mod 86400 / 3600) ++ clock) = (py_int (s mod 86400 / 3600), clock)) by (apply span_app; [apply py_int_ok|reflexivity]).
  pose proof (N.div_mod us 86400000000 B) as U. fold r in U. rewrite <- D in U.
  unfold read_duration. destruct (N.eqb_spec days 0) as [Z|Z].
  - cbn [app]. rewrite Clock, py_int_integer. change (starts_with (codes " day") clock) with false. cbv iota. rewrite C. f_equal. lia.
  - set (suffix := codes (if (days =? 1)%N then " day, " else " days, ")) in *.
    assert (Sx : exists t, suffix = 32%N :: t /\ starts_with (codes " day") suffix = true) by (unfold suffix; destruct (days =? 1)%N; eexists; split; reflexivity).
    destruct Sx as (t & Et & St). rewrite <- app_assoc. rewrite Et at 1. cbn [app].
    rewrite span_app by (apply py_int_ok || reflexivity). rewrite py_int_integer.
    change (32%N :: t ++ py_int (s mod 86400 / 3600) ++ clock) with ((32%N :: t) ++ py_int (s mod 86400 / 3600) ++ clock). rewrite <- Et.
    apply starts_with_iff in St. destruct St as [u Eu]. assert (Su : starts_with (codes " day") (suffix ++ py_int (s mod 86400 / 3600) ++ clock) = true).
    { apply starts_with_iff. rewrite Eu, <- app_assoc. eexists. reflexivity. }
    rewrite Su. fold suffix. rewrite starts_app, (proj2 (N.eqb_neq days 0) Z). cbn [andb negb].
    rewrite skipn_app, skipn_all, Nat.sub_diag. cbn [skipn app]. rewrite Clock, py_int_integer, C. f_equal. lia.
Qed.

Lemma timedelta_no_lt q : no_lt (timedelta_str q).
Proof.
  unfold timedelta_str. cbv zeta. repeat match goal with |- no_lt (_ ++ _) => apply no_lt_app end; try reflexivity; try (apply digits_no_lt; first [apply fixed_digits|apply py_int_ok]).
  - destruct (_ =? 0)%N; [reflexivity|]. apply no_lt_app; [apply digits_no_lt, py_int_ok|]. destruct (_ =? 1)%N; reflexivity.
  - destruct (_ =? 0)%N; [reflexivity|]. apply no_lt_app; [reflexivity|]. apply digits_no_lt, fixed_digits.
Qed.

(** ** the whole report *)
Lemma fixed_no_lt k n : no_lt (fixed k n).
Proof. apply digits_no_lt, fixed_digits. Qed.

Lemma date_no_lt d : no_lt (first_piece (codes "T") (isoformat d)).
Proof. rewrite first_piece_T. repeat first [apply fixed_no_lt|match goal with |- no_lt (_ ++ _) => apply no_lt_app end|reflexivity]. Qed.

Definition shown (values : dict str nat) (ic : nat * list str) : str * list str :=
  (caption (fst ic + 1) (length (snd ic)) (rows_of values (snd ic)), by_rows values (snd ic)).

Lemma report_tokens m values clusters : no_lt (m_algorithm m) -> Forall (Forall no_lt) clusters ->
  read_html (html_report m values clusters) =
  Open (codes "html") :: page (first_piece (codes "T") (isoformat (m_date m))) (m_algorithm m) (py_grouped (m_lines m)) (py_grouped (length values))
    (py_grouped (length clusters)) (timedelta_str (m_took m)) (map (shown values) (enumerate clusters)) ++ [Open (codes "html")].
Proof.
  intros A V. match goal with |- _ = ?r => set (rhs := r) end.
  assert (G : exists lines, html_report m values clusters = printed lines /\ gives lines rhs).
  { eexists. split; [reflexivity|]. unfold rhs, page.
    set (date := first_piece _ _). assert (Ld : no_lt date) by apply date_no_lt. set (l1 := py_grouped (m_lines m)). set (l2 := py_grouped (length values)).
    set (l3 := py_grouped (length clusters)). set (took := timedelta_str _).
    assert (L1 : no_lt l1) by apply grouped_no_lt. assert (L2 : no_lt l2) by apply grouped_no_lt. assert (L3 : no_lt l3) by apply grouped_no_lt.
    assert (Lt : no_lt took) by apply timedelta_no_lt.
    assert (C : gives (concat (map (fun ic => html_cluster values (fst ic) (snd ic)) (enumerate clusters)))
      (concat (map (fun cv => cluster_tokens (fst cv) (snd cv)) (map (shown values) (enumerate clusters))))).
    { rewrite map_map. apply gives_concat. intros [i c] I. cbn [fst snd shown]. apply gives_cluster. rewrite Forall_forall in V. apply V.
      rewrite enumerate_from in I. apply in_combine_r in I. exact I. }
    set (cs := concat (map (fun cv => cluster_tokens (fst cv) (snd cv)) _)) in *. clearbody date l1 l2 l3 took cs.
    assert (R1 := gives_row "Date" date eq_refl Ld). assert (R2 := gives_row "Algorithm used" _ eq_refl A). assert (R3 := gives_row "Lines" _ eq_refl L1).
    assert (R4 := gives_row "Distinct values" _ eq_refl L2). assert (R5 := gives_row "Found clusters" _ eq_refl L3). assert (R6 := gives_row "Took" _ eq_refl Lt).
    set (r1 := row _ date) in *. set (r2 := row _ (m_algorithm m)) in *. set (r3 := row _ l1) in *. set (r4 := row _ l2) in *. set (r5 := row _ l3) in *. set (r6 := row _ took) in *.
    clearbody r1 r2 r3 r4 r5 r6.
    match goal with |- gives _ ?l => replace l with (
      ([Open (codes "html"); Open (codes "head"); Open (codes "title"); Text (codes "Clustering result"); Close (codes "title"); Open (codes "style");
        Text (codes "td {padding-right: 10px};"); Close (codes "style"); Close (codes "head"); Open (codes "body");
        Open (codes "h1"); Text (codes "Clustering result"); Close (codes "h1"); Open (codes "div"); Open (codes "h2"); Text (codes "Information:"); Close (codes "h2"); Open (codes "table")]) ++
      r1 ++ r2 ++ [Close (codes "table"); Close (codes "div"); Open (codes "div"); Open (codes "h2"); Text (codes "Statistics:"); Close (codes "h2"); Open (codes "table")] ++
      r3 ++ r4 ++ r5 ++ r6 ++ [Close (codes "table"); Close (codes "div"); Open (codes "div"); Open (codes "h2"); Text (codes "Clusters:"); Close (codes "h2")] ++
      cs ++ [Close (codes "div"); Close (codes "body"); Open (codes "html")]) end.
    2: { unfold element. change (text (codes "Clustering result")) with [Text (codes "Clustering result")]. change (text (codes "td {padding-right: 10px};")) with [Text (codes "td {padding-right: 10px};")].
         change (text (codes "Information:")) with [Text (codes "Information:")]. change (text (codes "Statistics:")) with [Text (codes "Statistics:")].
         change (text (codes "Clusters:")) with [Text (codes "Clusters:")]. repeat (progress (rewrite <- ?app_assoc; cbn [app])). reflexivity. }
    repeat (apply gives_app; [first [eassumption|idtac]|]).
    all: apply gives_block; vm_compute; reflexivity. }
  destruct G as (lines & -> & G). unfold read_html. destruct (G [] eq_refl) as (acc & B & R).
  rewrite <- (app_nil_r (printed lines)), tokens_run, R. cbn [tokens]. rewrite text_blank by (rewrite forallb_rev; exact B). apply app_nil_r.
Qed.

(** ** what it says *)
Lemma contents_skip name t l : (forall n, t = Open n -> eqb n name = false) -> contents name (t :: l) = contents name l.
Proof.
  intros H. cbn [contents]. destruct t as [n|n|x]; try reflexivity. rewrite (H n eq_refl). cbn [andb].
  destruct l as [|[a|a|a] [|[b|b|b] l]]; reflexivity.
Qed.
Lemma contents_text name s l : contents name (text s ++ l) = contents name l.
Proof. unfold text. destruct (trim s); [reflexivity|]. cbn [app]. apply contents_skip. discriminate. Qed.

Lemma contents_items values l : contents (codes "li") (concat (map (fun v => element "li" (text v)) values) ++ l) =
  map trim (filter not_blank values) ++ contents (codes "li") l.
Proof.
  induction values as [|v values IH]; [reflexivity|]. cbn [map concat filter]. rewrite <- app_assoc. unfold element at 1, text at 1, not_blank at 1.
  destruct (trim v) as [|c t] eqn:T; cbn [app map]; rewrite <- ?app_assoc; cbn [app].
  - rewrite <- IH. cbn [contents]. destruct (concat _ ++ l); reflexivity.
  - rewrite T. cbn [app contents]. rewrite eqb_refl. cbn [andb]. rewrite <- IH. reflexivity.
Qed.

Definition lists (l : list token) (items : list str) : Prop := forall r, contents (codes "li") (l ++ r) = items ++ contents (codes "li") r.
Lemma lists_app a b i j : lists a i -> lists b j -> lists (a ++ b) (i ++ j).
Proof. intros A B r. now rewrite <- !app_assoc, A, B. Qed.
Lemma lists_text s : lists (text s) [].
Proof. intros r. apply contents_text. Qed.
Lemma lists_element name l i : eqb (codes name) (codes "li") = false -> lists l i -> lists (element name l) i.
Proof.
  intros E L r. unfold element. cbn [app]. rewrite contents_skip by (intros ? H; injection H as <-; exact E). rewrite <- app_assoc, L.
  cbn [app]. rewrite contents_skip by discriminate. reflexivity.
Qed.
Lemma lists_row title value : lists (row title value) [].
Proof.
  unfold row. apply lists_element; [reflexivity|]. apply (lists_app _ _ [] []); apply lists_element; try reflexivity; try apply lists_text.
  apply lists_element; [reflexivity|]. apply lists_text.
Qed.
Lemma lists_clusters clusters : lists (concat (map (fun cv => cluster_tokens (fst cv) (snd cv)) clusters)) (map trim (filter not_blank (concat (map snd clusters)))).
Proof.
  induction clusters as [|[c vs] clusters IH]; [intros r; reflexivity|]. cbn [map concat fst snd]. rewrite filter_app, map_app. apply lists_app; [|exact IH].
  unfold cluster_tokens. apply lists_element; [reflexivity|]. apply (lists_app _ _ []); [apply lists_text|]. apply lists_element; [reflexivity|].
  intros r. apply contents_items.
Qed.

Lemma lists_page date algorithm lines distinct found took clusters :
  lists (page date algorithm lines distinct found took clusters) (map trim (filter not_blank (concat (map snd clusters)))).
Proof.
  unfold page. apply (lists_app _ _ []).
  - apply lists_element; [reflexivity|]. apply (lists_app _ _ [] []); apply lists_element; try reflexivity; apply lists_text.
  - apply lists_element; [reflexivity|]. apply (lists_app _ _ []); [apply lists_element; [reflexivity|apply lists_text]|].
    apply (lists_app _ _ []); [|apply (lists_app _ _ [])].
    + apply lists_element; [reflexivity|]. apply (lists_app _ _ [] []); apply lists_element; try reflexivity; [apply lists_text|].
      apply (lists_app _ _ [] []); apply lists_row.
    + apply lists_element; [reflexivity|]. apply (lists_app _ _ [] []); apply lists_element; try reflexivity; [apply lists_text|].
      apply (lists_app _ _ [] []); [apply lists_row|]. apply (lists_app _ _ [] []); [apply lists_row|]. apply (lists_app _ _ [] []); apply lists_row.
    + apply lists_element; [reflexivity|]. apply (lists_app _ _ []); [apply lists_element; [reflexivity|apply lists_text]|]. apply lists_clusters.
Qed.

Definition closed (l : list token) : Prop := forall st r, open_tags st (l ++ r) = open_tags st r.
Lemma closed_app a b : closed a -> closed b -> closed (a ++ b).
Proof. intros A B st r. now rewrite <- app_assoc, A, B. Qed.
Lemma closed_text s : closed (text s).
Proof. intros st r. unfold text. destruct (trim s); reflexivity. Qed.
Lemma closed_element name l : closed l -> closed (element name l).
Proof. intros L st r. unfold element. cbn [app open_tags]. rewrite <- app_assoc, L. cbn [app open_tags]. now rewrite eqb_refl. Qed.
Lemma closed_concat {X} (f : X -> list token) l : (forall x, closed (f x)) -> closed (concat (map f l)).
Proof. intros F. induction l as [|x l IH]; [intros st r; reflexivity|]. cbn. now apply closed_app. Qed.

Lemma closed_page date algorithm lines distinct found took clusters : closed (page date algorithm lines distinct found took clusters).
Proof.
  unfold page, row, cluster_tokens. repeat first [apply closed_text|apply closed_element|apply closed_app|apply closed_concat; intros ?].
Qed.

(** ** the clusters of the report *)
Lemma clusters_shown values clusters : forall n rcs,
  mapM (fun ic => render_cluster values (fst ic) (snd ic)) (combine (seq n (length clusters)) clusters) = Ok rcs ->
  map (fun ic => by_rows values (snd ic)) (combine (seq n (length clusters)) clusters) = map (fun rc => map fst (rc_values rc)) rcs /\
  Forall2 is_caption rcs (map (fun ic => fst (shown values ic)) (combine (seq n (length clusters)) clusters)).
Proof.
  induction clusters as [|c clusters IH]; intros n rcs E; cbn [length seq combine mapM fst snd] in *.
  - injection E as <-. split; [reflexivity|constructor].
  - destruct (render_cluster values n c) as [rc|] eqn:R; [|discriminate E]. cbn [bind] in E.
    destruct (mapM _ (combine (seq (Datatypes.S n) _) _)) as [rcs'|] eqn:M; [|discriminate E]. cbn [bind] in E. injection E as <-.
    destruct (IH _ _ M) as [I1 I2]. cbn [map snd]. rewrite I1. unfold render_cluster in R. unfold by_rows at 1.
    destruct (sort_by _ c) as [|h l] eqn:S; [discriminate R|]. injection R as <-. split.
    + cbn [map fst rc_values]. rewrite map_map. cbn [fst]. now rewrite map_id.
    + constructor; [|exact I2]. unfold shown, is_caption, caption. cbn [fst snd rc_id rc_nb_values rc_nb_rows]. do 3 eexists. split; [reflexivity|].
      repeat split; apply py_int_integer.
Qed.

Lemma shown_combine values (l : list (nat * list str)) : map (shown values) l = combine (map (fun ic => fst (shown values ic)) l) (map (fun ic => by_rows values (snd ic)) l).
Proof. induction l as [|x l IH]; [reflexivity|]. cbn [map combine]. rewrite IH. reflexivity. Qed.

Lemma by_rows_no_lt values c : Forall no_lt (by_rows values c) -> Forall no_lt c.
Proof. rewrite !Forall_forall. intros H x I. apply H. apply (Permutation_in _ (Permutation_sym (sort_by_perm _ _)) I). Qed.

Lemma date_read d : valid_date (year d) (month d) (day d) 0 0 0 ->
  scalar (first_piece (codes "T") (isoformat d) ++ codes "T00:00:00") = Some (TDate (year d, month d, day d) (0, 0, 0)%N).
Proof.
  intros V. rewrite first_piece_T. set (d' := {| year := year d; month := month d; day := day d; hour := 0; minute := 0; second := 0; microsecond := 0 |}).
  destruct (iso_date_time d' V) as [E _]. etransitivity; [|exact E]. f_equal.
Qed.

Lemma no_lt_in s : ~ In 60%N s -> no_lt s.
Proof. intros H. apply forallb_forall. intros c I. destruct (N.eqb_spec c 60) as [->|]; [contradiction|reflexivity]. Qed.

Lemma enumerate_nth {A} (l : list A) i x : nth_error l i = Some x -> nth_error (enumerate l) i = Some (i, x).
Proof.
  rewrite enumerate_from. change i with (0 + i) at 3. generalize 0 as n. revert i. induction l as [|y l IH]; intros [|i] n H; cbn in *; try discriminate H.
  - injection H as <-. now rewrite Nat.add_0_r.
  - rewrite (IH i (Datatypes.S n) H). f_equal. f_equal. lia.
Qed.
