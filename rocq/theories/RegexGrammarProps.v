(** C157: the parser of patterns and the grammar. *)
From Coq Require Import String Ascii Lia NArith.
From Verif Require Import Base BaseFacts LevModel StringsModel PhoneticsModel RegexModel RegexGrammarSpec RegexGrammarProofs.
Open Scope nat_scope.
Open Scope string_scope.
Open Scope list_scope.
Notation length := List.length.

(** the patterns that are accepted, and what they are read as, are those of the grammar *)
Theorem C157_parse : forall s r, parse s = Some r <-> pattern s r.
Proof. intros s r. split; [apply parse_grammar|apply grammar_parse]. Qed.
Theorem C157_refused : forall s, parse s = None <-> forall r, ~ pattern s r.
Proof.
  intros s. split.
  - intros E r P. apply C157_parse in P. congruence.
  - intros H. destruct (parse s) as [r|] eqn:E; [|reflexivity]. apply C157_parse in E. exfalso. exact (H r E).
Qed.
Theorem C157_unambiguous : forall s r r', pattern s r -> pattern s r' -> r = r'.
Proof. intros s r r' H H'. apply C157_parse in H, H'. congruence. Qed.

Definition numbered (n : nat) (op : list nat) (r : regex) (m : nat) : Prop := numbers r = seq n (m - n) /\ n <= m /\ closed n op r.
Lemma numbered_app n op a b m k : numbered n op a m -> numbered m op b k -> numbers a ++ numbers b = seq n (k - n) /\ n <= k /\ closed n op a /\ closed (n + length (numbers a)) op b.
Proof.
  intros (A1 & A2 & A3) (B1 & B2 & B3). split; [rewrite A1, B1|split; [lia|]].
  - replace (k - n) with ((m - n) + (k - m)) by lia. rewrite seq_app. do 2 f_equal. lia.
  - split; [exact A3|]. rewrite A1, seq_length. replace (n + (m - n)) with m by lia. exact B3.
Qed.
Lemma grammar_numbered : (forall n op ts r m, alternatives n op ts r m -> numbered n op r m) /\ (forall n op ts r m, sequence n op ts r m -> numbered n op r m) /\
  (forall n op ts r at_ m, atom n op ts r at_ m -> numbered n op r m).
Proof.
  apply grammar_min; intros; try assumption; try (eapply numbered_app; eassumption); try (unfold numbered in *; cbn; rewrite Nat.sub_diag; repeat split; try lia; assumption).
  unfold numbered in *. destruct H0 as (E & L & C). split; [|split; [lia|exact C]]. cbn [numbers]. rewrite E. replace (m - n) with (S (m - (n + 1))) by lia. cbn [seq]. f_equal. f_equal. lia.
Qed.
Theorem C157_groups : forall s r, parse s = Some r -> numbers r = seq 1 (length (numbers r)) /\ closed 1 [] r.
Proof.
  intros s r P. apply C157_parse in P. destruct P as (ts & n & _ & A). apply (proj1 grammar_numbered) in A. destruct A as (E & L & C). split; [|exact C]. rewrite E at 2. rewrite seq_length. exact E.
Qed.

(** ** examples, given by python 3.11 too *)
Example C157_brace_ex : parse (codes "a{2") = Some (Seq (Lit 97) (Seq (Lit 123) (Seq (Lit 50) Eps))) /\ parse (codes "a{2}") = Some (Seq (Rep false 2 (Some 2) (Lit 97)) Eps) /\ parse (codes "a{,3}?") = Some (Seq (Rep true 0 (Some 3) (Lit 97)) Eps) /\
  parse (codes "a{}") = Some (Seq (Lit 97) (Seq (Lit 123) (Seq (Lit 125) Eps))) /\ parse (codes "{2}") = None.
Proof. vm_compute. auto 6. Qed.
Example C157_set_ex : parse (codes "[]a]") = Some (Seq (Chars false [Single 93; Single 97]) Eps) /\ parse (codes "[^]-a]") = Some (Seq (Chars true [Range 93 97]) Eps) /\ parse (codes "[a-]") = Some (Seq (Chars false [Single 97; Single 45]) Eps) /\
  parse (codes "[\d-]") = Some (Seq (Chars false [Category Digit; Single 45]) Eps) /\ parse (codes "[\d-a]") = None /\ parse (codes "[b-a]") = None /\ parse (codes "[a") = None.
Proof. vm_compute. auto 8. Qed.
Example C157_groups_ex : parse (codes "((a)|b)\2") = Some (Seq (Group 1 (Alt (Seq (Group 2 (Seq (Lit 97) Eps)) Eps) (Seq (Lit 98) Eps))) (Seq (Ref 2) Eps)) /\ parse (codes "(a\1)") = None /\ parse (codes "(a)\2") = None.
Proof. vm_compute. auto. Qed.
Open Scope char_scope.
Example C157_pattern_ex : pattern [97; 43]%N (Seq (Rep false 1 None (Lit 97)) Eps).
Proof.
  exists [Plain 97; "+" : tok], 1. split; [split; [reflexivity|repeat constructor; discriminate]|]. apply alt_last.
  apply (seq_repeated 1 [] [Plain 97] (Lit 97) 1 [] Eps 1 ["+" : tok] 1 None); [|apply rep_plus|apply seq_end]. apply atom_itself. intros I. vm_compute in I. repeat (destruct I as [I|I]; [discriminate I|]). exact I.
Qed.

Print Assumptions C157_parse.
Print Assumptions C157_refused.
Print Assumptions C157_unambiguous.
Print Assumptions C157_groups.
