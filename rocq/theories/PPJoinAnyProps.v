(** C183 - C187: ppjoin with any threshold. *)
From Coq Require Import QArith String ZArith Lia Lqa.
From Verif Require Import Base BaseFacts PairwiseModel GraphModel SortModel SortSpec SortFacts BlockingSpec BlockingProofs LevModel PassJoinModel StringsModel FingerprintModel FingerprintProofs
  PPJoinModel PPJoinSpec PPJoinOrderProofs PPJoinProofs PPJoinAcceptProofs PPJoinHelperProofs PPJoinEndProofs PPJoinProps PPJoinAnyModel PPJoinAnySpec PPJoinAnyProofs PPJoinAnyEndProofs.
Open Scope nat_scope.
Open Scope list_scope.
Notation length := List.length.

Section Any.
Context {R T : Type} `{EqDec T}.
Variable leb : T -> T -> bool.
Hypothesis order : total_preorder leb.
Hypothesis antisym : forall a b, leb a b = true -> leb b a = true -> a = b.
Variable crc32 : T -> N.
Variable items : R -> list T.

(** ** C183: between 0 and 1 the function is that of the other theorems, failures included *)
Theorem C183_same records t metric tokenizer algo token_ordering : (0 < t <= 1)%Q ->
  ppjoin_any leb crc32 items records t metric tokenizer algo token_ordering = ppjoin leb crc32 items records t metric tokenizer algo token_ordering.
Proof.
  clear order antisym. intros [H0 H1]. unfold ppjoin_any, ppjoin. destruct (match token_ordering with None => false | Some o => _ end); [reflexivity|].
  assert (E : forall m (U : Type) (eqU : EqDec U) (leb' : U -> U -> bool) rs, any_join leb' (any_helper_of m t) t algo rs = join leb' (helper_of m t) t algo rs)
    by (intros m U eqU leb' rs; apply any_join_same; apply agrees_of; assumption).
  assert (F : forall m, (let! pairs :=
      match token_ordering with
      | None => any_join leb (any_helper_of m t) t algo (map (sorted_uniq leb) (map (match tokenizer with Some f => f | None => items end) records))
      | Some o =>
        if string_dec o "freq" then
          let! rs := preprocess_freq leb (match tokenizer with Some _ => true | None => false end) (map (match tokenizer with Some f => f | None => items end) records) in
          any_join Nat.leb (any_helper_of m t) t algo rs
        else any_join N.leb (any_helper_of m t) t algo (preprocess_crc32 leb crc32 (map (match tokenizer with Some f => f | None => items end) records))
      end in
    mapM (fun '(k, c) => let! a := index records k in let! b := index records c in Ok (a, b)) pairs) =
    (let! pairs :=
      match token_ordering with
      | None => join leb (helper_of m t) t algo (map (sorted_uniq leb) (map (match tokenizer with Some f => f | None => items end) records))
      | Some o =>
        if string_dec o "freq" then
          let! rs := preprocess_freq leb (match tokenizer with Some _ => true | None => false end) (map (match tokenizer with Some f => f | None => items end) records) in
          join Nat.leb (helper_of m t) t algo rs
        else join N.leb (helper_of m t) t algo (preprocess_crc32 leb crc32 (map (match tokenizer with Some f => f | None => items end) records))
      end in
    mapM (fun '(k, c) => let! a := index records k in let! b := index records c in Ok (a, b)) pairs)).
  { intros m. destruct token_ordering as [o|]; [|rewrite E; reflexivity]. destruct (string_dec o "freq"); [|rewrite E; reflexivity].
    destruct (preprocess_freq _ _ _) as [rs|]; cbn [bind]; [rewrite E; reflexivity|reflexivity]. }
  unfold make_any_helper, make_helper. destruct (string_dec metric "jaccard"); [exact (F Jaccard)|]. destruct (string_dec metric "dice"); [exact (F Dice)|].
  destruct (string_dec metric "binary_cosine"); [exact (F BinaryCosine)|]. reflexivity.
Qed.

Section Ordering.
Variables (records : list R) (tokenizer : option (R -> list T)) (token_ordering : option string).
Hypothesis Ho : ordering_ok crc32 items records tokenizer token_ordering.
Notation tokens := (match tokenizer with Some f => f | None => items end).

Lemma any_encoded m t algo : exists (U : Type) (eqU : EqDec U) (leb' : U -> U -> bool) (rs : list (list U)),
  (forall r, In r rs -> NoDup r) /\
  Forall2 (fun record r => card (fun w => In w (tokens record)) (length r)) records rs /\
  ppjoin_any leb crc32 items records t (metric_name m) tokenizer algo token_ordering = read records (any_join leb' (any_helper_of m t) t algo rs).
Proof.
  destruct (position_pairs_encoded leb order antisym crc32 items records tokenizer token_ordering Ho) as (U & eqU & leb' & f & rs & Or & Anti & Hf & Henc & Hpos).
  exists U, eqU, leb', rs. split; [|split].
  - intros r Hr. clear - Or Henc Hr. induction Henc as [|a b l l' [Hi _] HF IH]; [destruct Hr|]. destruct Hr as [<-|Hr]; [eapply increasing_NoDup; eauto|auto].
  - assert (G : forall l, incl l (map tokens records) -> forall rs', Forall2 (encodes leb' f) l rs' -> Forall2 (fun a r => card (fun w => In w a) (length r)) l rs').
    { intros l Hl rs' HF. induction HF as [|a b l l' Hab HF IH]; constructor.
      - eapply encodes_card; [exact Or|exact Hab|]. intros v w Hv Hw. apply Hf; apply in_concat; exists a; split; auto; apply Hl; left; reflexivity.
      - apply IH. intros x Hx. apply Hl. right. exact Hx. }
    specialize (G _ (incl_refl _) rs Henc). clear - G. revert rs G. induction records as [|x l IH]; intros rs G; inversion G; subst; constructor; auto.
  - rewrite ppjoin_any_positions by exact Ho. rewrite Hpos. reflexivity.
Qed.

(** ** C184: the failures *)
(** a record of few tokens, or a threshold of 0 or less, or a dice threshold above 2 *)
Theorem C184_overrun m t algo : ~ divides_by_zero m t ->
  (exists r n, In r records /\ card (fun w => In w (tokens r)) n /\ overrun m t n) ->
  ppjoin_any leb crc32 items records t (metric_name m) tokenizer algo token_ordering = Err IndexError.
Proof.
  intros Hz (r & n & Hr & Hn & Hov). destruct (any_encoded m t algo) as (U & eqU & leb' & rs & HD & HF & ->).
  rewrite any_join_overrun; [reflexivity|exact HD|exact Hz|]. clear - Hr Hn Hov HF.
  induction HF as [|a b l l' Hab HF IH]; [destruct Hr|]. destruct Hr as [->|Hr].
  - exists b. split; [left; reflexivity|]. rewrite (card_unique _ _ _ Hab Hn). exact Hov.
  - destruct (IH Hr) as (r' & Hr' & Hv). exists r'. split; [right; exact Hr'|exact Hv].
Qed.
(** for a threshold of 0 or less: with any record, unless the metric is binary_cosine and the threshold negative *)
Theorem C184_low m t algo : (t <= 0)%Q -> (m = BinaryCosine -> t == 0)%Q -> ~ divides_by_zero m t -> records <> [] ->
  ppjoin_any leb crc32 items records t (metric_name m) tokenizer algo token_ordering = Err IndexError.
Proof.
  intros Ht Hc Hz Hne. apply C184_overrun; [exact Hz|]. destruct records as [|r l]; [congruence|].
  exists r, (length (nodup eq_dec (tokens r))). split; [left; reflexivity|]. split; [|apply overrun_low; assumption].
  exists (nodup eq_dec (tokens r)). split; [apply NoDup_nodup|]. split; [intros w; apply nodup_In|reflexivity].
Qed.
Theorem C184_division m t algo : divides_by_zero m t -> records <> [] ->
  ppjoin_any leb crc32 items records t (metric_name m) tokenizer algo token_ordering = Err ZeroDivisionError.
Proof.
  intros Hz Hne. destruct (any_encoded m t algo) as (U & eqU & leb' & rs & HD & HF & ->).
  rewrite any_join_division; [reflexivity|exact Hz|]. intros ->. inversion HF; subst. congruence.
Qed.

(** ** C185: from 1 on, nothing is found *)
Theorem C185_high m t algo : too_high m t -> (forall r, In r records -> tokens r <> []) ->
  ppjoin_any leb crc32 items records t (metric_name m) tokenizer algo token_ordering = Ok [].
Proof.
  intros Ht Hne. destruct (any_encoded m t algo) as (U & eqU & leb' & rs & HD & HF & ->).
  rewrite any_join_high; [reflexivity| |exact Ht]. clear - HF Hne.
  induction HF as [|a b l l' Hab HF IH]; [intros r []|]. intros r [<-|Hr]; [|apply IH; [intros; apply Hne; right; assumption|exact Hr]].
  intros ->. apply (Hne a (or_introl eq_refl)). destruct Hab as (s & _ & Hs & HL). destruct s; [|discriminate HL].
  destruct (tokens a) as [|w x]; [reflexivity|]. exfalso. apply (proj2 (Hs w)). left. reflexivity.
Qed.
Theorem C185_empty m t algo : too_high m t -> (exists r, In r records /\ tokens r = []) ->
  ppjoin_any leb crc32 items records t (metric_name m) tokenizer algo token_ordering = Err IndexError.
Proof.
  intros [Ht Hm] (r & Hr & Er). apply C184_overrun.
  - intros Hz. destruct m; cbn [divides_by_zero] in Hz; [lra|lra|exact Hz].
  - exists r, 0. split; [exact Hr|]. split; [exists []; split; [constructor|split; [rewrite Er; reflexivity|reflexivity]]|].
    destruct m; cbn [overrun]; unfold natq; change (inject_Z (Z.of_nat 0)) with 0%Q; [lra|right; lra|lra].
Qed.

(** ** C187: there is a pair only if the threshold is above 0 and under 1 *)
Theorem C187_none m t algo out : (t <= 0 \/ 1 <= t)%Q ->
  ppjoin_any leb crc32 items records t (metric_name m) tokenizer algo token_ordering = Ok out -> out = [].
Proof.
  intros Ht. destruct (any_encoded m t algo) as (U & eqU & leb' & rs & HD & HF & ->). unfold read.
  destruct (any_join leb' (any_helper_of m t) t algo rs) as [pairs|e] eqn:E; cbn [bind]; [|discriminate].
  apply any_join_none in E; [|exact HD|exact Ht]. subst pairs. cbn [mapM]. intros EO. injection EO as <-. reflexivity.
Qed.
End Ordering.
End Any.

(** ** C186: a threshold of 0 or less, which every pair of records reaches *)
Definition every_pair {R T} (tokens : R -> list T) (m : metric) (t : Q) (records : list R) (result : res (list (R * R))) : Prop :=
  exists out, result = Ok out /\ joins tokens (similar m t) (similar m (t - (1 # 1000000))) records out.
Theorem C186_low_refuted :
  (forall m t, In (m, t) [(Jaccard, 0%Q); (Dice, 0%Q); (BinaryCosine, 0%Q); (Jaccard, (-1 # 2)%Q); (Jaccard, (-1 # 1)%Q); (BinaryCosine, (-1 # 2)%Q)] ->
    similar m t (chars "abc") (chars "def") /\
    ~ every_pair chars m t ["abc"; "def"]%string (ppjoin_any str_le no_crc chars ["abc"; "def"]%string t (metric_name m) (Some chars) AllPairs (Some "freq"%string))).
Proof.
  assert (HS : forall m t, sim_at_least m t 3 3 0 -> similar m t (chars "abc") (chars "def")).
  { intros m t Hs. exists 3, 3, 0. split; [|split; [|split; [|exact Hs]]].
    + exists (chars "abc"). split; [vm_compute; repeat constructor; simpl; intuition discriminate|split; [reflexivity|reflexivity]].
    + exists (chars "def"). split; [vm_compute; repeat constructor; simpl; intuition discriminate|split; [reflexivity|reflexivity]].
    + exists []. split; [constructor|]. split; [|reflexivity]. intros w. split; [intros []|]. vm_compute. intros [H1 H2]. intuition (subst; discriminate). }
  intros m t Hin.
  assert (H0 : sim_at_least m t 3 3 0).
  { repeat (destruct Hin as [Hin|Hin]; [injection Hin as <- <-; cbn [sim_at_least]; unfold natq; simpl; first [lra|left; lra|vm_compute; discriminate]|]). destruct Hin. }
  split; [apply HS; exact H0|]. intros (out & E & pairs & _ & HF & _ & HW & _).
  assert (out = []).
  { repeat (destruct Hin as [Hin|Hin]; [injection Hin as <- <-; vm_compute in E; first [discriminate E|injection E as <-; reflexivity]|]). destruct Hin. }
  subst out. inversion HF; subst. destruct (HW 0 1 "abc"%string "def"%string) as [[]|[]]; auto.
Qed.

(** ** samples *)
Definition sample (records : list string) (t : Q) (metric : string) (algo : algorithm) :=
  ppjoin_any str_le no_crc chars records t metric (Some chars) algo (Some "freq"%string).
Open Scope string_scope.
Open Scope list_scope.
Example above_one : sample ["abc"; "abc"] (3 # 2) "jaccard" PPJoin = Ok [] /\ sample ["abc"; "abc"; ""] (3 # 2) "jaccard" PPJoin = Err IndexError /\
  sample ["abc"; "abc"] 2 "dice" PPJoin = Err ZeroDivisionError /\ sample ["abc"; "abc"] 3 "dice" PPJoin = Err IndexError /\ sample ["abc"; "abc"] 3 "binary_cosine" PPJoinPlus = Ok [].
Proof. vm_compute. repeat split. Qed.
Example tiny : sample ["a"; "abc"] (1 # 1000000) "jaccard" AllPairs = Err IndexError /\ sample ["ab"; "abc"] (1 # 1000000) "jaccard" AllPairs = Ok [("abc", "ab")].
Proof. vm_compute. split; reflexivity. Qed.
Example low : sample ["abc"; "def"] 0 "jaccard" AllPairs = Err IndexError /\ sample ["abc"; "def"] 0 "dice" AllPairs = Err IndexError /\
  sample ["abc"; "def"] 0 "binary_cosine" AllPairs = Err IndexError /\ sample ["abc"; "def"] (-1 # 1) "jaccard" AllPairs = Err ZeroDivisionError.
Proof. vm_compute. repeat split. Qed.
Example cosine_negative : sample ["abc"; "abd"] (-1 # 2) "binary_cosine" AllPairs = Err IndexError /\ sample ["abc"; "def"] (-1 # 2) "binary_cosine" PPJoinPlus = Ok [].
Proof. vm_compute. split; reflexivity. Qed.
Example usual : sample ["abcd"; "abce"; "xyz"] (1 # 2) "jaccard" AllPairs = Ok [("abce", "abcd")].
Proof. vm_compute. reflexivity. Qed.

Print Assumptions C183_same.
Print Assumptions C184_overrun.
Print Assumptions C184_low.
Print Assumptions C184_division.
Print Assumptions C185_high.
Print Assumptions C185_empty.
Print Assumptions C186_low_refuted.
Print Assumptions C187_none.
