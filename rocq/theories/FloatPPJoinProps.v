(** C121, C122: ppjoin, its numbers being floats *)
From Coq Require Import QArith String ZArith Lqa Lia.
From Verif Require Import Base BaseFacts PairwiseModel GraphModel SortModel SortSpec BlockingSpec BlockingProofs LevModel PassJoinModel StringsModel FingerprintModel
  PPJoinModel PPJoinSpec PPJoinOrderProofs PPJoinProofs PPJoinHelperProofs PPJoinEndProofs PPJoinProps
  FloatModel FloatSpec FloatProofs FloatPPJoinModel FloatPPJoinSpec FloatPPJoinHelperProofs FloatPPJoinProofs.
Open Scope nat_scope.
Open Scope list_scope.
Notation length := List.length.

Section Props.
Context {R T : Type} `{EqDec T}.
Variable leb : T -> T -> bool.
Hypothesis order : total_preorder leb.
Hypothesis antisym : forall a b, leb a b = true -> leb b a = true -> a = b.
Variable crc32 : T -> N.
Variable items : R -> list T.

(** all_pairs in floats: every pair whose exact similarity reaches the threshold is given, once, and a pair that is given has an
    exact similarity of at least the threshold less 1.000001e-6, whatever the rounding. *)
Theorem C121_all_pairs records tokenizer m t token_ordering :
  threshold_ok_float m t -> ordering_ok crc32 items records tokenizer token_ordering ->
  let tokens := match tokenizer with Some f => f | None => items end in
  (forall r, In r records -> tokens r <> []) ->
  (forall r n, In r records -> card (fun w => In w (tokens r)) n -> (Z.of_nat n <= 1048576)%Z) ->
  exists out, ppjoin_float leb crc32 items records t (metric_name m) tokenizer AllPairs token_ordering = Ok out /\
    joins tokens (similar m t) (similar m (t - (1000001 # 1000000000000))) records out.
Proof.
  intros Ht Ho tokens Hne Hs.
  destruct (float_joins leb order antisym crc32 items records tokenizer token_ordering Ho Hne Hs m t Ht AllPairs) as (out & E & pairs & J1 & J2 & J3 & J4 & J5).
  exists out. split; [exact E|]. exists pairs. split; [exact J1|]. split; [exact J2|]. split; [exact J3|]. split.
  - intros i j a b Hij Hi Hj Hw. apply (J4 i j a b); auto. split; auto.
  - intros i j a b Hij Hi Hj. apply (J5 i j a b Hij Hi Hj).
Qed.

(** The default and plus modes give the same pairs, except records having the same tokens and too few of them; the limit is that of
    exact numbers up to 1e-8. *)
Theorem C122_filtered_modes records tokenizer m t token_ordering algo :
  threshold_ok_float m t -> ordering_ok crc32 items records tokenizer token_ordering ->
  let tokens := match tokenizer with Some f => f | None => items end in
  (forall r, In r records -> tokens r <> []) ->
  (forall r n, In r records -> card (fun w => In w (tokens r)) n -> (Z.of_nat n <= 1048576)%Z) ->
  algo = PPJoin \/ algo = PPJoinPlus ->
  exists out, ppjoin_float leb crc32 items records t (metric_name m) tokenizer algo token_ordering = Ok out /\
    joins tokens (fun a b => similar m t a b /\ ~ lost_at (99 # 100000000) m t a b)
      (fun a b => similar m (t - (1000001 # 1000000000000)) a b /\ ~ lost_at (101 # 100000000) m t a b) records out.
Proof.
  intros Ht Ho tokens Hne Hs Ha.
  destruct (float_joins leb order antisym crc32 items records tokenizer token_ordering Ho Hne Hs m t Ht algo) as (out & E & pairs & J1 & J2 & J3 & J4 & J5).
  exists out. split; [exact E|]. exists pairs. split; [exact J1|]. split; [exact J2|]. split; [exact J3|]. split.
  - intros i j a b Hij Hi Hj [Hw Hl]. apply (J4 i j a b); auto. split; [exact Hw|]. right. intros L. apply Hl.
    apply (lost_between leb antisym items records tokenizer Hne Hs m t Ht a (tokens b)); [eapply nth_error_In; eauto|exact L].
  - intros i j a b Hij Hi Hj. destruct (J5 i j a b Hij Hi Hj) as [Hw [Hl|Hl]]; [destruct Ha; congruence|]. split; [exact Hw|].
    intros L. apply Hl. apply (lost_between leb antisym items records tokenizer Hne Hs m t Ht a (tokens b)); [eapply nth_error_In; eauto|exact L].
Qed.

(** whatever they find, the All-Pairs algorithm finds too *)
Theorem C122_subset records tokenizer m t token_ordering algo :
  threshold_ok_float m t -> ordering_ok crc32 items records tokenizer token_ordering ->
  let tokens := match tokenizer with Some f => f | None => items end in
  (forall r, In r records -> tokens r <> []) ->
  (forall r n, In r records -> card (fun w => In w (tokens r)) n -> (Z.of_nat n <= 1048576)%Z) ->
  exists out all,
    ppjoin_float leb crc32 items records t (metric_name m) tokenizer algo token_ordering = Ok out /\
    ppjoin_float leb crc32 items records t (metric_name m) tokenizer AllPairs token_ordering = Ok all /\ incl out all.
Proof. intros Ht Ho tokens Hne Hs. apply (float_subset leb order antisym crc32 items records tokenizer token_ordering Ho Hne Hs m t Ht algo). Qed.
End Props.

(** the limit of C122 encloses that of C89: what is surely too short for floats is too short for exact numbers, and conversely *)
Theorem C122_limit m t n : (0 < t)%Q ->
  (too_short_at (101 # 100000000) m t n -> too_short m t n) /\ (too_short m t n -> too_short_at (99 # 100000000) m t n).
Proof. intros Ht. destruct m; simpl; split; intros L; nra. Qed.

Print Assumptions C121_all_pairs.
Print Assumptions C122_filtered_modes.
Print Assumptions C122_subset.
Print Assumptions C122_limit.

(** *** Examples *)
(** test/clustering/ppjoin_test.py, on some of the universities, with the float nearest to the threshold *)
Definition run_float algo ordering m t := ppjoin_float str_le no_crc grams5 universities t m (Some grams5) algo ordering.
Example test_jaccard_float : map (fun algo => run_float algo (Some "freq"%string) "jaccard" (fl (8 # 10))) [AllPairs; PPJoin; PPJoinPlus] =
  [Ok jaccard_pairs; Ok jaccard_pairs; Ok jaccard_pairs].
Proof. vm_compute. reflexivity. Qed.
Example test_dice_float : map (fun algo => run_float algo (Some "freq"%string) "dice" (fl (85 # 100))) [AllPairs; PPJoin; PPJoinPlus] =
  [Ok dice_pairs; Ok dice_pairs; Ok dice_pairs].
Proof. vm_compute. reflexivity. Qed.
Example test_cosine_float : map (fun algo => run_float algo None "binary_cosine" (fl (9 # 10))) [AllPairs; PPJoin; PPJoinPlus] =
  [Ok cosine_pairs; Ok cosine_pairs; Ok cosine_pairs].
Proof. vm_compute. reflexivity. Qed.

(** the hypotheses of the theorems hold for these runs *)
Example float_hypotheses : threshold_ok_float Jaccard (fl (8 # 10)) /\ threshold_ok_float Dice (fl (85 # 100)) /\ threshold_ok_float BinaryCosine (fl (9 # 10)) /\
  ordering_ok no_crc grams5 universities (Some grams5) (Some "freq"%string) /\ (forall r, In r universities -> grams5 r <> []) /\
  (forall r n, In r universities -> card (fun w => In w (grams5 r)) n -> (Z.of_nat n <= 1048576)%Z).
Proof.
  destruct test_hypotheses as (_ & _ & _ & A & B).
  split; [split; [apply fl_float53|split; [reflexivity|vm_compute; discriminate]]|].
  split; [split; [apply fl_float53|split; [reflexivity|vm_compute; discriminate]]|].
  split; [split; [apply fl_float53|split; [reflexivity|split; [reflexivity|vm_compute; discriminate]]]|].
  split; [exact A|]. split; [exact B|]. intros r n Hr (l & N & E & <-).
  assert (L : length l <= length (grams5 r)) by (apply NoDup_incl_length; [exact N|intros w Hw; apply E; exact Hw]).
  assert (L' : length (grams5 r) <= 50); [|lia].
  clear - Hr. cbn in Hr. repeat destruct Hr as [<-|Hr]; try (vm_compute; repeat constructor). destruct Hr.
Qed.

(** eight equal tokens are too few for the default mode with a threshold of 0.8, nine are enough *)
Example lost_8_float : ppjoin_float str_le no_crc chars ["abcdefgh"; "abcdefgh"]%string (fl (8 # 10)) "jaccard" (Some chars) PPJoin None = Ok [].
Proof. vm_compute. reflexivity. Qed.
Example found_9_float : ppjoin_float str_le no_crc chars ["abcdefghi"; "abcdefghi"]%string (fl (8 # 10)) "jaccard" (Some chars) PPJoin None = Ok [("abcdefghi", "abcdefghi")]%string.
Proof. vm_compute. reflexivity. Qed.
Example limit_8 : too_short_at (101 # 100000000) Jaccard (fl (8 # 10)) 8 /\ ~ too_short_at (99 # 100000000) Jaccard (fl (8 # 10)) 9.
Proof. split; vm_compute; [reflexivity|discriminate]. Qed.
