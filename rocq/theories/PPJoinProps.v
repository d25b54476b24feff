(** C24, C25, C88, C89, C90, C91: ppjoin *)
From Coq Require Import QArith String Lqa.
From Verif Require Import Base BaseFacts PairwiseModel GraphModel SortModel SortSpec SortFacts BlockingSpec BlockingProofs LevModel PassJoinModel StringsModel FingerprintModel FingerprintProofs
  PPJoinModel PPJoinSpec PPJoinOrderProofs PPJoinProofs PPJoinAcceptProofs PPJoinHelperProofs PPJoinEndProofs.
Open Scope nat_scope.
Open Scope list_scope.
Notation length := List.length.

Section Props.
Context {R T : Type} `{EqDec T}.
Variable leb : T -> T -> bool.
Hypothesis order : total_preorder leb.
Hypothesis antisym : forall a b, leb a b = true -> leb b a = true -> a = b.
Variable crc32 : T -> N.
Variable items : R -> list T.

(** The All-Pairs algorithm gives every pair whose similarity reaches the threshold, each once, and only pairs whose similarity
    reaches it up to epsilon: for the three metrics, records with at least one token, and thresholds below 1. *)
Theorem C88_all_pairs_exact records tokenizer m t token_ordering :
  threshold_ok m t -> ordering_ok crc32 items records tokenizer token_ordering ->
  let tokens := match tokenizer with Some f => f | None => items end in
  (forall r, In r records -> tokens r <> []) ->
  exists out, ppjoin leb crc32 items records t (metric_name m) tokenizer AllPairs token_ordering = Ok out /\
    joins tokens (similar m t) (similar m (t - (1 # 1000000))) records out.
Proof.
  intros Ht Ho tokens Hne.
  destruct (ppjoin_joins leb order antisym crc32 items records tokenizer token_ordering Ho Hne m t Ht AllPairs) as (out & E & pairs & J1 & J2 & J3 & J4 & J5).
  exists out. split; [exact E|]. exists pairs. split; [exact J1|]. split; [exact J2|]. split; [exact J3|]. split.
  - intros i j a b Hij Hi Hj Hs. apply (J4 i j a b); auto. split; auto.
  - intros i j a b Hij Hi Hj. apply (J5 i j a b Hij Hi Hj).
Qed.

(** The default and plus modes give the same pairs, except records having the same tokens and too few of them. *)
Theorem C89_filtered_modes_exact records tokenizer m t token_ordering algo :
  threshold_ok m t -> ordering_ok crc32 items records tokenizer token_ordering ->
  let tokens := match tokenizer with Some f => f | None => items end in
  (forall r, In r records -> tokens r <> []) ->
  algo = PPJoin \/ algo = PPJoinPlus ->
  exists out, ppjoin leb crc32 items records t (metric_name m) tokenizer algo token_ordering = Ok out /\
    joins tokens (fun a b => similar m t a b /\ ~ lost m t a b) (fun a b => similar m (t - (1 # 1000000)) a b /\ ~ lost m t a b) records out.
Proof.
  intros Ht Ho tokens Hne Ha.
  destruct (ppjoin_joins leb order antisym crc32 items records tokenizer token_ordering Ho Hne m t Ht algo) as (out & E & pairs & J1 & J2 & J3 & J4 & J5).
  exists out. split; [exact E|]. exists pairs. split; [exact J1|]. split; [exact J2|]. split; [exact J3|]. split.
  - intros i j a b Hij Hi Hj [Hs Hl]. apply (J4 i j a b); auto. split; auto.
  - intros i j a b Hij Hi Hj. destruct (J5 i j a b Hij Hi Hj) as [Hs [Hl|Hl]]; [destruct Ha; congruence|]. auto.
Qed.

(** whatever they find, the All-Pairs algorithm finds too *)
Theorem C89_filtered_modes_subset records tokenizer m t token_ordering algo :
  threshold_ok m t -> ordering_ok crc32 items records tokenizer token_ordering ->
  (forall r, In r records -> match tokenizer with Some f => f | None => items end r <> []) ->
  exists out all,
    ppjoin leb crc32 items records t (metric_name m) tokenizer algo token_ordering = Ok out /\
    ppjoin leb crc32 items records t (metric_name m) tokenizer AllPairs token_ordering = Ok all /\ incl out all.
Proof. intros Ht Ho Hne. apply (ppjoin_subset leb order antisym crc32 items records tokenizer token_ordering Ho Hne m t Ht algo). Qed.

(** compute_overlap counts the common tokens of two increasing records, or gives up, only when they are fewer than required. *)
Theorem C90_compute_overlap x y require : increasing leb x -> increasing leb y ->
  match compute_overlap leb x y require with
  | Some n => card (fun w => In w x /\ In w y) n
  | None => exists n, card (fun w => In w x /\ In w y) n /\ n < require
  end.
Proof.
  intros Hx Hy. pose proof (compute_overlap_spec leb order antisym x y require Hx Hy) as C.
  assert (E : card (fun w => In w x /\ In w y) (common x y)).
  { exists (filter (fun v => memb v y) x). split; [apply NoDup_filter; eapply increasing_NoDup; eauto|]. split; [|reflexivity].
    intros w. rewrite filter_In, memb_true. reflexivity. }
  destruct (compute_overlap leb x y require) as [n|]; [subst n; exact E|exists (common x y); auto].
Qed.

(** suffix_filter never fails on the calls that are made, and gives at most the Hamming distance of the two parts
    when this distance is within the bound: no pair is wrongly discarded. *)
Theorem C90_suffix_filter_bound x y p t hd : increasing leb x -> increasing leb y -> p <= length y -> t <= length x -> (0 <= hd)%Z ->
  (exists k, hd = Z.of_nat (length y - p) - Z.of_nat (length x - t) + 2 * k)%Z ->
  exists n, suffix_filter leb MAX_DEPTH y x (Z.of_nat p) (Z.of_nat (length y)) (Z.of_nat t) (Z.of_nat (length x)) hd = Ok n /\
    forall o, card (fun w => In w (skipn p y) /\ In w (skipn t x)) o ->
      let hamming := (Z.of_nat (length y - p) + Z.of_nat (length x - t) - 2 * Z.of_nat o)%Z in
      (hamming <= hd -> n <= hamming)%Z.
Proof.
  intros Hx Hy Hp Ht Hhd [k Hk].
  destruct (suffix_filter_spec leb order antisym MAX_DEPTH y x (Z.of_nat p) (Z.of_nat (length y)) (Z.of_nat t) (Z.of_nat (length x)) hd)
    as (n & E & _ & B); auto; try lia.
  { exists k. lia. }
  exists n. split; [exact E|]. intros o Ho. cbv zeta. rewrite !seg_skipn in B. unfold ham in B. rewrite !skipn_length in B.
  replace o with (common (skipn p y) (skipn t x)); [exact B|].
  apply (card_unique (fun w => In w (skipn p y) /\ In w (skipn t x))); [|exact Ho].
  exists (filter (fun v => memb v (skipn t x)) (skipn p y)). split.
  - apply NoDup_filter. pose proof (increasing_NoDup leb order y Hy) as N. rewrite <- (firstn_skipn p y) in N. apply NoDup_app_iff in N. tauto.
  - split; [|reflexivity]. intros w. rewrite filter_In, memb_true. reflexivity.
Qed.

(** a record without tokens makes the join fail, whatever the algorithm *)
Lemma join_empty {U} `{EqDec U} (leb' : U -> U -> bool) m t algo (rs : list (list U)) : (0 <= t)%Q ->
  In [] rs -> join leb' (helper_of m t) t algo rs = Err IndexError.
Proof.
  intros Ht Hin. assert (Hp : probe_length (helper_of m t) 0 = 1).
  { destruct m; cbn [helper_of jaccard_helper dice_helper binary_cosine_helper probe_length]; unfold int;
      match goal with |- Z.to_nat (Qround.Qfloor ?q) = 1 => assert (E : (q == 1000001 # 1000000)%Q) by (unfold qn, EPSILON; ring); rewrite E; reflexivity end. }
  pose proof (argsort_sorted rs) as Hs.
  assert (L : exists k, In k (argsort rs) /\ record_of rs k = []).
  { apply In_nth_error in Hin as [k Hk]. exists k. split; [apply argsort_In; apply nth_error_Some; congruence|].
    unfold record_of. apply nth_error_nth. exact Hk. }
  unfold join. destruct (argsort rs) as [|k l]; [destruct L as (? & [] & _)|].
  assert (E : record_of rs k = []).
  { destruct L as (k' & [<-|Hk'] & E'); [exact E'|]. inversion Hs as [|? ? _ Hf]; subst. rewrite Forall_forall in Hf.
    specialize (Hf k' Hk'). unfold before in Hf. rewrite E' in Hf. simpl in Hf. destruct (record_of rs k); [auto|simpl in Hf; lia]. }
  cbn [foldM]. unfold join_record at 1. rewrite E. cbn [length]. rewrite Hp. reflexivity.
Qed.

Theorem C91_empty_record records tokenizer m t token_ordering algo :
  (0 <= t)%Q -> ordering_ok crc32 items records tokenizer token_ordering ->
  (exists r, In r records /\ match tokenizer with Some f => f | None => items end r = []) ->
  ppjoin leb crc32 items records t (metric_name m) tokenizer algo token_ordering = Err IndexError.
Proof.
  intros Ht Ho (r & Hr & Er).
  rewrite (ppjoin_positions leb crc32 items records tokenizer token_ordering Ho m t algo).
  destruct (position_pairs_encoded leb order antisym crc32 items records tokenizer token_ordering Ho) as (U & eqU & leb' & f & rs & _ & _ & _ & Henc & Hpos).
  unfold read. rewrite Hpos, (join_empty leb'); [reflexivity|exact Ht|].
  set (tokens := match tokenizer with Some f => f | None => items end) in *.
  assert (Hin : In [] (map tokens records)) by (apply in_map_iff; exists r; auto).
  clear - Henc Hin. induction Henc as [|a b l l' [Hi E] HF IH]; [destruct Hin|].
  destruct Hin as [->|Hin]; [left|right; auto]. destruct b as [|u b]; [reflexivity|].
  destruct (proj1 (E u) (or_introl eq_refl)) as (w & [] & _).
Qed.

(** with a threshold of 1, nothing is found, whatever the records *)
Lemma join_one {U} `{EqDec U} (leb' : U -> U -> bool) m algo (rs : list (list U)) : (forall r, In r rs -> r <> []) ->
  join leb' (helper_of m 1) 1 algo rs = Ok [].
Proof.
  intros Hne.
  assert (Hp : forall l, probe_length (helper_of m 1) l = 1 /\ index_length (helper_of m 1) l = 1).
  { intros l. destruct m; cbn [helper_of jaccard_helper dice_helper binary_cosine_helper probe_length index_length]; unfold int; split;
      match goal with |- Z.to_nat (Qround.Qfloor ?q) = 1 => assert (E : (q == 1000001 # 1000000)%Q) by (unfold EPSILON; field); rewrite E; reflexivity end. }
  unfold join.
  destruct (foldM_prefix (join_record leb' (helper_of m 1) 1 algo rs)
    (fun _ s => (forall w, match dget (fst s) w with Some (_, ids) => ids = [] | None => True end) /\ snd s = []) (argsort rs) ([], []))
    as ([idx out] & -> & _ & Hout).
  - split; [intros w; exact I|reflexivity].
  - intros d k r [idx out] E [Hidx Hout]. simpl in Hidx, Hout. subst out.
    assert (Hk : In (record_of rs k) rs) by (apply rec_In; apply argsort_In; rewrite E; apply in_app_iff; right; left; auto).
    specialize (Hne _ Hk). unfold join_record. rewrite (proj1 (Hp _)). cbn [seq foldM].
    unfold probe. destruct (record_of rs k) as [|w x] eqn:Ex; [congruence|]. unfold index. cbn [nth_error]. rewrite bind_Ok.
    assert (Hids : match dget idx w with Some item => item | None => (0, []) end = (match dget idx w with Some item => fst item | None => 0 end, [])).
    { specialize (Hidx w). destruct (dget idx w) as [[pos ids]|]; [subst ids|]; reflexivity. }
    rewrite Hids. cbv iota beta. rewrite !skipn_nil, (proj2 (Hp _)). change (qn 1) with 1%Q. change (negb (Qle_bool 1 1)) with false. cbn [foldM bind mapM concat app].
    eexists. split; [reflexivity|]. cbn [fst snd]. split; [|reflexivity]. intros v. destruct (eq_dec w v) as [->|Hwv].
    + rewrite dget_dset_same. reflexivity.
    + rewrite dget_dset_other by auto. apply Hidx.
  - simpl in Hout. subst out. reflexivity.
Qed.

Theorem C91_threshold_one records tokenizer m token_ordering algo :
  ordering_ok crc32 items records tokenizer token_ordering ->
  (forall r, In r records -> match tokenizer with Some f => f | None => items end r <> []) ->
  ppjoin leb crc32 items records 1 (metric_name m) tokenizer algo token_ordering = Ok [].
Proof.
  intros Ho Hne.
  rewrite (ppjoin_positions leb crc32 items records tokenizer token_ordering Ho m 1 algo).
  destruct (position_pairs_encoded leb order antisym crc32 items records tokenizer token_ordering Ho) as (U & eqU & leb' & f & rs & _ & _ & Hf & Henc & Hpos).
  unfold read. rewrite Hpos, (join_one leb'); [reflexivity|]. intros r Hr. apply (rs_In leb' f _ rs Henc (tokens_nonempty items records tokenizer Hne) r Hr).
Qed.

(** already tokenized records with the default ordering: no label is known *)
Theorem C91_tokenized_records records t m algo : (exists r, In r records /\ items r <> []) ->
  ppjoin leb crc32 items records t (metric_name m) None algo (Some "freq"%string) = Err KeyError.
Proof.
  intros (r & Hr & Er). unfold ppjoin. cbn [string_dec]. rewrite make_helper_name. simpl string_dec. cbv iota beta.
  rewrite bind_Ok.
  assert (E : preprocess_freq leb false (map items records) = Err KeyError).
  { unfold preprocess_freq. change (labels leb []) with (@nil (T * nat)). induction records as [|a l IH]; [destruct Hr|].
    cbn [map mapM]. destruct (sorted_uniq leb (items a)) as [|w s] eqn:Es.
    - cbn [mapM bind]. destruct Hr as [->|Hr].
      + exfalso. destruct (items r) as [|v it] eqn:Ei; [congruence|]. assert (Hv : In v (sorted_uniq leb (v :: it))) by (apply sorted_uniq_In; left; auto).
        rewrite Es in Hv. destruct Hv.
      + rewrite (IH Hr). reflexivity.
    - reflexivity. }
  rewrite E. reflexivity.
Qed.
End Props.

(** *** The properties as first stated *)
Definition chars (s : string) : list (list N) := map (fun c => [c]) (codes s).
Definition grams5 (s : string) : list (list N) := ngrams 5 (codes s).
Definition no_crc (w : list N) : N := 0%N.

(** all_pairs with a threshold of 1 misses identical records; with an empty record it fails *)
Theorem C24_all_pairs_refuted :
  let join records t := ppjoin str_le no_crc chars records t "jaccard" (Some chars) AllPairs (Some "freq"%string) in
  (join ["abc"; "abc"]%string 1%Q = Ok [] /\ similar Jaccard 1 (chars "abc") (chars "abc")) /\
  (join ["abc"; "abc"; ""]%string (1 # 2)%Q = Err IndexError).
Proof.
  cbv zeta. split; [split|].
  - vm_compute. reflexivity.
  - exists 3, 3, 3.
    assert (C : card (fun w => In w (chars "abc")) 3).
    { exists (chars "abc"). split; [|split; [tauto|reflexivity]]. vm_compute. repeat constructor; simpl; intuition congruence. }
    split; [exact C|]. split; [exact C|]. split; [|vm_compute; discriminate].
    destruct C as (l & N & E & L). exists l. split; [exact N|]. split; [|exact L]. intros w. rewrite E. tauto.
  - vm_compute. reflexivity.
Qed.

(** the default and plus modes miss identical short records; compute_overlap may return a number below the required one
    instead of -1; already tokenized records raise with the default ordering *)
Theorem C25_modes_refuted :
  (ppjoin str_le no_crc chars ["abcde"; "abcde"]%string (8 # 10) "jaccard" (Some chars) AllPairs (Some "freq"%string) = Ok [("abcde", "abcde")]%string /\
   ppjoin str_le no_crc chars ["abcde"; "abcde"]%string (8 # 10) "jaccard" (Some chars) PPJoin (Some "freq"%string) = Ok [] /\
   ppjoin str_le no_crc chars ["abcde"; "abcde"]%string (8 # 10) "jaccard" (Some chars) PPJoinPlus (Some "freq"%string) = Ok []) /\
  (compute_overlap Nat.leb [1; 2] [1; 3] 2 = Some 1) /\
  (ppjoin str_le no_crc (fun r => r) [chars "abc"; chars "abcd"] (1 # 2) "jaccard" None PPJoin (Some "freq"%string) = Err KeyError).
Proof. repeat split; vm_compute; reflexivity. Qed.

Print Assumptions C24_all_pairs_refuted.
Print Assumptions C25_modes_refuted.
Print Assumptions C88_all_pairs_exact.
Print Assumptions C89_filtered_modes_exact.
Print Assumptions C89_filtered_modes_subset.
Print Assumptions C90_compute_overlap.
Print Assumptions C90_suffix_filter_bound.
Print Assumptions C91_empty_record.
Print Assumptions C91_threshold_one.
Print Assumptions C91_tokenized_records.

(** *** Examples *)
(** test/clustering/ppjoin_test.py, on some of the universities *)
Definition universities : list string :=
  ["Arkansas State University"; "Baylor University"; "Boston University"; "De La Salle University"; "Kansas State University";
   "La Salle University"; "The University of Western Ontario"; "Taylor University"; "University of Milan";
   "University of Milan    "; "University of Western Ontario"; "Aston University"]%string.
Definition run algo ordering m t := ppjoin str_le no_crc grams5 universities t m (Some grams5) algo ordering.

Definition jaccard_pairs := [("Taylor University", "Baylor University"); ("De La Salle University", "La Salle University");
  ("Arkansas State University", "Kansas State University"); ("The University of Western Ontario", "University of Western Ontario")]%string.
Example test_jaccard : run PPJoin (Some "freq"%string) "jaccard" (8 # 10) = Ok jaccard_pairs.
Proof. vm_compute. reflexivity. Qed.
Example test_jaccard_all_pairs : run AllPairs (Some "freq"%string) "jaccard" (8 # 10) = Ok jaccard_pairs.
Proof. vm_compute. reflexivity. Qed.
Example test_jaccard_plus : run PPJoinPlus (Some "freq"%string) "jaccard" (8 # 10) = Ok jaccard_pairs.
Proof. vm_compute. reflexivity. Qed.
Example test_jaccard_alphabetical : run PPJoin None "jaccard" (8 # 10) = Ok jaccard_pairs.
Proof. vm_compute. reflexivity. Qed.

Definition dice_pairs := [("Boston University", "Aston University"); ("Taylor University", "Baylor University");
  ("De La Salle University", "La Salle University"); ("University of Milan    ", "University of Milan");
  ("Arkansas State University", "Kansas State University"); ("The University of Western Ontario", "University of Western Ontario")]%string.
Example test_dice : run PPJoin (Some "freq"%string) "dice" (85 # 100) = Ok dice_pairs.
Proof. vm_compute. reflexivity. Qed.
Example test_dice_all_pairs : run AllPairs (Some "freq"%string) "dice" (85 # 100) = Ok dice_pairs.
Proof. vm_compute. reflexivity. Qed.
Example test_dice_plus : run PPJoinPlus (Some "freq"%string) "dice" (85 # 100) = Ok dice_pairs.
Proof. vm_compute. reflexivity. Qed.
Definition cosine_pairs := jaccard_pairs.
Example test_cosine : run PPJoin (Some "freq"%string) "binary_cosine" (9 # 10) = Ok cosine_pairs.
Proof. vm_compute. reflexivity. Qed.
Example test_cosine_plus : run PPJoinPlus (Some "freq"%string) "binary_cosine" (9 # 10) = Ok cosine_pairs.
Proof. vm_compute. reflexivity. Qed.

(** the hypotheses of the theorems hold for this run *)
Example test_hypotheses : threshold_ok Jaccard (8 # 10) /\ threshold_ok Dice (85 # 100) /\ threshold_ok BinaryCosine (9 # 10) /\
  ordering_ok no_crc grams5 universities (Some grams5) (Some "freq"%string) /\ (forall r, In r universities -> grams5 r <> []).
Proof.
  split; [split; [reflexivity|vm_compute; discriminate]|]. split; [split; [reflexivity|vm_compute; discriminate]|].
  split; [split; [reflexivity|split; reflexivity]|]. split; [left; split; [reflexivity|discriminate]|].
  intros r Hr. cbn in Hr. repeat destruct Hr as [<-|Hr]; try discriminate. destruct Hr.
Qed.

(** eight equal tokens are too few for the default mode with a threshold of 0.8, nine are enough *)
Example short_8 : too_short Jaccard (8 # 10) 8.
Proof. vm_compute. reflexivity. Qed.
Example short_9 : ~ too_short Jaccard (8 # 10) 9.
Proof. vm_compute. discriminate. Qed.
Example lost_8 : ppjoin str_le no_crc chars ["abcdefgh"; "abcdefgh"]%string (8 # 10) "jaccard" (Some chars) PPJoin None = Ok [].
Proof. vm_compute. reflexivity. Qed.
Example found_9 : ppjoin str_le no_crc chars ["abcdefghi"; "abcdefghi"]%string (8 # 10) "jaccard" (Some chars) PPJoin None = Ok [("abcdefghi", "abcdefghi")]%string.
Proof. vm_compute. reflexivity. Qed.

(** the suffix filter at work: a bound under and over the distance *)
Example suffix_far : suffix_filter Nat.leb MAX_DEPTH [1; 2; 3; 4] [5; 6; 7; 8] 0 4 0 4 2 = Ok 3%Z.
Proof. vm_compute. reflexivity. Qed.
Example suffix_near : suffix_filter Nat.leb MAX_DEPTH [1; 2; 3; 4] [1; 2; 3; 5] 0 4 0 4 2 = Ok 2%Z.
Proof. vm_compute. reflexivity. Qed.
Example unknown_metric : ppjoin str_le no_crc chars ["a"]%string (8 # 10) "euclid" None PPJoin None = Err TypeError.
Proof. vm_compute. reflexivity. Qed.
Example unknown_ordering : ppjoin str_le no_crc chars ["a"]%string (8 # 10) "jaccard" None PPJoin (Some "length"%string) = Err TypeError.
Proof. vm_compute. reflexivity. Qed.
