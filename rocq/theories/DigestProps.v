(** C129-C133: the crc32 of tokens (fog/lsh/utils.py), minhash and ppjoin with it. *)
From Coq Require Import String QArith Lia.
From Verif Require Import Base BaseFacts LevModel PairwiseModel PassJoinModel StringsModel FingerprintSpec FingerprintProofs BitsModel MinHashModel MinHashSpec
  MinHashProofs MinHashProps PPJoinModel PPJoinSpec PPJoinHelperProofs PPJoinEndProofs PPJoinProps DigestModel DigestSpec DigestProofs DigestEndProofs.
Open Scope N_scope.
Open Scope list_scope.
Notation length := List.length.

(** *** C129 *)
(** The number of a token is the CRC-32 of its UTF-8 bytes: the remainder of a division of polynomials.  It is below 2^32. *)
Theorem C129_number s : Forall scalar s -> exists b n, utf8 s b /\ crc32 s = Ok n /\ is_crc32 b n /\ n < 2 ^ 32.
Proof.
  intros F. destruct (encode_ok s F) as (b & _ & U). exists b, (crc32_bytes b). split; [exact U|]. split; [apply (crc32_utf8 s b U)|].
  pose proof (utf8_bytes s b U) as B. split; [apply crc32_bytes_spec; exact B|apply crc32_bytes_word; exact B].
Qed.
(** the bytes give the token back, and a message has one CRC-32 only *)
Theorem C129_bytes s t b : utf8 s b -> utf8 t b -> s = t.
Proof. apply utf8_inj. Qed.
Theorem C129_unique b m n : is_crc32 b m -> is_crc32 b n -> m = n.
Proof. apply is_crc32_unique. Qed.
(** a token with a surrogate cannot be encoded *)
Theorem C129_surrogate s : Forall (fun c => c <= 1114111) s -> ~ Forall scalar s -> crc32 s = Err ValueError.
Proof. intros H N0. unfold crc32. rewrite encode_fails by assumption. reflexivity. Qed.

(** *** C130: different tokens, same number *)
Notation plumless := (codes "plumless").
Notation buckeroo := (codes "buckeroo").
Theorem C130_numbers_refuted : (plumless <> buckeroo /\ crc32 plumless = Ok 0x4DDB0C25 /\ crc32 buckeroo = Ok 0x4DDB0C25) /\
  (codes "SwhMM" <> codes "O84LY" /\ crc32 (codes "SwhMM") = crc32 (codes "O84LY")).
Proof. split; (split; [discriminate|]); vm_compute; auto. Qed.
(** any message can be given any CRC-32 with four more bytes *)
Theorem C130_forged b n : Forall (fun x => x < 256) b -> n < 2 ^ 32 -> exists x, length x = 4%nat /\ Forall (fun x => x < 256) x /\ is_crc32 (b ++ x) n.
Proof.
  intros B W. destruct (reach b n B W) as (x & X & L & E). exists x. split; [exact L|]. split; [exact X|]. rewrite <- E. apply crc32_bytes_spec. apply Forall_app. auto.
Qed.
(** the signatures of two disjoint sets are the same, whatever the parameters *)
Theorem C130_minhash_refuted set_order params h : (forall l, Permutation (set_order l) l) -> length params = h -> h <> 0%nat ->
  exists sig, signature_of set_order params h (Tokens [plumless]) = Ok sig /\ signature_of set_order params h (Tokens [buckeroo]) = Ok sig /\
    exists q, minhash_similarity sig sig = Ok q /\ (q == 1)%Q.
Proof.
  intros P L Hh.
  assert (E : forall w, crc32 w = Ok (checksum w) -> signature_of set_order params h (Tokens [w]) = create_signature checksum set_order params h (Tokens [w])).
  { intros w C. unfold signature_of. cbn [mapM]. rewrite C. reflexivity. }
  rewrite !E by (vm_compute; reflexivity).
  destruct (C27_signature checksum set_order P params h (Tokens [plumless]) L) as (sig & S1 & L1 & _); [discriminate|].
  exists sig. split; [exact S1|]. split.
  - rewrite <- S1. apply (C27_set checksum set_order P params h (Tokens [buckeroo]) (Tokens [plumless]) set_order P L).
    intros t. cbn [numbers map]. replace (checksum buckeroo) with (checksum plumless) by (vm_compute; reflexivity). reflexivity.
  - destruct (C27_similarity sig sig eq_refl) as (q & q' & Q1 & _ & _ & _ & Q2 & _); [intros ->; cbn in L1; lia|]. exists q. split; [exact Q1|]. apply Q2. reflexivity.
Qed.
(** two records that share no token are joined *)
Theorem C130_ppjoin_refuted :
  ppjoin_of (fun r => r) [[plumless]; [buckeroo]] (1 # 2) "jaccard" None AllPairs (Some "crc32"%string) = Ok [([buckeroo], [plumless])] /\
  (forall w, ~ (In w [plumless] /\ In w [buckeroo])) /\
  ppjoin_of (fun r => r) [[plumless]; [buckeroo]] (1 # 2) "jaccard" None AllPairs None = Ok [].
Proof.
  split; [vm_compute; reflexivity|]. split; [|vm_compute; reflexivity]. intros w [[<-|[]] [E|[]]]. discriminate E.
Qed.

(** *** C131: the tokens that have different numbers *)
(** uniform tokens *)
Theorem C131_uniform l v w : uniform l -> In v l -> In w l -> crc32 v = crc32 w -> v = w.
Proof.
  intros U Hv Hw E. rewrite (proj1 (uniform_crc32 l U v Hv)), (proj1 (uniform_crc32 l U w Hw)) in E. injection E as E. exact (uniform_inj l v w U Hv Hw E).
Qed.
(** two tokens that only differ within a window *)
Theorem C131_window v w k a x y b : utf8 v (a ++ x ++ b) -> utf8 w (a ++ y ++ b) -> spread k (length x) -> Forall2 (fun p q => p / 2 ^ k = q / 2 ^ k) x y ->
  crc32 v = crc32 w -> v = w.
Proof.
  intros Uv Uw Sp F E. rewrite (proj1 (crc32_utf8 v _ Uv)), (proj1 (crc32_utf8 w _ Uw)) in E. injection E as E.
  pose proof (utf8_bytes v _ Uv) as Bv. pose proof (utf8_bytes w _ Uw) as Bw. rewrite !Forall_app in Bv, Bw.
  assert (F' : Forall2 (fun p q => N.lxor p q < 2 ^ k) x y) by (clear - F; induction F; constructor; auto using block_lxor).
  apply (apart k a x y b) in E; try tauto. subst y. exact (utf8_inj v w _ Uv Uw).
Qed.

(** *** C132: minhash of uniform tokens *)
(** the numbers shared are those of the tokens shared *)
Theorem C132_shared lx ly : uniform (lx ++ ly) -> forall n,
  In n (numbers checksum (Tokens lx)) /\ In n (numbers checksum (Tokens ly)) <-> exists w, In w lx /\ In w ly /\ crc32 w = Ok n.
Proof.
  intros U n. cbn [numbers]. rewrite !in_map_iff. split.
  - intros [(v & Ev & Hv) (w & Ew & Hw)]. assert (v = w) as -> by (apply (uniform_inj _ v w U); [apply in_or_app; auto|apply in_or_app; auto|congruence]).
    exists w. split; [exact Hv|]. split; [exact Hw|]. rewrite <- Ew. apply (uniform_crc32 _ U w). apply in_or_app. auto.
  - intros (w & Hx & Hy & E). destruct (uniform_crc32 _ U w) as [E' _]; [apply in_or_app; auto|]. split; exists w; (split; [congruence|assumption]).
Qed.
(** disjoint sets of tokens have signatures that agree nowhere, but on clipped values *)
Theorem C132_disjoint set_order params h lx ly : (forall l, Permutation (set_order l) l) ->
  length params = h -> h <> 0%nat -> (forall a b, In (a, b) params -> 0 < a < 2 ^ 32) ->
  uniform (lx ++ ly) -> lx <> [] -> ly <> [] -> (forall w, ~ (In w lx /\ In w ly)) ->
  exists sx sy, signature_of set_order params h (Tokens lx) = Ok sx /\ signature_of set_order params h (Tokens ly) = Ok sy /\
    (~ In (2 ^ 32 - 1) sx -> exists q, minhash_similarity sx sy = Ok q /\ (q == 0)%Q).
Proof.
  intros P L Hh Ha U NX NY D.
  assert (S : forall l, uniform l -> signature_of set_order params h (Tokens l) = create_signature checksum set_order params h (Tokens l)).
  { intros l Ul. unfold signature_of. rewrite mapM_crc32 by exact Ul. reflexivity. }
  rewrite !S by (eapply uniform_incl; [exact U|intros w Hw; apply in_or_app; auto]).
  assert (MX : numbers checksum (Tokens lx) <> []) by (destruct lx; [contradiction|discriminate]).
  assert (MY : numbers checksum (Tokens ly) <> []) by (destruct ly; [contradiction|discriminate]).
  destruct (C27_signature checksum set_order P params h (Tokens lx) L MX) as (sx & SX & _).
  destruct (C27_signature checksum set_order P params h (Tokens ly) L MY) as (sy & SY & _).
  exists sx, sy. split; [exact SX|]. split; [exact SY|]. intros C.
  apply (C82_disjoint checksum set_order P params h (Tokens lx) (Tokens ly) sx sy L Hh Ha); try assumption.
  - intros t Ht. cbn [numbers] in Ht. rewrite <- in_app_iff, <- map_app, in_map_iff in Ht. destruct Ht as (w & <- & Hw). apply (uniform_crc32 _ U w Hw).
  - intros t Ht. apply (C132_shared lx ly U) in Ht as (w & H1 & H2 & _). exact (D w (conj H1 H2)).
Qed.
Lemma mapM_surrogate l : Forall (Forall (fun c => c <= 1114111)) l -> ~ Forall (Forall scalar) l -> mapM crc32 l = Err ValueError.
Proof.
  intros H N0. induction H as [|s l Hs Hl IH]; [destruct N0; constructor|]. cbn [mapM].
  destruct (crc32 s) as [n|e] eqn:E.
  - cbn [bind]. rewrite IH; [reflexivity|]. intros F. apply N0. constructor; [|exact F].
    destruct (Forall_dec scalar scalar_dec s) as [G|G]; [exact G|rewrite C129_surrogate in E by assumption; discriminate].
  - destruct (Forall_dec scalar scalar_dec s) as [G|G].
    + destruct (C129_number s G) as (b & n & _ & E' & _). congruence.
    + rewrite C129_surrogate in E by assumption. injection E as <-. reflexivity.
Qed.
(** a token that cannot be encoded makes the signature fail *)
Theorem C132_surrogate set_order params h l : Forall (Forall (fun c => c <= 1114111)) l -> ~ Forall (Forall scalar) l ->
  signature_of set_order params h (Tokens l) = Err ValueError.
Proof. intros H N0. unfold signature_of. rewrite mapM_surrogate by assumption. reflexivity. Qed.
(** the numbers of the characters of a string are not those of crc32: any string has a signature *)
Theorem C132_text (crc : str -> N) set_order params h s : signature_of set_order params h (Text s) = create_signature crc set_order params h (Text s).
Proof. reflexivity. Qed.

(** *** C133: ppjoin with the crc32 ordering *)
Section Join.
Context {R : Type}.
Variable items : R -> list str.
Variable records : list R.
Variable tokenizer : option (R -> list str).
Notation tokens := (match tokenizer with Some f => f | None => items end).

(** the hypothesis of C88, C89 and C121 on the ordering holds for uniform tokens *)
Theorem C133_ordering : uniform (flat_map tokens records) -> ordering_ok checksum items records tokenizer (Some "crc32"%string).
Proof. intros U. right. split; [reflexivity|]. intros v w Hv Hw. apply (uniform_inj _ v w U Hv Hw). Qed.
Theorem C133_all_pairs m t : threshold_ok m t -> uniform (flat_map tokens records) -> (forall r, In r records -> tokens r <> []) ->
  exists out, ppjoin_of items records t (metric_name m) tokenizer AllPairs (Some "crc32"%string) = Ok out /\
    joins tokens (similar m t) (similar m (t - (1 # 1000000))) records out.
Proof.
  intros Ht U Hne. unfold ppjoin_of. cbn [string_dec]. replace (make_helper (metric_name m) t) with (Ok (helper_of m t)) by (symmetry; apply make_helper_name).
  rewrite mapM_crc32 by exact U. cbn.
  exact (C88_all_pairs_exact str_le str_le_preorder str_le_antisym checksum items records tokenizer m t (Some "crc32"%string) Ht (C133_ordering U) Hne).
Qed.
(** a token that cannot be encoded makes it fail once the other arguments have been accepted; other orderings encode nothing *)
Theorem C133_surrogate m t algo : Forall (Forall (fun c => c <= 1114111)) (flat_map tokens records) -> ~ Forall (Forall scalar) (flat_map tokens records) ->
  ppjoin_of items records t (metric_name m) tokenizer algo (Some "crc32"%string) = Err ValueError.
Proof.
  intros H N0. unfold ppjoin_of. cbn [string_dec]. replace (make_helper (metric_name m) t) with (Ok (helper_of m t)) by (symmetry; apply make_helper_name).
  rewrite mapM_surrogate by assumption. reflexivity.
Qed.
Theorem C133_metric metric t algo e ordering : make_helper metric t = Err e -> ordering = Some "crc32"%string \/ ordering = Some "freq"%string \/ ordering = None ->
  ppjoin_of items records t metric tokenizer algo ordering = Err e.
Proof. intros E [->|[->| ->]]; unfold ppjoin_of, ppjoin; cbn; rewrite E; reflexivity. Qed.
Theorem C133_other crc t metric algo ordering : ordering <> Some "crc32"%string ->
  ppjoin_of items records t metric tokenizer algo ordering = ppjoin str_le crc items records t metric tokenizer algo ordering.
Proof.
  intros N0. unfold ppjoin_of, ppjoin. destruct ordering as [o|]; [|reflexivity]. destruct (string_dec o "crc32") as [->|Hc]; [congruence|].
  cbn [bind]. destruct (string_dec o "freq") as [->|Hf]; reflexivity.
Qed.
End Join.

Print Assumptions C132_text.
Print Assumptions C133_surrogate.
Print Assumptions C133_metric.
Print Assumptions C133_other.
Print Assumptions C129_number.
Print Assumptions C129_bytes.
Print Assumptions C129_unique.
Print Assumptions C129_surrogate.
Print Assumptions C130_numbers_refuted.
Print Assumptions C130_forged.
Print Assumptions C130_minhash_refuted.
Print Assumptions C130_ppjoin_refuted.
Print Assumptions C131_uniform.
Print Assumptions C131_window.
Print Assumptions C132_shared.
Print Assumptions C132_disjoint.
Print Assumptions C132_surrogate.
Print Assumptions C133_ordering.
Print Assumptions C133_all_pairs.

(** *** Examples *)
(** the check value of the CRC-32 *)
Example check_value : crc32 (codes "123456789") = Ok 0xCBF43926.
Proof. vm_compute. reflexivity. Qed.
Example no_bytes : crc32 [] = Ok 0.
Proof. vm_compute. reflexivity. Qed.
(** "é€𝄞" *)
Example three_sizes : encode [233; 8364; 119070] = Ok [195; 169; 226; 130; 172; 240; 157; 132; 158].
Proof. vm_compute. reflexivity. Qed.
Example surrogate : crc32 [97; 55357] = Err ValueError.
Proof. vm_compute. reflexivity. Qed.
(** trigrams, words of six lower case letters and words of five letters are uniform; the collisions above are not *)
Example trigrams_uniform : uniform (ngrams 3 (codes "University of Milan")).
Proof.
  apply (un_short _ 3); [lia|]. intros w Hw. exists w. cbn in Hw. repeat destruct Hw as [<-|Hw]; try contradiction; (split; [apply utf8_ascii; repeat constructor|reflexivity]).
Qed.
Example lower_uniform : uniform [codes "cherry"; codes "orange"; codes "banana"].
Proof.
  apply (un_block _ 5 3 6); [right; right; left; lia|]. intros w Hw. cbn in Hw. repeat destruct Hw as [<-|Hw]; try contradiction; (split; [reflexivity|repeat constructor]).
Qed.
Example letters_uniform : uniform [codes "Apple"; codes "gUaVa"].
Proof.
  apply (un_block _ 6 1 5); [right; left; lia|]. intros w Hw. cbn in Hw. repeat destruct Hw as [<-|Hw]; try contradiction; (split; [reflexivity|repeat constructor]).
Qed.
(** five characters, digits and letters: the bound of C131 is met with equality *)
Example not_uniform : (codes "SwhMM") <> (codes "O84LY") /\ crc32 (codes "SwhMM") = crc32 (codes "O84LY") /\ ~ uniform [codes "SwhMM"; codes "O84LY"].
Proof.
  split; [discriminate|]. split; [vm_compute; reflexivity|]. intros U.
  assert (E : codes "SwhMM" = codes "O84LY"); [|discriminate]. apply (C131_uniform _ _ _ U); [left|right; left|vm_compute]; reflexivity.
Qed.
(** test/clustering/ppjoin_test.py with token_ordering='crc32', on some of the universities *)
Definition run_crc32 algo m t := ppjoin_of grams5 universities t m (Some grams5) algo (Some "crc32"%string).
Example test_crc32_jaccard : run_crc32 PPJoin "jaccard" (8 # 10) = Ok jaccard_pairs /\ run_crc32 AllPairs "jaccard" (8 # 10) = Ok jaccard_pairs /\
  run_crc32 PPJoinPlus "jaccard" (8 # 10) = Ok jaccard_pairs.
Proof. vm_compute. auto. Qed.
Example test_crc32_dice : run_crc32 PPJoin "dice" (85 # 100) = Ok dice_pairs.
Proof. vm_compute. reflexivity. Qed.
Example test_crc32_cosine : run_crc32 PPJoin "binary_cosine" (9 # 10) = Ok cosine_pairs.
Proof. vm_compute. reflexivity. Qed.
(** these 5-grams have different numbers, though they are not uniform *)
Example test_crc32_numbers : ordering_ok checksum grams5 universities (Some grams5) (Some "crc32"%string).
Proof.
  right. split; [reflexivity|]. intros v w Hv Hw E.
  assert (G : forallb (fun v => forallb (fun w => implb (checksum v =? checksum w) (if eq_dec v w then true else false)) (set_of (flat_map grams5 universities)))
    (set_of (flat_map grams5 universities)) = true) by (vm_compute; reflexivity).
  rewrite forallb_forall in G. specialize (G v (proj2 (set_of_In _ _) Hv)). rewrite forallb_forall in G. specialize (G w (proj2 (set_of_In _ _) Hw)).
  rewrite E, N.eqb_refl in G. cbn [implb] in G. destruct (eq_dec v w); [assumption|discriminate].
Qed.
(** the tokens are encoded after the arguments have been checked *)
Example bad_token : ppjoin_of (fun r => r) [[[55357]]] (1 # 2) "jaccard" None PPJoin (Some "crc32"%string) = Err ValueError /\
  ppjoin_of (fun r => r) [[[55357]]] (1 # 2) "euclid" None PPJoin (Some "crc32"%string) = Err TypeError /\
  ppjoin_of (fun r => r) [[[55357]]] (1 # 2) "jaccard" None PPJoin None = Ok [].
Proof. vm_compute. auto. Qed.
