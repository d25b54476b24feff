(** C26, C27, C28 (LSB minhash), C30, C82, C83: minhash signatures and clustering (fog/lsh/minhash.py, fog/clustering/minhash.py). *)
From Coq Require Import String QArith Qround Qreals Reals Lqa.
From Verif Require Import Base BaseFacts LevModel PairwiseModel MetricsModel MetricsSpec ClustersModel ClustersSpec BlockingSpec StringsModel
  BitsModel BitsSpec BitsProofs MinHashModel MinHashSpec MinHashProofs SuperMinHashProofs MinHashClusterProofs.
Open Scope N_scope.
Open Scope string_scope.
Open Scope list_scope.
Notation length := List.length.
Notation concat := List.concat.

Section Signatures.
Context {T : Type}.
Variable crc32 : T -> N.
Variable set_order : list N -> list N.
Hypothesis set_order_perm : forall l, Permutation (set_order l) l.
Notation numbers := (numbers crc32).
Notation create_signature := (create_signature crc32 set_order).

(** C27: the parameters are h different pairs among those drawn *)
Theorem C27_params params_order fuel draws h params : (forall l, Permutation (params_order l) l) -> make_params params_order fuel draws h = Ok params ->
  length params = h /\ NoDup params /\ forall p, In p params -> exists i, p = draws i.
Proof.
  intros P E. unfold make_params in E. destruct (draw_params fuel draws h [] 0) as [out|] eqn:D; [|discriminate E]. injection E as <-.
  apply draw_params_ok in D; [|constructor|cbn; lia]. destruct D as [N [L F]]. split; [|split].
  - rewrite (Permutation_length (P out)). exact L.
  - eapply Permutation_NoDup; [symmetry; apply P|exact N].
  - intros p I. apply (Permutation_in _ (P out)) in I. destruct (F p I) as [[]|G]. exact G.
Qed.
(** ... and drawing ends as soon as h different pairs have been drawn *)
Theorem C27_params_found params_order fuel draws h l : NoDup l -> (h <= length l)%nat -> (forall p, In p l -> exists i, (i < fuel)%nat /\ p = draws i) ->
  exists params, make_params params_order fuel draws h = Ok params.
Proof.
  intros N L F. destruct (draw_params_enough draws h fuel [] 0) as [out E]; [constructor|cbn; lia| |].
  - exists l. split; [exact N|]. split; [exact L|]. intros p I. destruct (F p I) as [i [Hi Ei]]. exists i. split; [lia|exact Ei].
  - unfold make_params. rewrite E. eexists. reflexivity.
Qed.

(** C27: the numbers hashed are the code points of a string, and the checksums of other tokens *)
Theorem C27_tokens x t : In t (numbers x) <-> match x with Text s => In t s | Tokens l => exists w, In w l /\ t = crc32 w end.
Proof.
  destruct x as [s|l]; cbn [MinHashModel.numbers]; [reflexivity|]. rewrite in_map_iff. split; intros (w & A & B); exists w; split; congruence.
Qed.

(** C27: h values, each the least hash of the set of tokens for its parameters, between 0 and 2^32 - 1 *)
Theorem C27_signature params h x : length params = h -> numbers x <> [] -> exists sig, create_signature params h x = Ok sig /\ length sig = h /\
  forall s a b, nth_error params s = Some (a, b) -> exists v, nth_error sig s = Some v /\ v <= 2 ^ 32 - 1 /\
    least_hash 4294967311 a b (fun t => In t (numbers x)) v.
Proof.
  intros L N. exists (map (slot crc32 set_order params x) (seq 0 h)). split; [apply create_signature_eq; [exact set_order_perm|lia]|].
  split; [rewrite map_length, seq_length; reflexivity|]. intros s a b E. assert (Hs : (s < h)%nat) by (rewrite <- L; apply nth_error_Some; congruence).
  exists (slot crc32 set_order params x s). split; [apply map_nth_error, nth_error_seq, Hs|]. split; [apply slot_bound, set_order_perm|].
  pose proof (slot_spec crc32 set_order set_order_perm params x s N) as S. rewrite (nth_error_nth _ _ _ E) in S. exact S.
Qed.
(** ... null for the empty set *)
Theorem C27_empty params h x : numbers x = [] -> create_signature params h x = Ok (repeat 0 h).
Proof. intros E. unfold MinHashModel.create_signature. apply (token_set_empty crc32 set_order set_order_perm) in E. rewrite E. reflexivity. Qed.

(** C27: the signature only depends on the set of tokens, not on the iteration order of sets *)
Theorem C27_set params h x y (other : list N -> list N) : (forall l, Permutation (other l) l) -> length params = h ->
  (forall t, In t (numbers x) <-> In t (numbers y)) ->
  create_signature params h x = MinHashModel.create_signature crc32 other params h y.
Proof.
  intros P L E. rewrite !create_signature_eq by (auto; lia). f_equal. apply map_ext. intros s.
  destruct (numbers x) as [|t l] eqn:X.
  - unfold slot. rewrite X. destruct (MinHashModel.numbers crc32 y) as [|t l]; [reflexivity|]. exfalso. apply (E t). left. reflexivity.
  - assert (Y : numbers y <> []) by (intros Y; rewrite Y in E; apply (E t); left; reflexivity).
    eapply least_hash_unique; [|apply (slot_spec crc32 set_order set_order_perm); rewrite X; discriminate|apply (slot_spec crc32 other P); exact Y].
    rewrite X. exact E.
Qed.
(** ... in particular not on repetitions nor on the order of tokens *)
Theorem C27_order params h l l' : length params = h -> (forall t, In t l <-> In t l') ->
  create_signature params h (Tokens l) = create_signature params h (Tokens l').
Proof.
  intros L E. apply C27_set; [exact set_order_perm|exact L|]. intros t. cbn. rewrite !in_map_iff.
  split; intros [u [U I]]; exists u; (split; [exact U|apply E, I]).
Qed.

(** C27: the signature of a union is the pointwise minimum *)
Theorem C27_union params h x y z : length params = h -> numbers x <> [] -> numbers y <> [] ->
  (forall t, In t (numbers z) <-> In t (numbers x) \/ In t (numbers y)) ->
  exists sx sy, create_signature params h x = Ok sx /\ create_signature params h y = Ok sy /\
    create_signature params h z = Ok (map (fun ab => N.min (fst ab) (snd ab)) (combine sx sy)).
Proof.
  intros L NX NY E. exists (map (slot crc32 set_order params x) (seq 0 h)), (map (slot crc32 set_order params y) (seq 0 h)).
  rewrite !create_signature_eq by (auto; lia). split; [reflexivity|]. split; [reflexivity|]. f_equal.
  assert (G : forall l, map (slot crc32 set_order params z) l =
    map (fun ab => N.min (fst ab) (snd ab)) (combine (map (slot crc32 set_order params x) l) (map (slot crc32 set_order params y) l))).
  { induction l as [|s l IH]; [reflexivity|]. cbn [map combine fst snd]. rewrite <- IH. f_equal. apply slot_union; assumption. }
  apply G.
Qed.

(** C82: a value found at the same slot of two signatures, other than 2^32 - 1, reveals a shared token (the hash functions
    are injective since 4294967311 is prime) *)
Theorem C82_shared params h x y sx sy s v : length params = h -> (forall a b, In (a, b) params -> 0 < a < 2 ^ 32) ->
  (forall t, In t (numbers x) \/ In t (numbers y) -> t < 2 ^ 32) ->
  numbers x <> [] -> numbers y <> [] ->
  create_signature params h x = Ok sx -> create_signature params h y = Ok sy ->
  nth_error sx s = Some v -> nth_error sy s = Some v -> v <> 2 ^ 32 - 1 -> exists t, In t (numbers x) /\ In t (numbers y).
Proof.
  intros L Ha Hn NX NY EX EY VX VY NV.
  destruct (C27_signature params h x L NX) as [sx' [EX' [LX FX]]]. destruct (C27_signature params h y L NY) as [sy' [EY' [LY FY]]].
  assert (sx' = sx) by congruence. assert (sy' = sy) by congruence. subst sx' sy'.
  assert (Hs : (s < length params)%nat) by (rewrite L, <- LX; apply nth_error_Some; congruence).
  destruct (nth_error params s) as [[a b]|] eqn:P; [|apply nth_error_None in P; lia].
  destruct (FX s a b P) as [v1 [V1 [_ S1]]]. destruct (FY s a b P) as [v2 [V2 [_ S2]]].
  assert (v1 = v) by congruence. assert (v2 = v) by congruence. subst v1 v2.
  apply nth_error_In in P. specialize (Ha a b P).
  apply (least_hash_shared a b _ _ v); try assumption; [unfold NEXT_PRIME; lia|]. intros t Ht. specialize (Hn t Ht). unfold NEXT_PRIME. lia.
Qed.
(** ... so that signatures of disjoint sets agree nowhere but on clipped values *)
Theorem C82_disjoint params h x y sx sy : length params = h -> h <> 0%nat -> (forall a b, In (a, b) params -> 0 < a < 2 ^ 32) ->
  (forall t, In t (numbers x) \/ In t (numbers y) -> t < 2 ^ 32) ->
  numbers x <> [] -> numbers y <> [] -> (forall t, ~ (In t (numbers x) /\ In t (numbers y))) ->
  create_signature params h x = Ok sx -> create_signature params h y = Ok sy -> ~ In (2 ^ 32 - 1) sx ->
  exists q, minhash_similarity sx sy = Ok q /\ (q == 0)%Q.
Proof.
  intros L Hh Ha Hn NX NY D EX EY C.
  destruct (C27_signature params h x L NX) as [sx' [EX' [LX _]]]. destruct (C27_signature params h y L NY) as [sy' [EY' [LY _]]].
  assert (sx' = sx) by congruence. assert (sy' = sy) by congruence. subst sx' sy'.
  rewrite minhash_similarity_eq by (try congruence; intros Z; rewrite Z in LX; cbn in LX; congruence). eexists. split; [reflexivity|].
  assert (F : hamming sx sy = length sx).
  { apply hamming_full; [congruence|]. intros i Hi Ei.
    destruct (C82_shared params h x y sx sy i (nth i sx 0) L Ha Hn NX NY EX EY) as [t Ht].
    - apply nth_error_nth'. exact Hi.
    - rewrite Ei. apply nth_error_nth'. lia.
    - intros Z. apply C. rewrite <- Z. apply nth_In. exact Hi.
    - exact (D t Ht). }
  rewrite F, LX. unfold Qnat. setoid_replace (inject_Z (Z.of_nat h) / inject_Z (Z.of_nat h))%Q with 1%Q; [ring|].
  field. intros Z. apply (inject_Z_injective (Z.of_nat h) 0) in Z. lia.
Qed.

(** C84: the numpy signature is made of the least hashes of the set of tokens as well *)
Theorem C84_numpy params h x : length params = h -> numbers x <> [] -> length (create_signature_numpy crc32 set_order params h x) = h /\
  forall s param, nth_error params s = Some param -> exists v, nth_error (create_signature_numpy crc32 set_order params h x) s = Some v /\
    (exists t, In t (numbers x) /\ v = numpy_hash param t) /\ forall t, In t (numbers x) -> v <= numpy_hash param t.
Proof.
  intros L N. unfold create_signature_numpy. destruct (token_set crc32 set_order x) as [|t0 l] eqn:E.
  - exfalso. apply N, (token_set_empty crc32 set_order set_order_perm). rewrite E. reflexivity.
  - split; [rewrite map_length; exact L|]. intros s param P. exists (numpy_min param t0 l). split; [exact (map_nth_error (fun p => numpy_min p t0 l) s params P)|].
    assert (G : forall l m, (m = fold_left (fun m token => N.min m (numpy_hash param token)) l m \/ exists t, In t l /\ fold_left (fun m token => N.min m (numpy_hash param token)) l m = numpy_hash param t) /\
        fold_left (fun m token => N.min m (numpy_hash param token)) l m <= m /\ forall t, In t l -> fold_left (fun m token => N.min m (numpy_hash param token)) l m <= numpy_hash param t).
    { clear. induction l as [|t l IH]; intros m; cbn [fold_left]; [split; [left; reflexivity|split; [lia|intros t []]]|].
      destruct (IH (N.min m (numpy_hash param t))) as [A [B C]]. set (v := fold_left _ l _) in *. clearbody v. split; [|split; [lia|intros u [<-|U]; [lia|apply C, U]]].
      destruct A as [A|[u [U A]]]; [|right; exists u; split; [right; exact U|exact A]].
      destruct (N.min_spec m (numpy_hash param t)) as [[_ F]|[_ F]]; [left; congruence|right; exists t; split; [left; reflexivity|congruence]]. }
    destruct (G l (numpy_hash param t0)) as [A [B C]]. fold (numpy_min param t0 l) in *.
    assert (I : forall t, In t (numbers x) <-> t = t0 \/ In t l) by (intros t; rewrite <- (token_set_In crc32 set_order set_order_perm), E; cbn; split; intros [?|?]; auto).
    split.
    + destruct A as [A|[t [Ht A]]]; [exists t0; split; [apply I; left; reflexivity|symmetry; exact A]|exists t; split; [apply I; right; exact Ht|exact A]].
    + intros t Ht. apply I in Ht. destruct Ht as [->|Ht]; [exact B|apply C, Ht].
Qed.

(** C28: the bits of LSBMinHash are the parities of minhash values, and depend on the set of tokens only *)
Theorem C28_lsb_signature params precision x : length params = (precision * 64)%nat ->
  exists sig ms, lsb_signature crc32 set_order params precision x = Ok sig /\ create_signature params (precision * 64) x = Ok ms /\
    length sig = precision /\ Forall (fun w => w < 2 ^ 64) sig /\
    forall s i w v, (i < 64)%nat -> nth_error sig s = Some w -> nth_error ms (s * 64 + i) = Some v -> N.testbit_nat w i = N.odd v.
Proof.
  intros L. exists (map (lsb_word crc32 set_order params x) (seq 0 precision)), (map (slot crc32 set_order params x) (seq 0 (precision * 64))).
  split; [apply lsb_signature_eq; [exact set_order_perm|lia]|]. split; [apply create_signature_eq; [exact set_order_perm|lia]|].
  split; [rewrite map_length, seq_length; reflexivity|]. split.
  - apply Forall_forall. intros w W. apply in_map_iff in W. destruct W as [s [<- _]]. apply lsb_word_bound.
  - intros s i w v Hi Ew Ev.
    assert (Hs : (s < precision)%nat) by (apply (f_equal (fun o => match o with Some _ => true | None => false end)) in Ew; destruct (nth_error _ s) eqn:X; [|discriminate Ew];
      assert (Y : nth_error (map (lsb_word crc32 set_order params x) (seq 0 precision)) s <> None) by congruence; apply nth_error_Some in Y; rewrite map_length, seq_length in Y; exact Y).
    rewrite (map_nth_error _ _ _ (nth_error_seq precision s Hs)) in Ew. injection Ew as <-.
    rewrite (map_nth_error _ _ _ (nth_error_seq (precision * 64) (s * 64 + i) ltac:(nia))) in Ev. injection Ev as <-.
    rewrite lsb_word_bit. destruct (Nat.ltb_spec i 64); [reflexivity|lia].
Qed.

(** ** C30: SuperMinHash *)
Variable random : N -> nat -> Q.
Hypothesis draws : forall t, unit_draws (random t).
Notation super_signature := (super_signature crc32 set_order random).

(** the x-th value is the least place of x in the shuffles drawn by the tokens: stopping early changes nothing *)
Theorem C30_least_place m x : (0 < m)%nat -> numbers x <> [] -> exists sig, super_signature m x = Ok sig /\ length sig = m /\
  forall y v, nth_error sig y = Some v -> (0 <= v < Z.of_nat m)%Z /\ least_place random m (fun t => In t (numbers x)) y (Z.to_nat v).
Proof.
  intros Hm N. eexists. split; [apply super_signature_eq; assumption|]. split; [rewrite map_length, seq_length; reflexivity|].
  intros y v E. assert (Hy : (y < m)%nat).
  { assert (Y : nth_error (map (fun y => Z.of_nat (super_value crc32 set_order random m x y)) (seq 0 m)) y <> None) by congruence.
    apply nth_error_Some in Y. rewrite map_length, seq_length in Y. exact Y. }
  rewrite (map_nth_error _ _ _ (nth_error_seq m y Hy)) in E. injection E as <-.
  destruct (super_value_spec crc32 set_order set_order_perm random draws m x y N Hy) as [S B]. split; [lia|]. rewrite Nat2Z.id. exact S.
Qed.
Theorem C30_set m x y (other : list N -> list N) : (forall l, Permutation (other l) l) -> (forall t, In t (numbers x) <-> In t (numbers y)) ->
  super_signature m x = MinHashModel.super_signature crc32 other random m y.
Proof.
  intros P E. destruct m as [|last]; [reflexivity|]. rewrite !super_signature_eq by (auto; lia). f_equal. apply map_ext_in. intros s Hs. apply in_seq in Hs. f_equal.
  destruct (numbers x) as [|t l] eqn:X.
  - assert (Y : numbers y = []) by (destruct (numbers y) as [|t l]; [reflexivity|exfalso; apply (E t); left; reflexivity]).
    rewrite !super_value_empty by assumption. reflexivity.
  - assert (Y : numbers y <> []) by (intros Y; rewrite Y in E; apply (E t); left; reflexivity).
    eapply least_place_unique; [|apply super_value_spec; try assumption; [rewrite X; discriminate|lia]|apply super_value_spec; try assumption; lia].
    rewrite X. exact E.
Qed.
Theorem C30_no_size x : super_signature 0 x = Err IndexError.
Proof. reflexivity. Qed.
(** the values of the empty set are above the length of the signature *)
Theorem C30_range_refuted m x : (0 < m)%nat -> numbers x = [] -> super_signature m x = Ok (repeat (Z.of_nat (m + 1)) m).
Proof.
  intros Hm E. rewrite super_signature_eq by assumption. f_equal.
  assert (G : forall n k, map (fun y => Z.of_nat (super_value crc32 set_order random m x y)) (seq k n) = repeat (Z.of_nat (m + 1)) n).
  { induction n as [|n IH]; intros k; cbn [seq map repeat]; [reflexivity|]. rewrite super_value_empty by assumption. rewrite IH. reflexivity. }
  apply G.
Qed.
End Signatures.

(** C27: the similarity of signatures of the same length *)
Theorem C27_similarity A B : length A = length B -> A <> [] -> exists q q', minhash_similarity A B = Ok q /\ minhash_similarity B A = Ok q' /\
  (q == q')%Q /\ (0 <= q <= 1)%Q /\ ((q == 1)%Q <-> A = B) /\ (q == 1 - Qnat (hamming A B) / Qnat (length A))%Q.
Proof.
  intros L NE. assert (NE' : B <> []) by (intros ->; destruct A; [contradiction|discriminate L]).
  rewrite !minhash_similarity_eq by (auto; congruence). do 2 eexists. split; [reflexivity|]. split; [reflexivity|].
  rewrite (hamming_sym B A), <- L. split; [reflexivity|].
  pose proof (hamming_le A B) as Le. pose proof (hamming_zero A B L) as Z.
  assert (P : (0 < Qnat (length A))%Q) by (unfold Qnat; change 0%Q with (inject_Z 0); rewrite <- Zlt_Qlt; destruct A; [contradiction|cbn; lia]).
  assert (R : (0 <= Qnat (hamming A B) / Qnat (length A) <= 1)%Q).
  { split; [apply Qle_shift_div_l; [exact P|]|apply Qle_shift_div_r; [exact P|]].
    - rewrite Qmult_0_l. unfold Qnat. change 0%Q with (inject_Z 0). rewrite <- Zle_Qle. lia.
    - rewrite Qmult_1_l. unfold Qnat. rewrite <- Zle_Qle. lia. }
  split; [lra|]. split; [|reflexivity]. split.
  - intros E. apply Z. assert (F : (Qnat (hamming A B) / Qnat (length A) == 0)%Q) by lra.
    assert (G : (Qnat (hamming A B) == 0)%Q) by (setoid_replace (Qnat (hamming A B)) with (Qnat (hamming A B) / Qnat (length A) * Qnat (length A))%Q by (field; lra); rewrite F; ring).
    unfold Qnat in G. change 0%Q with (inject_Z 0) in G. rewrite inject_Z_injective in G. clear - G. lia.
  - intros E. apply Z in E. rewrite E. unfold Qnat, Qdiv. cbn [Z.of_nat]. setoid_replace (inject_Z 0) with 0%Q by reflexivity. ring.
Qed.
Theorem C27_similarity_empty B : minhash_similarity [] B = Err ZeroDivisionError.
Proof. reflexivity. Qed.

(** C28: the LSB similarity counts the different bits *)
Theorem C28_lsb_similarity A B : length A = length B -> A <> [] -> Forall (fun x => x < 2 ^ 64) A -> Forall (fun x => x < 2 ^ 64) B ->
  exists q, lsb_minhash_similarity A B = Ok q /\
    (q == 1 - 2 * Qnat (list_sum (map (fun ab => bits_apart 64 (fst ab) (snd ab)) (combine A B))) / (Qnat (length A) * 64))%Q.
Proof. intros L NE FA FB. rewrite lsb_similarity_eq by assumption. eexists. split; reflexivity. Qed.

(** C84: with numpy, products are modulo 2^32, which can merge tokens *)
Theorem C84_merge_refuted : exists a b t u, 0 < a < 2 ^ 32 /\ b < 2 ^ 32 /\ t < 2 ^ 32 /\ u < 2 ^ 32 /\ t <> u /\ numpy_hash (a, b) t = numpy_hash (a, b) u.
Proof. exists (2 ^ 31), 5, 97, 99. vm_compute. repeat split; congruence. Qed.

Section Clustering.
Context {A T : Type} `{EqDec A} `{EqDec T}.
Variable crc32 : T -> N.
Variable letter : N -> T.
Variable token_order : list N -> list N.
Hypothesis token_order_perm : forall l, Permutation (token_order l) l.
Variable set_order : list A -> list A.
Hypothesis set_order_perm : forall l, Permutation (set_order l) l.
Variable key : A -> sequence T.
Variable same : A -> A -> bool.
Notation minhash := (minhash crc32 letter token_order set_order key same).
Notation signature := (create_signature crc32 token_order).

(** items that share a band and whose jaccard similarity reaches the radius *)
Definition banded (params : list (N * N)) (h bands : nat) (radius : Q) (data : list A) (x y : A) : Prop :=
  precedes data x y /\
  (exists sx sy, signature params h (key x) = Ok sx /\ signature params h (key y) = Ok sy /\ share_band bands (h / bands) sx sy) /\
  double_check letter key same radius x y = true.

Lemma banded_link params h bands radius data x y : length params = h ->
  minhash_link crc32 letter token_order key same params h bands (h / bands) radius data x y <-> banded params h bands radius data x y.
Proof.
  intros L. unfold minhash_link, banded. assert (E : forall z, signature params h (key z) = Ok (sig crc32 token_order key params h z)) by (intros z; apply sig_eq; [exact token_order_perm|lia]).
  split.
  - intros [P [B D]]. split; [exact P|]. split; [|exact D]. eauto.
  - intros [P [[sx [sy [E1 [E2 B]]]] D]]. split; [exact P|]. split; [|exact D]. rewrite E in E1, E2. injection E1 as <-. injection E2 as <-. exact B.
Qed.

(** C26: the clusters are the components of these links *)
Theorem C26_components params data h radius bands : length params = h ->
  let b := match bands with Some b => b | None => guess_bands h radius end in (0 < b <= h)%nat ->
  exists out, minhash params data h radius bands = Ok out /\
    is_components (fun x => exists y, banded params h b radius data x y \/ banded params h b radius data y x) (banded params h b radius data) 2 None out.
Proof.
  intros L b Hb. destruct (minhash_components crc32 letter token_order token_order_perm set_order set_order_perm key same params h ltac:(lia) data radius bands Hb) as [out [E C]].
  fold b in C. exists out. split; [exact E|]. eapply ClustersProofs.is_components_ext; [| |exact C].
  - intros x. split; intros [y Y]; exists y; rewrite !banded_link in *; try exact L; try exact Y; rewrite <- !banded_link in Y by exact L; exact Y.
  - intros x y. split; apply ClustersProofs.conn_mono; intros u v U; apply Relations.Relation_Operators.rst_step; apply (banded_link params h b radius data u v L); exact U.
Qed.

(** C26: linked items are similar: their jaccard similarity reaches the radius, or both are empty and the same object *)
Theorem C26_sound params data h radius bands x y : (0 < radius)%Q -> coherent (same x y) (elements letter (key x)) (elements letter (key y)) ->
  banded params h bands radius data x y ->
  (exists q, jaccard_is (elements letter (key x)) (elements letter (key y)) q /\ (radius <= q)%Q) \/
  (elements letter (key x) = [] /\ elements letter (key y) = [] /\ same x y = true).
Proof.
  intros P C [_ [_ D]]. apply double_check_spec in D; [|exact P|exact C]. destruct D as [D|[D1 [D2 [D3 _]]]]; [left; exact D|right; auto].
Qed.

(** C26: items with the same set of tokens share every band, and are linked when they are not empty *)
Theorem C26_same_tokens params data h radius bands x y : length params = h -> (0 < bands <= h)%nat -> (0 < radius <= 1)%Q ->
  coherent (same x y) (elements letter (key x)) (elements letter (key y)) -> precedes data x y ->
  (forall t, In t (numbers crc32 (key x)) <-> In t (numbers crc32 (key y))) ->
  (forall t, In t (elements letter (key x)) <-> In t (elements letter (key y))) -> elements letter (key x) <> [] ->
  signature params h (key x) = signature params h (key y) /\ banded params h bands radius data x y.
Proof.
  intros L B R C P E E' NE. destruct (same_tokens_shared crc32 token_order key params h bands (h / bands) x y token_order_perm E ltac:(lia)) as [S Sh].
  assert (Es : forall z, signature params h (key z) = Ok (sig crc32 token_order key params h z)) by (intros z; apply sig_eq; [exact token_order_perm|lia]).
  split; [rewrite !Es, S; reflexivity|]. split; [exact P|]. split; [eauto|]. apply double_check_spec; [apply R|exact C|]. left.
  set (a := elements letter (key x)) in *. set (b := elements letter (key y)) in *.
  pose proof (MetricsProofs.set_card a) as Ca. set (n := length (set_of a)) in *.
  assert (Nn : n <> 0%nat) by (intros Z; apply NE; apply MetricsProofs.set_of_nil_iff; exact Z).
  exists (inject_Z (Z.of_nat n) / inject_Z (Z.of_nat n))%Q. split.
  - exists n, n. split; [|split; [|split; [exact Nn|reflexivity]]]; revert Ca; apply MetricsProofs.card_ext; intros z; rewrite <- E'; tauto.
  - setoid_replace (inject_Z (Z.of_nat n) / inject_Z (Z.of_nat n))%Q with 1%Q; [apply R|]. field. intros Z. change 0%Q with (inject_Z 0) in Z. rewrite inject_Z_injective in Z. lia.
Qed.

(** C83: the number of bands guessed is the least one whose threshold (on the reals) is within the radius, h + 1 if there is none *)
Theorem C83_guess h t : (0 < h)%nat -> let b := guess_bands h t in (1 <= b <= S h)%nat /\
  ((b <= h)%nat -> (real_threshold h b <= Q2R t)%R) /\ forall c, (1 <= c < b)%nat -> (Q2R t < real_threshold h c)%R.
Proof.
  intros Hh b. destruct (guess_loop_spec h t h 1 ltac:(lia)) as [B [M F]]. fold (guess_bands h t) in *. fold b in B, M, F. split; [exact B|]. split.
  - intros L. apply threshold_met_real; [exact Hh|lia|]. apply M, L.
  - intros c Hc. apply Rnot_le_lt. intros L. apply threshold_met_real in L; [|exact Hh|lia]. rewrite F in L by exact Hc. discriminate L.
Qed.
(** ... there is one exactly when the radius is at least 1 / h *)
Theorem C83_bands h t : (0 < h)%nat -> (guess_bands h t <= h)%nat <-> (1 <= t * Qnat h)%Q.
Proof. exact (guess_bands_last h t). Qed.
(** ... otherwise any item makes the clustering fail *)
Theorem C83_fails params item data h radius : length params = h -> (0 < h)%nat -> (radius * Qnat h < 1)%Q ->
  minhash params (item :: data) h radius None = Err ValueError.
Proof.
  intros L Hh R. apply minhash_fails; [exact token_order_perm|exact set_order_perm|rewrite L; reflexivity|]. destruct (Nat.le_gt_cases (guess_bands h radius) h) as [G|G]; [|exact G].
  rewrite C83_bands in G by exact Hh. exfalso. exact (Qlt_not_le _ _ R G).
Qed.
(** ... as when more bands than values are asked for, or none *)
Theorem C83_given params item data h radius bands : length params = h -> (h < bands)%nat -> minhash params (item :: data) h radius (Some bands) = Err ValueError.
Proof. intros L G. apply minhash_fails; [exact token_order_perm|exact set_order_perm|lia|exact G]. Qed.
Theorem C83_none params data h radius : minhash params data h radius (Some 0%nat) = Err ZeroDivisionError.
Proof. reflexivity. Qed.

(** C26: not defined for every h and radius *)
Theorem C26_total_refuted params item data : length params = 4%nat -> minhash params (item :: data) 4 (1 # 5) None = Err ValueError.
Proof. intros L. apply C83_fails; [exact L|lia|reflexivity]. Qed.
End Clustering.
Print Assumptions C27_params.
Print Assumptions C27_params_found.
Print Assumptions C27_tokens.
Print Assumptions C27_signature.
Print Assumptions C27_empty.
Print Assumptions C27_set.
Print Assumptions C27_order.
Print Assumptions C27_union.
Print Assumptions C82_shared.
Print Assumptions C82_disjoint.
Print Assumptions C84_numpy.
Print Assumptions C28_lsb_signature.
Print Assumptions C30_least_place.
Print Assumptions C30_set.
Print Assumptions C30_no_size.
Print Assumptions C30_range_refuted.
Print Assumptions C27_similarity.
Print Assumptions C27_similarity_empty.
Print Assumptions C28_lsb_similarity.
Print Assumptions C84_merge_refuted.
Print Assumptions C26_components.
Print Assumptions C26_sound.
Print Assumptions C26_same_tokens.
Print Assumptions C83_guess.
Print Assumptions C83_bands.
Print Assumptions C83_fails.
Print Assumptions C83_given.
Print Assumptions C83_none.
Print Assumptions C26_total_refuted.

(** Non-vacuity.  Draws with a repetition; tokens that are their own crc32. *)
Definition some_draws (n : nat) : N * N := nth n [(3, 5); (3, 5); (7, 11); (1000003, 77); (4294967295, 4294967295)] (2, 1).
Example params_some : make_params (@rev _) 10 some_draws 4 = Ok [(4294967295, 4294967295); (1000003, 77); (7, 11); (3, 5)].
Proof. vm_compute. reflexivity. Qed.
Example params_out_of_fuel : make_params (@rev _) 10 (fun _ => (1, 1)) 2 = Err OutOfFuel.
Proof. vm_compute. reflexivity. Qed.
Definition some_params : list (N * N) := [(4294967295, 4294967295); (1000003, 77); (7, 11); (3, 5)].
Notation sign := (create_signature (fun t : N => t) (@rev N) some_params 4).
Example signature_some : sign (Text (codes "abc")) = Ok [4294965711; 97000368; 690; 296].
Proof. vm_compute. reflexivity. Qed.
Example signature_order : sign (Tokens [99; 97; 98; 97]) = sign (Text (codes "abc")).
Proof. vm_compute. reflexivity. Qed.
Example signature_empty : sign (Text []) = Ok [0; 0; 0; 0].
Proof. vm_compute. reflexivity. Qed.
(** test/lsh/minhash_test.py: ('abc', '') and ('', 'abc') give 0, ('', '') and ('abc', 'abc') give 1, ('abc', 'xyz') gives 0 (with these parameters exactly) *)
Definition estimate (a b : string) : res Q :=
  let! x := sign (Text (codes a)) in let! y := sign (Text (codes b)) in let! q := minhash_similarity x y in Ok (Qred q).
Example estimates : map (fun '(a, b) => estimate a b) [("abc", ""); (""%string, "abc"); (""%string, ""%string); ("abc", "abc"); ("abc", "xyz")] =
  [Ok 0%Q; Ok 0%Q; Ok 1%Q; Ok 1%Q; Ok 0%Q].
Proof. vm_compute. reflexivity. Qed.
Example similarity_short : minhash_similarity [1; 2] [1] = Err IndexError.
Proof. reflexivity. Qed.
Example similarity_half : minhash_similarity [1; 2] [1; 3] = Ok (1 - Qnat 1 / Qnat 2)%Q.
Proof. reflexivity. Qed.
(** a clipped value: 2^32 - 1 stands for all the hashes above *)
Example clipped : min_hash (1, 4294967300) [1] = 2 ^ 32 - 1 /\ min_hash (1, 4294967300) [3] = 2 ^ 32 - 1.
Proof. vm_compute. auto. Qed.
Example numpy_some : create_signature_numpy (fun t : N => t) (@rev N) [(3, 5); (7, 11)] 2 (Text (codes "abc")) = [296; 690].
Proof. vm_compute. reflexivity. Qed.

(** LSBMinHash with the parameters (3, i) *)
Definition lsb_params : list (N * N) := map (fun i => (3, N.of_nat i)) (seq 0 64).
Example lsb_some : lsb_signature (fun t : N => t) (@rev N) lsb_params 1 (Text (codes "abc")) = Ok [0x5555555555555555].
Proof. vm_compute. reflexivity. Qed.
Example lsb_none : lsb_signature (fun t : N => t) (@rev N) lsb_params 1 (Text []) = Ok [0].
Proof. vm_compute. reflexivity. Qed.
Example lsb_equal : lsb_minhash_similarity [0xFF; 3] [0xFF; 3] = Ok (1 - 2 * inject_Z 0 / (Qnat 2 * 64))%Q.
Proof. vm_compute. reflexivity. Qed.
(** more than half of the bits apart: a negative similarity *)
Example lsb_negative : exists q, lsb_minhash_similarity [2 ^ 64 - 1] [0] = Ok q /\ (q == - (1))%Q.
Proof. eexists. split; vm_compute; reflexivity. Qed.

(** SuperMinHash of size 5 with simple streams *)
Definition some_random (t : N) (j : nat) : Q := (Z.of_N ((t * 37 + N.of_nat j * 61) mod 100) # 100).
Example some_random_unit t : unit_draws (some_random t).
Proof.
  intros j. unfold some_random. set (n := (t * 37 + N.of_nat j * 61) mod 100).
  assert (B : n < 100) by (apply N.mod_lt; discriminate). unfold Qle, Qlt. cbn. lia.
Qed.
Notation super := (super_signature (fun t : N => t) (@rev N) some_random 5).
Example shuffles : map (fun t => shuffle (some_random t) 5) [97; 98; 99] = [[4; 3; 2; 0; 1]; [1; 4; 3; 2; 0]; [3; 1; 4; 0; 2]]%nat.
Proof. vm_compute. reflexivity. Qed.
Example super_some : super (Text (codes "abc")) = Ok [3; 0; 2; 0; 0]%Z.
Proof. vm_compute. reflexivity. Qed.
Example super_same : super_signature (fun t : N => t) (fun l => l) some_random 5 (Tokens [98; 99; 98; 97]) = super (Text (codes "abc")).
Proof. vm_compute. reflexivity. Qed.
Example super_empty : super (Text []) = Ok [6; 6; 6; 6; 6]%Z.
Proof. vm_compute. reflexivity. Qed.

(** bands: 256 values for a radius of 0.8 (the defaults) *)
Example bands_default : guess_bands 256 (4 # 5) = 20%nat.
Proof. vm_compute. reflexivity. Qed.
Example bands_none : guess_bands 4 (1 # 5) = 5%nat.
Proof. vm_compute. reflexivity. Qed.
Example keys_some : band_key [12; 7; 0; 345] 2 2 = (2%nat, codes "0%345").
Proof. vm_compute. reflexivity. Qed.
(** clustering strings; "abc" and "cba" have the same set *)
Notation cluster := (minhash (fun t : N => t) (fun t => t) (@rev N) (@rev str) (fun s : str => Text s) (fun a b => eqb a b) some_params).
Example clusters_some : cluster (map codes ["abc"; "xyz"; "cba"; "cbad"; "zyx"]) 4 (4 # 5) None = Ok [map codes ["abc"; "cba"]; map codes ["xyz"; "zyx"]].
Proof. vm_compute. reflexivity. Qed.
Example clusters_wide : cluster (map codes ["abc"; "xyz"; "cba"; "cbad"; "zyx"]) 4 (1 # 2) (Some 4%nat) = Ok [map codes ["abc"; "cbad"; "cba"]; map codes ["xyz"; "zyx"]].
Proof. vm_compute. reflexivity. Qed.
Example clusters_fail : cluster (map codes ["abc"]) 4 (1 # 5) None = Err ValueError.
Proof. vm_compute. reflexivity. Qed.
