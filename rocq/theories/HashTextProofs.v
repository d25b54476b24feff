(** The digests of the model are those of the standards; simhash on strings *)
From Coq Require Import List NArith ZArith Lia Permutation Reals Lra.
From Verif Require Import Base BaseFacts LevModel PairwiseModel MinHashModel BitsModel BitsSpec BitsProofs DigestModel DigestSpec DigestProofs
  HashModel HashSpec HashProofs HashEndProofs HashSineProofs.
Import ListNotations.
Open Scope N_scope.
Open Scope list_scope.

(** ** The constants are determined *)
Lemma sine_unique i t t' : is_sine i t -> is_sine i t' -> t = t'.
Proof.
  intros [A B] [A' B']. assert (L : (Z.of_N t < Z.of_N t' + 1)%Z) by (apply lt_IZR; rewrite plus_IZR; lra).
  assert (L' : (Z.of_N t' < Z.of_N t + 1)%Z) by (apply lt_IZR; rewrite plus_IZR; lra). lia.
Qed.
Lemma root_unique w n p x x' : 0 < n -> root_bits w n p x -> root_bits w n p x' -> x = x'.
Proof.
  intros Hn (Hx & a & L & U) (Hx' & a' & L' & U').
  assert (K : forall y y', y ^ n <= p * 2 ^ (w * n) -> p * 2 ^ (w * n) < (y' + 1) ^ n -> y <= y').
  { intros y y' A B. destruct (N.le_gt_cases y y') as [C|C]; [exact C|]. assert ((y' + 1) ^ n <= y ^ n) by (apply N.pow_le_mono_l; lia). lia. }
  assert (E : a * 2 ^ w + x = a' * 2 ^ w + x') by (apply N.le_antisymm; apply K; assumption).
  apply (f_equal (fun y => y mod 2 ^ w)) in E. rewrite !(N.add_comm (_ * _)), !N.mod_add, !N.mod_small in E by (try apply N.pow_nonzero; lia || assumption). exact E.
Qed.
Lemma first_primes_unique l l' : length l = length l' -> first_primes l -> first_primes l' -> l = l'.
Proof.
  intros L P P'. apply bytes_list_ext; [exact L|]. intros i. induction i as [i IH] using lt_wf_ind. intros Hi.
  assert (Hi' : (i < length l')%nat) by lia. destruct (P i Hi) as [p1 p2]. destruct (P' i Hi') as [p1' p2'].
  destruct (N.lt_trichotomy (nth i l 0) (nth i l' 0)) as [C|[C|C]]; [|exact C|]; exfalso.
  - destruct (proj1 (p2' (nth i l 0)) (conj p1 C)) as (j & Hj & E). rewrite <- IH in E by lia. destruct (proj2 (p2 (nth i l 0)) (ex_intro _ j (conj Hj E))) as [_ X]. lia.
  - destruct (proj1 (p2 (nth i l' 0)) (conj p1' C)) as (j & Hj & E). rewrite IH in E by lia. destruct (proj2 (p2' (nth i l' 0)) (ex_intro _ j (conj Hj E))) as [_ X]. lia.
Qed.

(** ** The digests *)
Lemma md5_bytes_iff b d : Forall byte b -> is_md5 md5_table b d <-> d = md5 b.
Proof. intros Hb. split; [intros H; exact (md5_unique _ _ _ _ H (md5_ok b Hb))|intros ->; exact (md5_ok b Hb)]. Qed.
Lemma md5_standard_iff b d : Forall byte b -> md5_standard b d <-> d = md5 b.
Proof.
  intros Hb. split.
  - intros (T & L & ST & H). assert (E : T = md5_table).
    { apply bytes_list_ext; [exact L|]. intros i Hi. rewrite L in Hi. apply (sine_unique (S i)); [apply ST, Hi|apply md5_sines, Hi]. }
    subst T. apply md5_bytes_iff; assumption.
  - intros ->. exists md5_table. split; [reflexivity|]. split; [exact md5_sines|apply md5_ok, Hb].
Qed.
Lemma eighty_prefix n : (n <= 80)%nat -> first_primes (firstn n eighty_primes) /\ length (firstn n eighty_primes) = n /\ forall i, (i < n)%nat -> nth i (firstn n eighty_primes) 0 = nth i eighty_primes 0.
Proof.
  intros Hn. assert (L : length (firstn n eighty_primes) = n) by (apply firstn_length_le; exact Hn). split; [|split; [exact L|intros i Hi; apply nth_firstn, Hi]].
  intros i Hi. rewrite L in Hi. rewrite nth_firstn by exact Hi. destruct (eighty_first i) as [A B]; [change (length eighty_primes) with 80%nat; lia|]. split; [exact A|]. intros q. rewrite (B q).
  split; intros (j & Hj & E); exists j; (split; [exact Hj|]); [rewrite nth_firstn by lia|rewrite nth_firstn in E by lia]; exact E.
Qed.
Section Standard.
Variables (w : N) (size steps : nat) (S0 S1 s0 s1 : N * N * N) (K start : list N) (digest : list N -> list N).
Hypothesis Hsize : (0 < size)%nat.
Hypothesis Hsteps : (8 <= steps <= 80)%nat.
Hypothesis LK : length K = steps.
Hypothesis Lstart : length start = 8%nat.
Hypothesis HK : forall i, (i < steps)%nat -> root_bits w 3 (nth i eighty_primes 0) (nth i K 0).
Hypothesis Hstart : forall i, (i < 8)%nat -> root_bits w 2 (nth i eighty_primes 0) (nth i start 0).
Hypothesis Hd : forall b, Forall byte b -> is_sha2 w size steps K start S0 S1 s0 s1 b (digest b).
Lemma sha2_standard_iff b d : Forall byte b -> sha2_standard w size steps S0 S1 s0 s1 b d <-> d = digest b.
Proof.
  intros Hb. destruct (eighty_prefix steps) as (P & L & Nt); [lia|]. split.
  - intros (primes & K' & start' & L1 & P1 & L2 & R2 & L3 & R3 & H).
    assert (E : primes = firstn steps eighty_primes) by (apply first_primes_unique; [congruence|assumption|assumption]). subst primes.
    assert (EK : K' = K). { apply bytes_list_ext; [congruence|]. intros i Hi. rewrite L2 in Hi. apply (root_unique w 3 (nth i eighty_primes 0)); [lia| |apply HK, Hi]. rewrite <- (Nt i Hi). apply R2, Hi. }
    assert (ES : start' = start). { apply bytes_list_ext; [congruence|]. intros i Hi. rewrite L3 in Hi. apply (root_unique w 2 (nth i eighty_primes 0)); [lia| |apply Hstart, Hi]. rewrite <- (Nt i) by lia. apply R3, Hi. }
    subst K' start'. exact (sha2_unique _ _ _ _ _ _ _ _ _ Hsize _ _ _ H (Hd b Hb)).
  - intros ->. exists (firstn steps eighty_primes), K, start. split; [exact L|]. split; [exact P|]. split; [exact LK|]. split; [intros i Hi; rewrite Nt by exact Hi; apply HK, Hi|].
    split; [exact Lstart|]. split; [intros i Hi; rewrite Nt by lia; apply Hstart, Hi|apply Hd, Hb].
Qed.
End Standard.
Lemma sha256_standard_iff b d : Forall byte b -> sha256_standard b d <-> d = sha256 b.
Proof. apply (sha2_standard_iff 32 4 64 _ _ _ _ (constants sha256_v) (start sha256_v) sha256); try lia; [reflexivity|reflexivity|exact sha256_constants|exact sha256_start|exact sha256_ok]. Qed.
Lemma sha512_standard_iff b d : Forall byte b -> sha512_standard b d <-> d = sha512 b.
Proof. apply (sha2_standard_iff 64 8 80 _ _ _ _ (constants sha512_v) (start sha512_v) sha512); try lia; [reflexivity|reflexivity|exact sha512_constants|exact sha512_start|exact sha512_ok]. Qed.

(** ** Sizes *)
Lemma md5_size b : Forall byte b -> length (md5 b) = 16%nat /\ Forall byte (md5 b).
Proof. intros Hb. destruct (md5_ok b Hb) as (p & H & _ & _ & _ & L & B & _). auto. Qed.
Lemma sha256_size b : Forall byte b -> length (sha256 b) = 32%nat /\ Forall byte (sha256 b).
Proof. intros Hb. destruct (sha256_ok b Hb) as (p & H & _ & _ & _ & L & B & _). auto. Qed.
Lemma sha512_size b : Forall byte b -> length (sha512 b) = 64%nat /\ Forall byte (sha512 b).
Proof. intros Hb. destruct (sha512_ok b Hb) as (p & H & _ & _ & _ & L & B & _). auto. Qed.

(** ** Hexadecimal digits *)
Lemma hex_length l : length (hexdigest l) = (2 * length l)%nat.
Proof. induction l as [|x l IH]; [reflexivity|]. unfold hexdigest in *. cbn [flat_map app length]. rewrite IH. lia. Qed.
Lemma hex_digits l d : Forall byte l -> In d (hexdigest l) -> d < 16.
Proof.
  intros Hl H. apply in_flat_map in H as (x & Hx & Hd). rewrite Forall_forall in Hl. specialize (Hl x Hx). unfold byte in Hl. cbn [In] in Hd. destruct Hd as [<-|[<-|[]]].
  - apply N.div_lt_upper_bound; lia.
  - apply N.mod_lt. lia.
Qed.
Lemma hex_nth l : forall k r, (r < 2)%nat -> nth (2 * k + r) (hexdigest l) 0 = if Nat.eqb r 0 then nth k l 0 / 16 else nth k l 0 mod 16.
Proof.
  induction l as [|x l IH]; intros k r Hr.
  - cbn [hexdigest flat_map]. rewrite !(nth_overflow []) by (cbn; lia). destruct (Nat.eqb r 0); reflexivity.
  - unfold hexdigest in *. cbn [flat_map app]. destruct k as [|k].
    + destruct r as [|[|r]]; [reflexivity|reflexivity|lia].
    + replace (2 * S k + r)%nat with (S (S (2 * k + r))) by lia. cbn [nth]. apply IH, Hr.
Qed.
(** int(digits, 16), bit by bit *)
Lemma digits_bits l : (forall d, In d l -> d < 16) -> let h := fold_left (fun acc d => 16 * acc + d) l 0 in
  h < 16 ^ N.of_nat (length l) /\ forall k r, (k < length l)%nat -> (r < 4)%nat -> N.testbit_nat h (4 * length l - 1 - (4 * k + r)) = N.testbit_nat (nth k l 0) (3 - r).
Proof.
  induction l as [|d l IH] using rev_ind; intros Hd; cbn zeta.
  - split; [reflexivity|]. intros k r Hk. cbn in Hk. lia.
  - rewrite fold_left_app. cbn [fold_left]. destruct IH as [B T]; [intros x Hx; apply Hd, in_or_app; left; exact Hx|].
    set (h := fold_left _ l 0) in *. clearbody h. assert (D : d < 16) by (apply Hd, in_or_app; right; left; reflexivity).
    rewrite app_length. cbn [length]. split; [rewrite Nat.add_1_r, Nat2N.inj_succ, N.pow_succ_r'; lia|].
    intros k r Hk Hr. rewrite <- !Ntestbit_Nbit. replace (16 * h + d) with (d + 2 ^ 4 * h) by (change (2 ^ 4) with 16; lia). rewrite testbit_split by exact D.
    destruct (Nat.eq_dec k (length l)) as [->|Hn].
    + rewrite app_nth2, Nat.sub_diag by lia. cbn [nth]. replace (4 * (length l + 1) - 1 - (4 * length l + r))%nat with (3 - r)%nat by lia.
      destruct (N.ltb_spec (N.of_nat (3 - r)) 4); [reflexivity|lia].
    + rewrite app_nth1 by lia. specialize (T k r ltac:(lia) Hr). rewrite <- !Ntestbit_Nbit in T. rewrite <- T.
      destruct (N.ltb_spec (N.of_nat (4 * (length l + 1) - 1 - (4 * k + r))) 4); [lia|]. f_equal. lia.
Qed.
Lemma first_bits_unique f d h h' : first_bits f d h -> first_bits f d h' -> h = h'.
Proof.
  intros [B T] [B' T']. apply Nbit_faithful. intros i. destruct (Nat.lt_ge_cases i f) as [L|L].
  - replace i with (f - 1 - (f - 1 - i))%nat by lia. rewrite T, T' by lia. reflexivity.
  - rewrite !(bits_high f) by assumption. reflexivity.
Qed.
Lemma hex_first_bits f d : Forall byte d -> (0 < f / 4)%nat -> (f = 4 * (f / 4))%nat -> (f <= 8 * length d)%nat ->
  exists h, int16 (firstn (f / 4) (hexdigest d)) = Ok h /\ first_bits f d h.
Proof.
  intros Hd P E Hl. set (m := (f / 4)%nat) in *. clearbody m. assert (L : length (firstn m (hexdigest d)) = m) by (apply firstn_length_le; rewrite hex_length; lia).
  assert (Hx : forall x, In x (firstn m (hexdigest d)) -> x < 16) by (intros x Hx; apply (hex_digits d); [exact Hd|]; rewrite <- (firstn_skipn m (hexdigest d)); apply in_or_app; left; exact Hx).
  destruct (digits_bits _ Hx) as [B T]. rewrite L in B, T. exists (fold_left (fun acc d => 16 * acc + d) (firstn m (hexdigest d)) 0). split.
  - unfold int16. destruct (firstn m (hexdigest d)) eqn:X; [cbn in L; lia|reflexivity].
  - subst f. split.
    + replace (2 ^ N.of_nat (4 * m)) with (16 ^ N.of_nat m); [exact B|]. change 16 with (2 ^ 4). rewrite <- N.pow_mul_r. f_equal. lia.
    + intros i Hi. pose proof (Nat.div_mod i 4 ltac:(lia)) as Ei. pose proof (Nat.mod_upper_bound i 4 ltac:(lia)) as Er.
      assert (Hq : (i / 4 < m)%nat) by (apply Nat.div_lt_upper_bound; lia). rewrite Ei at 1. rewrite T by assumption. rewrite nth_firstn by exact Hq.
      set (q := (i / 4)%nat) in *. set (r := (i mod 4)%nat) in *. pose proof (Nat.div_mod q 2 ltac:(lia)) as Eq. pose proof (Nat.mod_upper_bound q 2 ltac:(lia)) as Es.
      rewrite Eq at 1. rewrite hex_nth by exact Es. set (k := (q / 2)%nat) in *. set (s := (q mod 2)%nat) in *.
      assert (D8 : (i / 8 = k)%nat) by (symmetry; apply (Nat.div_unique i 8 k (4 * s + r)); lia). assert (M8 : (i mod 8 = 4 * s + r)%nat) by (symmetry; apply (Nat.mod_unique i 8 k (4 * s + r)); lia).
      rewrite D8, M8. generalize (nth k d 0) as x. intros x. rewrite <- !Ntestbit_Nbit. destruct (Nat.eqb_spec s 0) as [Z|Z].
      * change 16 with (2 ^ 4). rewrite <- (N.shiftr_div_pow2 x 4), N.shiftr_spec by apply N.le_0_l. f_equal. lia.
      * change 16 with (2 ^ 4). rewrite <- (N.land_ones x 4), N.land_spec, N.ones_spec_low, Bool.andb_true_r by lia. f_equal. lia.
Qed.

(** ** simhash on strings *)
Definition sizes : list nat := [4; 8; 16; 32; 64; 128; 256; 512]%nat.
Definition digest_bytes (f : nat) : list N -> list N := if Nat.eqb f 256 then sha256 else if Nat.eqb f 512 then sha512 else md5.
Lemma digest_of_iff f b d : Forall byte b -> digest_of f b d <-> d = digest_bytes f b.
Proof.
  intros Hb. unfold digest_of, digest_bytes. destruct (Nat.eqb f 256); [apply sha256_standard_iff, Hb|]. destruct (Nat.eqb f 512); [apply sha512_standard_iff, Hb|apply md5_standard_iff, Hb].
Qed.
Lemma size_facts f : In f sizes -> (0 < f / 4)%nat /\ (f = 4 * (f / 4))%nat /\ andb (Nat.leb f 512) (negb (is_power_of_two (N.of_nat f))) = true /\
  forall b, Forall byte b -> (f <= 8 * length (digest_bytes f b))%nat /\ Forall byte (digest_bytes f b).
Proof.
  intros Hf. assert (D : forall b, Forall byte b -> (f <= 8 * length (digest_bytes f b))%nat /\ Forall byte (digest_bytes f b)).
  { intros b Hb. destruct (md5_size b Hb) as [L1 B1]. destruct (sha256_size b Hb) as [L2 B2]. destruct (sha512_size b Hb) as [L3 B3].
    unfold digest_bytes. cbn [sizes In] in Hf. repeat (destruct Hf as [<-|Hf]; [cbn [Nat.eqb]; rewrite ?L1, ?L2, ?L3; split; [lia|assumption]|]). contradiction. }
  cbn [sizes In] in Hf. repeat (destruct Hf as [<-|Hf]; [split; [cbn; lia|]; split; [reflexivity|]; split; [reflexivity|exact D]|]). contradiction.
Qed.
Lemma utf8_char_det c b b' : utf8_char c b -> utf8_char c b' -> b = b'.
Proof.
  intros U U'. destruct U; inversion U'; subst; unfold continues in *; repeat match goal with H : _ /\ _ |- _ => destruct H end; subst; repeat f_equal; try lia.
Qed.
Lemma utf8_det s b b' : utf8 s b -> utf8 s b' -> b = b'.
Proof.
  intros U. revert b'. induction U as [|c s b t C U IH]; intros b' U'; inversion U' as [|c' s' x t' C' U'']; subst; [reflexivity|]. rewrite (utf8_char_det _ _ _ C C'), (IH _ U''). reflexivity.
Qed.
Lemma utf8_scalar s b : utf8 s b -> Forall scalar s.
Proof. induction 1 as [|c s b t C U IH]; constructor; [exact (utf8_char_scalar _ _ C)|exact IH]. Qed.
Lemma token_hash_unique f t h h' : token_hash f t h -> token_hash f t h' -> h = h'.
Proof.
  intros (b & d & U & D & F) (b' & d' & U' & D' & F'). rewrite (utf8_det _ _ _ U' U) in D'. pose proof (utf8_bytes _ _ U) as Hb. apply digest_of_iff in D; [|exact Hb]. apply digest_of_iff in D'; [|exact Hb]. subst d d'.
  exact (first_bits_unique _ _ _ _ F F').
Qed.
Lemma encode_tokens tokens : Forall (Forall scalar) tokens -> exists bs, mapM encode tokens = Ok bs /\ Forall2 utf8 tokens bs.
Proof.
  induction 1 as [|t tokens Ht _ (bs & E & F)]; [exists []; split; [reflexivity|constructor]|]. destruct (encode_ok t Ht) as (b & Eb & U). exists (b :: bs). cbn [mapM]. rewrite Eb. cbn [bind]. rewrite E. split; [reflexivity|constructor; assumption].
Qed.
Lemma scalar_string_dec (t : list N) : Forall scalar t \/ ~ Forall scalar t.
Proof.
  induction t as [|c t [IH|IH]]; [left; constructor| |right; intros X; inversion X; contradiction].
  assert (S : scalar c \/ ~ scalar c) by (unfold scalar; lia). destruct S as [S|S]; [left; constructor; assumption|right; intros X; inversion X; contradiction].
Qed.
Lemma Forall_scalar_dec (l : list (list N)) : Forall (Forall scalar) l \/ ~ Forall (Forall scalar) l.
Proof.
  induction l as [|t l [IH|IH]]; [left; constructor| |right; intros X; inversion X; contradiction].
  destruct (scalar_string_dec t) as [S|S]; [left; constructor; assumption|right; intros X; inversion X; contradiction].
Qed.
Lemma encode_tokens_fail tokens : Forall (Forall (fun c => c <= 1114111)) tokens -> ~ Forall (Forall scalar) tokens -> mapM encode tokens = Err ValueError.
Proof.
  induction 1 as [|t tokens Ht Hts IH]; intros Hn; [exfalso; apply Hn; constructor|]. cbn [mapM].
  destruct (scalar_string_dec t) as [Hs|Hs].
  - destruct (encode_ok t Hs) as (b & -> & _). cbn [bind]. rewrite IH; [reflexivity|]. intros X. apply Hn. constructor; assumption.
  - rewrite (encode_fails t Ht Hs). reflexivity.
Qed.
Lemma simhash_unfold f tokens : simhash (fun b => hexdigest (md5 b)) (fun b => hexdigest (sha256 b)) (fun b => hexdigest (sha512 b)) tokens f =
  if andb (Nat.leb f 512) (negb (is_power_of_two (N.of_nat f))) then
    let! histogram := add_tokens (fun b => hexdigest (digest_bytes f b)) (Nat.div f 4) tokens (repeat 0%Z f) in Ok (BitsModel.signature_of histogram)
  else Err AssertionError.
Proof. unfold simhash, digest_bytes. destruct (Nat.eqb f 256); [reflexivity|]. destruct (Nat.eqb f 512); reflexivity. Qed.
Lemma simhash_exists tokens f : In f sizes -> Forall (Forall scalar) tokens -> exists s, simhash_text tokens f = Ok s /\ is_simhash tokens f s.
Proof.
  intros Hf Ht. destruct (size_facts f Hf) as (P & E4 & A & D). destruct (encode_tokens tokens Ht) as (bs & Eb & F).
  unfold simhash_text. rewrite A, Eb. cbn [bind]. rewrite simhash_unfold, A.
  assert (X : exists hashes, Forall2 (fun b h => int16 (firstn (f / 4) (hexdigest (digest_bytes f b))) = Ok h) bs hashes /\ Forall2 (token_hash f) tokens hashes).
  { clear Eb Ht. induction F as [|t b tokens bs U F (hashes & F1 & F2)]; [exists []; split; constructor|]. pose proof (utf8_bytes _ _ U) as Hb. destruct (D b Hb) as [Dl Db].
    destruct (hex_first_bits f (digest_bytes f b) Db P E4 Dl) as (h & Eh & Fh). exists (h :: hashes). split; constructor; try assumption. exists b, (digest_bytes f b). split; [exact U|]. split; [apply digest_of_iff; [exact Hb|reflexivity]|exact Fh]. }
  destruct X as (hashes & F1 & F2). rewrite (add_tokens_ok (fun b => hexdigest (digest_bytes f b)) _ _ hashes _ F1). cbn [bind]. eexists. split; [reflexivity|].
  destruct (signature_spec hashes f) as [B M]. split; [exact B|]. exists hashes. split; [exact F2|exact M].
Qed.
Lemma hashes_unique f tokens : forall hashes hashes', Forall2 (token_hash f) tokens hashes -> Forall2 (token_hash f) tokens hashes' -> hashes = hashes'.
Proof.
  induction tokens as [|t tokens IH]; intros h h' F F'; inversion F; inversion F'; subst; [reflexivity|]. f_equal; [eapply token_hash_unique; eassumption|apply IH; assumption].
Qed.
Lemma is_simhash_unique tokens f s s' : is_simhash tokens f s -> is_simhash tokens f s' -> s = s'.
Proof.
  intros (B & hs & F & M) (B' & hs' & F' & M'). rewrite (hashes_unique _ _ _ _ F' F) in M'. apply Nbit_faithful. intros i. destruct (Nat.lt_ge_cases i f) as [L|L].
  - apply Bool.eq_iff_eq_true. rewrite (M i L), (M' i L). reflexivity.
  - rewrite !(bits_high f) by assumption. reflexivity.
Qed.
Lemma is_simhash_scalar tokens f s : is_simhash tokens f s -> Forall (Forall scalar) tokens.
Proof. intros (_ & hs & F & _). clear -F. induction F as [|t h tokens hs (b & d & U & _) F IH]; constructor; [exact (utf8_scalar _ _ U)|exact IH]. Qed.
Lemma simhash_iff tokens f s : In f sizes -> Forall (Forall (fun c => c <= 1114111)) tokens -> simhash_text tokens f = Ok s <-> is_simhash tokens f s.
Proof.
  intros Hf Hc. split.
  - intros E. destruct (Forall_scalar_dec tokens) as [Hs|Hs].
    + destruct (simhash_exists tokens f Hf Hs) as (s' & E' & I). congruence.
    + exfalso. unfold simhash_text in E. destruct (size_facts f Hf) as (_ & _ & A & _). rewrite A, (encode_tokens_fail tokens Hc Hs) in E. discriminate.
  - intros I. destruct (simhash_exists tokens f Hf (is_simhash_scalar _ _ _ I)) as (s' & E' & I'). rewrite E'. f_equal. exact (is_simhash_unique _ _ _ _ I' I).
Qed.

Lemma simhash_unfold_size f tokens :
  (let! bytes := (if andb (Nat.leb f 512) (negb (is_power_of_two (N.of_nat f))) then mapM encode tokens else Ok []) in
   simhash (fun b => hexdigest (md5 b)) (fun b => hexdigest (sha256 b)) (fun b => hexdigest (sha512 b)) bytes f) =
  if andb (Nat.leb f 512) (negb (is_power_of_two (N.of_nat f))) then
    let! bytes := mapM encode tokens in simhash (fun b => hexdigest (md5 b)) (fun b => hexdigest (sha256 b)) (fun b => hexdigest (sha512 b)) bytes f
  else Err AssertionError.
Proof. destruct (andb _ _) eqn:A; [reflexivity|]. cbn [bind]. rewrite simhash_unfold, A. reflexivity. Qed.
Lemma accepted_sizes f : andb (Nat.leb f 512) (negb (is_power_of_two (N.of_nat f))) = true -> In f [0; 1; 2; 4; 8; 16; 32; 64; 128; 256; 512]%nat.
Proof.
  intros E. apply Bool.andb_true_iff in E. destruct E as [L P]. apply Nat.leb_le in L.
  assert (K : forallb (fun f => orb (is_power_of_two (N.of_nat f)) (existsb (Nat.eqb f) [0; 1; 2; 4; 8; 16; 32; 64; 128; 256; 512]%nat)) (seq 0 513) = true) by (vm_compute; reflexivity).
  rewrite forallb_forall in K. specialize (K f). rewrite in_seq in K. destruct (is_power_of_two (N.of_nat f)); [discriminate|]. cbn [orb] in K.
  assert (X : existsb (Nat.eqb f) [0; 1; 2; 4; 8; 16; 32; 64; 128; 256; 512]%nat = true) by (apply K; lia). apply existsb_exists in X. destruct X as (g & Hg & Eg). apply Nat.eqb_eq in Eg. subst g. exact Hg.
Qed.
Lemma Forall2_perm {A B} (R : A -> B -> Prop) l l' : Permutation l l' -> forall m, Forall2 R l m -> exists m', Forall2 R l' m' /\ Permutation m m'.
Proof.
  induction 1 as [|x l l' P IH|x y l|l1 l2 l3 P1 IH1 P2 IH2]; intros m F.
  - inversion F; subst. exists []. split; constructor.
  - inversion F as [|? a ? m1 H1 F1]; subst. destruct (IH _ F1) as (m' & F' & P'). exists (a :: m'). split; constructor; assumption.
  - inversion F as [|? a ? m1 H1 F1]; subst. inversion F1 as [|? b ? m2 H2 F2]; subst. exists (b :: a :: m2). split; [repeat constructor; assumption|apply perm_swap].
  - destruct (IH1 _ F) as (m2 & F2 & Q2). destruct (IH2 _ F2) as (m3 & F3 & Q3). exists m3. split; [exact F3|exact (perm_trans Q2 Q3)].
Qed.
Lemma is_simhash_perm tokens tokens' f s : Permutation tokens tokens' -> is_simhash tokens f s -> is_simhash tokens' f s.
Proof.
  intros P (B & hs & F & M). destruct (Forall2_perm _ _ _ P _ F) as (hs' & F' & P'). split; [exact B|]. exists hs'. split; [exact F'|]. intros i Hi. rewrite (M i Hi).
  split; apply majority_perm; [exact P'|symmetry; exact P'].
Qed.
Lemma simhash_order tokens tokens' f : Forall (Forall (fun c => c <= 1114111)) tokens -> Permutation tokens tokens' -> simhash_text tokens f = simhash_text tokens' f.
Proof.
  intros Hc P. assert (Hc' : Forall (Forall (fun c => c <= 1114111)) tokens') by (rewrite Forall_forall in *; intros t Ht; apply Hc, (Permutation_in _ (Permutation_sym P)), Ht).
  unfold simhash_text. rewrite !simhash_unfold_size. destruct (andb _ _) eqn:A; [|reflexivity].
  assert (S : Forall (Forall scalar) tokens <-> Forall (Forall scalar) tokens') by (rewrite !Forall_forall; split; intros H t Ht; apply H; [apply (Permutation_in _ (Permutation_sym P))|apply (Permutation_in _ P)]; exact Ht).
  destruct (Forall_scalar_dec tokens) as [Hs|Hs]; [|rewrite (encode_tokens_fail tokens Hc Hs), (encode_tokens_fail tokens'); [reflexivity|exact Hc'|tauto]].
  pose proof (proj1 S Hs) as Hs'. pose proof (accepted_sizes f A) as Hf.
  assert (C : In f [0; 1; 2]%nat \/ In f sizes) by (cbn [In sizes] in *; tauto). destruct C as [C|C].
  - destruct (encode_tokens tokens Hs) as (bs & -> & F). destruct (encode_tokens tokens' Hs') as (bs' & -> & F'). cbn [bind].
    destruct F as [|t b tokens bs U F].
    + apply Permutation_nil in P as ->. inversion F'. reflexivity.
    + destruct F' as [|t' b' tokens' bs' U' F']; [apply Permutation_sym, Permutation_nil in P; discriminate|]. cbn [In] in C. destruct C as [<-|[<-|[<-|[]]]]; reflexivity.
  - destruct (simhash_exists tokens f C Hs) as (s & E & I). destruct (simhash_exists tokens' f C Hs') as (s' & E' & I'). unfold simhash_text in E, E'. rewrite A in E, E'.
    rewrite E, E'. f_equal. apply (is_simhash_unique tokens' f); [exact (is_simhash_perm _ _ _ _ P I)|exact I'].
Qed.
Lemma majority_repeat h n i : majority (repeat h (S n)) i <-> N.testbit_nat h i = true.
Proof.
  unfold majority. rewrite repeat_length. destruct (N.testbit_nat h i) eqn:E.
  - split; [reflexivity|]. intros _. assert (X : filter (fun h => N.testbit_nat h i) (repeat h (S n)) = repeat h (S n)).
    { generalize (S n). intros m. induction m as [|m IH]; [reflexivity|]. cbn [repeat filter]. rewrite E, IH. reflexivity. }
    rewrite X, repeat_length. lia.
  - split; [|discriminate]. assert (X : filter (fun h => N.testbit_nat h i) (repeat h (S n)) = []).
    { generalize (S n). intros m. induction m as [|m IH]; [reflexivity|]. cbn [repeat filter]. rewrite E. exact IH. }
    rewrite X. cbn [length]. lia.
Qed.
Lemma Forall2_repeat {A B} (R : A -> B -> Prop) x y n : R x y -> Forall2 R (repeat x n) (repeat y n).
Proof. intros H. induction n as [|n IH]; cbn [repeat]; constructor; assumption. Qed.
Lemma simhash_single t n f h : In f sizes -> Forall (fun c => c <= 1114111) t -> simhash_text (repeat t (S n)) f = Ok h <-> token_hash f t h.
Proof.
  intros Hf Ht. rewrite simhash_iff; [|exact Hf|apply Forall_forall; intros x Hx; apply repeat_spec in Hx as ->; exact Ht].
  assert (B : forall h, token_hash f t h -> is_simhash (repeat t (S n)) f h).
  { intros x Hx. split; [destruct Hx as (b & d & _ & _ & Hx & _); exact Hx|]. exists (repeat x (S n)). split; [apply Forall2_repeat, Hx|]. intros i Hi. rewrite majority_repeat. reflexivity. }
  split; [|apply B]. intros I. pose proof I as (_ & hs & F & _). destruct hs as [|h' hs]; [inversion F|]. inversion F as [|? ? ? ? H1 F1]; subst. rewrite (is_simhash_unique _ _ _ _ I (B h' H1)). exact H1.
Qed.
Lemma majority_shift k hs i : majority (map (fun h => N.shiftr h (N.of_nat k)) hs) i <-> majority hs (i + k).
Proof.
  unfold majority. rewrite map_length. assert (E : length (filter (fun h => N.testbit_nat h i) (map (fun h => N.shiftr h (N.of_nat k)) hs)) = length (filter (fun h => N.testbit_nat h (i + k)) hs)).
  { induction hs as [|h hs IH]; [reflexivity|]. cbn [map filter]. assert (X : N.testbit_nat (N.shiftr h (N.of_nat k)) i = N.testbit_nat h (i + k)).
    { rewrite <- !Ntestbit_Nbit, N.shiftr_spec by apply N.le_0_l. f_equal. lia. }
    rewrite X. destruct (N.testbit_nat h (i + k)); cbn [length]; rewrite IH; reflexivity. }
  rewrite E. reflexivity.
Qed.
Lemma simhash_prefix tokens f s : In f [4; 8; 16; 32; 64; 128]%nat -> Forall (Forall (fun c => c <= 1114111)) tokens ->
  simhash_text tokens 128 = Ok s -> simhash_text tokens f = Ok (s / 2 ^ N.of_nat (128 - f)).
Proof.
  intros Hf Hc E. assert (Hs : In f sizes) by (cbn [In sizes] in *; tauto). assert (H128 : In 128%nat sizes) by (cbn [In sizes]; tauto). assert (L : (f <= 128)%nat) by (cbn [In] in Hf; lia).
  assert (N1 : Nat.eqb f 256 = false) by (apply Nat.eqb_neq; lia). assert (N2 : Nat.eqb f 512 = false) by (apply Nat.eqb_neq; lia).
  apply simhash_iff in E; [|exact H128|exact Hc]. apply simhash_iff; [exact Hs|exact Hc|]. destruct E as (B & hs & F & M). set (k := (128 - f)%nat). rewrite <- N.shiftr_div_pow2.
  assert (Sh : forall h, h < 2 ^ N.of_nat 128 -> N.shiftr h (N.of_nat k) < 2 ^ N.of_nat f).
  { intros h Hh. apply high_bits. intros i Hi. rewrite <- Ntestbit_Nbit, N.shiftr_spec by apply N.le_0_l. rewrite <- Nat2N.inj_add, Ntestbit_Nbit. apply (bits_high 128); [exact Hh|lia]. }
  split; [apply Sh, B|]. exists (map (fun h => N.shiftr h (N.of_nat k)) hs). split.
  - clear M. induction F as [|t h tokens hs (b & d & U & D & Bh & Th) F IH]; cbn [map]; constructor; [|apply IH; inversion Hc; assumption]. exists b, d. split; [exact U|]. split.
    + unfold digest_of in *. rewrite N1, N2. exact D.
    + split; [apply Sh, Bh|]. intros i Hi. rewrite <- Th by lia. rewrite <- !Ntestbit_Nbit, N.shiftr_spec by apply N.le_0_l. f_equal. lia.
  - intros i Hi. rewrite majority_shift, <- M by lia. rewrite <- !Ntestbit_Nbit, N.shiftr_spec by apply N.le_0_l. rewrite Nat2N.inj_add. reflexivity.
Qed.
