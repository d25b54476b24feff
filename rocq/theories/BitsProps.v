(** C28, C29, C81: bit counts and simhash *)
From Coq Require Import NArith Nnat QArith Lqa.
From Verif Require Import Base BitsModel BitsSpec BitsProofs.
Open Scope N_scope.
Open Scope list_scope.

(** C28: the bit counts are right on all words of their width *)
Theorem C28_popcount64 x : x < 2 ^ 64 -> popcount64 x = N.of_nat (bits_set 64 x).
Proof. intros Hx. rewrite popcount64_ok by assumption. apply (popcount_bits 64). exact Hx. Qed.
Theorem C28_popcount32 x : x < 2 ^ 32 -> popcount32 x = N.of_nat (bits_set 32 x).
Proof. intros Hx. rewrite popcount32_ok by assumption. apply (popcount_bits 32). exact Hx. Qed.
Theorem C28_popcount16 x : x < 2 ^ 16 -> popcount16 x = N.of_nat (bits_set 16 x).
Proof. intros Hx. rewrite popcount16_ok by assumption. apply (popcount_bits 16). exact Hx. Qed.
(** C28: and the count of binary digits for all numbers *)
Theorem C28_popcount w x : x < 2 ^ N.of_nat w -> popcount x = N.of_nat (bits_set w x).
Proof. apply popcount_bits. Qed.

Example popcount64_all : popcount64 0xffffffffffffffff = 64.
Proof. reflexivity. Qed.
Example popcount64_some : popcount64 0x8000000100000001 = 3.
Proof. reflexivity. Qed.
Example popcount_some : bits_set 64 0x8000000100000001 = 3%nat.
Proof. reflexivity. Qed.
(** the width matters *)
Example popcount64_over : popcount64 0x10000000000000000 = 0.
Proof. reflexivity. Qed.

(** C28: the simhash distance counts the different bits *)
Theorem C28_simhash_distance f A B : A < 2 ^ N.of_nat f -> B < 2 ^ N.of_nat f -> f <> 0%nat ->
  simhash_distance A B f = Ok (inject_Z (Z.of_nat (bits_apart f A B)) / inject_Z (Z.of_nat f))%Q.
Proof.
  intros HA HB Hf. unfold simhash_distance. destruct (Nat.eqb_spec f 0); [contradiction|]. rewrite (popcount_xor f) by assumption. rewrite nat_N_Z. reflexivity.
Qed.

(** ** simhash *)
Section Simhash.
Context {T : Type}.
Variable md5 sha256 sha512 : T -> list N.
Notation simhash := (simhash md5 sha256 sha512).
Hypothesis md5_digits : forall t, length (md5 t) = 32%nat /\ forall d, In d (md5 t) -> d < 16.
Hypothesis sha256_digits : forall t, length (sha256 t) = 64%nat /\ forall d, In d (sha256 t) -> d < 16.
Hypothesis sha512_digits : forall t, length (sha512 t) = 128%nat /\ forall d, In d (sha512 t) -> d < 16.

(** the sizes that pass the assertion *)
Definition accepted (f : nat) : Prop := In f [0; 1; 2; 4; 8; 16; 32; 64; 128; 256; 512]%nat.
Definition hash_function (f : nat) : T -> list N := if Nat.eqb f 256 then sha256 else if Nat.eqb f 512 then sha512 else md5.

Lemma accepted_iff f : andb (Nat.leb f 512) (negb (is_power_of_two (N.of_nat f))) = true <-> accepted f.
Proof.
  split.
  - intros E. apply Bool.andb_true_iff in E. destruct E as [L P]. apply Nat.leb_le in L.
    assert (K : forallb (fun f => orb (is_power_of_two (N.of_nat f)) (existsb (Nat.eqb f) [0; 1; 2; 4; 8; 16; 32; 64; 128; 256; 512]%nat)) (seq 0 513) = true) by (vm_compute; reflexivity).
    rewrite forallb_forall in K. specialize (K f). rewrite in_seq in K. destruct (is_power_of_two (N.of_nat f)); [discriminate|]. cbn [orb] in K.
    assert (X : existsb (Nat.eqb f) [0; 1; 2; 4; 8; 16; 32; 64; 128; 256; 512]%nat = true) by (apply K; lia). apply existsb_exists in X. destruct X as (g & Hg & Eg). apply Nat.eqb_eq in Eg. subst g. exact Hg.
  - unfold accepted. cbn [In]. intros K. repeat (destruct K as [<-|K]; [reflexivity|]). contradiction.
Qed.

(** C29: simhash refuses other sizes *)
Theorem C29_refused tokens f : ~ accepted f -> simhash tokens f = Err AssertionError.
Proof. intros Hf. unfold BitsModel.simhash. destruct (andb _ _) eqn:E; [|reflexivity]. exfalso. apply Hf. apply accepted_iff. exact E. Qed.

Lemma digest_ok f t : accepted f -> (4 <= f)%nat -> firstn (f / 4) (hash_function f t) <> [] /\ length (firstn (f / 4) (hash_function f t)) = (f / 4)%nat /\
  forall d, In d (firstn (f / 4) (hash_function f t)) -> d < 16.
Proof.
  intros Hf H4. assert (K : (f / 4 <= length (hash_function f t))%nat /\ (forall d, In d (hash_function f t) -> d < 16) /\ (0 < f / 4)%nat).
  { unfold hash_function. unfold accepted in Hf. cbn [In] in Hf.
    repeat (destruct Hf as [<-|Hf]; [try lia; cbn [Nat.eqb]; try (destruct (md5_digits t) as [-> ?]); try (destruct (sha256_digits t) as [-> ?]); try (destruct (sha512_digits t) as [-> ?]); repeat split; auto; cbn; lia|]). contradiction. }
  destruct K as (L & D & P). assert (E : length (firstn (f / 4) (hash_function f t)) = (f / 4)%nat) by (apply firstn_length_le; assumption). split; [|split; [assumption|]].
  - intros X. rewrite X in E. cbn [length] in E. lia.
  - intros d Hd. apply D. rewrite <- (firstn_skipn (f / 4) (hash_function f t)). apply in_or_app. auto.
Qed.

(** C29: for the other accepted sizes, from 4 up: the signature has [f] bits, those set in a strict majority of the digests,
    taken as numbers of [f] bits *)
Theorem C29_majority tokens f : accepted f -> (4 <= f)%nat ->
  exists hashes signature, simhash tokens f = Ok signature /\
    Forall2 (fun t h => hex_value (firstn (f / 4) (hash_function f t)) h /\ h < 16 ^ N.of_nat (f / 4)) tokens hashes /\
    signature < 2 ^ N.of_nat f /\ forall i, (i < f)%nat -> N.testbit_nat signature i = true <-> majority hashes i.
Proof.
  intros Hf H4.
  assert (X : exists hashes, Forall2 (fun t h => int16 (firstn (f / 4) (hash_function f t)) = Ok h) tokens hashes /\
    Forall2 (fun t h => hex_value (firstn (f / 4) (hash_function f t)) h /\ h < 16 ^ N.of_nat (f / 4)) tokens hashes).
  { induction tokens as [|t tokens (hashes & F1 & F2)]; [exists []; split; constructor|]. destruct (digest_ok f t Hf H4) as (Hne & L & D). destruct (int16_ok _ Hne D) as (h & E & B). rewrite L in B.
    exists (h :: hashes). split; constructor; auto. split; [apply int16_value; assumption|assumption]. }
  destruct X as (hashes & F1 & F2). exists hashes, (signature_of (histogram_of hashes (repeat 0%Z f))). destruct (signature_spec hashes f) as [B M]. split; [|auto].
  unfold BitsModel.simhash. rewrite (proj2 (accepted_iff f) Hf). fold (hash_function f). rewrite (add_tokens_ok _ _ _ hashes _ F1). reflexivity.
Qed.

(** C29: the order of the tokens does not matter *)
Theorem C29_order tokens tokens' f s s' : Permutation tokens tokens' -> simhash tokens f = Ok s -> simhash tokens' f = Ok s' -> s = s'.
Proof.
  intros P E E'. unfold BitsModel.simhash in E, E'. destruct (andb _ _) eqn:A; [|discriminate]. fold (hash_function f) in E, E'.
  assert (R : forall tokens hist out, add_tokens (hash_function f) (f / 4) tokens hist = Ok out -> exists hashes, Forall2 (fun t h => int16 (firstn (f / 4) (hash_function f t)) = Ok h) tokens hashes /\ out = histogram_of hashes hist).
  { clear. induction tokens as [|t tokens IH]; intros hist out E; cbn in E; [injection E as <-; exists []; split; [constructor|reflexivity]|].
    destruct (int16 _) as [h|] eqn:Eh; [|discriminate]. cbn [bind] in E. destruct (IH _ _ E) as (hs & F & ->). exists (h :: hs). split; [constructor; assumption|reflexivity]. }
  destruct (add_tokens _ _ tokens _) as [o|] eqn:Eo; [|discriminate]. injection E as <-. destruct (add_tokens _ _ tokens' _) as [o'|] eqn:Eo'; [|discriminate]. injection E' as <-.
  destruct (R _ _ _ Eo) as (hs & F & ->). destruct (R _ _ _ Eo') as (hs' & F' & ->).
  assert (PH : Permutation hs hs').
  { clear - P F F'. revert hs hs' F F'. induction P; intros hs hs' F F'.
    - inversion F; inversion F'; constructor.
    - inversion F as [|? h ? hs1 Eh F1]; inversion F' as [|? h' ? hs1' Eh' F1']; subst. assert (h = h') by congruence. subst. constructor. auto.
    - inversion F as [|? h1 ? hsx E1 Fx]; subst. inversion Fx as [|? h2 ? hsy E2 Fy]; subst. inversion F' as [|? h3 ? hsz E3 Fz]; subst. inversion Fz as [|? h4 ? hsw E4 Fw]; subst.
      assert (h3 = h2) by congruence. assert (h4 = h1) by congruence. subst. assert (hsy = hsw).
      { clear - Fy Fw. revert hsw Fw. induction Fy; intros hsw Fw; inversion Fw; subst; [reflexivity|]. f_equal; [congruence|auto]. }
      subst. constructor.
    - assert (X : exists hs2, Forall2 (fun t h => int16 (firstn (f / 4) (hash_function f t)) = Ok h) l' hs2).
      { clear - P1 F. revert hs F. induction P1; intros hs F.
        - exists []. constructor.
        - inversion F as [|? h ? hs1 Eh F1]; subst. destruct (IHP1 _ F1) as (hs2 & F2). exists (h :: hs2). constructor; assumption.
        - inversion F as [|? h1 ? hsx E1 Fx]; subst. inversion Fx as [|? h2 ? hsy E2 Fy]; subst. exists (h2 :: h1 :: hsy). repeat constructor; assumption.
        - destruct (IHP1_1 _ F) as (hs2 & F2). eauto. }
      destruct X as (hs2 & F2). rewrite (IHP1 _ _ F F2). auto. }
  apply Nbit_faithful. intros i. destruct (Nat.lt_ge_cases i f) as [L|L].
  - destruct (signature_spec hs f) as [_ M]. destruct (signature_spec hs' f) as [_ M']. specialize (M i L). specialize (M' i L).
    apply Bool.eq_iff_eq_true. rewrite M, M'. split; apply majority_perm; [|symmetry]; assumption.
  - rewrite !(bits_high f) by (apply signature_spec || assumption). reflexivity.
Qed.

(** C29: simhash fails on the accepted sizes under 4, as soon as there is a token *)
Theorem C29_sizes_refuted token tokens f : In f [0; 1; 2]%nat -> accepted f /\ simhash (token :: tokens) f = Err ValueError.
Proof. intros [<-|[<-|[<-|[]]]]; (split; [unfold accepted; cbn; tauto|reflexivity]). Qed.
End Simhash.

(** C29, C81: simhash_distance is a metric with values between 0 and 1 on signatures *)
Theorem C81_metric f A B C : (f <> 0)%nat -> exists ab ba bc ac,
  simhash_distance A B f = Ok ab /\ simhash_distance B A f = Ok ba /\ simhash_distance B C f = Ok bc /\ simhash_distance A C f = Ok ac /\
  (0 <= ab)%Q /\ ((ab == 0)%Q <-> A = B) /\ (ab == ba)%Q /\ (ac <= ab + bc)%Q /\
  (A < 2 ^ N.of_nat f -> B < 2 ^ N.of_nat f -> (ab <= 1)%Q).
Proof.
  intros Hf. unfold simhash_distance. destruct (Nat.eqb_spec f 0); [contradiction|]. do 4 eexists. do 4 (split; [reflexivity|]).
  assert (P : (0 < inject_Z (Z.of_nat f))%Q) by (change 0%Q with (inject_Z 0); rewrite <- Zlt_Qlt; lia).
  assert (I : (0 < / inject_Z (Z.of_nat f))%Q) by (apply Qinv_lt_0_compat; assumption).
  assert (Hn : (0 <= inject_Z (Z.of_N (popcount (N.lxor A B))))%Q) by (change 0%Q with (inject_Z 0); rewrite <- Zle_Qle; lia).
  unfold Qdiv. split; [|split; [|split; [|split]]].
  - apply Qmult_le_0_compat; lra.
  - split; intros E.
    + assert (Z : (inject_Z (Z.of_N (popcount (N.lxor A B))) == 0)%Q) by (destruct (Qmult_integral _ _ E); [assumption|lra]).
      change 0%Q with (inject_Z 0) in Z. rewrite inject_Z_injective in Z. assert (Z' : popcount (N.lxor A B) = 0) by lia. apply N.lxor_eq. apply popcount_zero. exact Z'.
    + subst B. rewrite N.lxor_nilpotent. apply Qmult_0_l.
  - rewrite N.lxor_comm. reflexivity.
  - assert (T : (inject_Z (Z.of_N (popcount (N.lxor A C))) <= inject_Z (Z.of_N (popcount (N.lxor A B))) + inject_Z (Z.of_N (popcount (N.lxor B C))))%Q).
    { rewrite <- inject_Z_plus, <- Zle_Qle. pose proof (popcount_triangle A B C). lia. }
    rewrite <- Qmult_plus_distr_l. apply Qmult_le_compat_r; [assumption|lra].
  - intros HA HB. assert (L : (inject_Z (Z.of_N (popcount (N.lxor A B))) <= inject_Z (Z.of_nat f))%Q).
    { rewrite <- Zle_Qle. pose proof (popcount_le f (N.lxor A B) (lxor_bound f A B HA HB)). lia. }
    apply Qle_shift_div_r; [assumption|]. lra.
Qed.

(** C81: the similarity is its complement *)
Theorem C81_similarity A B f d : simhash_distance A B f = Ok d -> simhash_similarity A B f = Ok (1 - d)%Q.
Proof. intros E. unfold simhash_similarity. rewrite E. reflexivity. Qed.

Print Assumptions C28_popcount64.
Print Assumptions C28_popcount32.
Print Assumptions C28_popcount16.
Print Assumptions C28_popcount.
Print Assumptions C28_simhash_distance.
Print Assumptions C29_refused.
Print Assumptions C29_majority.
Print Assumptions C29_order.
Print Assumptions C29_sizes_refuted.
Print Assumptions C81_metric.
Print Assumptions C81_similarity.

(** three tokens whose digests all start with the digits given *)
Definition digest (n : nat) (t : list N) : list N := t ++ repeat 0 (n - length t).
Example simhash_some : simhash (digest 32) (digest 64) (digest 128) [[0xA; 1]; [0xA; 2]; [3; 2]] 8 = Ok 0xA2.
Proof. vm_compute. reflexivity. Qed.
Example simhash_tie : simhash (digest 32) (digest 64) (digest 128) [[0xF; 0]; [0; 0xF]] 8 = Ok 0.
Proof. vm_compute. reflexivity. Qed.
Example digest_digits : length (digest 32 [0xA; 1]) = 32%nat /\ forall d, In d (digest 32 [0xA; 1]) -> d < 16.
Proof. split; [reflexivity|]. intros d Hd. cbn in Hd. repeat (destruct Hd as [<-|Hd]; [reflexivity|]). contradiction. Qed.
