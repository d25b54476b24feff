(** C148, C149: the digests of hashlib, and simhash from strings *)
From Coq Require Import List NArith ZArith Lia Permutation String.
From Verif Require Import Base BaseFacts LevModel PairwiseModel BitsModel BitsSpec BitsProofs DigestModel DigestSpec DigestProofs
  HashModel HashSpec HashProofs HashEndProofs HashSineProofs HashTextProofs.
Import ListNotations.
Open Scope N_scope.
Open Scope string_scope.
Open Scope list_scope.

(** ** C148: the digests *)
(** C148: MD5 is that of RFC 1321, whose table is made of the sines of the numbers from 1 to 64 *)
Theorem C148_md5 b d : Forall byte b -> md5_standard b d <-> d = md5 b.
Proof. exact (md5_standard_iff b d). Qed.
Print Assumptions C148_md5.
(** C148: the same with the table of the model *)
Theorem C148_md5_table b d : Forall byte b -> is_md5 md5_table b d <-> d = md5 b.
Proof. exact (md5_bytes_iff b d). Qed.
Print Assumptions C148_md5_table.
(** C148: SHA-256 and SHA-512 are those of FIPS 180-4, whose constants are bits of the roots of the first primes *)
Theorem C148_sha256 b d : Forall byte b -> sha256_standard b d <-> d = sha256 b.
Proof. exact (sha256_standard_iff b d). Qed.
Print Assumptions C148_sha256.
Theorem C148_sha512 b d : Forall byte b -> sha512_standard b d <-> d = sha512 b.
Proof. exact (sha512_standard_iff b d). Qed.
Print Assumptions C148_sha512.
(** C148: the number of hexadecimal digits, and what they are *)
Theorem C148_digits b : Forall byte b ->
  (List.length (hexdigest (md5 b)) = 32%nat /\ List.length (hexdigest (sha256 b)) = 64%nat /\ List.length (hexdigest (sha512 b)) = 128%nat) /\
  forall d, In d (hexdigest (md5 b)) \/ In d (hexdigest (sha256 b)) \/ In d (hexdigest (sha512 b)) -> d < 16.
Proof.
  intros Hb. destruct (md5_size b Hb) as [L1 B1]. destruct (sha256_size b Hb) as [L2 B2]. destruct (sha512_size b Hb) as [L3 B3]. rewrite !hex_length, L1, L2, L3. split; [auto|].
  intros d [H|[H|H]]; [exact (hex_digits _ _ B1 H)|exact (hex_digits _ _ B2 H)|exact (hex_digits _ _ B3 H)].
Qed.
Print Assumptions C148_digits.
(** C148: two messages that are padded to the same blocks are the same message *)
Theorem C148_padding size field reads b b' p : padded size field reads b p -> padded size field reads b' p -> b = b'.
Proof. exact (padded_inj size field reads b b' p). Qed.
Print Assumptions C148_padding.

(** the digests of the standards' own test vectors *)
Fixpoint codes (s : string) : list N := match s with EmptyString => [] | String c s => Ascii.N_of_ascii c :: codes s end.
Definition digit (c : Ascii.ascii) : N := let n := Ascii.N_of_ascii c in (if n <? 58 then n - 48 else n - 87)%N.
Fixpoint digits (s : string) : list N := match s with EmptyString => [] | String c s => digit c :: digits s end.
(** C148: RFC 1321, A.5 *)
Theorem C148_md5_vectors : map (fun s => hexdigest (md5 (codes s)))
    [""; "a"; "abc"; "message digest"; "abcdefghijklmnopqrstuvwxyz"; "ABCDEFGHIJKLMNOPQRSTUVWXYZabcdefghijklmnopqrstuvwxyz0123456789";
     "12345678901234567890123456789012345678901234567890123456789012345678901234567890"] =
  map digits ["d41d8cd98f00b204e9800998ecf8427e"; "0cc175b9c0f1b6a831c399e269772661"; "900150983cd24fb0d6963f7d28e17f72"; "f96b697d7cb7938d525a2f31aaf161d0";
     "c3fcd3d76192e4007dfb496cca67e13b"; "d174ab98d277d9f5a5611c2c9f419d9f"; "57edf4a22be3c955ac49da2e2107b67a"].
Proof. vm_compute. reflexivity. Qed.
Print Assumptions C148_md5_vectors.
(** C148: the examples that come with FIPS 180-4 *)
Theorem C148_sha256_vectors : map (fun s => hexdigest (sha256 (codes s)))
    [""; "abc"; "abcdbcdecdefdefgefghfghighijhijkijkljklmklmnlmnomnopnopq"] =
  map digits ["e3b0c44298fc1c149afbf4c8996fb92427ae41e4649b934ca495991b7852b855"; "ba7816bf8f01cfea414140de5dae2223b00361a396177a9cb410ff61f20015ad";
     "248d6a61d20638b8e5c026930c3e6039a33ce45964ff2167f6ecedd419db06c1"].
Proof. vm_compute. reflexivity. Qed.
Print Assumptions C148_sha256_vectors.
Theorem C148_sha512_vectors : map (fun s => hexdigest (sha512 (codes s)))
    [""; "abc"; "abcdefghbcdefghicdefghijdefghijkefghijklfghijklmghijklmnhijklmnoijklmnopjklmnopqklmnopqrlmnopqrsmnopqrstnopqrstu"] =
  map digits ["cf83e1357eefb8bdf1542850d66d8007d620e4050b5715dc83f4a921d36ce9ce47d0d13c5d85f2b0ff8318d2877eec2f63b931bd47417a81a538327af927da3e";
     "ddaf35a193617abacc417349ae20413112e6fa4e89a97ea20a9eeee64b55d39a2192992a274fc1a836ba3c23a3feebbd454d4423643ce80e2a9ac94fa54ca49f";
     "8e959b75dae313da8cf4f72814fc143f8f7779c6eb9f7fa17299aeadb6889018501d289e4900f7e4331b99dec4b5433ac7d329eeb6dd26545e96e55b874be909"].
Proof. vm_compute. reflexivity. Qed.
Print Assumptions C148_sha512_vectors.
(** the first primes are those that one expects, and the first constants those of the standards *)
Example constants_known : nth 0 md5_table 0 = 0xd76aa478 /\ nth 63 md5_table 0 = 0xeb86d391 /\ nth 63 (constants sha256_v) 0 = 0xc67178f2 /\ nth 79 (constants sha512_v) 0 = 0x6c44198c4a475817.
Proof. repeat split. Qed.

(** ** C149: simhash *)
Definition text := list (list N).
Definition characters (tokens : text) : Prop := Forall (Forall (fun c => c <= 1114111)) tokens.

(** C149: simhash takes the bits that most tokens have in the first f bits of the digest of their UTF-8: MD5 up to 128 bits, SHA-256 for 256, SHA-512 for 512 *)
Theorem C149_simhash tokens f s : In f [4; 8; 16; 32; 64; 128; 256; 512]%nat -> characters tokens ->
  simhash_text tokens f = Ok s <-> is_simhash tokens f s.
Proof. exact (simhash_iff tokens f s). Qed.
Print Assumptions C149_simhash.

(** C149: what is refused: other sizes, the sizes under 4 as soon as there is a token, and strings that have no UTF-8 *)
Theorem C149_errors tokens f : characters tokens ->
  (~ In f [0; 1; 2; 4; 8; 16; 32; 64; 128; 256; 512]%nat -> simhash_text tokens f = Err AssertionError) /\
  (In f [0; 1; 2]%nat -> tokens <> [] -> simhash_text tokens f = Err ValueError) /\
  (In f [0; 1; 2; 4; 8; 16; 32; 64; 128; 256; 512]%nat -> simhash_text [] f = Ok 0) /\
  (In f [4; 8; 16; 32; 64; 128; 256; 512]%nat -> Forall (Forall scalar) tokens <-> exists s, simhash_text tokens f = Ok s) /\
  (In f [4; 8; 16; 32; 64; 128; 256; 512]%nat -> ~ Forall (Forall scalar) tokens -> simhash_text tokens f = Err ValueError).
Proof.
  intros Hc. split; [|split; [|split; [|split]]].
  - intros Hf. unfold simhash_text. rewrite simhash_unfold_size. destruct (andb _ _) eqn:A; [|reflexivity]. exfalso. apply Hf. apply accepted_sizes, A.
  - intros Hf Hn. destruct (Forall_scalar_dec tokens) as [Hs|Hs].
    + destruct (encode_tokens tokens Hs) as (bs & E & F). destruct F as [|t b tokens bs U F]; [contradiction|]. unfold simhash_text. cbn [In] in Hf. destruct Hf as [<-|[<-|[<-|[]]]]; cbn [Nat.leb andb]; cbn -[mapM simhash]; rewrite E; reflexivity.
    + unfold simhash_text. cbn [In] in Hf. destruct Hf as [<-|[<-|[<-|[]]]]; cbn -[mapM simhash]; rewrite (encode_tokens_fail tokens Hc Hs); reflexivity.
  - intros Hf. cbn [In] in Hf. repeat (destruct Hf as [<-|Hf]; [vm_compute; reflexivity|]). contradiction.
  - intros Hf. split.
    + intros Hs. destruct (simhash_exists tokens f Hf Hs) as (s & E & _). exists s. exact E.
    + intros (s & E). apply (is_simhash_scalar tokens f s). apply simhash_iff; assumption.
  - intros Hf Hs. unfold simhash_text. destruct (size_facts f Hf) as (_ & _ & A & _). rewrite A, (encode_tokens_fail tokens Hc Hs). reflexivity.
Qed.
Print Assumptions C149_errors.

(** C149: the order of the tokens does not matter *)
Theorem C149_order tokens tokens' f : characters tokens -> Permutation tokens tokens' -> simhash_text tokens f = simhash_text tokens' f.
Proof. exact (simhash_order tokens tokens' f). Qed.
Print Assumptions C149_order.

(** C149: one token, however often it is repeated, gives the bits of its own digest *)
Theorem C149_single t n f h : In f [4; 8; 16; 32; 64; 128; 256; 512]%nat -> Forall (fun c => c <= 1114111) t ->
  simhash_text (repeat t (S n)) f = Ok h <-> token_hash f t h.
Proof. exact (simhash_single t n f h). Qed.
Print Assumptions C149_single.

(** C149: up to 128 bits, a shorter signature is made of the high bits of the one of 128 *)
Theorem C149_prefix tokens f s : In f [4; 8; 16; 32; 64; 128]%nat -> characters tokens ->
  simhash_text tokens 128 = Ok s -> simhash_text tokens f = Ok (s / 2 ^ N.of_nat (128 - f)).
Proof. exact (simhash_prefix tokens f s). Qed.
Print Assumptions C149_prefix.

(** values computed by python *)
Example simhash_python : simhash_text (map codes ["abc"; "de"] ++ [[233]]) 512 =
  Ok 8336112344064312093056476328708381411773246119587428895432450204671094703469899086789788195329563317135613661668223107221973875408890597267871695973034028.
Proof. vm_compute. reflexivity. Qed.
(** two sentences of the script at the end of simhash.py, as bigrams *)
Fixpoint bigrams (s : list N) : list (list N) := match s with a :: ((b :: _) as t) => [a; b] :: bigrams t | _ => [] end.
Example simhash_script : map (simhash_text (bigrams (codes "the cat sat on the mat"))) [32; 64; 128; 256]%nat =
  [Ok 2131593091; Ok 9155122618345377297; Ok 168882203904046861780532982961346825507; Ok 109401589846347141971725511654125771196250314457546537864063694665850444652270] /\
  simhash_text (bigrams (codes "the cat sat on a mat")) 64 = Ok 9155122618347084440.
Proof. vm_compute. auto. Qed.
