(** Model of the digests that fog/lsh/simhash.py takes from hashlib: MD5, SHA-256 and SHA-512 on bytes, and simhash on strings.
    hashlib calls OpenSSL or CPython's Modules/md5module.c, sha256module.c, sha512module.c; what is written here is what both compute
    (RFC 1321, FIPS 180-4). *)
From Coq Require Import List NArith.
From Verif Require Import Base LevModel PairwiseModel MinHashModel BitsModel DigestModel.
Import ListNotations.
Open Scope N_scope.
Open Scope list_scope.

(** ** Words of w bits *)
Definition wrap (w x : N) : N := x mod 2 ^ w.
Definition wnot (w x : N) : N := N.lxor x (N.ones w).
Definition rotl (w n x : N) : N := N.lor (wrap w (N.shiftl x n)) (N.shiftr x (w - n)).
Definition rotr (w n x : N) : N := N.lor (N.shiftr x n) (wrap w (N.shiftl x (w - n))).

(** ** Bytes *)
Definition word_le (bytes : list N) : N := fold_right (fun b acc => b + 256 * acc) 0 bytes.
Definition word_be (bytes : list N) : N := fold_left (fun acc b => 256 * acc + b) bytes 0.
(** the n bytes of a number, lowest first *)
Fixpoint bytes_le (n : nat) (x : N) : list N := match n with O => [] | S n => x mod 256 :: bytes_le n (x / 256) end.
Definition bytes_be (n : nat) (x : N) : list N := rev (bytes_le n x).
Fixpoint cut {A} (fuel size : nat) (l : list A) : list (list A) :=
  match fuel, l with
  | S fuel, _ :: _ => firstn size l :: cut fuel size (skipn size l)
  | _, _ => []
  end.
Definition chunks {A} (size : nat) (l : list A) : list (list A) := cut (length l) size l.
(** 0x80, zeros, and the number of bits on [field] bytes, up to a multiple of [size] bytes *)
Definition padding (size field : nat) (encode_length : nat -> N -> list N) (n : nat) : list N :=
  128 :: repeat 0 ((size - (n + 1 + field) mod size) mod size) ++ encode_length field ((8 * N.of_nat n) mod 2 ^ (8 * N.of_nat field)).

(** ** MD5 *)
Definition md5_table : list N :=
  [0xd76aa478; 0xe8c7b756; 0x242070db; 0xc1bdceee; 0xf57c0faf; 0x4787c62a; 0xa8304613; 0xfd469501;
   0x698098d8; 0x8b44f7af; 0xffff5bb1; 0x895cd7be; 0x6b901122; 0xfd987193; 0xa679438e; 0x49b40821;
   0xf61e2562; 0xc040b340; 0x265e5a51; 0xe9b6c7aa; 0xd62f105d; 0x2441453; 0xd8a1e681; 0xe7d3fbc8;
   0x21e1cde6; 0xc33707d6; 0xf4d50d87; 0x455a14ed; 0xa9e3e905; 0xfcefa3f8; 0x676f02d9; 0x8d2a4c8a;
   0xfffa3942; 0x8771f681; 0x6d9d6122; 0xfde5380c; 0xa4beea44; 0x4bdecfa9; 0xf6bb4b60; 0xbebfbc70;
   0x289b7ec6; 0xeaa127fa; 0xd4ef3085; 0x4881d05; 0xd9d4d039; 0xe6db99e5; 0x1fa27cf8; 0xc4ac5665;
   0xf4292244; 0x432aff97; 0xab9423a7; 0xfc93a039; 0x655b59c3; 0x8f0ccc92; 0xffeff47d; 0x85845dd1;
   0x6fa87e4f; 0xfe2ce6e0; 0xa3014314; 0x4e0811a1; 0xf7537e82; 0xbd3af235; 0x2ad7d2bb; 0xeb86d391].
Definition md5_shifts : list N := [7; 12; 17; 22; 5; 9; 14; 20; 4; 11; 16; 23; 6; 10; 15; 21].
Definition md5_state : Type := N * N * N * N.
Definition md5_step (X : list N) (state : md5_state) (i : nat) : md5_state :=
  let '(a, b, c, d) := state in
  let round := Nat.div i 16 in
  let f := match round with
           | 0%nat => N.lor (N.land b c) (N.land (wnot 32 b) d)
           | 1%nat => N.lor (N.land b d) (N.land c (wnot 32 d))
           | 2%nat => N.lxor (N.lxor b c) d
           | _ => N.lxor c (N.lor b (wnot 32 d))
           end in
  let k := match round with
           | 0%nat => i
           | 1%nat => Nat.modulo (5 * i + 1) 16
           | 2%nat => Nat.modulo (3 * i + 5) 16
           | _ => Nat.modulo (7 * i) 16
           end in
  let s := nth (4 * round + Nat.modulo i 4) md5_shifts 0 in
  (d, wrap 32 (b + rotl 32 s (wrap 32 (a + f + nth k X 0 + nth i md5_table 0))), b, c).
Definition md5_block (state : md5_state) (block : list N) : md5_state :=
  let X := map word_le (chunks 4 block) in
  let '(a, b, c, d) := state in
  let '(a', b', c', d') := fold_left (md5_step X) (seq 0 64) state in
  (wrap 32 (a + a'), wrap 32 (b + b'), wrap 32 (c + c'), wrap 32 (d + d')).
Definition md5_start : md5_state := (0x67452301, 0xefcdab89, 0x98badcfe, 0x10325476).
Definition md5 (bytes : list N) : list N :=
  let '(a, b, c, d) := fold_left md5_block (chunks 64 (bytes ++ padding 64 8 bytes_le (length bytes))) md5_start in
  flat_map (bytes_le 4) [a; b; c; d].

(** ** SHA-2 *)
Record sha2 : Type := { bits : N; word_bytes : nat; rounds : nat; constants : list N; start : list N;
  Sigma0 : N * N * N; Sigma1 : N * N * N; sigma0 : N * N * N; sigma1 : N * N * N }.
Section Sha2.
Variable v : sha2.
Notation w := (bits v).
(** three rotations; two rotations and a shift *)
Definition rotations (r : N * N * N) (x : N) : N := let '(p, q, s) := r in N.lxor (N.lxor (rotr w p x) (rotr w q x)) (rotr w s x).
Definition shifted (r : N * N * N) (x : N) : N := let '(p, q, s) := r in N.lxor (N.lxor (rotr w p x) (rotr w q x)) (N.shiftr x s).
Definition choose (x y z : N) : N := N.lxor (N.land x y) (N.land (wnot w x) z).
Definition agree (x y z : N) : N := N.lxor (N.lxor (N.land x y) (N.land x z)) (N.land y z).

(** the words after the first 16 *)
Definition next_word (W : list N) : list N :=
  let t := length W in
  W ++ [wrap w (shifted (sigma1 v) (nth (t - 2) W 0) + nth (t - 7) W 0 + shifted (sigma0 v) (nth (t - 15) W 0) + nth (t - 16) W 0)].
Definition schedule (block : list N) : list N := Nat.iter (rounds v - 16) next_word (map word_be (chunks (word_bytes v) block)).
Definition sha2_state : Type := N * N * N * N * N * N * N * N.
Definition sha2_step (W : list N) (state : sha2_state) (t : nat) : sha2_state :=
  let '(a, b, c, d, e, f, g, h) := state in
  let t1 := wrap w (h + rotations (Sigma1 v) e + choose e f g + nth t (constants v) 0 + nth t W 0) in
  let t2 := wrap w (rotations (Sigma0 v) a + agree a b c) in
  (wrap w (t1 + t2), a, b, c, wrap w (d + t1), e, f, g).
Definition sha2_block (state : list N) (block : list N) : list N :=
  match state with
  | [a; b; c; d; e; f; g; h] =>
    let '(a', b', c', d', e', f', g', h') := fold_left (sha2_step (schedule block)) (seq 0 (rounds v)) (a, b, c, d, e, f, g, h) in
    map (fun xy => wrap w (fst xy + snd xy)) (combine state [a'; b'; c'; d'; e'; f'; g'; h'])
  | _ => []
  end.
Definition sha2_digest (bytes : list N) : list N :=
  flat_map (bytes_be (word_bytes v))
    (fold_left sha2_block (chunks (16 * word_bytes v) (bytes ++ padding (16 * word_bytes v) (2 * word_bytes v) bytes_be (length bytes))) (start v)).
End Sha2.

Definition sha256_v : sha2 := {| bits := 32; word_bytes := 4; rounds := 64;
  Sigma0 := (2, 13, 22); Sigma1 := (6, 11, 25); sigma0 := (7, 18, 3); sigma1 := (17, 19, 10);
  start := [0x6a09e667; 0xbb67ae85; 0x3c6ef372; 0xa54ff53a; 0x510e527f; 0x9b05688c; 0x1f83d9ab; 0x5be0cd19];
  constants :=
  [0x428a2f98; 0x71374491; 0xb5c0fbcf; 0xe9b5dba5; 0x3956c25b; 0x59f111f1; 0x923f82a4; 0xab1c5ed5;
   0xd807aa98; 0x12835b01; 0x243185be; 0x550c7dc3; 0x72be5d74; 0x80deb1fe; 0x9bdc06a7; 0xc19bf174;
   0xe49b69c1; 0xefbe4786; 0xfc19dc6; 0x240ca1cc; 0x2de92c6f; 0x4a7484aa; 0x5cb0a9dc; 0x76f988da;
   0x983e5152; 0xa831c66d; 0xb00327c8; 0xbf597fc7; 0xc6e00bf3; 0xd5a79147; 0x6ca6351; 0x14292967;
   0x27b70a85; 0x2e1b2138; 0x4d2c6dfc; 0x53380d13; 0x650a7354; 0x766a0abb; 0x81c2c92e; 0x92722c85;
   0xa2bfe8a1; 0xa81a664b; 0xc24b8b70; 0xc76c51a3; 0xd192e819; 0xd6990624; 0xf40e3585; 0x106aa070;
   0x19a4c116; 0x1e376c08; 0x2748774c; 0x34b0bcb5; 0x391c0cb3; 0x4ed8aa4a; 0x5b9cca4f; 0x682e6ff3;
   0x748f82ee; 0x78a5636f; 0x84c87814; 0x8cc70208; 0x90befffa; 0xa4506ceb; 0xbef9a3f7; 0xc67178f2] |}.
Definition sha512_v : sha2 := {| bits := 64; word_bytes := 8; rounds := 80;
  Sigma0 := (28, 34, 39); Sigma1 := (14, 18, 41); sigma0 := (1, 8, 7); sigma1 := (19, 61, 6);
  start := [0x6a09e667f3bcc908; 0xbb67ae8584caa73b; 0x3c6ef372fe94f82b; 0xa54ff53a5f1d36f1;
   0x510e527fade682d1; 0x9b05688c2b3e6c1f; 0x1f83d9abfb41bd6b; 0x5be0cd19137e2179];
  constants :=
  [0x428a2f98d728ae22; 0x7137449123ef65cd; 0xb5c0fbcfec4d3b2f; 0xe9b5dba58189dbbc;
   0x3956c25bf348b538; 0x59f111f1b605d019; 0x923f82a4af194f9b; 0xab1c5ed5da6d8118;
   0xd807aa98a3030242; 0x12835b0145706fbe; 0x243185be4ee4b28c; 0x550c7dc3d5ffb4e2;
   0x72be5d74f27b896f; 0x80deb1fe3b1696b1; 0x9bdc06a725c71235; 0xc19bf174cf692694;
   0xe49b69c19ef14ad2; 0xefbe4786384f25e3; 0xfc19dc68b8cd5b5; 0x240ca1cc77ac9c65;
   0x2de92c6f592b0275; 0x4a7484aa6ea6e483; 0x5cb0a9dcbd41fbd4; 0x76f988da831153b5;
   0x983e5152ee66dfab; 0xa831c66d2db43210; 0xb00327c898fb213f; 0xbf597fc7beef0ee4;
   0xc6e00bf33da88fc2; 0xd5a79147930aa725; 0x6ca6351e003826f; 0x142929670a0e6e70;
   0x27b70a8546d22ffc; 0x2e1b21385c26c926; 0x4d2c6dfc5ac42aed; 0x53380d139d95b3df;
   0x650a73548baf63de; 0x766a0abb3c77b2a8; 0x81c2c92e47edaee6; 0x92722c851482353b;
   0xa2bfe8a14cf10364; 0xa81a664bbc423001; 0xc24b8b70d0f89791; 0xc76c51a30654be30;
   0xd192e819d6ef5218; 0xd69906245565a910; 0xf40e35855771202a; 0x106aa07032bbd1b8;
   0x19a4c116b8d2d0c8; 0x1e376c085141ab53; 0x2748774cdf8eeb99; 0x34b0bcb5e19b48a8;
   0x391c0cb3c5c95a63; 0x4ed8aa4ae3418acb; 0x5b9cca4f7763e373; 0x682e6ff3d6b2b8a3;
   0x748f82ee5defb2fc; 0x78a5636f43172f60; 0x84c87814a1f0ab72; 0x8cc702081a6439ec;
   0x90befffa23631e28; 0xa4506cebde82bde9; 0xbef9a3f7b2c67915; 0xc67178f2e372532b;
   0xca273eceea26619c; 0xd186b8c721c0c207; 0xeada7dd6cde0eb1e; 0xf57d4f7fee6ed178;
   0x6f067aa72176fba; 0xa637dc5a2c898a6; 0x113f9804bef90dae; 0x1b710b35131c471b;
   0x28db77f523047d84; 0x32caab7b40c72493; 0x3c9ebe0a15c9bebc; 0x431d67c49c100d4c;
   0x4cc5d4becb3e42b6; 0x597f299cfc657e2a; 0x5fcb6fab3ad6faec; 0x6c44198c4a475817] |}.
Definition sha256 : list N -> list N := sha2_digest sha256_v.
Definition sha512 : list N -> list N := sha2_digest sha512_v.

(** hexdigest, as the values of its digits *)
Definition hexdigest (bytes : list N) : list N := flat_map (fun b => [b / 16; b mod 16]) bytes.

(** simhash.py:34-63 on strings.  The tokens are encoded one after the other (simhash.py:50); an encoding error and int('', 16) are both ValueError *)
Definition simhash_text (tokens : list str) (f : nat) : res N :=
  let! bytes := (if andb (Nat.leb f 512) (negb (is_power_of_two (N.of_nat f))) then mapM encode tokens else Ok []) in
  simhash (fun b => hexdigest (md5 b)) (fun b => hexdigest (sha256 b)) (fun b => hexdigest (sha512 b)) bytes f.
