(** MD5 as in RFC 1321, SHA-256 and SHA-512 as in FIPS 180-4: relations between bytes, bit by bit.  Independent of the model. *)
From Coq Require Import List NArith Reals.
From Verif Require Import BitsSpec DigestSpec.
Import ListNotations.
Open Scope N_scope.

(** ** Bytes, words, bits *)
Definition byte (b : N) : Prop := b < 256.
(** x is word number k of the message p, made of [size] bytes, the lowest first or the highest first *)
Definition word_low_first (size : nat) (p : list N) (k : nat) (x : N) : Prop :=
  x < 256 ^ N.of_nat size /\ forall i, (i < size)%nat -> nth (size * k + i) p 0 = x / 256 ^ N.of_nat i mod 256.
Definition word_high_first (size : nat) (p : list N) (k : nat) (x : N) : Prop :=
  x < 256 ^ N.of_nat size /\ forall i, (i < size)%nat -> nth (size * k + i) p 0 = x / 256 ^ N.of_nat (size - 1 - i) mod 256.
(** the message, a bit set, zeros and the number of bits (modulo 2^64 or 2^128), up to the next multiple of [size] bytes *)
Definition padded (size field : nat) (reads : nat -> list N -> nat -> N -> Prop) (b p : list N) : Prop :=
  exists z len, p = b ++ 128 :: repeat 0 z ++ len /\ (z < size)%nat /\ Nat.modulo (length p) size = 0%nat /\
    length len = field /\ Forall byte len /\ reads field len 0%nat (8 * N.of_nat (length b) mod 256 ^ N.of_nat field).

(** y is x rotated by n places to the left: bit i goes to i + n *)
Definition rotated_left (w n x y : N) : Prop := y < 2 ^ w /\ forall i, i < w -> N.testbit y ((i + n) mod w) = N.testbit x i.
Definition bitwise (w : N) (f : bool -> bool -> bool -> bool) (x y z r : N) : Prop :=
  r < 2 ^ w /\ forall i, i < w -> N.testbit r i = f (N.testbit x i) (N.testbit y i) (N.testbit z i).

(** ** MD5 *)
(** RFC 1321, 3.4: the functions, the words and the shifts of the 64 operations *)
Definition md5_function (round : nat) (x y z : bool) : bool :=
  match round with
  | 0%nat => if x then y else z
  | 1%nat => if z then x else y
  | 2%nat => xorb x (xorb y z)
  | _ => xorb y (x || negb z)
  end.
Definition md5_words : list nat :=
  [0; 1; 2; 3; 4; 5; 6; 7; 8; 9; 10; 11; 12; 13; 14; 15;
   1; 6; 11; 0; 5; 10; 15; 4; 9; 14; 3; 8; 13; 2; 7; 12;
   5; 8; 11; 14; 1; 4; 7; 10; 13; 0; 3; 6; 9; 12; 15; 2;
   0; 7; 14; 5; 12; 3; 10; 1; 8; 15; 6; 13; 4; 11; 2; 9]%nat.
Definition md5_shift (round turn : nat) : N :=
  nth turn (nth round [[7; 12; 17; 22]; [5; 9; 14; 20]; [4; 11; 16; 23]; [6; 10; 15; 21]] []) 0.
Section MD5.
Variable T : list N.
Definition quad : Type := N * N * N * N.
Definition md5_operation (X : nat -> N) (i : nat) (s s' : quad) : Prop :=
  let '(a, b, c, d) := s in
  exists f r, bitwise 32 (md5_function (Nat.div i 16)) b c d f /\
    rotated_left 32 (md5_shift (Nat.div i 16) (Nat.modulo i 4)) ((a + f + X (nth i md5_words 0%nat) + nth i T 0) mod 2 ^ 32) r /\
    s' = (d, (b + r) mod 2 ^ 32, b, c).
Definition md5_compressed (X : nat -> N) (s s' : quad) : Prop :=
  exists S : nat -> quad, S 0%nat = s /\ (forall i, (i < 64)%nat -> md5_operation X i (S i) (S (i + 1)%nat)) /\
    let '(a, b, c, d) := s in let '(a1, b1, c1, d1) := S 64%nat in
    s' = ((a + a1) mod 2 ^ 32, (b + b1) mod 2 ^ 32, (c + c1) mod 2 ^ 32, (d + d1) mod 2 ^ 32).
Definition is_md5 (b digest : list N) : Prop :=
  exists p (H : nat -> quad), padded 64 8 word_low_first b p /\ H 0%nat = (0x67452301, 0xefcdab89, 0x98badcfe, 0x10325476) /\
    (forall k, (k < Nat.div (length p) 64)%nat -> exists X, (forall j, (j < 16)%nat -> word_low_first 4 p (16 * k + j) (X j)) /\ md5_compressed X (H k) (H (k + 1)%nat)) /\
    length digest = 16%nat /\ Forall byte digest /\
    let '(x, y, z, t) := H (Nat.div (length p) 64) in
    word_low_first 4 digest 0 x /\ word_low_first 4 digest 1 y /\ word_low_first 4 digest 2 z /\ word_low_first 4 digest 3 t.
End MD5.
(** the table: the integer part of 2^32 |sin i|, i in radians *)
Definition is_sine (i : nat) (t : N) : Prop := (IZR (Z.of_N t) <= 2 ^ 32 * Rabs (sin (INR i)) < IZR (Z.of_N t) + 1)%R.

(** ** SHA-2 *)
Definition parity (x y z : bool) : bool := xorb x (xorb y z).
Definition choice (x y z : bool) : bool := if x then y else z.
Definition majority3 (x y z : bool) : bool := (x && y) || (x && z) || (y && z).
Section SHA2.
(** w bits, in [size] bytes; the number of steps; the constants; the start; the rotations *)
Variables (w : N) (size steps : nat) (K start : list N) (S0 S1 s0 s1 : N * N * N).
(** three rotations to the right, and two rotations to the right with a shift *)
Definition turned (r : N * N * N) (x y : N) : Prop := let '(p, q, s) := r in
  y < 2 ^ w /\ forall i, i < w -> N.testbit y i = parity (N.testbit x ((i + p) mod w)) (N.testbit x ((i + q) mod w)) (N.testbit x ((i + s) mod w)).
Definition turned_shifted (r : N * N * N) (x y : N) : Prop := let '(p, q, s) := r in
  y < 2 ^ w /\ forall i, i < w -> N.testbit y i = parity (N.testbit x ((i + p) mod w)) (N.testbit x ((i + q) mod w)) ((i + s <? w) && N.testbit x (i + s)).
Definition scheduled (W : nat -> N) : Prop :=
  forall t, (16 <= t < steps)%nat -> exists u v, turned_shifted s1 (W (t - 2)%nat) u /\ turned_shifted s0 (W (t - 15)%nat) v /\
    W t = (u + W (t - 7)%nat + v + W (t - 16)%nat) mod 2 ^ w.
Definition sha2_operation (W : nat -> N) (t : nat) (s s' : list N) : Prop :=
  exists a b c d e f g h u1 u0 ch maj t1 t2, s = [a; b; c; d; e; f; g; h] /\
    turned S1 e u1 /\ bitwise w choice e f g ch /\ t1 = (h + u1 + ch + nth t K 0 + W t) mod 2 ^ w /\
    turned S0 a u0 /\ bitwise w majority3 a b c maj /\ t2 = (u0 + maj) mod 2 ^ w /\
    s' = [(t1 + t2) mod 2 ^ w; a; b; c; (d + t1) mod 2 ^ w; e; f; g].
Definition sha2_compressed (W : nat -> N) (s s' : list N) : Prop :=
  exists S : nat -> list N, S 0%nat = s /\ (forall t, (t < steps)%nat -> sha2_operation W t (S t) (S (t + 1)%nat)) /\
    length s' = 8%nat /\ forall k, (k < 8)%nat -> nth k s' 0 = (nth k s 0 + nth k (S steps) 0) mod 2 ^ w.
Definition is_sha2 (b digest : list N) : Prop :=
  exists p (H : nat -> list N), padded (16 * size) (2 * size) word_high_first b p /\ H 0%nat = start /\
    (forall k, (k < Nat.div (length p) (16 * size))%nat ->
      exists W, (forall j, (j < 16)%nat -> word_high_first size p (16 * k + j) (W j)) /\ scheduled W /\ sha2_compressed W (H k) (H (k + 1)%nat)) /\
    length digest = (8 * size)%nat /\ Forall byte digest /\
    forall k, (k < 8)%nat -> word_high_first size digest k (nth k (H (Nat.div (length p) (16 * size))) 0).
End SHA2.
(** the first w bits of the fractional part of the n-th root of p *)
Definition root_bits (w n p x : N) : Prop := x < 2 ^ w /\ exists a, (a * 2 ^ w + x) ^ n <= p * 2 ^ (w * n) < (a * 2 ^ w + x + 1) ^ n.
Definition is_prime (p : N) : Prop := 1 < p /\ forall d, 1 < d < p -> p mod d <> 0.
(** l is the list of the first primes *)
Definition first_primes (l : list N) : Prop :=
  forall i, (i < length l)%nat -> is_prime (nth i l 0) /\ forall q, is_prime q /\ q < nth i l 0 <-> exists j, (j < i)%nat /\ nth j l 0 = q.

(** ** The digests of the standards, with their constants *)
Definition md5_standard (b digest : list N) : Prop :=
  exists T, length T = 64%nat /\ (forall i, (i < 64)%nat -> is_sine (S i) (nth i T 0)) /\ is_md5 T b digest.
Definition sha2_standard (w : N) (size steps : nat) (S0 S1 s0 s1 : N * N * N) (b digest : list N) : Prop :=
  exists primes K start, length primes = steps /\ first_primes primes /\
    length K = steps /\ (forall i, (i < steps)%nat -> root_bits w 3 (nth i primes 0) (nth i K 0)) /\
    length start = 8%nat /\ (forall i, (i < 8)%nat -> root_bits w 2 (nth i primes 0) (nth i start 0)) /\
    is_sha2 w size steps K start S0 S1 s0 s1 b digest.
Definition sha256_standard := sha2_standard 32 4 64 (2, 13, 22) (6, 11, 25) (7, 18, 3) (17, 19, 10).
Definition sha512_standard := sha2_standard 64 8 80 (28, 34, 39) (14, 18, 41) (1, 8, 7) (19, 61, 6).

(** ** simhash *)
Definition digest_of (f : nat) (b digest : list N) : Prop :=
  if Nat.eqb f 256 then sha256_standard b digest else if Nat.eqb f 512 then sha512_standard b digest else md5_standard b digest.
(** h is made of the first f bits of the digest, where a byte has its highest bit first *)
Definition first_bits (f : nat) (digest : list N) (h : N) : Prop :=
  h < 2 ^ N.of_nat f /\
  forall i, (i < f)%nat -> N.testbit_nat h (f - 1 - i) = N.testbit_nat (nth (Nat.div i 8) digest 0) (7 - Nat.modulo i 8).
Definition token_hash (f : nat) (token : list N) (h : N) : Prop := exists b digest, utf8 token b /\ digest_of f b digest /\ first_bits f digest h.
(** the bits set in most of the tokens *)
Definition is_simhash (tokens : list (list N)) (f : nat) (s : N) : Prop :=
  s < 2 ^ N.of_nat f /\ exists hashes, Forall2 (token_hash f) tokens hashes /\ forall i, (i < f)%nat -> N.testbit_nat s i = true <-> majority hashes i.
