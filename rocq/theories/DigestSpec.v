(** UTF-8 as the ranges of its bytes (RFC 3629), independent of the model. *)
From Coq Require Import List NArith.
Import ListNotations.
Open Scope N_scope.

(** a byte that continues a character, with its six bits *)
Definition continues (b bits : N) : Prop := b = 128 + bits /\ bits < 64.
(** the bytes of a code point *)
Inductive utf8_char : N -> list N -> Prop :=
| u_one c : c < 128 -> utf8_char c [c]
| u_two c x y b : x < 32 -> continues b y -> c = 64 * x + y -> 128 <= c -> utf8_char c [192 + x; b]
| u_three c x y z b1 b2 : x < 16 -> continues b1 y -> continues b2 z -> c = 4096 * x + 64 * y + z -> 2048 <= c -> ~ 55296 <= c <= 57343 -> utf8_char c [224 + x; b1; b2]
| u_four c x y z w b1 b2 b3 : x < 8 -> continues b1 y -> continues b2 z -> continues b3 w -> c = 262144 * x + 4096 * y + 64 * z + w ->
    65536 <= c <= 1114111 -> utf8_char c [240 + x; b1; b2; b3].
Inductive utf8 : list N -> list N -> Prop :=
| utf8_nil : utf8 [] []
| utf8_cons c s b t : utf8_char c b -> utf8 s t -> utf8 (c :: s) (b ++ t).

(** what strings are made of *)
Definition scalar (c : N) : Prop := c <= 1114111 /\ ~ 55296 <= c <= 57343.

(** ** The long division of polynomials over GF(2), bits in reflected order: bit 0 is the term of highest degree.  One step drops it, and if it is
    set, subtracts the divisor x^32 + x^26 + x^23 + x^22 + x^16 + x^12 + x^11 + x^10 + x^8 + x^7 + x^5 + x^4 + x^2 + x + 1 *)
Definition exponents : list N := [26; 23; 22; 16; 12; 11; 10; 8; 7; 5; 4; 2; 1; 0].
Definition divided_once (c c' : N) : Prop :=
  forall i, N.testbit c' i = xorb (N.testbit c (i + 1)) (N.testbit c 0 && (i <? 32) && existsb (N.eqb (31 - i)) exponents).
Inductive divided : nat -> N -> N -> Prop :=
| dv_zero c : divided 0 c c
| dv_more n c c' r : divided_once c c' -> divided n c' r -> divided (S n) c r.
(** the bits of a message, the first byte being that of the lowest bits *)
Fixpoint message (bytes : list N) : N := match bytes with [] => 0 | b :: bytes => b + 256 * message bytes end.
(** the crc32: the remainder, where the first 32 bits of the message and those of the remainder are inverted *)
Definition is_crc32 (bytes : list N) (crc : N) : Prop :=
  exists r, divided (8 * length bytes) (N.lxor (message bytes) (2 ^ 32 - 1)) r /\ crc = N.lxor r (2 ^ 32 - 1).

(** ** Tokens that crc32 tells apart *)
(** n bytes that may differ in their k low bits *)
Definition spread (k : N) (n : nat) : Prop :=
  k = 8 /\ (n <= 4)%nat \/ k = 6 /\ (n <= 5)%nat \/ k = 5 /\ (n <= 6)%nat \/ k = 4 /\ (n <= 7)%nat.
(** all made of the same number of bytes, at most four; or all made of the same number of ASCII characters that only differ in their low bits *)
Inductive uniform (l : list (list N)) : Prop :=
| un_short n : (n <= 4)%nat -> (forall w, In w l -> exists b, utf8 w b /\ length b = n) -> uniform l
| un_block k q n : spread k n -> (forall w, In w l -> length w = n /\ Forall (fun c => c < 128 /\ c / 2 ^ k = q) w) -> uniform l.
