(** The Mersenne Twister MT19937 (Matsumoto and Nishimura, 1998), bit by bit; and what is asked of the functions of the module random. *)
From Coq Require Import List NArith.
Import ListNotations.
Open Scope N_scope.

(** the bits of the last row of the matrix, and of the masks of the tempering *)
Definition row_a : N := 0x9908b0df.
Definition mask_b : N := 0x9d2c5680.
Definition mask_c : N := 0xefc60000.
(** x_{k+624} = x_{k+397} + (the high bit of x_k, the 31 others of x_{k+1}) A *)
Definition recurrence (x : nat -> N) : Prop := forall k i,
  N.testbit (x (k + 624)%nat) i =
    xorb (N.testbit (x (k + 397)%nat) i)
      (xorb (if i =? 30 then N.testbit (x k) 31 else if i <? 30 then N.testbit (x (k + 1)%nat) (i + 1) else false)
            (N.testbit (x (k + 1)%nat) 0 && N.testbit row_a i)).
(** the number given for a word of the sequence *)
Definition tempered (y z : N) : Prop := exists y1 y2 y3, forall i,
  N.testbit y1 i = xorb (N.testbit y i) (N.testbit y (i + 11)) /\
  N.testbit y2 i = xorb (N.testbit y1 i) ((7 <=? i) && N.testbit y1 (i - 7) && N.testbit mask_b i) /\
  N.testbit y3 i = xorb (N.testbit y2 i) ((15 <=? i) && N.testbit y2 (i - 15) && N.testbit mask_c i) /\
  N.testbit z i = xorb (N.testbit y3 i) (N.testbit y3 (i + 18)).

(** the first number below n in a stream *)
Definition first_below (n : N) (stream : nat -> N) (t : nat) : Prop := stream t < n /\ forall s, (s < t)%nat -> n <= stream s.
