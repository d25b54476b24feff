(** The specification of the digests determines them; the constants of SHA-2; padding. *)
From Coq Require Import List NArith Lia.
From Verif Require Import Base HashModel HashSpec HashProofs.
Import ListNotations.
Open Scope N_scope.
Open Scope list_scope.

(** ** A number has one value *)
Lemma bytes_inj size : forall x y, x < 256 ^ N.of_nat size -> y < 256 ^ N.of_nat size ->
  (forall i, (i < size)%nat -> x / 256 ^ N.of_nat i mod 256 = y / 256 ^ N.of_nat i mod 256) -> x = y.
Proof.
  induction size as [|n IH]; intros x y Hx Hy He.
  - change (256 ^ N.of_nat 0) with 1 in *. lia.
  - pose proof (He 0%nat ltac:(lia)) as E0. change (256 ^ N.of_nat 0) with 1 in E0. rewrite !N.div_1_r in E0. rewrite pow256_S in *.
    assert (E : x / 256 = y / 256).
    { apply IH; try (apply N.div_lt_upper_bound; [discriminate|assumption]). intros i Hi. specialize (He (S i) ltac:(lia)). rewrite pow256_S, <- !N.div_div in He by (discriminate || (apply N.pow_nonzero; discriminate)). exact He. }
    rewrite (N.div_mod x 256), (N.div_mod y 256) by discriminate. rewrite E, E0. reflexivity.
Qed.
Lemma word_low_unique size p k x y : word_low_first size p k x -> word_low_first size p k y -> x = y.
Proof. intros [Bx Hx] [By Hy]. apply (bytes_inj size); try assumption. intros i Hi. rewrite <- Hx, <- Hy by exact Hi. reflexivity. Qed.
Lemma word_high_unique size p k x y : word_high_first size p k x -> word_high_first size p k y -> x = y.
Proof.
  intros [Bx Hx] [By Hy]. apply (bytes_inj size); try assumption. intros i Hi. specialize (Hx (size - 1 - i)%nat ltac:(lia)). specialize (Hy (size - 1 - i)%nat ltac:(lia)).
  replace (size - 1 - (size - 1 - i))%nat with i in * by lia. congruence.
Qed.
Lemma bits_below_inj w x y : x < 2 ^ w -> y < 2 ^ w -> (forall i, i < w -> N.testbit x i = N.testbit y i) -> x = y.
Proof. intros Hx Hy He. apply N.bits_inj. intros i. destruct (N.lt_ge_cases i w) as [L|L]; [apply He, L|]. rewrite (small_bits w x), (small_bits w y) by assumption. reflexivity. Qed.
Lemma bitwise_unique w f x y z r r' : bitwise w f x y z r -> bitwise w f x y z r' -> r = r'.
Proof. intros [B H] [B' H']. apply (bits_below_inj w); try assumption. intros i Hi. rewrite H, H' by exact Hi. reflexivity. Qed.
Lemma rotated_unique w n x y y' : rotated_left w n x y -> rotated_left w n x y' -> y = y'.
Proof.
  intros [B H] [B' H']. apply (bits_below_inj w); try assumption. intros i Hi. assert (Hw : w <> 0) by lia. set (j := (i + (w - n mod w)) mod w).
  assert (Hj : j < w) by (apply N.mod_lt, Hw). assert (E : (j + n) mod w = i).
  { unfold j. rewrite N.add_mod_idemp_l by exact Hw. pose proof (N.div_mod n w Hw) as D. pose proof (N.mod_lt n w Hw).
    replace (i + (w - n mod w) + n) with (i + (n / w + 1) * w) by nia. rewrite N.mod_add by exact Hw. apply N.mod_small, Hi. }
  rewrite <- E. rewrite H, H' by exact Hj. reflexivity.
Qed.
Lemma turned_unique w r x y y' : turned w r x y -> turned w r x y' -> y = y'.
Proof. destruct r as [[p q] s]. intros [B H] [B' H']. apply (bits_below_inj w); try assumption. intros i Hi. rewrite H, H' by exact Hi. reflexivity. Qed.
Lemma turned_shifted_unique w r x y y' : turned_shifted w r x y -> turned_shifted w r x y' -> y = y'.
Proof. destruct r as [[p q] s]. intros [B H] [B' H']. apply (bits_below_inj w); try assumption. intros i Hi. rewrite H, H' by exact Hi. reflexivity. Qed.
Lemma bytes_list_ext (l l' : list N) : length l = length l' -> (forall i, (i < length l)%nat -> nth i l 0 = nth i l' 0) -> l = l'.
Proof. intros L H. apply (nth_ext l l' 0 0 L H). Qed.

(** ** A message has one padding, and the padding gives the message back *)
Lemma repeat_pad_inj z z' (l l' : list N) : length l = length l' -> repeat 0 z ++ l = repeat 0 z' ++ l' -> z = z'.
Proof. intros L E. apply (f_equal (@length N)) in E. rewrite !app_length, !repeat_length in E. lia. Qed.
Lemma padded_unique size field (reads : nat -> list N -> nat -> N -> Prop) b p p' : (0 < size)%nat ->
  (forall l l' x, length l = field -> length l' = field -> reads field l 0%nat x -> reads field l' 0%nat x -> l = l') ->
  padded size field reads b p -> padded size field reads b p' -> p = p'.
Proof.
  intros Hs Hr (z & len & -> & Hz & M & L & _ & R) (z' & len' & -> & Hz' & M' & L' & _ & R'). rewrite (Hr len len' _ L L' R R'). do 3 f_equal.
  assert (E : z = z'); [|rewrite E; reflexivity].
  rewrite !app_length in M, M'. cbn [length] in M, M'. rewrite !app_length, !repeat_length in M, M'. rewrite L in M. rewrite L' in M'.
  pose proof (Nat.div_mod (length b + S (z + field)) size ltac:(lia)) as D. pose proof (Nat.div_mod (length b + S (z' + field)) size ltac:(lia)) as D'. rewrite M in D. rewrite M' in D'.
  destruct (Nat.lt_trichotomy z z') as [C|[C|C]]; [|exact C|]; exfalso.
  - assert ((length b + S (z' + field)) / size = (length b + S (z + field)) / size + 1 \/ (length b + S (z' + field)) / size >= (length b + S (z + field)) / size + 2 \/ (length b + S (z' + field)) / size <= (length b + S (z + field)) / size)%nat as [K|[K|K]] by lia; nia.
  - assert ((length b + S (z' + field)) / size = (length b + S (z + field)) / size - 1 \/ (length b + S (z' + field)) / size + 2 <= (length b + S (z + field)) / size \/ (length b + S (z' + field)) / size >= (length b + S (z + field)) / size)%nat as [K|[K|K]] by lia; nia.
Qed.
Lemma low_reads_unique field (l l' : list N) x : length l = field -> length l' = field -> word_low_first field l 0 x -> word_low_first field l' 0 x -> l = l'.
Proof.
  intros L L' [_ R] [_ R']. apply bytes_list_ext; [congruence|]. intros i Hi. rewrite L in Hi. specialize (R i Hi). specialize (R' i Hi). rewrite Nat.mul_0_r in R, R'. cbn [Nat.add] in R, R'. congruence.
Qed.
Lemma high_reads_unique field (l l' : list N) x : length l = field -> length l' = field -> word_high_first field l 0 x -> word_high_first field l' 0 x -> l = l'.
Proof.
  intros L L' [_ R] [_ R']. apply bytes_list_ext; [congruence|]. intros i Hi. rewrite L in Hi. specialize (R i Hi). specialize (R' i Hi). rewrite Nat.mul_0_r in R, R'. cbn [Nat.add] in R, R'. congruence.
Qed.
Lemma zeros_split z : forall z' (l l' : list N) x x', x <> 0 -> x' <> 0 -> repeat 0 z ++ x :: l = repeat 0 z' ++ x' :: l' -> z = z' /\ x = x' /\ l = l'.
Proof.
  induction z as [|z IH]; intros z' l l' x x' Hx Hx' H; destruct z' as [|z']; cbn [repeat app] in H.
  - injection H as -> ->. auto.
  - injection H as -> _. contradiction.
  - injection H as <- _. contradiction.
  - injection H as H. destruct (IH z' l l' x x' Hx Hx' H) as (-> & -> & ->). auto.
Qed.
Lemma rev_zeros z : rev (repeat 0 z) = repeat 0 z.
Proof. induction z as [|z IH]; [reflexivity|]. cbn [repeat rev]. rewrite IH. clear. induction z as [|z IH]; [reflexivity|]. cbn. f_equal. exact IH. Qed.
Lemma padded_inj size field (reads : nat -> list N -> nat -> N -> Prop) b b' p : padded size field reads b p -> padded size field reads b' p -> b = b'.
Proof.
  intros (z & len & E & _ & _ & L & _) (z' & len' & E' & _ & _ & L' & _). rewrite E in E'. clear E. apply (f_equal (@rev N)) in E'.
  rewrite !rev_app_distr in E'. cbn [rev] in E'. rewrite !rev_app_distr, !rev_zeros, <- !app_assoc in E'.
  assert (Ll : length (rev len) = length (rev len')) by (rewrite !rev_length; congruence).
  assert (E2 : repeat 0 z ++ [128] ++ rev b = repeat 0 z' ++ [128] ++ rev b').
  { clear - E' Ll. revert Ll E'. generalize (rev len'). induction (rev len) as [|x l IH]; intros [|y l'] Ll E; try discriminate; [exact E|]. cbn in E. injection E as _ E. apply (IH l'); [cbn in Ll; lia|exact E]. }
  apply zeros_split in E2 as (_ & _ & E2); [|discriminate|discriminate]. rewrite <- (rev_involutive b), E2. apply rev_involutive.
Qed.

(** ** One digest *)
Lemma md5_operation_unique T X i s s1 s2 : md5_operation T X i s s1 -> md5_operation T X i s s2 -> s1 = s2.
Proof.
  destruct s as [[[a b] c] d]. intros (f & r & F & R & ->) (f' & r' & F' & R' & ->). rewrite (bitwise_unique _ _ _ _ _ _ _ F F') in *. rewrite (rotated_unique _ _ _ _ _ R R'). reflexivity.
Qed.
Lemma md5_operation_ext T X X' i s s' : (i < 64)%nat -> (forall j, (j < 16)%nat -> X j = X' j) -> md5_operation T X i s s' -> md5_operation T X' i s s'.
Proof.
  intros Hi Hx. destruct s as [[[a b] c] d]. intros (f & r & F & R & E). exists f, r. rewrite <- Hx; [auto|]. clear - Hi. do 64 (destruct i as [|i]; [cbn; lia|]). lia.
Qed.
Lemma md5_compressed_unique T X X' s s1 s2 : (forall j, (j < 16)%nat -> X j = X' j) -> md5_compressed T X s s1 -> md5_compressed T X' s s2 -> s1 = s2.
Proof.
  intros Hx (S1 & A1 & B1 & C1) (S2 & A2 & B2 & C2).
  assert (E : forall i, (i <= 64)%nat -> S1 i = S2 i).
  { induction i as [|i IH]; intros Hi; [congruence|]. specialize (B1 i ltac:(lia)). specialize (B2 i ltac:(lia)). rewrite <- IH in B2 by lia. rewrite Nat.add_1_r in B1, B2.
    apply (md5_operation_ext _ X X') in B1; [|lia|exact Hx]. exact (md5_operation_unique _ _ _ _ _ _ B1 B2). }
  rewrite (E 64%nat (Nat.le_refl _)) in C1. destruct s as [[[a b] c] d]. destruct (S2 64%nat) as [[[a1 b1] c1] d1]. congruence.
Qed.
Lemma low_words_digest n (l l' : list N) : length l = (4 * n)%nat -> length l' = (4 * n)%nat -> (forall k, (k < n)%nat -> exists x, word_low_first 4 l k x /\ word_low_first 4 l' k x) -> l = l'.
Proof.
  intros L L' H. apply bytes_list_ext; [congruence|]. intros i Hi. destruct (H (i / 4)%nat) as (x & [_ R] & [_ R']); [apply Nat.div_lt_upper_bound; lia|].
  specialize (R (i mod 4)%nat (Nat.mod_upper_bound i 4%nat ltac:(lia))). specialize (R' (i mod 4)%nat (Nat.mod_upper_bound i 4%nat ltac:(lia))). rewrite <- Nat.div_mod in R, R' by lia. congruence.
Qed.
Lemma md5_unique T b d d' : is_md5 T b d -> is_md5 T b d' -> d = d'.
Proof.
  intros (p & H & P & H0 & Hs & L & _ & Hd) (p' & H' & P' & H0' & Hs' & L' & _ & Hd').
  assert (E : p = p') by (apply (padded_unique 64 8 word_low_first b); try assumption; [lia|apply low_reads_unique]). subst p'.
  assert (EH : forall k, (k <= length p / 64)%nat -> H k = H' k).
  { induction k as [|k IH]; intros Hk; [congruence|]. destruct (Hs k ltac:(lia)) as (X & RX & C). destruct (Hs' k ltac:(lia)) as (X' & RX' & C'). rewrite <- IH in C' by lia. rewrite Nat.add_1_r in C, C'.
    apply (md5_compressed_unique T X X' (H k)); try assumption. intros j Hj. apply (word_low_unique 4 p (16 * k + j)); auto. }
  rewrite <- (EH _ (Nat.le_refl _)) in Hd'. destruct (H (length p / 64)%nat) as [[[x y] z] t]. destruct Hd as (D0 & D1 & D2 & D3), Hd' as (D0' & D1' & D2' & D3').
  apply (low_words_digest 4); try assumption. intros k Hk. do 4 (destruct k as [|k]; [eexists; split; eassumption|]). lia.
Qed.

Section Sha2.
Variables (w : N) (size steps : nat) (K start : list N) (S0 S1 s0 s1 : N * N * N).
Hypothesis Hsize : (0 < size)%nat.
Lemma schedule_unique W W' : (forall j, (j < 16)%nat -> W j = W' j) -> scheduled w steps s0 s1 W -> scheduled w steps s0 s1 W' -> forall t, (t < steps)%nat -> W t = W' t.
Proof.
  intros H0 HW HW'. induction t as [t IH] using lt_wf_ind. intros Ht. destruct (Nat.lt_ge_cases t 16) as [L|L]; [apply H0, L|].
  destruct (HW t ltac:(lia)) as (u & v & U & V & E). destruct (HW' t ltac:(lia)) as (u' & v' & U' & V' & E').
  rewrite (IH (t - 2)%nat) in U by lia. rewrite (IH (t - 15)%nat) in V by lia. rewrite (IH (t - 7)%nat), (IH (t - 16)%nat) in E by lia.
  rewrite (turned_shifted_unique _ _ _ _ _ U U'), (turned_shifted_unique _ _ _ _ _ V V') in E. congruence.
Qed.
Lemma sha2_operation_unique W W' t s s' s'' : W t = W' t -> sha2_operation w K S0 S1 W t s s' -> sha2_operation w K S0 S1 W' t s s'' -> s' = s''.
Proof.
  intros Hw (a & b & c & d & e & f & g & h & u1 & u0 & ch & maj & t1 & t2 & -> & T1 & C & E1 & T0 & M & E2 & ->)
    (a' & b' & c' & d' & e' & f' & g' & h' & u1' & u0' & ch' & maj' & t1' & t2' & E & T1' & C' & E1' & T0' & M' & E2' & ->).
  injection E as <- <- <- <- <- <- <- <-. rewrite (turned_unique _ _ _ _ _ T1 T1') in E1. rewrite (turned_unique _ _ _ _ _ T0 T0') in E2.
  rewrite (bitwise_unique _ _ _ _ _ _ _ C C') in E1. rewrite (bitwise_unique _ _ _ _ _ _ _ M M') in E2. rewrite Hw in E1. congruence.
Qed.
Lemma sha2_compressed_unique W W' s s' s'' : (forall t, (t < steps)%nat -> W t = W' t) -> sha2_compressed w steps K S0 S1 W s s' -> sha2_compressed w steps K S0 S1 W' s s'' -> s' = s''.
Proof.
  intros Hw (S & A & B & L & C) (S' & A' & B' & L' & C').
  assert (E : forall t, (t <= steps)%nat -> S t = S' t).
  { induction t as [|t IH]; intros Ht; [congruence|]. specialize (B t ltac:(lia)). specialize (B' t ltac:(lia)). rewrite <- IH in B' by lia. rewrite Nat.add_1_r in B, B'.
    exact (sha2_operation_unique W W' t _ _ _ (Hw t Ht) B B'). }
  apply bytes_list_ext; [congruence|]. intros k Hk. rewrite L in Hk. rewrite C, C' by exact Hk. rewrite (E steps (Nat.le_refl _)). reflexivity.
Qed.
Lemma sha2_unique b d d' : is_sha2 w size steps K start S0 S1 s0 s1 b d -> is_sha2 w size steps K start S0 S1 s0 s1 b d' -> d = d'.
Proof.
  intros (p & H & P & H0 & Hs & L & _ & Hd) (p' & H' & P' & H0' & Hs' & L' & _ & Hd').
  assert (E : p = p') by (apply (padded_unique (16 * size) (2 * size) word_high_first b); try assumption; [lia|apply high_reads_unique]). subst p'.
  assert (EH : forall k, (k <= length p / (16 * size))%nat -> H k = H' k).
  { induction k as [|k IH]; intros Hk; [congruence|]. destruct (Hs k ltac:(lia)) as (W & RW & SW & C). destruct (Hs' k ltac:(lia)) as (W' & RW' & SW' & C'). rewrite <- IH in C' by lia. rewrite Nat.add_1_r in C, C'.
    apply (sha2_compressed_unique W W' (H k)); try assumption. apply schedule_unique; try assumption. intros j Hj. apply (word_high_unique size p (16 * k + j)); auto. }
  rewrite <- (EH _ (Nat.le_refl _)) in Hd'. apply bytes_list_ext; [congruence|]. intros i Hi.
  assert (Hk : (i / size < 8)%nat) by (apply Nat.div_lt_upper_bound; lia). destruct (Hd _ Hk) as [_ R]. destruct (Hd' _ Hk) as [_ R'].
  specialize (R (i mod size)%nat (Nat.mod_upper_bound i size ltac:(lia))). specialize (R' (i mod size)%nat (Nat.mod_upper_bound i size ltac:(lia))). rewrite <- Nat.div_mod in R, R' by lia. congruence.
Qed.
End Sha2.

(** ** The constants of SHA-2 *)
Definition eighty_primes : list N := [2; 3; 5; 7; 11; 13; 17; 19; 23; 29; 31; 37; 41; 43; 47; 53; 59; 61; 67; 71; 73; 79; 83; 89; 97; 101; 103; 107; 109; 113;
  127; 131; 137; 139; 149; 151; 157; 163; 167; 173; 179; 181; 191; 193; 197; 199; 211; 223; 227; 229; 233; 239; 241; 251; 257; 263; 269; 271; 277; 281;
  283; 293; 307; 311; 313; 317; 331; 337; 347; 349; 353; 359; 367; 373; 379; 383; 389; 397; 401; 409].
Definition primeb (p : N) : bool := (1 <? p) && forallb (fun d => negb (p mod N.of_nat d =? 0)) (seq 2 (N.to_nat p - 2)).
Lemma primeb_ok p : primeb p = true <-> is_prime p.
Proof.
  unfold primeb, is_prime. rewrite Bool.andb_true_iff, N.ltb_lt, forallb_forall. split; intros [H1 H2]; (split; [exact H1|]).
  - intros d Hd E. specialize (H2 (N.to_nat d)). rewrite in_seq, N2Nat.id, E in H2. cbn in H2. assert (false = true) by (apply H2; lia). discriminate.
  - intros d Hd. apply in_seq in Hd. destruct (N.eqb_spec (p mod N.of_nat d) 0) as [E|E]; [|reflexivity]. exfalso. apply (H2 (N.of_nat d)); [lia|exact E].
Qed.
Lemma eighty_all : forallb (fun q => Bool.eqb (primeb (N.of_nat q)) (existsb (N.eqb (N.of_nat q)) eighty_primes)) (seq 0 410) = true.
Proof. vm_compute. reflexivity. Qed.
Lemma eighty_sorted : forallb (fun i => forallb (fun j => if Nat.ltb i j then nth i eighty_primes 0 <? nth j eighty_primes 0 else true) (seq 0 80)) (seq 0 80) = true.
Proof. vm_compute. reflexivity. Qed.
Lemma eighty_first : first_primes eighty_primes.
Proof.
  pose proof eighty_all as A. rewrite forallb_forall in A. pose proof eighty_sorted as B. rewrite forallb_forall in B.
  assert (Lt : forall i j, (i < j < 80)%nat -> nth i eighty_primes 0 < nth j eighty_primes 0).
  { intros i j Hij. specialize (B i ltac:(apply in_seq; lia)). cbv beta in B. rewrite forallb_forall in B. specialize (B j ltac:(apply in_seq; lia)). cbv beta in B. rewrite (proj2 (Nat.ltb_lt i j)) in B by lia. apply N.ltb_lt, B. }
  assert (Bd : forall j, (j < 80)%nat -> nth j eighty_primes 0 < 410).
  { intros j Hj. destruct (Nat.eq_dec j 79) as [->|]; [reflexivity|]. specialize (Lt j 79%nat ltac:(lia)). change (nth 79 eighty_primes 0) with 409 in Lt. lia. }
  assert (P : forall q, q < 410 -> is_prime q <-> exists j, (j < 80)%nat /\ nth j eighty_primes 0 = q).
  { intros q Hq. specialize (A (N.to_nat q) ltac:(apply in_seq; lia)). cbv beta in A. rewrite N2Nat.id in A. apply Bool.eqb_prop in A. rewrite <- primeb_ok, A, existsb_exists. split.
    - intros (x & Hx & E). apply N.eqb_eq in E as <-. apply (In_nth _ _ 0) in Hx as (j & Hj & E). exists j. split; [exact Hj|exact E].
    - intros (j & Hj & E). exists q. split; [rewrite <- E; apply nth_In; exact Hj|apply N.eqb_refl]. }
  intros i Hi. change (length eighty_primes) with 80%nat in Hi. split; [apply P; [apply Bd, Hi|exists i; auto]|]. intros q. split.
  - intros [Hp Hq]. apply P in Hp as (j & Hj & E); [|specialize (Bd i Hi); lia]. exists j. split; [|exact E]. destruct (Nat.lt_trichotomy j i) as [L|[->|L]]; [exact L|lia|specialize (Lt i j ltac:(lia)); lia].
  - intros (j & Hj & E). specialize (Lt j i ltac:(lia)). split; [|lia]. apply P; [specialize (Bd i Hi); lia|exists j; split; [lia|exact E]].
Qed.
Definition root_bitsb (w n p x : N) : bool :=
  (x <? 2 ^ w) && existsb (fun a => let y := N.of_nat a * 2 ^ w + x in (y ^ n <=? p * 2 ^ (w * n)) && (p * 2 ^ (w * n) <? (y + 1) ^ n)) (seq 0 8).
Lemma root_bitsb_ok w n p x : root_bitsb w n p x = true -> root_bits w n p x.
Proof.
  unfold root_bitsb. rewrite Bool.andb_true_iff, N.ltb_lt, existsb_exists. intros (H1 & a & _ & H2). cbv zeta in H2. rewrite Bool.andb_true_iff, N.leb_le, N.ltb_lt in H2.
  split; [exact H1|]. exists (N.of_nat a). exact H2.
Qed.
Lemma roots w n (l : list N) : forallb (fun i => root_bitsb w n (nth i eighty_primes 0) (nth i l 0)) (seq 0 (length l)) = true ->
  forall i, (i < length l)%nat -> root_bits w n (nth i eighty_primes 0) (nth i l 0).
Proof. intros H i Hi. rewrite forallb_forall in H. apply root_bitsb_ok, H, in_seq. lia. Qed.
Lemma sha256_constants : forall i, (i < 64)%nat -> root_bits 32 3 (nth i eighty_primes 0) (nth i (constants sha256_v) 0).
Proof. apply (roots 32 3 (constants sha256_v)). vm_compute. reflexivity. Qed.
Lemma sha512_constants : forall i, (i < 80)%nat -> root_bits 64 3 (nth i eighty_primes 0) (nth i (constants sha512_v) 0).
Proof. apply (roots 64 3 (constants sha512_v)). vm_compute. reflexivity. Qed.
Lemma sha256_start : forall i, (i < 8)%nat -> root_bits 32 2 (nth i eighty_primes 0) (nth i (start sha256_v) 0).
Proof. apply (roots 32 2 (start sha256_v)). vm_compute. reflexivity. Qed.
Lemma sha512_start : forall i, (i < 8)%nat -> root_bits 64 2 (nth i eighty_primes 0) (nth i (start sha512_v) 0).
Proof. apply (roots 64 2 (start sha512_v)). vm_compute. reflexivity. Qed.
