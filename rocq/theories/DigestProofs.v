(** Proofs about UTF-8 and crc32 *)
From Coq Require Import Lia NArith Btauto.
From Verif Require Import Base BaseFacts LevModel PairwiseModel DigestModel DigestSpec.
Open Scope N_scope.
Open Scope list_scope.

(** ** UTF-8 *)
Lemma encode_char_ok c : scalar c -> exists b, encode_char c = Ok b /\ utf8_char c b.
Proof.
  intros [H1 H2]. unfold encode_char. destruct (N.ltb_spec c 128) as [L|L]; [eexists; split; [reflexivity|]; apply u_one; exact L|].
  pose proof (N.div_mod c 64 ltac:(lia)) as D. pose proof (N.mod_lt c 64 ltac:(lia)) as M.
  destruct (N.ltb_spec c 2048) as [L2|L2].
  { eexists. split; [reflexivity|]. apply (u_two c (c / 64) (c mod 64)); [|split; [reflexivity|lia]|exact D|exact L]. apply N.div_lt_upper_bound; lia. }
  destruct ((55296 <=? c) && (c <=? 57343)) eqn:E; [exfalso; apply andb_true_iff in E as [E1 E2]; apply N.leb_le in E1, E2; lia|].
  pose proof (N.div_mod (c / 64) 64 ltac:(lia)) as D2. pose proof (N.mod_lt (c / 64) 64 ltac:(lia)) as M2. rewrite N.div_div in D2 by lia. change (64 * 64) with 4096 in D2.
  destruct (N.ltb_spec c 65536) as [L3|L3].
  { eexists. split; [reflexivity|]. apply (u_three c (c / 4096) ((c / 64) mod 64) (c mod 64)); try (split; [reflexivity|lia]); try lia; apply N.div_lt_upper_bound; lia. }
  pose proof (N.div_mod (c / 4096) 64 ltac:(lia)) as D3. pose proof (N.mod_lt (c / 4096) 64 ltac:(lia)) as M3. rewrite N.div_div in D3 by lia. change (4096 * 64) with 262144 in D3.
  eexists. split; [reflexivity|]. apply (u_four c (c / 262144) ((c / 4096) mod 64) ((c / 64) mod 64) (c mod 64)); try (split; [reflexivity|lia]); try lia; apply N.div_lt_upper_bound; lia.
Qed.
Lemma encode_char_surrogate c : 55296 <= c <= 57343 -> encode_char c = Err ValueError.
Proof.
  intros H. unfold encode_char. rewrite (proj2 (N.ltb_ge c 128)), (proj2 (N.ltb_ge c 2048)) by lia.
  rewrite (proj2 (N.leb_le 55296 c)), (proj2 (N.leb_le c 57343)) by lia. reflexivity.
Qed.
Lemma utf8_char_scalar c b : utf8_char c b -> scalar c.
Proof. intros H. unfold scalar. inversion H; subst; unfold continues in *; lia. Qed.
Lemma utf8_char_first c b : utf8_char c b -> exists x rest, b = x :: rest.
Proof. intros H. inversion H; subst; eauto. Qed.
Lemma cons_inj {A} (a b : A) l m : a :: l = b :: m -> a = b /\ l = m.
Proof. intros E. injection E. auto. Qed.
(** the first byte tells the length *)
Lemma utf8_char_inj c1 b1 r1 c2 b2 r2 : utf8_char c1 b1 -> utf8_char c2 b2 -> b1 ++ r1 = b2 ++ r2 -> c1 = c2 /\ b1 = b2 /\ r1 = r2.
Proof.
  intros H1 H2 E. unfold continues in *.
  destruct H1 as [c1 L1|c1 x1 y1 a1 X1 [Y1 Y1'] C1 L1|c1 x1 y1 z1 a1 b1 X1 [Y1 Y1'] [Z1 Z1'] C1 L1 N1|c1 x1 y1 z1 w1 a1 b1 d1 X1 [Y1 Y1'] [Z1 Z1'] [W1 W1'] C1 L1],
    H2 as [c2 L2|c2 x2 y2 a2 X2 [Y2 Y2'] C2 L2|c2 x2 y2 z2 a2 b2 X2 [Y2 Y2'] [Z2 Z2'] C2 L2 N2|c2 x2 y2 z2 w2 a2 b2 d2 X2 [Y2 Y2'] [Z2 Z2'] [W2 W2'] C2 L2];
    cbn [app] in E; repeat match goal with H : _ :: _ = _ :: _ |- _ => apply cons_inj in H as [? ?] end; try (exfalso; lia).
  - subst. auto.
  - assert (x1 = x2 /\ y1 = y2) as [-> ->] by lia. subst. auto.
  - assert (x1 = x2 /\ y1 = y2 /\ z1 = z2) as (-> & -> & ->) by lia. subst. auto.
  - assert (x1 = x2 /\ y1 = y2 /\ z1 = z2 /\ w1 = w2) as (-> & -> & -> & ->) by lia. subst. auto.
Qed.
Lemma utf8_inj s1 s2 b : utf8 s1 b -> utf8 s2 b -> s1 = s2.
Proof.
  intros H. revert s2. induction H as [|c s b t Hc Hs IH]; intros s2 H2.
  - inversion H2 as [|c2 s2' b2 t2 Hc2 Hs2 E1 E2]; [reflexivity|]. exfalso. destruct (utf8_char_first c2 b2 Hc2) as (x & rest & ->). discriminate.
  - inversion H2 as [E1 E2|c2 s2' b2 t2 Hc2 Hs2 E1 E2].
    + exfalso. destruct (utf8_char_first c b Hc) as (x & rest & ->). discriminate.
    + destruct (utf8_char_inj _ _ _ _ _ _ Hc2 Hc E2) as (-> & -> & ->). f_equal. apply IH. exact Hs2.
Qed.
Lemma encode_ok s : Forall scalar s -> exists b, encode s = Ok b /\ utf8 s b.
Proof.
  induction 1 as [|c s Hc Hs (b & E & U)]; [exists []; split; [reflexivity|constructor]|]. destruct (encode_char_ok c Hc) as (b1 & E1 & U1).
  exists (b1 ++ b). split; [|constructor; assumption]. unfold encode in *. cbn [mapM]. rewrite E1. cbn [bind].
  destruct (mapM encode_char s) as [l|]; [|discriminate]. cbn [bind] in *. injection E as <-. reflexivity.
Qed.
Lemma encode_fails s : Forall (fun c => c <= 1114111) s -> ~ Forall scalar s -> encode s = Err ValueError.
Proof.
  intros H N0. unfold encode. assert (mapM encode_char s = Err ValueError) as ->; [|reflexivity].
  induction H as [|c s Hc Hs IH]; [exfalso; apply N0; constructor|]. cbn [mapM].
  assert (D : scalar c \/ 55296 <= c <= 57343) by (unfold scalar; lia). destruct D as [D|D]; [|rewrite encode_char_surrogate by exact D; reflexivity].
  destruct (encode_char_ok c D) as (b & -> & _). cbn [bind]. rewrite IH; [reflexivity|]. intros F. apply N0. constructor; assumption.
Qed.
Lemma utf8_bytes s b : utf8 s b -> Forall (fun x => x < 256) b.
Proof.
  induction 1 as [|c s b t Hc Hs IH]; [constructor|]. apply Forall_app. split; [|exact IH]. inversion Hc; subst; unfold continues in *; repeat constructor; lia.
Qed.

(** ** crc32 *)
Lemma shift_once_bits c i : N.testbit (shift_once c) i = xorb (N.testbit c (i + 1)) (N.testbit c 0 && N.testbit POLYNOMIAL i).
Proof.
  unfold shift_once. rewrite <- N.bit0_odd. destruct (N.testbit c 0).
  - rewrite N.lxor_spec, N.shiftr_spec by lia. rewrite andb_true_l. apply xorb_comm.
  - rewrite N.shiftr_spec by lia. rewrite andb_false_l, xorb_false_r. reflexivity.
Qed.
Lemma polynomial_bits i : N.testbit POLYNOMIAL i = (i <? 32) && existsb (N.eqb (31 - i)) exponents.
Proof.
  destruct (N.ltb_spec i 32) as [L|L].
  - rewrite andb_true_l. assert (E : In i (map N.of_nat (seq 0 32))) by (rewrite in_map_iff; exists (N.to_nat i); split; [lia|apply in_seq; lia]).
    revert i L E. assert (G : forallb (fun i => Bool.eqb (N.testbit POLYNOMIAL i) (existsb (N.eqb (31 - i)) exponents)) (map N.of_nat (seq 0 32)) = true) by (vm_compute; reflexivity).
    rewrite forallb_forall in G. intros i _ E. apply Bool.eqb_prop. apply G. exact E.
  - rewrite andb_false_l. apply N.bits_above_log2. apply N.lt_le_trans with 32; [reflexivity|exact L].
Qed.
Lemma shift_once_divided c : divided_once c (shift_once c).
Proof. intros i. rewrite shift_once_bits, polynomial_bits, andb_assoc. reflexivity. Qed.
Lemma shift_once_lxor a b : shift_once (N.lxor a b) = N.lxor (shift_once a) (shift_once b).
Proof. apply N.bits_inj. intros i. rewrite N.lxor_spec, !shift_once_bits, !N.lxor_spec. btauto. Qed.
Lemma iter_lxor n a b : Nat.iter n shift_once (N.lxor a b) = N.lxor (Nat.iter n shift_once a) (Nat.iter n shift_once b).
Proof. induction n as [|n IH]; [reflexivity|]. cbn [Nat.iter]. unfold Nat.iter in *. cbn. rewrite IH. apply shift_once_lxor. Qed.
Lemma iter_S n c : Nat.iter (S n) shift_once c = Nat.iter n shift_once (shift_once c).
Proof. induction n as [|n IH]; [reflexivity|]. change (Nat.iter (S (S n)) shift_once c) with (shift_once (Nat.iter (S n) shift_once c)). rewrite IH. reflexivity. Qed.
Lemma iter_add n m c : Nat.iter (n + m) shift_once c = Nat.iter n shift_once (Nat.iter m shift_once c).
Proof. induction n as [|n IH]; [reflexivity|]. change (shift_once (Nat.iter (n + m) shift_once c) = shift_once (Nat.iter n shift_once (Nat.iter m shift_once c))). rewrite IH. reflexivity. Qed.
Lemma shift_double c : shift_once (2 * c) = c.
Proof. unfold shift_once. rewrite N.odd_mul, andb_false_l, <- N.div2_spec, N.div2_double. reflexivity. Qed.
Lemma iter_shiftl n c : Nat.iter n shift_once (2 ^ N.of_nat n * c) = c.
Proof.
  revert c. induction n as [|n IH]; intros c; [cbn -[N.mul N.pow]; change (2 ^ N.of_nat 0) with 1; lia|]. rewrite iter_S, Nat2N.inj_succ, N.pow_succ_r', <- N.mul_assoc, shift_double. apply IH.
Qed.
Lemma iter_divided n c : divided n c (Nat.iter n shift_once c).
Proof. revert c. induction n as [|n IH]; intros c; [constructor|]. rewrite iter_S. eapply dv_more; [apply shift_once_divided|apply IH]. Qed.
Lemma divided_iter n c r : divided n c r -> r = Nat.iter n shift_once c.
Proof.
  induction 1 as [c|n c c' r H H2 IH]; [reflexivity|]. rewrite iter_S, IH. f_equal. apply N.bits_inj. intros i. rewrite H, (shift_once_divided c i). reflexivity.
Qed.

Lemma split_low c k : N.lxor (N.land c (N.ones k)) (2 ^ k * (N.shiftr c k)) = c.
Proof.
  rewrite (N.mul_comm (2 ^ k)), <- N.shiftl_mul_pow2. apply N.bits_inj. intros i. rewrite N.lxor_spec, N.land_spec. destruct (N.ltb_spec i k) as [L|L].
  - rewrite N.ones_spec_low, N.shiftl_spec_low by exact L. btauto.
  - rewrite N.ones_spec_high, N.shiftl_spec_high' by exact L. rewrite N.shiftr_spec by lia. replace (i - k + k) with i by lia. btauto.
Qed.
Lemma table_nth n : (n < 256)%nat -> nth n crc_table 0 = table_entry (N.of_nat n).
Proof.
  intros H. unfold crc_table. rewrite (nth_indep _ 0 (table_entry (N.of_nat 0))) by (rewrite map_length, seq_length; exact H).
  rewrite (map_nth (fun n => table_entry (N.of_nat n)) (seq 0 256) 0%nat n), seq_nth by exact H. reflexivity.
Qed.
Lemma crc_byte_iter crc b : b < 256 -> crc_byte crc b = Nat.iter 8 shift_once (N.lxor crc b).
Proof.
  intros Hb. unfold crc_byte. set (x := N.lxor crc b).
  assert (L : N.land x 255 < 256) by (change 255 with (N.ones 8); rewrite N.land_ones; apply N.mod_lt; discriminate).
  rewrite table_nth by lia. rewrite N2Nat.id. unfold table_entry.
  assert (E : N.shiftr crc 8 = N.shiftr x 8).
  { unfold x. rewrite N.shiftr_lxor. replace (N.shiftr b 8) with 0; [rewrite N.lxor_0_r; reflexivity|]. rewrite N.shiftr_div_pow2. symmetry. apply N.div_small. exact Hb. }
  rewrite E. rewrite <- (split_low x 8) at 3. rewrite iter_lxor. change (N.ones 8) with 255. f_equal. symmetry. exact (iter_shiftl 8 (N.shiftr x 8)).
Qed.
Lemma message_lxor b m : b < 256 -> b + 256 * m = N.lxor b (256 * m).
Proof.
  intros H. change 256 with (2 ^ 8). rewrite (N.mul_comm (2 ^ 8)), <- N.shiftl_mul_pow2. rewrite N.add_nocarry_lxor; [reflexivity|].
  apply N.bits_inj. intros i. rewrite N.land_spec, N.bits_0. destruct (N.ltb_spec i 8) as [L|L].
  - rewrite N.shiftl_spec_low by exact L. apply andb_false_r.
  - replace (N.testbit b i) with false; [reflexivity|]. symmetry. destruct (N.eq_dec b 0) as [->|Hz]; [apply N.bits_0|]. apply N.bits_above_log2.
    apply N.lt_le_trans with 8; [|exact L]. apply N.log2_lt_pow2; [lia|exact H].
Qed.
Lemma fold_iter bytes : Forall (fun b => b < 256) bytes -> forall c, fold_left crc_byte bytes c = Nat.iter (8 * List.length bytes) shift_once (N.lxor c (message bytes)).
Proof.
  induction 1 as [|b bytes Hb HF IH]; intros c; [cbn; rewrite N.lxor_0_r; reflexivity|]. cbn [fold_left message List.length].
  rewrite IH, crc_byte_iter by exact Hb. rewrite Nat.mul_succ_r, iter_add. f_equal. rewrite message_lxor by exact Hb. rewrite <- (N.lxor_assoc c b), (iter_lxor 8 (N.lxor c b)).
  f_equal. symmetry. exact (iter_shiftl 8 (message bytes)).
Qed.
Theorem crc32_bytes_spec bytes : Forall (fun b => b < 256) bytes -> is_crc32 bytes (crc32_bytes bytes).
Proof.
  intros H. unfold is_crc32, crc32_bytes. rewrite fold_iter by exact H. eexists. split; [|reflexivity]. rewrite N.lxor_comm. apply iter_divided.
Qed.
Theorem is_crc32_unique bytes a b : is_crc32 bytes a -> is_crc32 bytes b -> a = b.
Proof. intros (r & H & ->) (r' & H' & ->). apply divided_iter in H, H'. congruence. Qed.

(** words *)
Definition word (c : N) : Prop := c < 2 ^ 32.
Lemma word_bits c : word c <-> forall i, 32 <= i -> N.testbit c i = false.
Proof.
  unfold word. split.
  - intros H i Hi. destruct (N.eq_dec c 0) as [->|Hz]; [apply N.bits_0|]. apply N.bits_above_log2. apply N.lt_le_trans with 32; [|exact Hi]. apply N.log2_lt_pow2; lia.
  - intros H. destruct (N.eq_dec c 0) as [->|Hz]; [reflexivity|]. apply N.log2_lt_pow2; [lia|]. destruct (N.lt_ge_cases (N.log2 c) 32) as [L|L]; [exact L|].
    specialize (H _ L). rewrite N.bit_log2 in H by exact Hz. discriminate.
Qed.
Lemma word_lxor a b : word a -> word b -> word (N.lxor a b).
Proof. rewrite !word_bits. intros H1 H2 i Hi. rewrite N.lxor_spec, H1, H2 by exact Hi. reflexivity. Qed.
Lemma word_shift c : word c -> word (shift_once c).
Proof.
  rewrite !word_bits. intros H i Hi. rewrite shift_once_bits, H by lia. rewrite polynomial_bits, (proj2 (N.ltb_ge i 32)) by exact Hi. rewrite andb_false_l, andb_false_r. reflexivity.
Qed.
Lemma word_iter n c : word c -> word (Nat.iter n shift_once c).
Proof. intros H. induction n as [|n IH]; [exact H|]. change (word (shift_once (Nat.iter n shift_once c))). apply word_shift. exact IH. Qed.
Lemma shift_once_zero c : word c -> shift_once c = 0 -> c = 0.
Proof.
  intros W E. assert (B : forall i, N.testbit (shift_once c) i = false) by (intros i; rewrite E; apply N.bits_0).
  assert (B0 : N.testbit c 0 = false).
  { specialize (B 31). rewrite shift_once_bits in B. rewrite (proj1 (word_bits c) W (31 + 1)) in B by lia. change (N.testbit POLYNOMIAL 31) with true in B.
    destruct (N.testbit c 0); [discriminate|reflexivity]. }
  apply N.bits_inj. intros i. rewrite N.bits_0. destruct (N.eq_dec i 0) as [->|Hi]; [exact B0|]. specialize (B (i - 1)). rewrite shift_once_bits, B0 in B.
  replace (i - 1 + 1) with i in B by lia. rewrite andb_false_l, xorb_false_r in B. exact B.
Qed.
Lemma shift_once_inj a b : word a -> word b -> shift_once a = shift_once b -> a = b.
Proof.
  intros Ha Hb E. apply N.lxor_eq. apply shift_once_zero; [apply word_lxor; assumption|]. rewrite shift_once_lxor, E. apply N.lxor_nilpotent.
Qed.
Lemma iter_inj n a b : word a -> word b -> Nat.iter n shift_once a = Nat.iter n shift_once b -> a = b.
Proof.
  intros Ha Hb. induction n as [|n IH]; [auto|]. intros E. apply IH. apply shift_once_inj; [apply word_iter; assumption..|exact E].
Qed.
Lemma word_byte b : b < 256 -> word b.
Proof. unfold word. intros H. eapply N.lt_trans; [exact H|reflexivity]. Qed.
Lemma word_crc_byte c b : word c -> b < 256 -> word (crc_byte c b).
Proof. intros Hc Hb. rewrite crc_byte_iter by exact Hb. apply word_iter. apply word_lxor; [exact Hc|apply word_byte; exact Hb]. Qed.
Lemma word_fold bytes c : word c -> Forall (fun b => b < 256) bytes -> word (fold_left crc_byte bytes c).
Proof. intros Hc H. revert c Hc. induction H as [|b bytes Hb HF IH]; intros c Hc; [exact Hc|]. cbn [fold_left]. apply IH. apply word_crc_byte; assumption. Qed.
Lemma lxor_cancel a b c : N.lxor a c = N.lxor b c -> a = b.
Proof. intros E. apply (f_equal (fun x => N.lxor x c)) in E. rewrite !N.lxor_assoc, N.lxor_nilpotent, !N.lxor_0_r in E. exact E. Qed.
Lemma fold_inj bytes c d : word c -> word d -> Forall (fun b => b < 256) bytes -> fold_left crc_byte bytes c = fold_left crc_byte bytes d -> c = d.
Proof.
  intros Hc Hd H. revert c d Hc Hd. induction H as [|b bytes Hb HF IH]; intros c d Hc Hd E; [exact E|]. cbn [fold_left] in E.
  apply IH in E; [|apply word_crc_byte; assumption..]. rewrite !crc_byte_iter in E by exact Hb.
  apply iter_inj in E; [apply (lxor_cancel _ _ b E)|apply word_lxor; [assumption|apply word_byte; exact Hb]..].
Qed.
Lemma message_bound bytes : Forall (fun b => b < 256) bytes -> message bytes < 2 ^ (8 * N.of_nat (List.length bytes)).
Proof.
  induction 1 as [|b bytes Hb HF IH]; [reflexivity|]. cbn [message List.length]. replace (8 * N.of_nat (S (List.length bytes))) with (8 + 8 * N.of_nat (List.length bytes)) by lia.
  rewrite N.pow_add_r. change (2 ^ 8) with 256. lia.
Qed.
Lemma message_inj x y : Forall (fun b => b < 256) x -> Forall (fun b => b < 256) y -> List.length x = List.length y -> message x = message y -> x = y.
Proof.
  intros Hx. revert y. induction Hx as [|b x Hb HF IH]; intros [|b' y] Hy L E; try discriminate; [reflexivity|]. inversion Hy as [|? ? Hb' Hy']; subst. cbn [message] in E.
  assert (b = b' /\ message x = message y) as [-> E2] by lia. f_equal. apply IH; [exact Hy'|injection L; auto|exact E2].
Qed.
Definition bytes_ok (l : list N) : Prop := Forall (fun b => b < 256) l.
(** two messages that differ within a window of four bytes have different crc32s *)
Theorem burst a x y b : bytes_ok a -> bytes_ok x -> bytes_ok y -> bytes_ok b -> List.length x = List.length y -> (List.length x <= 4)%nat ->
  crc32_bytes (a ++ x ++ b) = crc32_bytes (a ++ y ++ b) -> x = y.
Proof.
  intros Ha Hx Hy Hb L L4 E. unfold crc32_bytes in E. apply lxor_cancel in E. rewrite !fold_left_app in E.
  set (c := fold_left crc_byte a 4294967295) in *. assert (Hc : word c) by (apply word_fold; [reflexivity|exact Ha]).
  apply fold_inj in E; [|apply word_fold; assumption|apply word_fold; assumption|exact Hb].
  rewrite !fold_iter in E by assumption. rewrite L in E.
  assert (W : forall z, bytes_ok z -> (List.length z <= 4)%nat -> word (message z)).
  { intros z Hz Lz. unfold word. eapply N.lt_le_trans; [apply message_bound; exact Hz|]. apply N.pow_le_mono_r; lia. }
  apply iter_inj in E; [|apply word_lxor; [exact Hc|apply W; [assumption|lia]]..]. rewrite (N.lxor_comm c), (N.lxor_comm c) in E. apply lxor_cancel in E.
  apply message_inj; assumption.
Qed.
Lemma crc32_bytes_word bytes : bytes_ok bytes -> word (crc32_bytes bytes).
Proof. intros H. unfold crc32_bytes. apply word_lxor; [apply word_fold; [reflexivity|exact H]|reflexivity]. Qed.

(** ** Any crc32 can be reached by four more bytes *)
Definition unshift (c : N) : N := if N.testbit c 31 then 2 * N.lxor c POLYNOMIAL + 1 else 2 * c.
Lemma shift_odd c : shift_once (2 * c + 1) = N.lxor POLYNOMIAL c.
Proof. destruct c; reflexivity. Qed.
Lemma unshift_ok c : word c -> word (unshift c) /\ shift_once (unshift c) = c.
Proof.
  intros W. unfold unshift. destruct (N.testbit c 31) eqn:B.
  - split.
    + assert (H : N.lxor c POLYNOMIAL < 2 ^ 31).
      { assert (G : forall i, 31 <= i -> N.testbit (N.lxor c POLYNOMIAL) i = false).
        { intros i Hi. rewrite N.lxor_spec. destruct (N.eq_dec i 31) as [->|D]; [rewrite B; reflexivity|]. rewrite (proj1 (word_bits c) W i), polynomial_bits, (proj2 (N.ltb_ge i 32)) by lia. reflexivity. }
        destruct (N.eq_dec (N.lxor c POLYNOMIAL) 0) as [->|Hz]; [reflexivity|]. apply N.log2_lt_pow2; [lia|].
        destruct (N.lt_ge_cases (N.log2 (N.lxor c POLYNOMIAL)) 31) as [L|L]; [exact L|]. specialize (G _ L). rewrite N.bit_log2 in G by exact Hz. discriminate. }
      unfold word. change (2 ^ 32) with (2 * 2 ^ 31). lia.
    + rewrite shift_odd, (N.lxor_comm c), <- N.lxor_assoc, N.lxor_nilpotent, N.lxor_0_l. reflexivity.
  - split; [|apply shift_double]. assert (H : c < 2 ^ 31).
    { destruct (N.eq_dec c 0) as [->|Hz]; [reflexivity|]. apply N.log2_lt_pow2; [lia|]. destruct (N.lt_ge_cases (N.log2 c) 31) as [L|L]; [exact L|].
      assert (N.testbit c (N.log2 c) = false); [|rewrite N.bit_log2 in H by exact Hz; discriminate].
      destruct (N.eq_dec (N.log2 c) 31) as [->|D]; [exact B|]. apply (proj1 (word_bits c) W). lia. }
    unfold word. change (2 ^ 32) with (2 * 2 ^ 31). lia.
Qed.
Lemma unshift_iter n c : word c -> exists d, word d /\ Nat.iter n shift_once d = c.
Proof.
  intros W. induction n as [|n (d & Wd & E)]; [exists c; auto|]. exists (unshift d). destruct (unshift_ok d Wd) as [W1 E1]. split; [exact W1|]. rewrite iter_S, E1. exact E.
Qed.
Lemma message_of m n : m < 2 ^ (8 * N.of_nat n) -> exists x, bytes_ok x /\ List.length x = n /\ message x = m.
Proof.
  revert m. induction n as [|n IH]; intros m H; [exists []; repeat split; [constructor|cbn in *; lia]|].
  destruct (IH (m / 256)) as (x & Hx & L & E).
  { apply N.div_lt_upper_bound; [discriminate|]. change 256 with (2 ^ 8). rewrite <- N.pow_add_r. replace (8 + 8 * N.of_nat n) with (8 * N.of_nat (S n)) by lia. exact H. }
  exists (m mod 256 :: x). split; [constructor; [apply N.mod_lt; discriminate|exact Hx]|]. split; [cbn; congruence|]. cbn [message]. rewrite E. pose proof (N.div_mod m 256 ltac:(discriminate)). lia.
Qed.
Theorem reach a c : bytes_ok a -> word c -> exists x, bytes_ok x /\ List.length x = 4%nat /\ crc32_bytes (a ++ x) = c.
Proof.
  intros Ha Hc. set (r := fold_left crc_byte a 4294967295). assert (Hr : word r) by (apply word_fold; [reflexivity|exact Ha]).
  destruct (unshift_iter 32 (N.lxor c 4294967295)) as (d & Wd & E); [apply word_lxor; [exact Hc|reflexivity]|].
  destruct (message_of (N.lxor d r) 4) as (x & Hx & L & M); [apply word_lxor; assumption|].
  exists x. split; [exact Hx|]. split; [exact L|]. unfold crc32_bytes. rewrite fold_left_app. fold r. rewrite fold_iter by exact Hx. rewrite L, M.
  replace (N.lxor r (N.lxor d r)) with d; [change (8 * 4)%nat with 32%nat; rewrite E, N.lxor_assoc, N.lxor_nilpotent, N.lxor_0_r; reflexivity|].
  rewrite (N.lxor_comm d), <- N.lxor_assoc, N.lxor_nilpotent, N.lxor_0_l. reflexivity.
Qed.

(** ** Bytes that only differ in their low bits: the remainders of the differences are independent.  [rows] give each difference back from its
    remainder; they have been computed by elimination, and are checked below. *)
Definition back (rows : list N) (w : N) : N :=
  fold_right (fun '(t, row) acc => if N.testbit w t then N.lxor row acc else acc) 0 (combine (map N.of_nat (seq 0 32)) rows).
Lemma back_lxor rows v w : back rows (N.lxor v w) = N.lxor (back rows v) (back rows w).
Proof.
  unfold back. induction (combine (map N.of_nat (seq 0 32)) rows) as [|[t row] l IH]; [reflexivity|]. cbn [fold_right]. rewrite IH, N.lxor_spec.
  set (x := fold_right _ 0 l). set (y := fold_right _ 0 l). apply N.bits_inj. intros i.
  destruct (N.testbit v t), (N.testbit w t); cbn [xorb]; rewrite !N.lxor_spec; btauto.
Qed.
Definition rows_6_5 : list N :=
  [0; 30654738705; 254362717984; 705048895; 0; 194199099689; 185037761596; 90416552453; 210473911604; 133951926065; 146233441331; 116082096692;
    262800809008; 141986041398; 60717932595; 232031586848; 74055168281; 51945422350; 163833518904; 262818244638; 181246168626; 82428307997;
    146332524606; 181263014696; 266425407744; 202166774043; 223609429784; 94842600450; 154940684087; 249345029397; 224348999484; 129387737351].
Definition rows_5_6 : list N :=
  [0; 0; 15397659483148; 13267506561311; 22016154735376; 26453040174348; 27548072546572; 30183264020; 12133400845830; 6601416115467; 5622582875160;
    26440255872021; 30846723563292; 28634682754306; 24318239055375; 13254655150598; 3397755994644; 4445745121546; 21015309714444; 34102375946505;
    33015733950216; 23218710910212; 4462555758620; 11021307092504; 28664848584461; 3414501036807; 4450107065373; 34128163642382; 25306132906760;
    2203353222679; 1116708667404; 13233029782548].
Definition rows_4_7 : list N :=
  [1131432009925130; 0; 4229877151303947; 0; 848831735333641; 0; 2254011840004869; 0; 2831268463903499; 8817769972492; 3394192429481985;
    1127003781336842; 1132509861839872; 2815862298839054; 1691074905967114; 290275550234383; 4228786380016384; 2547624394361615; 1141340348613645;
    1415131696140038; 577308079949322; 1409612746326282; 564066662088716; 567352430037518; 2537737346156295; 1979176949254670; 4226557208363011;
    1975826724225536; 1985718000353806; 1692204448547082; 285877418855424; 3097384469531911].
(** the differences of n bytes that have k bits *)
Definition low_bits (k n : N) (d : N) : Prop := forall i, N.testbit d i = true -> i mod 8 < k /\ i < 8 * n.
Definition checked (k : N) (n : nat) (rows : list N) : bool :=
  forallb (fun i => implb (N.of_nat i mod 8 <? k) (back rows (Nat.iter (8 * n) shift_once (2 ^ N.of_nat i)) =? 2 ^ N.of_nat i)) (seq 0 (8 * n)).
Lemma checked_back k n rows : checked k n rows = true -> forall d, low_bits k (N.of_nat n) d -> back rows (Nat.iter (8 * n) shift_once d) = d.
Proof.
  intros C.
  assert (G : forall m d, low_bits k (N.of_nat n) d -> d < 2 ^ N.of_nat m -> back rows (Nat.iter (8 * n) shift_once d) = d).
  { induction m as [|m IH]; intros d Hd Hm.
    - assert (d = 0) by (change (2 ^ N.of_nat 0) with 1 in Hm; lia). subst d. replace (Nat.iter (8 * n) shift_once 0) with 0; [|induction (8 * n)%nat as [|q IH]; [reflexivity|rewrite iter_S; exact IH]].
      unfold back. induction (combine (map N.of_nat (seq 0 32)) rows) as [|[t row] l IHl]; [reflexivity|]. cbn [fold_right]. rewrite N.bits_0. exact IHl.
    - assert (U : forall e, low_bits k (N.of_nat n) e -> N.testbit e (N.of_nat m) = false -> e < 2 ^ N.of_nat (S m) -> back rows (Nat.iter (8 * n) shift_once e) = e).
      { intros e He B Hs. apply IH; [exact He|]. destruct (N.eq_dec e 0) as [->|Hz]; [apply N.neq_0_lt_0, N.pow_nonzero; discriminate|].
        apply N.log2_lt_pow2; [lia|]. assert (N.log2 e < N.of_nat (S m)) by (apply N.log2_lt_pow2; [lia|exact Hs]).
        assert (N.log2 e <> N.of_nat m) by (intros E; rewrite <- E, N.bit_log2 in B by exact Hz; discriminate). lia. }
      destruct (N.testbit d (N.of_nat m)) eqn:B; [|apply U; assumption].
      set (e := N.lxor d (2 ^ N.of_nat m)).
      assert (Ee : d = N.lxor (2 ^ N.of_nat m) e) by (unfold e; rewrite (N.lxor_comm d), <- N.lxor_assoc, N.lxor_nilpotent, N.lxor_0_l; reflexivity).
      assert (Be : forall i, N.testbit e i = if i =? N.of_nat m then false else N.testbit d i).
      { intros i. unfold e. rewrite N.lxor_spec. destruct (N.eqb_spec i (N.of_nat m)) as [->|Hi]; [rewrite B, N.pow2_bits_true; reflexivity|].
        rewrite N.pow2_bits_false by congruence. apply xorb_false_r. }
      destruct (Hd _ B) as [M8 Mn].
      assert (C2 : back rows (Nat.iter (8 * n) shift_once (2 ^ N.of_nat m)) = 2 ^ N.of_nat m).
      { unfold checked in C. rewrite forallb_forall in C. specialize (C m ltac:(apply in_seq; lia)). rewrite (proj2 (N.ltb_lt _ _) M8) in C. cbn [implb] in C. apply N.eqb_eq. exact C. }
      rewrite Ee at 1. rewrite iter_lxor, back_lxor, C2. rewrite Ee. f_equal. apply U.
      + intros i Hi. rewrite Be in Hi. destruct (i =? N.of_nat m); [discriminate|]. apply Hd. exact Hi.
      + rewrite Be, N.eqb_refl. reflexivity.
      + unfold e. destruct (N.eq_dec (N.lxor d (2 ^ N.of_nat m)) 0) as [->|Hz]; [apply N.neq_0_lt_0, N.pow_nonzero; discriminate|].
        apply N.log2_lt_pow2; [lia|]. pose proof (N.bit_log2 _ Hz) as T. fold e in T |- *. rewrite Be in T. destruct (N.log2 e =? N.of_nat m); [discriminate|].
        assert (Hdz : d <> 0) by (intros ->; rewrite N.bits_0 in T; discriminate).
        assert (N.log2 e <= N.log2 d); [|pose proof (proj1 (N.log2_lt_pow2 d (N.of_nat (S m)) ltac:(lia)) Hm); lia].
        destruct (N.le_gt_cases (N.log2 e) (N.log2 d)) as [Q|Q]; [exact Q|]. rewrite N.bits_above_log2 in T by exact Q. discriminate. }
  intros d Hd. apply (G (N.to_nat (N.succ (N.log2 d))) d Hd). rewrite N2Nat.id. destruct (N.eq_dec d 0) as [->|Hz]; [reflexivity|]. apply N.log2_spec. lia.
Qed.
Lemma message_bit x i : bytes_ok x -> N.testbit (message x) i = N.testbit (nth (N.to_nat (i / 8)) x 0) (i mod 8).
Proof.
  intros H. revert i. induction H as [|b x Hb HF IH]; intros i; cbn [message].
  - rewrite N.bits_0. destruct (N.to_nat (i / 8)); rewrite N.bits_0; reflexivity.
  - rewrite message_lxor by exact Hb. change 256 with (2 ^ 8). rewrite N.lxor_spec, (N.mul_comm (2 ^ 8)), <- N.shiftl_mul_pow2.
    destruct (N.ltb_spec i 8) as [L|L].
    + rewrite N.shiftl_spec_low, xorb_false_r by exact L. rewrite N.div_small, N.mod_small by exact L. reflexivity.
    + rewrite N.shiftl_spec_high' by exact L. rewrite IH.
      replace (N.testbit b i) with false.
      2:{ symmetry. destruct (N.eq_dec b 0) as [->|Hz]; [apply N.bits_0|]. apply N.bits_above_log2. apply N.lt_le_trans with 8; [|exact L]. apply N.log2_lt_pow2; [lia|]. exact Hb. }
      rewrite xorb_false_l. replace (i / 8) with (N.succ ((i - 8) / 8)).
      * rewrite N2Nat.inj_succ. cbn [nth]. assert (Ei : i mod 8 = (i - 8) mod 8); [|rewrite Ei; reflexivity].
        replace (i mod 8) with ((i - 8 + 1 * 8) mod 8) by (f_equal; lia). rewrite N.mod_add by discriminate. reflexivity.
      * replace (i / 8) with ((i - 8 + 1 * 8) / 8) by (f_equal; lia). rewrite N.div_add by discriminate. lia.
Qed.
Lemma low_zero k n rows d m : checked k n rows = true -> (m <= n)%nat -> low_bits k (N.of_nat m) d -> Nat.iter (8 * m) shift_once d = 0 -> d = 0.
Proof.
  intros C L Hd E. set (p := (8 * (n - m))%nat).
  assert (E2 : Nat.iter (8 * n) shift_once (2 ^ N.of_nat p * d) = 0).
  { replace (8 * n)%nat with (8 * m + p)%nat by (unfold p; lia). rewrite iter_add, iter_shiftl. exact E. }
  assert (Z : 2 ^ N.of_nat p * d = 0).
  { rewrite <- (checked_back k n rows C (2 ^ N.of_nat p * d)).
    - rewrite E2. unfold back. induction (combine (map N.of_nat (seq 0 32)) rows) as [|[t row] l IHl]; [reflexivity|]. cbn [fold_right]. rewrite N.bits_0. exact IHl.
    - intros i Hi. rewrite N.mul_comm, <- N.shiftl_mul_pow2 in Hi. destruct (N.lt_ge_cases i (N.of_nat p)) as [Q|Q]; [rewrite N.shiftl_spec_low in Hi by exact Q; discriminate|].
      rewrite N.shiftl_spec_high' in Hi by exact Q. apply Hd in Hi as [H1 H2]. split; [|unfold p in *; lia].
      replace i with (i - N.of_nat p + N.of_nat (n - m) * 8) by (unfold p in *; lia). rewrite N.mod_add by discriminate. exact H1. }
  apply N.eq_mul_0 in Z as [Z|Z]; [|exact Z]. exfalso. revert Z. apply N.pow_nonzero. discriminate.
Qed.
(** two messages that differ in the low bits of a window *)
Theorem apart k a x y b : bytes_ok a -> bytes_ok x -> bytes_ok y -> bytes_ok b -> spread k (List.length x) ->
  Forall2 (fun u v => N.lxor u v < 2 ^ k) x y -> crc32_bytes (a ++ x ++ b) = crc32_bytes (a ++ y ++ b) -> x = y.
Proof.
  intros Ha Hx Hy Hb Sp F E. assert (L : List.length x = List.length y) by (clear - F; induction F; cbn; congruence).
  destruct Sp as [[-> L4]|Sp]; [apply (burst a x y b); assumption|].
  unfold crc32_bytes in E. apply lxor_cancel in E. rewrite !fold_left_app in E.
  set (c := fold_left crc_byte a 4294967295) in *. assert (Hc : word c) by (apply word_fold; [reflexivity|exact Ha]).
  apply fold_inj in E; [|apply word_fold; assumption|apply word_fold; assumption|exact Hb].
  rewrite !fold_iter in E by assumption. rewrite <- L, !iter_lxor in E. rewrite (N.lxor_comm (Nat.iter _ _ c)), (N.lxor_comm (Nat.iter _ _ c)) in E. apply lxor_cancel in E.
  apply message_inj; try assumption. apply N.lxor_eq.
  assert (D : low_bits k (N.of_nat (List.length x)) (N.lxor (message x) (message y))).
  { intros i Hi. rewrite N.lxor_spec, !message_bit, <- N.lxor_spec in Hi by assumption.
    destruct (Nat.lt_ge_cases (N.to_nat (i / 8)) (List.length x)) as [Q|Q]; [|rewrite !nth_overflow in Hi by lia; rewrite N.bits_0 in Hi; discriminate].
    assert (V : N.lxor (nth (N.to_nat (i / 8)) x 0) (nth (N.to_nat (i / 8)) y 0) < 2 ^ k).
    { clear - F Q. revert Q. generalize (N.to_nat (i / 8)) as j. induction F as [|u v x y H HF IH]; intros j Q; [cbn in Q; lia|]. destruct j as [|j]; [exact H|]. apply IH. cbn in Q. lia. }
    split.
    - destruct (N.lt_ge_cases (i mod 8) k) as [W|W]; [exact W|]. rewrite N.bits_above_log2 in Hi; [discriminate|].
      set (z := N.lxor _ _) in *. destruct (N.eq_dec z 0) as [Z0|Z0]; [rewrite Z0, N.bits_0 in Hi; discriminate|]. apply N.lt_le_trans with k; [|exact W]. apply N.log2_lt_pow2; [lia|exact V].
    - assert (i / 8 < N.of_nat (List.length x)) by lia. pose proof (N.div_mod i 8 ltac:(lia)). pose proof (N.mod_lt i 8 ltac:(lia)). lia. }
  assert (Z : Nat.iter (8 * List.length x) shift_once (N.lxor (message x) (message y)) = 0) by (rewrite iter_lxor, E; apply N.lxor_nilpotent).
  destruct Sp as [[-> Ln]|[[-> Ln]|[-> Ln]]].
  - apply (low_zero 6 5 rows_6_5 _ (List.length x)); [vm_compute; reflexivity|exact Ln|exact D|exact Z].
  - apply (low_zero 5 6 rows_5_6 _ (List.length x)); [vm_compute; reflexivity|exact Ln|exact D|exact Z].
  - apply (low_zero 4 7 rows_4_7 _ (List.length x)); [vm_compute; reflexivity|exact Ln|exact D|exact Z].
Qed.
