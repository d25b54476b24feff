(** The digests of the model are those of the specification. *)
From Coq Require Import List NArith Lia.
From Verif Require Import Base LevModel PairwiseModel MinHashModel BitsModel DigestModel HashModel HashSpec.
Import ListNotations.
Open Scope N_scope.
Open Scope list_scope.

(** ** Bits *)
Lemma small_bits w x i : x < 2 ^ w -> w <= i -> N.testbit x i = false.
Proof. intros Hx Hi. rewrite <- (N.mod_small x (2 ^ w) Hx). apply N.mod_pow2_bits_high. exact Hi. Qed.
Lemma bits_small w x : (forall i, w <= i -> N.testbit x i = false) -> x < 2 ^ w.
Proof.
  intros Hb. assert (E : x = x mod 2 ^ w).
  { apply N.bits_inj. intros i. destruct (N.lt_ge_cases i w) as [L|L]; [rewrite N.mod_pow2_bits_low by exact L; reflexivity|rewrite N.mod_pow2_bits_high by exact L; apply Hb, L]. }
  rewrite E. apply N.mod_lt. apply N.pow_nonzero. discriminate.
Qed.
Lemma wrap_small w x : wrap w x < 2 ^ w.
Proof. apply N.mod_lt, N.pow_nonzero. discriminate. Qed.
Lemma wnot_bits w x i : i < w -> N.testbit (wnot w x) i = negb (N.testbit x i).
Proof. intros L. unfold wnot. rewrite N.lxor_spec, N.ones_spec_low by exact L. apply Bool.xorb_true_r. Qed.
Lemma rotl_bits w n x i : x < 2 ^ w -> 0 < n < w -> i < w -> N.testbit (rotl w n x) ((i + n) mod w) = N.testbit x i.
Proof.
  intros Hx Hn Hi. unfold rotl, wrap. rewrite N.lor_spec, N.shiftr_spec by lia.
  destruct (N.lt_ge_cases (i + n) w) as [L|L].
  - rewrite (N.mod_small (i + n) w) by exact L. rewrite N.mod_pow2_bits_low, N.shiftl_spec_high by lia. replace (i + n - n) with i by lia.
    rewrite (small_bits w x (i + n + (w - n))) by (assumption || lia). apply Bool.orb_false_r.
  - replace ((i + n) mod w) with (i + n - w) by (apply (N.mod_unique _ _ 1); lia). rewrite N.mod_pow2_bits_low, N.shiftl_spec_low by lia. cbn [orb]. f_equal. lia.
Qed.
Lemma rotl_small w n x : x < 2 ^ w -> n <= w -> rotl w n x < 2 ^ w.
Proof.
  intros Hx Hn. apply bits_small. intros i Hi. unfold rotl, wrap. rewrite N.lor_spec, N.mod_pow2_bits_high, N.shiftr_spec by lia. cbn [orb]. apply (small_bits w); [exact Hx|lia].
Qed.
Lemma rotr_bits w n x i : x < 2 ^ w -> 0 < n < w -> i < w -> N.testbit (rotr w n x) i = N.testbit x ((i + n) mod w).
Proof.
  intros Hx Hn Hi. unfold rotr, wrap. rewrite N.lor_spec, N.shiftr_spec, N.mod_pow2_bits_low by lia.
  destruct (N.lt_ge_cases (i + n) w) as [L|L].
  - rewrite (N.mod_small (i + n) w) by exact L. rewrite N.shiftl_spec_low by lia. apply Bool.orb_false_r.
  - replace ((i + n) mod w) with (i + n - w) by (apply (N.mod_unique _ _ 1); lia). rewrite (small_bits w x (i + n)) by (assumption || lia). cbn [orb]. rewrite N.shiftl_spec_high by lia. f_equal. lia.
Qed.
Lemma rotr_small w n x : x < 2 ^ w -> n <= w -> rotr w n x < 2 ^ w.
Proof.
  intros Hx Hn. apply bits_small. intros i Hi. unfold rotr, wrap. rewrite N.lor_spec, N.shiftr_spec, N.mod_pow2_bits_high by lia. rewrite (small_bits w x) by (assumption || lia). reflexivity.
Qed.
Lemma shiftr_small w n x : x < 2 ^ w -> N.shiftr x n < 2 ^ w.
Proof. intros Hx. apply bits_small. intros i Hi. rewrite N.shiftr_spec by lia. apply (small_bits w); [exact Hx|lia]. Qed.

(** ** Bytes and words *)
Lemma bytes_le_length n x : length (bytes_le n x) = n.
Proof. revert x. induction n; intros x; cbn; auto. Qed.
Lemma bytes_le_byte n : forall x, Forall byte (bytes_le n x).
Proof. induction n as [|n IH]; intros x; cbn; constructor; [unfold byte; apply N.mod_lt; discriminate|apply IH]. Qed.
Lemma pow256_S n : 256 ^ N.of_nat (S n) = 256 * 256 ^ N.of_nat n.
Proof. rewrite Nat2N.inj_succ, N.pow_succ_r'. reflexivity. Qed.
Lemma bytes_le_nth n : forall x i, (i < n)%nat -> nth i (bytes_le n x) 0 = x / 256 ^ N.of_nat i mod 256.
Proof.
  induction n as [|n IH]; intros x i Hi; [lia|]. destruct i as [|i]; cbn [bytes_le nth]; [change (256 ^ N.of_nat 0) with 1; rewrite N.div_1_r; reflexivity|].
  rewrite IH by lia. rewrite pow256_S, N.div_div; [reflexivity|discriminate|apply N.pow_nonzero; discriminate].
Qed.
Lemma bytes_be_length n x : length (bytes_be n x) = n.
Proof. unfold bytes_be. rewrite rev_length. apply bytes_le_length. Qed.
Lemma bytes_be_byte n x : Forall byte (bytes_be n x).
Proof. apply Forall_rev, bytes_le_byte. Qed.
Lemma bytes_be_nth n x i : (i < n)%nat -> nth i (bytes_be n x) 0 = x / 256 ^ N.of_nat (n - 1 - i) mod 256.
Proof. intros Hi. unfold bytes_be. rewrite rev_nth by (rewrite bytes_le_length; exact Hi). rewrite bytes_le_length, bytes_le_nth by lia. do 3 f_equal. lia. Qed.

Lemma word_le_bound l : Forall byte l -> word_le l < 256 ^ N.of_nat (length l).
Proof. induction 1 as [|b l Hb Hl IH]; cbn [word_le fold_right length]; [reflexivity|]. rewrite pow256_S. fold (word_le l). unfold byte in Hb. lia. Qed.
Lemma word_le_nth l : Forall byte l -> forall i, (i < length l)%nat -> nth i l 0 = word_le l / 256 ^ N.of_nat i mod 256.
Proof.
  induction 1 as [|b l Hb Hl IH]; intros i Hi; [cbn in Hi; lia|]. unfold byte in Hb. destruct i as [|i]; cbn [nth word_le fold_right]; fold (word_le l).
  - change (256 ^ N.of_nat 0) with 1. rewrite N.div_1_r. rewrite N.mul_comm, N.mod_add by discriminate. symmetry. apply N.mod_small, Hb.
  - rewrite pow256_S, <- N.div_div by (discriminate || (apply N.pow_nonzero; discriminate)). rewrite (N.mul_comm 256), N.div_add by discriminate.
    rewrite (N.div_small b) by exact Hb. cbn [N.add]. apply IH. cbn in Hi. lia.
Qed.
Lemma word_be_le l : word_be l = word_le (rev l).
Proof.
  unfold word_be. rewrite <- fold_left_rev_right. unfold word_le. induction (rev l) as [|b r IH]; cbn [fold_right]; [reflexivity|]. rewrite IH. lia.
Qed.
Lemma word_be_bound l : Forall byte l -> word_be l < 256 ^ N.of_nat (length l).
Proof. intros F. rewrite word_be_le, <- (rev_length l). apply word_le_bound, Forall_rev, F. Qed.
Lemma word_be_nth l i : Forall byte l -> (i < length l)%nat -> nth i l 0 = word_be l / 256 ^ N.of_nat (length l - 1 - i) mod 256.
Proof.
  intros F Hi. rewrite word_be_le. rewrite <- word_le_nth by (try rewrite rev_length; try apply Forall_rev; lia || exact F).
  rewrite rev_nth by lia. f_equal. lia.
Qed.

(** ** Blocks *)
Lemma cut_nth {A} size : (0 < size)%nat -> forall fuel (l : list A) k, (length l <= fuel)%nat -> (size * k < length l)%nat -> nth k (cut fuel size l) [] = firstn size (skipn (size * k) l).
Proof.
  intros Hs. induction fuel as [|fuel IH]; intros l k Hf Hk; [lia|]. destruct l as [|a l]; [cbn in Hk; lia|]. destruct k as [|k].
  - rewrite Nat.mul_0_r. reflexivity.
  - cbn [cut nth]. assert (E : length (skipn size (a :: l)) = (length (a :: l) - size)%nat) by apply skipn_length. rewrite IH.
    + f_equal. replace (size * S k)%nat with (size + size * k)%nat by lia. clear. revert size. generalize (a :: l) as m. clear. intros m size. 
      generalize (size * k)%nat as r. revert m. induction size as [|s IHs]; intros m r; [reflexivity|]. destruct m; cbn [skipn Nat.add]; [rewrite skipn_nil; reflexivity|apply IHs].
    + rewrite E. cbn [length] in *. lia.
    + rewrite E. lia.
Qed.
Lemma cut_length {A} size n : (0 < size)%nat -> forall fuel (l : list A), length l = (size * n)%nat -> (length l <= fuel)%nat -> length (cut fuel size l) = n.
Proof.
  intros Hs. induction n as [|n IH]; intros fuel l Hl Hf.
  - rewrite Nat.mul_0_r in Hl. destruct l; [|discriminate]. destruct fuel; reflexivity.
  - destruct l as [|a l]; [cbn in Hl; lia|]. destruct fuel as [|fuel]; [cbn in Hf; lia|]. cbn [cut length]. f_equal. apply IH; rewrite skipn_length; cbn [length] in *; lia.
Qed.
Lemma chunks_nth {A} size n (l : list A) k : (0 < size)%nat -> length l = (size * n)%nat -> (k < n)%nat -> nth k (chunks size l) [] = firstn size (skipn (size * k) l).
Proof. intros Hs Hl Hk. apply cut_nth; [exact Hs|lia|nia]. Qed.
Lemma chunks_length {A} size n (l : list A) : (0 < size)%nat -> length l = (size * n)%nat -> length (chunks size l) = n.
Proof. intros Hs Hl. apply cut_length; [exact Hs|exact Hl|lia]. Qed.
Lemma nth_firstn {A} (d : A) n : forall l i, (i < n)%nat -> nth i (firstn n l) d = nth i l d.
Proof. induction n as [|n IH]; intros [|a l] [|i] Hi; cbn; try reflexivity; try lia. apply IH. lia. Qed.
Lemma nth_skipn {A} (d : A) n : forall l i, nth i (skipn n l) d = nth (n + i) l d.
Proof. induction n as [|n IH]; intros [|a l] i; cbn [skipn Nat.add nth]; try reflexivity; [destruct i; reflexivity|apply IH]. Qed.
Lemma Forall_part {A} (P : A -> Prop) a b (l : list A) : Forall P l -> Forall P (firstn a (skipn b l)).
Proof.
  rewrite !Forall_forall. intros Hl x Hx. apply Hl. rewrite <- (firstn_skipn b l). apply in_or_app. right. rewrite <- (firstn_skipn a (skipn b l)). apply in_or_app. left. exact Hx.
Qed.
Lemma part_length {A} size n (l : list A) k : length l = (size * n)%nat -> (k < n)%nat -> length (firstn size (skipn (size * k) l)) = size.
Proof. intros Hl Hk. apply firstn_length_le. rewrite skipn_length. nia. Qed.

(** word j of block k *)
Lemma words_read (size : nat) (p : list N) n k j : (0 < size)%nat -> Forall byte p -> length p = (16 * size * n)%nat -> (k < n)%nat -> (j < 16)%nat ->
  let block := nth k (chunks (16 * size) p) [] in
  word_low_first size p (16 * k + j) (nth j (map word_le (chunks size block)) 0) /\ word_high_first size p (16 * k + j) (nth j (map word_be (chunks size block)) 0).
Proof.
  intros Hs Hp Hl Hk Hj block.
  assert (Eb : block = firstn (16 * size) (skipn (16 * size * k) p)) by (apply (chunks_nth (16 * size) n); lia).
  assert (Lb : length block = (16 * size)%nat) by (rewrite Eb; apply (part_length (16 * size) n); assumption).
  assert (Fb : Forall byte block) by (rewrite Eb; apply Forall_part, Hp).
  assert (Lc : length (chunks size block) = 16%nat) by (apply chunks_length; lia).
  assert (Ew : nth j (chunks size block) [] = firstn size (skipn (size * j) block)) by (apply (chunks_nth size 16); lia).
  assert (Lw : length (firstn size (skipn (size * j) block)) = size) by (apply (part_length size 16); lia).
  assert (Fw : Forall byte (firstn size (skipn (size * j) block))) by (apply Forall_part, Fb).
  assert (Er : forall i, (i < size)%nat -> nth i (firstn size (skipn (size * j) block)) 0 = nth (size * (16 * k + j) + i) p 0).
  { intros i Hi. rewrite nth_firstn, nth_skipn by exact Hi. rewrite Eb, nth_firstn, nth_skipn by nia. f_equal. nia. }
  assert (M : forall g : list N -> N, g [] = 0 -> nth j (map g (chunks size block)) 0 = g (firstn size (skipn (size * j) block))) by (intros g Hg; rewrite <- Hg, map_nth, Ew; reflexivity).
  rewrite (M word_le eq_refl), (M word_be eq_refl). clear M Ew. generalize dependent (firstn size (skipn (size * j) block)). intros part Lw Fw Er. split; split.
  - rewrite <- Lw. apply word_le_bound, Fw.
  - intros i Hi. rewrite <- Er by exact Hi. apply word_le_nth; [exact Fw|rewrite Lw; exact Hi].
  - rewrite <- Lw. apply word_be_bound, Fw.
  - intros i Hi. rewrite <- Er by exact Hi. rewrite (word_be_nth _ i Fw) by (rewrite Lw; exact Hi). rewrite Lw. reflexivity.
Qed.

(** ** Padding *)
Lemma pad_mod size m : (0 < size)%nat -> ((m + (size - m mod size) mod size) mod size = 0)%nat /\ ((size - m mod size) mod size < size)%nat.
Proof.
  intros Hs. assert (Hs' : size <> 0%nat) by lia. split; [|apply Nat.mod_upper_bound, Hs'].
  rewrite Nat.add_mod_idemp_r by exact Hs'. pose proof (Nat.mod_upper_bound m size Hs') as B. pose proof (Nat.div_mod m size Hs') as E.
  replace (m + (size - m mod size))%nat with ((m / size + 1) * size)%nat by nia. apply Nat.mod_mul, Hs'.
Qed.
Lemma padding_ok size field enc (reads : nat -> list N -> nat -> N -> Prop) (b : list N) : (0 < size)%nat ->
  (forall x, length (enc field x) = field /\ Forall byte (enc field x)) -> (forall x, x < 256 ^ N.of_nat field -> reads field (enc field x) 0%nat x) ->
  padded size field reads b (b ++ padding size field enc (length b)).
Proof.
  intros Hs He Hr. unfold padding. pose proof (pad_mod size (length b + 1 + field) Hs) as [M1 M2]. set (z := ((size - (length b + 1 + field) mod size) mod size)%nat) in *.
  assert (E2 : 2 ^ (8 * N.of_nat field) = 256 ^ N.of_nat field) by (rewrite N.pow_mul_r; reflexivity). rewrite E2.
  set (x := (8 * N.of_nat (length b)) mod 256 ^ N.of_nat field). exists z, (enc field x). destruct (He x) as [L F]. split; [reflexivity|]. split; [exact M2|]. split.
  - rewrite app_length. cbn [length]. rewrite app_length, repeat_length, L. rewrite <- M1. f_equal. lia.
  - split; [exact L|]. split; [exact F|]. apply Hr. apply N.mod_lt, N.pow_nonzero. discriminate.
Qed.
Lemma padding_le size field b : (0 < size)%nat -> padded size field word_low_first b (b ++ padding size field bytes_le (length b)).
Proof.
  intros Hs. apply padding_ok; [exact Hs|intros x; split; [apply bytes_le_length|apply bytes_le_byte]|]. intros x Hx. split; [exact Hx|]. intros i Hi.
  rewrite Nat.mul_0_r. apply bytes_le_nth, Hi.
Qed.
Lemma padding_be size field b : (0 < size)%nat -> padded size field word_high_first b (b ++ padding size field bytes_be (length b)).
Proof.
  intros Hs. apply padding_ok; [exact Hs|intros x; split; [apply bytes_be_length|apply bytes_be_byte]|]. intros x Hx. split; [exact Hx|]. intros i Hi.
  rewrite Nat.mul_0_r. apply bytes_be_nth, Hi.
Qed.
Lemma padded_bytes size field reads b p : padded size field reads b p -> Forall byte b -> Forall byte p.
Proof.
  intros (z & len & -> & _ & _ & _ & F & _) Hb. apply Forall_app. split; [exact Hb|]. constructor; [reflexivity|]. apply Forall_app. split; [|exact F].
  clear. induction z; cbn; constructor; auto. reflexivity.
Qed.

(** ** MD5 *)
Definition quad_small (s : quad) : Prop := let '(a, b, c, d) := s in a < 2 ^ 32 /\ b < 2 ^ 32 /\ c < 2 ^ 32 /\ d < 2 ^ 32.
Lemma land_small w x y : x < 2 ^ w -> N.land x y < 2 ^ w.
Proof. intros Hx. apply bits_small. intros i Hi. rewrite N.land_spec, (small_bits w x) by assumption. reflexivity. Qed.
Lemma land_small_r w x y : y < 2 ^ w -> N.land x y < 2 ^ w.
Proof. rewrite N.land_comm. apply land_small. Qed.
Lemma lor_small w x y : x < 2 ^ w -> y < 2 ^ w -> N.lor x y < 2 ^ w.
Proof. intros Hx Hy. apply bits_small. intros i Hi. rewrite N.lor_spec, (small_bits w x), (small_bits w y) by assumption. reflexivity. Qed.
Lemma lxor_small w x y : x < 2 ^ w -> y < 2 ^ w -> N.lxor x y < 2 ^ w.
Proof. intros Hx Hy. apply bits_small. intros i Hi. rewrite N.lxor_spec, (small_bits w x), (small_bits w y) by assumption. reflexivity. Qed.
Lemma wnot_small w x : x < 2 ^ w -> wnot w x < 2 ^ w.
Proof. intros Hx. apply lxor_small; [exact Hx|]. rewrite N.ones_equiv. pose proof (N.pow_nonzero 2 w ltac:(discriminate)). lia. Qed.

Lemma md5_step_ok X i s : (i < 64)%nat -> quad_small s -> md5_operation md5_table (fun j => nth j X 0) i s (md5_step X s i) /\ quad_small (md5_step X s i).
Proof.
  destruct s as [[[a b] c] d]. intros Hi (Ha & Hb & Hc & Hd). unfold md5_step. cbv zeta.
  assert (Hr : (i / 16 < 4)%nat) by (apply Nat.div_lt_upper_bound; lia).
  set (f := match (i / 16)%nat with 0%nat => _ | _ => _ end). set (k := match (i / 16)%nat with 0%nat => i | _ => _ end). set (s := nth _ md5_shifts 0).
  assert (Hf : bitwise 32 (md5_function (i / 16)) b c d f).
  { subst f. destruct (i / 16)%nat as [|[|[|[|]]]] eqn:Er; [| | | |lia]; (split; [auto using lor_small, land_small, land_small_r, lxor_small, wnot_small|intros j Hj]);
      rewrite ?N.lor_spec, ?N.lxor_spec, ?N.land_spec, ?wnot_bits by exact Hj; cbn [md5_function];
      rewrite ?N.lor_spec, ?N.lxor_spec, ?N.land_spec, ?wnot_bits by exact Hj; destruct (N.testbit b j), (N.testbit c j), (N.testbit d j); reflexivity. }
  assert (Ek : k = nth i md5_words 0%nat). { subst k. clear - Hi. do 64 (destruct i as [|i]; [reflexivity|]). lia. }
  assert (Es : s = md5_shift (i / 16) (i mod 4) /\ 0 < s < 32). { subst s. clear - Hi. do 64 (destruct i as [|i]; [split; [reflexivity|split; reflexivity]|]). lia. }
  destruct Es as [Es Hs]. rewrite Es in *. rewrite Ek. clearbody f. split.
  - exists f, (rotl 32 (md5_shift (i / 16) (i mod 4)) (wrap 32 (a + f + nth (nth i md5_words 0%nat) X 0 + nth i md5_table 0))). split; [exact Hf|]. split; [|reflexivity].
    split; [apply rotl_small; [apply wrap_small|lia]|]. intros j Hj. apply rotl_bits; [apply wrap_small|exact Hs|exact Hj].
  - repeat split; try assumption. apply wrap_small.
Qed.
Lemma fold_states {S : Type} (step : S -> nat -> S) (good : S -> Prop) n s : good s -> (forall s i, (i < n)%nat -> good s -> good (step s i)) ->
  forall i, (i <= n)%nat -> good (fold_left step (seq 0 i) s).
Proof. intros H0 Hs. induction i as [|i IH]; intros Hi; [exact H0|]. rewrite seq_S, fold_left_app. cbn. apply Hs; [lia|apply IH; lia]. Qed.
Lemma md5_block_ok block s : quad_small s -> md5_compressed md5_table (fun j => nth j (map word_le (chunks 4 block)) 0) s (md5_block s block) /\ quad_small (md5_block s block).
Proof.
  intros Hs. set (X := map word_le (chunks 4 block)). set (St := fun i => fold_left (md5_step X) (seq 0 i) s).
  assert (Hg : forall i, (i <= 64)%nat -> quad_small (St i)) by (apply (fold_states (md5_step X) quad_small 64); [exact Hs|intros; apply md5_step_ok; assumption]).
  assert (E : md5_block s block = let '(a, b, c, d) := s in let '(a1, b1, c1, d1) := St 64%nat in (wrap 32 (a + a1), wrap 32 (b + b1), wrap 32 (c + c1), wrap 32 (d + d1))) by reflexivity.
  rewrite E. split.
  - exists St. split; [reflexivity|]. split.
    + intros i Hi. unfold St at 2. rewrite Nat.add_1_r, seq_S, fold_left_app. cbn [fold_left Nat.add]. apply md5_step_ok; [exact Hi|apply Hg; lia].
    + destruct s as [[[a b] c] d]. destruct (St 64%nat) as [[[a1 b1] c1] d1]. reflexivity.
  - destruct s as [[[a b] c] d]. destruct (St 64%nat) as [[[a1 b1] c1] d1]. repeat split; apply wrap_small.
Qed.
Lemma firstn_S_nth {A} (d : A) : forall l n, (n < length l)%nat -> firstn (S n) l = firstn n l ++ [nth n l d].
Proof. induction l as [|a l IH]; intros n Hn; [cbn in Hn; lia|]. destruct n as [|n]; [reflexivity|]. rewrite firstn_cons, (IH n) by (cbn in Hn; lia). reflexivity. Qed.
(** the states between the blocks *)
Lemma fold_blocks {S : Type} (step : S -> list N -> S) (good : S -> Prop) blocks s : good s -> (forall s b, good s -> good (step s b)) ->
  let H k := fold_left step (firstn k blocks) s in
  H 0%nat = s /\ (forall k, good (H k)) /\ (forall k, (k < length blocks)%nat -> H (k + 1)%nat = step (H k) (nth k blocks [])) /\ H (length blocks) = fold_left step blocks s.
Proof.
  intros H0 Hs H. split; [reflexivity|]. split; [|split].
  - intros k. unfold H. generalize (firstn k blocks). intros l. revert H0. generalize s. induction l as [|b l IH]; intros s0 H0; [exact H0|]. cbn. apply IH, Hs, H0.
  - intros k Hk. unfold H. rewrite Nat.add_1_r, (firstn_S_nth []) by exact Hk. rewrite fold_left_app. reflexivity.
  - unfold H. rewrite firstn_all. reflexivity.
Qed.
Lemma word_le_bytes (l : list N) k x : (forall i, (i < 4)%nat -> nth (4 * k + i) l 0 = nth i (bytes_le 4 x) 0) -> x < 2 ^ 32 -> word_low_first 4 l k x.
Proof. intros Hl Hx. split; [exact Hx|]. intros i Hi. rewrite Hl by exact Hi. apply bytes_le_nth, Hi. Qed.
Lemma md5_ok b : Forall byte b -> is_md5 md5_table b (md5 b).
Proof.
  intros Hb. set (p := b ++ padding 64 8 bytes_le (length b)). assert (Hp : padded 64 8 word_low_first b p) by (apply padding_le; lia).
  assert (Fp : Forall byte p) by (apply (padded_bytes _ _ _ _ _ Hp Hb)).
  assert (Lp : length p = (16 * 4 * (length p / 64))%nat). { destruct Hp as (z & len & _ & _ & M & _). pose proof (Nat.div_mod (length p) 64 ltac:(lia)). lia. }
  assert (Lc : length (chunks 64 p) = (length p / 64)%nat) by (apply chunks_length; [lia|exact Lp]).
  set (H := fun k => fold_left md5_block (firstn k (chunks 64 p)) md5_start).
  assert (HH : H 0%nat = md5_start /\ (forall k, quad_small (H k)) /\ (forall k, (k < length (chunks 64 p))%nat -> H (k + 1)%nat = md5_block (H k) (nth k (chunks 64 p) [])) /\
    H (length (chunks 64 p)) = fold_left md5_block (chunks 64 p) md5_start) by (apply fold_blocks; [repeat split|intros s0 b0 Hs0; apply (md5_block_ok b0 s0 Hs0)]).
  destruct HH as (H0 & Hg & Hn & He). clearbody H. exists p, H. split; [exact Hp|]. split; [exact H0|]. split.
  - intros k Hk. exists (fun j => nth j (map word_le (chunks 4 (nth k (chunks 64 p) []))) 0). split.
    + intros j Hj. apply (words_read 4 p (length p / 64) k j); try assumption. lia.
    + rewrite Hn by (rewrite Lc; exact Hk). apply md5_block_ok, Hg.
  - rewrite <- Lc. rewrite He. pose proof (Hg (length (chunks 64 p))) as Hs. rewrite He in Hs. unfold md5. fold p.
    destruct (fold_left md5_block (chunks 64 p) md5_start) as [[[x y] z] t]. destruct Hs as (Hx & Hy & Hz & Ht).
    split; [reflexivity|]. split; [cbn [flat_map]; rewrite !Forall_app; repeat split; try apply bytes_le_byte; constructor|].
    repeat split; try assumption; intros i Hi; rewrite <- (bytes_le_nth 4) by exact Hi; do 4 (destruct i as [|i]; [reflexivity|]); lia.
Qed.

(** ** SHA-2 *)
Definition turn_ok (w : N) (r : N * N * N) : Prop := let '(p, q, s) := r in 0 < p < w /\ 0 < q < w /\ 0 < s < w.
Section Sha2.
Variable v : sha2.
Notation w := (bits v).
Hypothesis Hw : w = 8 * N.of_nat (word_bytes v).
Hypothesis Hsize : (0 < word_bytes v)%nat.
Hypothesis Hrounds : (16 <= rounds v)%nat.
Hypothesis HS0 : turn_ok w (Sigma0 v).
Hypothesis HS1 : turn_ok w (Sigma1 v).
Hypothesis Hs0 : turn_ok w (sigma0 v).
Hypothesis Hs1 : turn_ok w (sigma1 v).
Hypothesis Hstart : length (start v) = 8%nat.
Hypothesis Hstart_small : Forall (fun x => x < 2 ^ w) (start v).

Lemma rotations_ok r x : turn_ok w r -> x < 2 ^ w -> turned w r x (rotations v r x).
Proof.
  destruct r as [[p q] s]. intros (Hp & Hq & Hs) Hx. unfold turned, rotations. split; [repeat apply lxor_small; apply rotr_small; lia|].
  intros i Hi. rewrite !N.lxor_spec, !rotr_bits by assumption. unfold parity. apply Bool.xorb_assoc.
Qed.
Lemma shifted_ok r x : turn_ok w r -> x < 2 ^ w -> turned_shifted w r x (shifted v r x).
Proof.
  destruct r as [[p q] s]. intros (Hp & Hq & Hs) Hx. unfold turned_shifted, shifted. split; [repeat apply lxor_small; [apply rotr_small; lia|apply rotr_small; lia|apply shiftr_small, Hx]|].
  intros i Hi. rewrite !N.lxor_spec, !rotr_bits by assumption. rewrite N.shiftr_spec by lia. unfold parity. rewrite Bool.xorb_assoc.
  destruct (N.ltb_spec (i + s) w) as [L|L]; cbn [andb]; [reflexivity|]. rewrite (small_bits w x (i + s) Hx L). reflexivity.
Qed.
Lemma choose_ok x y z : x < 2 ^ w -> y < 2 ^ w -> z < 2 ^ w -> bitwise w choice x y z (choose v x y z).
Proof.
  intros Hx Hy Hz. split; [apply lxor_small; [apply land_small, Hx|apply land_small_r, Hz]|]. intros i Hi. unfold choose. rewrite N.lxor_spec, !N.land_spec, wnot_bits by exact Hi.
  destruct (N.testbit x i), (N.testbit y i), (N.testbit z i); reflexivity.
Qed.
Lemma agree_ok x y z : x < 2 ^ w -> y < 2 ^ w -> z < 2 ^ w -> bitwise w majority3 x y z (agree x y z).
Proof.
  intros Hx Hy Hz. split; [apply lxor_small; [apply lxor_small; apply land_small, Hx|apply land_small, Hy]|]. intros i Hi. unfold agree. rewrite !N.lxor_spec, !N.land_spec.
  destruct (N.testbit x i), (N.testbit y i), (N.testbit z i); reflexivity.
Qed.

Definition word_small (x : N) : Prop := x < 2 ^ w.
Lemma nth_small W k : Forall word_small W -> nth k W 0 < 2 ^ w.
Proof.
  intros F. destruct (Nat.lt_ge_cases k (length W)) as [L|L]; [rewrite Forall_forall in F; apply F, nth_In, L|]. rewrite nth_overflow by exact L.
  pose proof (N.pow_nonzero 2 w ltac:(discriminate)). lia.
Qed.
Definition recurrence (W : list N) (t : nat) : Prop := exists a b, turned_shifted w (sigma1 v) (nth (t - 2) W 0) a /\ turned_shifted w (sigma0 v) (nth (t - 15) W 0) b /\
  nth t W 0 = (a + nth (t - 7) W 0 + b + nth (t - 16) W 0) mod 2 ^ w.
Lemma schedule_ok W0 m : length W0 = 16%nat -> Forall word_small W0 -> let W := Nat.iter m (next_word v) W0 in
  length W = (16 + m)%nat /\ Forall word_small W /\ (forall j, (j < 16)%nat -> nth j W 0 = nth j W0 0) /\ forall t, (16 <= t < 16 + m)%nat -> recurrence W t.
Proof.
  intros L0 F0. cbv zeta. induction m as [|m (L & F & P & R)].
  - cbn. split; [exact L0|]. split; [exact F0|]. split; [reflexivity|]. intros t Ht. lia.
  - change (Nat.iter (S m) (next_word v) W0) with (next_word v (Nat.iter m (next_word v) W0)). set (W := Nat.iter m (next_word v) W0) in *.
    unfold next_word. set (x := wrap w _). assert (Hx : word_small x) by apply wrap_small.
    split; [rewrite app_length, L; cbn; lia|]. split; [apply Forall_app; split; [exact F|constructor; [exact Hx|constructor]]|]. split; [intros j Hj; rewrite app_nth1 by lia; apply P, Hj|].
    intros t Ht. unfold recurrence. rewrite !(app_nth1 W [x]) by lia || idtac.
    destruct (Nat.eq_dec t (length W)) as [E|E].
    + rewrite (app_nth2 W [x]) by lia. replace (t - length W)%nat with 0%nat by lia. cbn [nth]. subst t.
      exists (shifted v (sigma1 v) (nth (length W - 2) W 0)), (shifted v (sigma0 v) (nth (length W - 15) W 0)).
      rewrite !(app_nth1 W [x]) by lia.
      split; [apply shifted_ok; [exact Hs1|apply nth_small, F]|]. split; [apply shifted_ok; [exact Hs0|apply nth_small, F]|]. reflexivity.
    + rewrite !(app_nth1 W [x]) by lia. apply R. lia.
Qed.

Definition oct (s : list N) : Prop := length s = 8%nat /\ Forall word_small s.
Definition listed (s : sha2_state) : list N := let '(a, b, c, d, e, f, g, h) := s in [a; b; c; d; e; f; g; h].
Lemma sha2_step_ok W t s : oct (listed s) -> sha2_operation w (constants v) (Sigma0 v) (Sigma1 v) (fun j => nth j W 0) t (listed s) (listed (sha2_step v W s t)) /\ oct (listed (sha2_step v W s t)).
Proof.
  destruct s as [[[[[[[a b] c] d] e] f] g] h]. intros [_ F]. cbn [listed] in *. repeat (apply Forall_cons_iff in F as [? F]).
  unfold sha2_step. cbv zeta. split.
  - exists a, b, c, d, e, f, g, h, (rotations v (Sigma1 v) e), (rotations v (Sigma0 v) a), (choose v e f g), (agree a b c). eexists _, _.
    split; [reflexivity|]. split; [apply rotations_ok; assumption|]. split; [apply choose_ok; assumption|]. split; [reflexivity|].
    split; [apply rotations_ok; assumption|]. split; [apply agree_ok; assumption|]. split; [reflexivity|]. reflexivity.
  - split; [reflexivity|]. cbn [listed]. repeat constructor; try assumption; apply wrap_small.
Qed.
Lemma sha2_block_ok block s : oct s -> length block = (16 * word_bytes v)%nat -> Forall byte block -> exists W,
  (forall j, (j < 16)%nat -> W j = nth j (map word_be (chunks (word_bytes v) block)) 0) /\ scheduled w (rounds v) (sigma0 v) (sigma1 v) W /\
  sha2_compressed w (rounds v) (constants v) (Sigma0 v) (Sigma1 v) W s (sha2_block v s block) /\ oct (sha2_block v s block).
Proof.
  intros Hs Lb Fb.
  assert (Lc : length (chunks (word_bytes v) block) = 16%nat) by (apply chunks_length; lia).
  assert (Fc : Forall word_small (map word_be (chunks (word_bytes v) block))).
  { apply Forall_map, Forall_forall. intros l Hl. apply (In_nth _ _ []) in Hl. destruct Hl as (k & Hk & <-). rewrite Lc in Hk.
    rewrite (chunks_nth (word_bytes v) 16) by lia. set (part := firstn _ _). assert (Lp : length part = word_bytes v) by (apply (part_length _ 16); lia).
    unfold word_small. replace (2 ^ w) with (256 ^ N.of_nat (length part)). { apply word_be_bound. apply Forall_part, Fb. }
    rewrite Lp, Hw, N.pow_mul_r. reflexivity. }
  destruct (schedule_ok _ (rounds v - 16) (eq_trans (map_length _ _) Lc) Fc) as (LW & FW & PW & RW). fold (schedule v block) in *.
  exists (fun j => nth j (schedule v block) 0). split; [exact PW|]. split; [intros t Ht; apply RW; lia|].
  destruct Hs as [Ls Fs]. do 8 (destruct s as [|? s]; [discriminate Ls|]). destruct s; [|discriminate Ls]. clear Ls.
  set (St := fun t => fold_left (sha2_step v (schedule v block)) (seq 0 t) (n, n0, n1, n2, n3, n4, n5, n6)).
  assert (Hg : forall t, oct (listed (St t))).
  { induction t as [|t IH]; [split; [reflexivity|exact Fs]|]. unfold St. rewrite seq_S, fold_left_app. cbn [fold_left Nat.add]. apply sha2_step_ok. exact IH. }
  assert (E : sha2_block v [n; n0; n1; n2; n3; n4; n5; n6] block = map (fun xy => wrap w (fst xy + snd xy)) (combine [n; n0; n1; n2; n3; n4; n5; n6] (listed (St (rounds v))))).
  { unfold sha2_block. fold (St (rounds v)). destruct (St (rounds v)) as [[[[[[[a b] c] d] e] f] g] h]. reflexivity. }
  rewrite E. pose proof (Hg (rounds v)) as [Lr Fr]. split.
  - exists (fun t => listed (St t)). split; [reflexivity|]. split.
    + intros t Ht. unfold St at 2. rewrite Nat.add_1_r, seq_S, fold_left_app. cbn [fold_left Nat.add]. apply sha2_step_ok, Hg.
    + destruct (St (rounds v)) as [[[[[[[a b] c] d] e] f] g] h]. split; [reflexivity|]. intros k Hk. cbn [listed combine map fst snd]. do 8 (destruct k as [|k]; [reflexivity|]). lia.
  - destruct (St (rounds v)) as [[[[[[[a b] c] d] e] f] g] h]. split; [reflexivity|]. cbn [listed combine map fst snd]. repeat constructor; apply wrap_small.
Qed.
Lemma flat_bytes (l : list N) k i : (k < length l)%nat -> (i < word_bytes v)%nat ->
  nth (word_bytes v * k + i) (flat_map (bytes_be (word_bytes v)) l) 0 = nth i (bytes_be (word_bytes v) (nth k l 0)) 0.
Proof.
  revert k. induction l as [|x l IH]; intros k Hk Hi; [cbn in Hk; lia|]. cbn [flat_map]. destruct k as [|k].
  - rewrite Nat.mul_0_r, app_nth1 by (rewrite bytes_be_length; lia). reflexivity.
  - rewrite app_nth2 by (rewrite bytes_be_length; lia). rewrite bytes_be_length. replace (word_bytes v * S k + i - word_bytes v)%nat with (word_bytes v * k + i)%nat by lia. apply IH; [cbn in Hk; lia|exact Hi].
Qed.
Lemma flat_length (l : list N) : length (flat_map (bytes_be (word_bytes v)) l) = (length l * word_bytes v)%nat /\ Forall byte (flat_map (bytes_be (word_bytes v)) l).
Proof.
  induction l as [|x l [L F]]; [split; [reflexivity|constructor]|]. cbn [flat_map length]. rewrite app_length, bytes_be_length, L. split; [lia|]. apply Forall_app. split; [apply bytes_be_byte|exact F].
Qed.
Lemma sha2_ok b : Forall byte b ->
  is_sha2 w (word_bytes v) (rounds v) (constants v) (start v) (Sigma0 v) (Sigma1 v) (sigma0 v) (sigma1 v) b (sha2_digest v b).
Proof.
  intros Hb. set (B := (16 * word_bytes v)%nat). set (p := b ++ padding B (2 * word_bytes v) bytes_be (length b)).
  assert (Hp : padded B (2 * word_bytes v) word_high_first b p) by (apply padding_be; unfold B; lia).
  assert (Fp : Forall byte p) by (apply (padded_bytes _ _ _ _ _ Hp Hb)).
  assert (Lp : length p = (B * (length p / B))%nat). { destruct Hp as (z & len & _ & _ & M & _). pose proof (Nat.div_mod (length p) B ltac:(unfold B; lia)). lia. }
  assert (Lc : length (chunks B p) = (length p / B)%nat) by (apply chunks_length; [unfold B; lia|exact Lp]).
  set (H := fun k => fold_left (sha2_block v) (firstn k (chunks B p)) (start v)).
  assert (Hblock : forall k, (k < length p / B)%nat -> length (nth k (chunks B p) []) = B /\ Forall byte (nth k (chunks B p) [])).
  { intros k Hk. rewrite (chunks_nth B (length p / B)) by (assumption || (unfold B; lia)). split; [apply (part_length B (length p / B)); assumption|apply Forall_part, Fp]. }
  assert (Hn : forall k, (k < length p / B)%nat -> H (k + 1)%nat = sha2_block v (H k) (nth k (chunks B p) [])).
  { intros k Hk. unfold H. rewrite Nat.add_1_r, (firstn_S_nth []) by (rewrite Lc; exact Hk). rewrite fold_left_app. reflexivity. }
  assert (Hg : forall k, (k <= length p / B)%nat -> oct (H k)).
  { induction k as [|k IH]; intros Hk; [split; [exact Hstart|exact Hstart_small]|]. rewrite <- Nat.add_1_r, Hn by lia. destruct (Hblock k ltac:(lia)) as [L F].
    destruct (sha2_block_ok _ (H k) (IH ltac:(lia)) L F) as (W & _ & _ & _ & O). exact O. }
  exists p, H. split; [exact Hp|]. split; [reflexivity|]. split.
  - intros k Hk. fold B in Hk. destruct (Hblock k Hk) as [L F]. destruct (sha2_block_ok _ (H k) (Hg k ltac:(lia)) L F) as (W & HW & HS & HC & _). exists W.
    rewrite Hn by exact Hk. split; [|split; assumption]. intros j Hj. rewrite HW by exact Hj. apply (words_read (word_bytes v) p (length p / B) k j); assumption.
  - fold B. assert (Ed : sha2_digest v b = flat_map (bytes_be (word_bytes v)) (H (length p / B)%nat)).
    { unfold sha2_digest. fold B p. f_equal. unfold H. rewrite firstn_all2 by lia. reflexivity. }
    rewrite Ed. destruct (Hg (length p / B)%nat (Nat.le_refl _)) as [L8 F8]. destruct (flat_length (H (length p / B)%nat)) as [LL FF]. rewrite L8 in LL. split; [exact LL|]. split; [exact FF|].
    intros k Hk. split; [replace (256 ^ N.of_nat (word_bytes v)) with (2 ^ w) by (rewrite Hw, N.pow_mul_r; reflexivity); apply nth_small, F8|].
    intros i Hi. rewrite flat_bytes by lia. apply bytes_be_nth, Hi.
Qed.
End Sha2.
Lemma sha256_ok b : Forall byte b -> is_sha2 32 4 64 (constants sha256_v) (start sha256_v) (2, 13, 22) (6, 11, 25) (7, 18, 3) (17, 19, 10) b (sha256 b).
Proof. apply (sha2_ok sha256_v); try reflexivity; cbn; try lia; repeat constructor; lia. Qed.
Lemma sha512_ok b : Forall byte b -> is_sha2 64 8 80 (constants sha512_v) (start sha512_v) (28, 34, 39) (14, 18, 41) (1, 8, 7) (19, 61, 6) b (sha512 b).
Proof. apply (sha2_ok sha512_v); try reflexivity; cbn; try lia; repeat constructor; lia. Qed.
