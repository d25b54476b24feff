(** The sequence bit by bit; a generator is known from its numbers. *)
From Coq Require Import QArith Btauto Lia.
From Verif Require Import Base BaseFacts LevModel PairwiseModel DigestModel DigestSpec DigestProofs RandomModel RandomSpec RandomProofs.
Open Scope N_scope.
Open Scope list_scope.
Notation length := List.length.

Lemma mixed_bits u l f i : word l -> N.testbit (mixed u l f) i =
  xorb (N.testbit f i) (xorb (if i =? 30 then N.testbit u 31 else if i <? 30 then N.testbit l (i + 1) else false) (N.testbit l 0 && N.testbit row_a i)).
Proof.
  intros Hl. unfold mixed. set (y := N.lor _ _).
  assert (Y : forall j, N.testbit y j = if j =? 31 then N.testbit u 31 else if j <? 31 then N.testbit l j else false).
  { intros j. unfold y. rewrite N.lor_spec, !N.land_spec. change UPPER_MASK with (2 ^ 31). change LOWER_MASK with (N.ones 31).
    destruct (N.eqb_spec j 31) as [->|Hj]; [rewrite N.pow2_bits_true, N.ones_spec_high by lia; btauto|]. rewrite N.pow2_bits_false by congruence.
    destruct (N.ltb_spec j 31); [rewrite N.ones_spec_low by assumption|rewrite N.ones_spec_high by assumption]; btauto. }
  rewrite !N.lxor_spec, N.shiftr_spec by lia. rewrite <- N.bit0_odd, (Y 0). change (0 =? 31) with false. change (0 <? 31) with true. cbv iota.
  rewrite Y. replace (i + 1 =? 31) with (i =? 30) by (destruct (N.eqb_spec i 30), (N.eqb_spec (i + 1) 31); lia || reflexivity).
  replace (i + 1 <? 31) with (i <? 30) by (destruct (N.ltb_spec i 30), (N.ltb_spec (i + 1) 31); lia || reflexivity).
  rewrite xorb_assoc. f_equal. f_equal. destruct (N.testbit l 0); [reflexivity|apply N.bits_0].
Qed.
Lemma mixed_inj u l u' l' f : word l -> word l' -> mixed u l f = mixed u' l' f ->
  N.testbit u 31 = N.testbit u' 31 /\ forall i, i < 31 -> N.testbit l i = N.testbit l' i.
Proof.
  intros Hl Hl' E. assert (B : forall i, N.testbit (mixed u l f) i = N.testbit (mixed u' l' f) i) by (intros i; rewrite E; reflexivity).
  assert (B0 : N.testbit l 0 = N.testbit l' 0).
  { specialize (B 31). rewrite !mixed_bits in B by assumption. change (31 =? 30) with false in B. change (31 <? 30) with false in B. cbv iota in B.
    change (N.testbit row_a 31) with true in B. rewrite !andb_true_r, !xorb_false_l in B. destruct (N.testbit f 31), (N.testbit l 0), (N.testbit l' 0); cbn in B; congruence. }
  split.
  - specialize (B 30). rewrite !mixed_bits in B by assumption. rewrite B0 in B. change (30 =? 30) with true in B. cbv iota in B.
    destruct (N.testbit f 30), (N.testbit u 31), (N.testbit u' 31), (N.testbit l' 0 && N.testbit row_a 30); cbn in B; congruence.
  - intros i Hi. destruct (N.eq_dec i 0) as [->|Hz]; [exact B0|]. specialize (B (i - 1)). rewrite !mixed_bits in B by assumption. rewrite B0 in B.
    rewrite (proj2 (N.eqb_neq (i - 1) 30)), (proj2 (N.ltb_lt (i - 1) 30)) in B by lia. replace (i - 1 + 1) with i in B by lia.
    destruct (N.testbit f (i - 1)), (N.testbit l i), (N.testbit l' i), (N.testbit l' 0 && N.testbit row_a (i - 1)); cbn in B; congruence.
Qed.

(** tempering *)
Definition right_mix (s y : N) : N := N.lxor y (N.shiftr y s).
Definition left_mix (s m y : N) : N := N.lxor y (N.land (uint32 (N.shiftl y s)) m).
Lemma temper_steps y : temper y = right_mix 18 (left_mix 15 mask_c (left_mix 7 mask_b (right_mix 11 y))).
Proof. reflexivity. Qed.
Lemma right_bits s y i : N.testbit (right_mix s y) i = xorb (N.testbit y i) (N.testbit y (i + s)).
Proof. unfold right_mix. rewrite N.lxor_spec, N.shiftr_spec by lia. reflexivity. Qed.
Lemma left_bits s m y i : word m -> N.testbit (left_mix s m y) i = xorb (N.testbit y i) ((s <=? i) && N.testbit y (i - s) && N.testbit m i).
Proof.
  intros Hm. unfold left_mix, uint32. rewrite N.lxor_spec, N.land_spec, <- N.land_ones, N.land_spec. f_equal.
  destruct (N.lt_ge_cases i 32) as [L|L]; [|rewrite (proj1 (word_bits m) Hm i L), !andb_false_r; reflexivity].
  rewrite N.ones_spec_low, andb_true_r by exact L. destruct (N.leb_spec s i) as [Q|Q]; [rewrite N.shiftl_spec_high' by exact Q|rewrite N.shiftl_spec_low by exact Q]; reflexivity.
Qed.
Lemma temper_spec y : tempered y (temper y).
Proof.
  exists (right_mix 11 y), (left_mix 7 mask_b (right_mix 11 y)), (left_mix 15 mask_c (left_mix 7 mask_b (right_mix 11 y))). intros i.
  rewrite temper_steps. rewrite !right_bits, !left_bits, !right_bits by reflexivity. auto.
Qed.
Lemma right_inj s y z : 0 < s -> right_mix s y = right_mix s z -> y = z.
Proof.
  intros Hs E. apply N.lxor_eq. set (d := N.lxor y z).
  assert (D : d = N.shiftr d s).
  { apply N.bits_inj. intros i. assert (B : N.testbit (right_mix s y) i = N.testbit (right_mix s z) i) by (rewrite E; reflexivity). rewrite !right_bits in B.
    unfold d. rewrite N.shiftr_spec, !N.lxor_spec by lia. destruct (N.testbit y i), (N.testbit z i), (N.testbit y (i + s)), (N.testbit z (i + s)); cbn in B |- *; congruence. }
  destruct (N.eq_dec d 0) as [Z|Z]; [exact Z|]. exfalso. rewrite N.shiftr_div_pow2 in D. assert (d / 2 ^ s < d); [|lia]. apply N.div_lt; [lia|]. apply N.pow_gt_1; lia.
Qed.
Lemma left_inj s m y z : 0 < s -> word m -> left_mix s m y = left_mix s m z -> y = z.
Proof.
  intros Hs Hm E. apply N.bits_inj. intros i. induction i as [i IH] using (well_founded_induction N.lt_wf_0).
  assert (B : N.testbit (left_mix s m y) i = N.testbit (left_mix s m z) i) by (rewrite E; reflexivity). rewrite !left_bits in B by exact Hm.
  destruct (N.leb_spec s i) as [Q|Q]; [|cbn in B; rewrite !xorb_false_r in B; exact B]. rewrite (IH (i - s)) in B by lia.
  destruct (N.testbit y i), (N.testbit z i), (true && N.testbit z (i - s) && N.testbit m i); cbn in B; congruence.
Qed.
Lemma temper_inj y z : temper y = temper z -> y = z.
Proof.
  rewrite !temper_steps. intros E. apply right_inj in E; [|lia]. apply left_inj in E; [|lia|reflexivity]. apply left_inj in E; [|lia|reflexivity]. apply right_inj in E; [exact E|lia].
Qed.
Lemma word_right s y : word y -> word (right_mix s y).
Proof. rewrite !word_bits. intros H i Hi. rewrite right_bits, !H by lia. reflexivity. Qed.
Lemma word_left s m y : word m -> word y -> word (left_mix s m y).
Proof. intros Hm. rewrite !word_bits. intros H i Hi. rewrite left_bits, H by (exact Hm || exact Hi). rewrite (proj1 (word_bits m) Hm i Hi), andb_false_r. reflexivity. Qed.
Lemma word_temper y : word y -> word (temper y).
Proof. intros H. rewrite temper_steps. apply word_right, word_left; [reflexivity|]. apply word_left; [reflexivity|]. apply word_right, H. Qed.

Lemma sizes_values : (SIZE = 624 /\ SHIFT = 397)%nat.
Proof. split; reflexivity. Qed.
(** two sequences *)
Section Two.
Variables x y : nat -> N.
Hypothesis Wx : forall k, word (x k).
Hypothesis Wy : forall k, word (y k).
Hypothesis Rx : forall k, x (k + SIZE)%nat = mixed (x k) (x (k + 1)%nat) (x (k + SHIFT)%nat).
Hypothesis Ry : forall k, y (k + SIZE)%nat = mixed (y k) (y (k + 1)%nat) (y (k + SHIFT)%nat).
Lemma agree_later n : (forall k, n <= k < n + SIZE -> x k = y k)%nat -> forall k, (n <= k)%nat -> x k = y k.
Proof.
  intros H k. pose proof sizes as Hs. induction k as [k IH] using lt_wf_ind. intros Hk. destruct (Nat.lt_ge_cases k (n + SIZE)) as [L|L]; [apply H; lia|].
  replace k with (k - SIZE + SIZE)%nat by lia. rewrite Rx, Ry, !IH by lia. reflexivity.
Qed.
Lemma agree_before n : (2 <= n)%nat -> (forall k, (n <= k)%nat -> x k = y k) -> forall k, (n - 1 <= k)%nat -> x k = y k.
Proof.
  intros Hn H k Hk. pose proof sizes as Hs. destruct (Nat.eq_dec k (n - 1)) as [->|]; [|apply H; lia].
  pose proof (Rx (n - 2)) as X1. pose proof (Ry (n - 2)) as Y1. rewrite (H (n - 2 + SIZE)%nat), (H (n - 2 + SHIFT)%nat), Y1 in X1 by lia. replace (n - 2 + 1)%nat with (n - 1)%nat in X1 by lia.
  apply mixed_inj in X1 as [_ X1]; [|apply Wy|apply Wx].
  pose proof (Rx (n - 1)) as X2. pose proof (Ry (n - 1)) as Y2. rewrite (H (n - 1 + SIZE)%nat), (H (n - 1 + SHIFT)%nat), Y2 in X2 by lia. apply mixed_inj in X2 as [X2 _]; [|apply Wy|apply Wx].
  apply N.bits_inj. intros i. destruct (N.lt_ge_cases i 32) as [L|L].
  - destruct (N.eq_dec i 31) as [->|]; [symmetry; exact X2|]. symmetry. apply X1. lia.
  - rewrite (proj1 (word_bits _) (Wx (n - 1)) i L), (proj1 (word_bits _) (Wy (n - 1)) i L). reflexivity.
Qed.
Lemma agree_all n : (forall k, n <= k < n + SIZE -> x k = y k)%nat -> forall k, (1 <= k)%nat -> x k = y k.
Proof.
  intros H. pose proof (agree_later n H) as L. clear H.
  assert (G : forall m, (m <= n - 1)%nat -> forall k, (n - m <= k)%nat -> x k = y k).
  { induction m as [|m IH]; intros Hm k Hk; [apply L; lia|]. apply (agree_before (n - m)); [lia|apply IH; lia|lia]. }
  intros k Hk. destruct (Nat.le_gt_cases n 1) as [Q|Q]; [apply L; lia|]. apply (G (n - 1)%nat); lia.
Qed.
End Two.

(** ** Seeds *)
Definition agree (mt mt' : list N) : Prop := forall i, (1 <= i)%nat -> at_ mt i = at_ mt' i.
Lemma uint32_add_inj a b c : word a -> word b -> uint32 (a + c) = uint32 (b + c) -> a = b.
Proof.
  unfold uint32, word. intros Ha Hb E. change (2 ^ 32) with 4294967296 in *.
  pose proof (N.div_mod (a + c) 4294967296 ltac:(lia)). pose proof (N.div_mod (b + c) 4294967296 ltac:(lia)).
  set (p := (a + c) / 4294967296) in *. set (q := (b + c) / 4294967296) in *. lia.
Qed.
Lemma wrapped_agree mt mt' i : length mt = SIZE -> length mt' = SIZE -> agree (fst (wrapped mt i)) (fst (wrapped mt' i)) -> agree mt mt'.
Proof.
  intros L L' H j Hj. specialize (H j Hj). unfold wrapped in H. pose proof sizes. destruct (Nat.leb SIZE i); [|exact H]. cbn [fst] in H.
  rewrite !at_upd in H by lia. destruct (Nat.eqb_spec j 0); [lia|exact H].
Qed.
Definition cyclic (mt : list N) (i : nat) : Prop := (2 <= i)%nat \/ (i = 1%nat /\ at_ mt 0 = at_ mt (SIZE - 1)).
Lemma second_inj turns : forall i mt mt', valid_words mt -> valid_words mt' -> (i < SIZE)%nat -> cyclic mt i -> cyclic mt' i ->
  agree (second_loop turns i mt) (second_loop turns i mt') -> agree mt mt'.
Proof.
  induction turns as [|turns IH]; intros i mt mt' V V' Hi C C' H; cbn [second_loop] in H; [exact H|]. pose proof sizes as Hs.
  set (n1 := upd mt i _) in H. set (n2 := upd mt' i _) in H.
  assert (V1 : valid_words n1) by (apply valid_upd; [exact V|apply word_uint32]). assert (V2 : valid_words n2) by (apply valid_upd; [exact V'|apply word_uint32]).
  assert (Es : snd (wrapped n1 (S i)) = snd (wrapped n2 (S i))) by (unfold wrapped; destruct (Nat.leb SIZE (S i)); reflexivity).
  assert (Cw : forall n, length n = SIZE -> (snd (wrapped n (S i)) < SIZE)%nat /\ cyclic (fst (wrapped n (S i))) (snd (wrapped n (S i)))).
  { intros n Ln. unfold wrapped, cyclic. destruct (Nat.leb_spec SIZE (S i)) as [Q|Q]; cbn [fst snd]; [|split; [lia|left; destruct C as [C|[C _]]; lia]].
    split; [lia|right]. split; [reflexivity|]. rewrite !at_upd by lia. destruct (Nat.eqb_spec (SIZE - 1) 0); [lia|reflexivity]. }
  pose proof (wrapped_valid n1 (S i) V1) as W1. pose proof (wrapped_valid n2 (S i) V2) as W2.
  destruct (Cw n1 (proj1 V1)) as [B1 C1]. destruct (Cw n2 (proj1 V2)) as [B2 C2].
  pose proof (wrapped_agree n1 n2 (S i) (proj1 V1) (proj1 V2)) as WA.
  destruct (wrapped n1 (S i)) as [w1 i1], (wrapped n2 (S i)) as [w2 i2]. cbn [fst snd] in *. subst i2.
  specialize (WA (IH i1 w1 w2 W1 W2 B1 C1 C2 H)).
  assert (O : forall j, (1 <= j)%nat -> j <> i -> at_ mt j = at_ mt' j).
  { intros j Hj Hji. specialize (WA j Hj). unfold n1, n2 in WA. rewrite !at_upd in WA by (rewrite ?(proj1 V), ?(proj1 V'); exact Hi). destruct (Nat.eqb_spec j i); [contradiction|exact WA]. }
  assert (P : at_ mt (i - 1) = at_ mt' (i - 1)).
  { destruct C as [C|[C Z]]; [apply O; lia|]. destruct C' as [C'|[_ Z']]; [lia|]. subst i. change (1 - 1)%nat with 0%nat. rewrite Z, Z'. apply O; lia. }
  intros j Hj. destruct (Nat.eq_dec j i) as [->|Hji]; [|apply O; assumption].
  specialize (WA i Hj). unfold n1, n2 in WA. rewrite !at_upd, Nat.eqb_refl in WA by (rewrite ?(proj1 V), ?(proj1 V'); exact Hi).
  unfold scrambled in WA. rewrite P in WA.
  assert (Wx : forall m, valid_words m -> word (N.lxor (at_ m i) (uint32 (N.lxor (at_ mt' (i - 1)) (N.shiftr (at_ mt' (i - 1)) 30) * 1566083941)))) by (intros m Vm; apply word_lxor; [apply valid_at; exact Vm|apply word_uint32]).
  apply uint32_add_inj in WA; [|apply Wx; assumption..]. apply lxor_cancel in WA. exact WA.
Qed.
(** the words 2 and 3 after the first loop *)
Lemma first_keeps turns key : forall i j mt p, valid_words mt -> (2 <= p)%nat -> (p < i /\ i < SIZE /\ turns <= SIZE - i + 1 \/ i = 1 /\ turns <= 1)%nat ->
  at_ (fst (first_loop turns key i j mt)) p = at_ mt p.
Proof.
  induction turns as [|turns IH]; intros i j mt p V Hp H; cbn [first_loop]; [reflexivity|]. pose proof sizes as Hs.
  set (n := upd mt i _). assert (Vn : valid_words n) by (apply valid_upd; [exact V|apply word_uint32]).
  assert (E : at_ n p = at_ mt p) by (unfold n; rewrite at_upd by (rewrite (proj1 V); lia); destruct (Nat.eqb_spec p i); [lia|reflexivity]).
  pose proof (wrapped_valid n (S i) Vn) as Wn. unfold wrapped in *. destruct (Nat.leb_spec SIZE (S i)) as [Q|Q]; cbn [fst] in Wn.
  - rewrite IH; [|exact Wn|exact Hp|]. { rewrite at_upd by (rewrite (proj1 Vn); lia). destruct (Nat.eqb_spec p 0); [lia|exact E]. }
    destruct H as [(H1 & H2 & H3)|[H1 H2]]; [right; lia|]. lia.
  - destruct H as [(H1 & H2 & H3)|[H1 H2]]; [rewrite IH; [exact E|exact Wn|exact Hp|left; lia]|].
    assert (turns = 0%nat) by lia. subst turns. exact E.
Qed.
Lemma first_three a : exists mt2, let out := fst (first_loop SIZE [a] 1 0 (init_genrand 19650218)) in
  snd (first_loop SIZE [a] 1 0 (init_genrand 19650218)) = 2%nat /\
  at_ out 2 = at_ mt2 2 /\ at_ mt2 3 = at_ (init_genrand 19650218) 3 /\ at_ out 3 = uint32 (scrambled mt2 3 1664525 + a + 0).
Proof.
  pose proof sizes as Hs. set (m0 := init_genrand 19650218). pose proof (init_genrand_valid 19650218) as V0. fold m0 in V0.
  assert (Ei : forall turns i j mt, (i < SIZE)%nat -> (SIZE - i < turns /\ turns <= SIZE)%nat -> (S (turns - (SIZE - i)) < SIZE)%nat -> snd (first_loop turns [a] i j mt) = S (turns - (SIZE - i))).
  { assert (E1 : forall turns i j mt, (i + turns < SIZE)%nat -> snd (first_loop turns [a] i j mt) = (i + turns)%nat).
    { induction turns as [|turns IH]; intros i j mt H; cbn [first_loop]; [cbn; lia|]. unfold wrapped. destruct (Nat.leb_spec SIZE (S i)); [lia|]. rewrite IH; lia. }
    induction turns as [|turns IH]; intros i j mt H1 H2 H3; [lia|]. cbn [first_loop]. unfold wrapped. destruct (Nat.leb_spec SIZE (S i)) as [Q|Q].
    - rewrite E1; lia.
    - rewrite IH; lia. }
  assert (E3 : exists n, SIZE = S (S (S n))) by (exists (SIZE - 3)%nat; lia). destruct E3 as [n En].
  assert (T : forall mt, first_loop SIZE [a] 1 0 mt =
    let mt1 := upd mt 1 (uint32 (scrambled mt 1 1664525 + a + 0)) in let mt2 := upd mt1 2 (uint32 (scrambled mt1 2 1664525 + a + 0)) in
    first_loop n [a] 4 0 (upd mt2 3 (uint32 (scrambled mt2 3 1664525 + a + 0)))).
  { intros mt. rewrite En at 1. cbn [first_loop]. unfold wrapped at 1. destruct (Nat.leb_spec SIZE 2); [lia|]. cbn [length Nat.leb].
    unfold wrapped at 1. destruct (Nat.leb_spec SIZE 3); [lia|]. unfold wrapped at 1. destruct (Nat.leb_spec SIZE 4); [lia|]. reflexivity. }
  set (mt1 := upd m0 1 (uint32 (scrambled m0 1 1664525 + a + 0))). set (mt2 := upd mt1 2 (uint32 (scrambled mt1 2 1664525 + a + 0))).
  set (mt3 := upd mt2 3 (uint32 (scrambled mt2 3 1664525 + a + 0))).
  assert (V1 : valid_words mt1) by (apply valid_upd; [exact V0|apply word_uint32]). assert (V2 : valid_words mt2) by (apply valid_upd; [exact V1|apply word_uint32]).
  assert (V3 : valid_words mt3) by (apply valid_upd; [exact V2|apply word_uint32]).
  exists mt2. cbv zeta. split; [rewrite Ei by lia; lia|]. rewrite (T m0). cbv zeta. fold mt1. fold mt2. fold mt3.
  rewrite !first_keeps by (exact V3 || lia). unfold mt3. rewrite !at_upd by (rewrite (proj1 V2); lia). cbn [Nat.eqb]. split; [reflexivity|]. split; [|reflexivity].
  unfold mt2. rewrite at_upd by (rewrite (proj1 V1); lia). cbn [Nat.eqb]. unfold mt1. rewrite at_upd by (rewrite (proj1 V0); lia). reflexivity.
Qed.
Lemma init_inj a b : word a -> word b -> agree (words (init_by_array [a])) (words (init_by_array [b])) -> a = b.
Proof.
  intros Wa Wb H. pose proof sizes as Hs. unfold init_by_array in H. cbn [length] in H. replace (Nat.max SIZE 1) with SIZE in H by lia.
  destruct (first_three a) as (ma & A0 & A1 & A2 & A3). destruct (first_three b) as (mb & B0 & B1 & B2 & B3).
  pose proof (first_valid SIZE [a] 1 0 _ (init_genrand_valid 19650218)) as Va. pose proof (first_valid SIZE [b] 1 0 _ (init_genrand_valid 19650218)) as Vb.
  destruct (first_loop SIZE [a] 1 0 _) as [oa ia], (first_loop SIZE [b] 1 0 _) as [ob ib]. cbn [fst snd] in *. subst ia ib. cbn [words] in H.
  assert (AG : agree oa ob).
  { apply (second_inj (SIZE - 1) 2); [exact Va|exact Vb|lia|left; lia|left; lia|]. intros i Hi. specialize (H i Hi).
    rewrite !at_upd in H by (rewrite ?(proj1 (second_valid (SIZE - 1) 2 oa Va)), ?(proj1 (second_valid (SIZE - 1) 2 ob Vb)); lia). destruct (Nat.eqb_spec i 0); [lia|exact H]. }
  pose proof (AG 2%nat ltac:(lia)) as G2. pose proof (AG 3%nat ltac:(lia)) as G3. rewrite A1, B1 in G2. rewrite A3, B3 in G3.
  unfold scrambled in G3. change (3 - 1)%nat with 2%nat in G3. rewrite A2, B2, G2 in G3. set (c := N.lxor _ _) in G3.
  rewrite !N.add_0_r, !(N.add_comm c) in G3. exact (uint32_add_inj a b c Wa Wb G3).
Qed.
Lemma seed_word a : word a -> seed (Z.of_N a) = init_by_array [a].
Proof.
  intros W. unfold seed. rewrite N2Z.id || idtac. replace (Z.abs_N (Z.of_N a)) with a by lia. f_equal.
  destruct (N.eqb_spec (N.size a) 0) as [E|E]; [cbn [key_of]; rewrite N.mod_small by exact W; reflexivity|].
  assert (Q : (N.size a - 1) / 32 = 0).
  { apply N.div_small. assert (a <> 0) by (intros ->; apply E; reflexivity). rewrite N.size_log2 by assumption. assert (N.log2 a < 32) by (apply N.log2_lt_pow2; [lia|exact W]). lia. }
  rewrite Q. change (N.to_nat (0 + 1)) with 1%nat. cbn [key_of]. rewrite N.mod_small by exact W. reflexivity.
Qed.
