(** Lemmas on the generator. *)
From Coq Require Import QArith Btauto Lia.
From Verif Require Import Base BaseFacts LevModel PairwiseModel DigestModel DigestSpec DigestProofs RandomModel RandomSpec.
Open Scope N_scope.
Open Scope list_scope.
Notation length := List.length.

Lemma sizes : (4 <= SHIFT /\ SHIFT + 4 < SIZE)%nat.
Proof. unfold SHIFT, SIZE. lia. Qed.
Global Opaque SIZE SHIFT.

(** lists *)
Lemma upd_len {A} (l : list A) i x : length (upd l i x) = length l.
Proof. revert i. induction l as [|a l IH]; intros [|i]; cbn; auto. Qed.
Lemma at_upd l i j x : (i < length l)%nat -> at_ (upd l i x) j = if Nat.eqb j i then x else at_ l j.
Proof.
  unfold at_. revert i j. induction l as [|a l IH]; intros i j H; [cbn in H; lia|]. destruct i as [|i], j as [|j]; cbn [upd nth Nat.eqb]; try reflexivity. apply IH. cbn in H. lia.
Qed.
Definition valid_words (mt : list N) : Prop := length mt = SIZE /\ Forall word mt.
Lemma valid_at mt i : valid_words mt -> word (at_ mt i).
Proof. intros [_ H]. unfold at_. destruct (nth_in_or_default i mt 0) as [I|E]; [rewrite Forall_forall in H; auto|rewrite E; reflexivity]. Qed.
Lemma valid_upd mt i x : valid_words mt -> word x -> valid_words (upd mt i x).
Proof.
  intros [L H] W. split; [rewrite upd_len; exact L|]. clear L. revert i. induction H as [|a l Ha Hl IH]; intros [|i]; cbn; constructor; auto.
Qed.
Lemma word_uint32 x : word (uint32 x).
Proof. apply N.mod_lt. discriminate. Qed.

(** ** Seeding *)
Lemma genrand_words_ok turns : forall i p, length (genrand_words turns i p) = turns /\ Forall word (genrand_words turns i p).
Proof.
  induction turns as [|turns IH]; intros i p; cbn [genrand_words length]; [auto|]. set (w := uint32 _). destruct (IH (i + 1) w) as [L F]. split; [lia|]. constructor; [apply word_uint32|exact F].
Qed.
Lemma init_genrand_valid s : valid_words (init_genrand s).
Proof.
  unfold init_genrand. destruct (genrand_words_ok (SIZE - 1) 1 (uint32 s)) as [L F]. split; [cbn [length]; pose proof sizes; lia|]. constructor; [apply word_uint32|exact F].
Qed.
Lemma wrapped_valid mt i : valid_words mt -> valid_words (fst (wrapped mt i)).
Proof. intros H. unfold wrapped. destruct (Nat.leb SIZE i); [|exact H]. cbn. apply valid_upd; [exact H|apply valid_at; exact H]. Qed.
Lemma first_valid turns key : forall i j mt, valid_words mt -> valid_words (fst (first_loop turns key i j mt)).
Proof.
  induction turns as [|turns IH]; intros i j mt H; cbn [first_loop]; [exact H|].
  pose proof (wrapped_valid (upd mt i (uint32 (scrambled mt i 1664525 + nth j key 0 + N.of_nat j))) (S i) (valid_upd _ _ _ H (word_uint32 _))) as W.
  destruct (wrapped _ (S i)) as [mt' i']. apply IH. exact W.
Qed.
Lemma second_valid turns : forall i mt, valid_words mt -> valid_words (second_loop turns i mt).
Proof.
  induction turns as [|turns IH]; intros i mt H; cbn [second_loop]; [exact H|].
  pose proof (wrapped_valid (upd mt i (uint32 (scrambled mt i 1566083941 + (2 ^ 32 - N.of_nat i)))) (S i) (valid_upd _ _ _ H (word_uint32 _))) as W.
  destruct (wrapped _ (S i)) as [mt' i']. apply IH. exact W.
Qed.
Definition ready (g : rng) : Prop := valid_words (words g) /\ position g = SIZE.
Lemma init_by_array_ready key : ready (init_by_array key) /\ at_ (words (init_by_array key)) 0 = 2 ^ 31.
Proof.
  unfold init_by_array. pose proof (first_valid (Nat.max SIZE (length key)) key 1 0 _ (init_genrand_valid 19650218)) as V.
  destruct (first_loop _ key 1 0 _) as [mt i]. cbn [fst] in V. cbn [words]. pose proof (second_valid (SIZE - 1) i mt V) as V2. split.
  - split; [apply valid_upd; [exact V2|reflexivity]|reflexivity].
  - rewrite at_upd, Nat.eqb_refl; [reflexivity|]. rewrite (proj1 V2). pose proof sizes. lia.
Qed.

(** ** The generation of words *)
Definition mixed (u l f : N) : N :=
  let y := N.lor (N.land u UPPER_MASK) (N.land l LOWER_MASK) in N.lxor (N.lxor f (N.shiftr y 1)) (if N.odd y then MATRIX_A else 0).
Definition partly (mt0 mt : list N) (k : nat) : Prop :=
  length mt = SIZE /\ (forall i, (k <= i)%nat -> at_ mt i = at_ mt0 i) /\
  forall i, (i < k)%nat -> at_ mt i = mixed (at_ mt0 i) (if Nat.eqb (i + 1) SIZE then at_ mt 0 else at_ mt0 (i + 1))
    (if Nat.ltb (i + SHIFT) SIZE then at_ mt0 (i + SHIFT) else at_ mt (i + SHIFT - SIZE)).
Lemma partly_step mt0 mt k next far : partly mt0 mt k -> (k < SIZE)%nat ->
  (if Nat.eqb (k + 1) SIZE then next = 0%nat else next = k + 1)%nat ->
  (if Nat.ltb (k + SHIFT) SIZE then far = k + SHIFT else far = k + SHIFT - SIZE)%nat -> partly mt0 (twist_at mt k next far) (S k).
Proof.
  intros (L & H1 & H2) Hk Hn Hf. pose proof sizes as Hs.
  assert (U : forall i, at_ (twist_at mt k next far) i = if Nat.eqb i k then mixed (at_ mt k) (at_ mt next) (at_ mt far) else at_ mt i) by (intros i; unfold twist_at; rewrite at_upd by lia; reflexivity).
  split; [unfold twist_at; rewrite upd_len; exact L|]. split.
  - intros i Hi. rewrite U. destruct (Nat.eqb_spec i k); [lia|]. apply H1. lia.
  - intros i Hi. rewrite !U. destruct (Nat.eqb_spec i k) as [->|Hik].
    + rewrite (H1 k) by lia. f_equal.
      * destruct (Nat.eqb_spec (k + 1) SIZE) as [E|E]; subst next; [destruct (Nat.eqb_spec 0 k); [lia|reflexivity]|apply H1; lia].
      * destruct (Nat.ltb_spec (k + SHIFT) SIZE) as [E|E]; subst far; [apply H1; lia|destruct (Nat.eqb_spec (k + SHIFT - SIZE) k); [lia|reflexivity]].
    + rewrite (H2 i) by lia. f_equal.
      * destruct (Nat.eqb_spec (i + 1) SIZE); [lia|reflexivity].
      * destruct (Nat.ltb_spec (i + SHIFT) SIZE); [reflexivity|]. destruct (Nat.eqb_spec (i + SHIFT - SIZE) k); [lia|reflexivity].
Qed.
Lemma partly_fold mt0 (far : nat -> nat) n : forall k mt, partly mt0 mt k -> (k + n <= SIZE - 1)%nat ->
  (forall i, (k <= i < k + n)%nat -> if Nat.ltb (i + SHIFT) SIZE then far i = i + SHIFT else far i = i + SHIFT - SIZE)%nat ->
  partly mt0 (fold_left (fun mt kk => twist_at mt kk (kk + 1) (far kk)) (seq k n) mt) (k + n).
Proof.
  induction n as [|n IH]; intros k mt H Hk Hf; cbn [seq fold_left]; [rewrite Nat.add_0_r; exact H|].
  replace (k + S n)%nat with (S k + n)%nat by lia. apply IH; [|lia|intros i Hi; apply Hf; lia].
  apply partly_step; [exact H|lia| |apply Hf; lia]. destruct (Nat.eqb_spec (k + 1) SIZE); [lia|reflexivity].
Qed.
Lemma twist_spec mt : length mt = SIZE -> partly mt (twist mt) SIZE.
Proof.
  intros L. unfold twist. pose proof sizes as Hs.
  assert (P0 : partly mt mt 0) by (split; [exact L|split; [reflexivity|intros; lia]]).
  apply (partly_fold mt (fun kk => kk + SHIFT)%nat (SIZE - SHIFT)) in P0; [|lia|intros i Hi; destruct (Nat.ltb_spec (i + SHIFT) SIZE); [reflexivity|lia]].
  apply (partly_fold mt (fun kk => kk - (SIZE - SHIFT))%nat (SHIFT - 1)) in P0; [|lia|intros i Hi; destruct (Nat.ltb_spec (i + SHIFT) SIZE); lia].
  replace (0 + (SIZE - SHIFT) + (SHIFT - 1))%nat with (SIZE - 1)%nat in P0 by lia. rewrite Nat.add_0_l in P0.
  apply (partly_step mt _ (SIZE - 1) 0 (SHIFT - 1)) in P0; [|lia| |].
  - replace (S (SIZE - 1)) with SIZE in P0 by lia. exact P0.
  - destruct (Nat.eqb_spec (SIZE - 1 + 1) SIZE); [reflexivity|lia].
  - destruct (Nat.ltb_spec (SIZE - 1 + SHIFT) SIZE); lia.
Qed.
Lemma word_mixed u l f : word u -> word l -> word f -> word (mixed u l f).
Proof.
  intros Hu Hl Hf. unfold mixed. set (y := N.lor _ _). assert (Hy : word y).
  { unfold y. rewrite word_bits in *. intros i Hi. rewrite N.lor_spec, !N.land_spec, Hu, Hl by exact Hi. reflexivity. }
  apply word_lxor; [apply word_lxor; [exact Hf|]|destruct (N.odd y); reflexivity].
  rewrite word_bits in *. intros i Hi. rewrite N.shiftr_spec by lia. apply Hy. lia.
Qed.
Lemma twist_valid mt : valid_words mt -> valid_words (twist mt).
Proof.
  intros V. assert (G : forall mt k next far, valid_words mt -> valid_words (twist_at mt k next far)).
  { intros m k next far Vm. apply valid_upd; [exact Vm|]. apply (word_mixed (at_ m k) (at_ m next) (at_ m far)); apply valid_at; exact Vm. }
  unfold twist. apply G.
  assert (F : forall (next far : nat -> nat) l m, valid_words m -> valid_words (fold_left (fun mt kk => twist_at mt kk (next kk) (far kk)) l m)).
  { intros next far. induction l as [|k l IH]; intros m Vm; cbn [fold_left]; [exact Vm|]. apply IH, G, Vm. }
  apply (F (fun kk => kk + 1)%nat (fun kk => kk - (SIZE - SHIFT))%nat). apply (F (fun kk => kk + 1)%nat (fun kk => kk + SHIFT)%nat). exact V.
Qed.

(** the sequence of all words *)
Section Sequence.
Variable mt0 : list N.
Hypothesis V0 : valid_words mt0.
Definition block (b : nat) : list N := Nat.iter b twist mt0.
Lemma block_valid b : valid_words (block b).
Proof. induction b as [|b IH]; [exact V0|]. cbn. apply twist_valid. exact IH. Qed.
Definition word_at (k : nat) : N := at_ (block (k / SIZE)) (k mod SIZE).
Lemma word_at_block b i : (i < SIZE)%nat -> word_at (b * SIZE + i) = at_ (block b) i.
Proof.
  intros H. unfold word_at. rewrite Nat.div_add_l by lia. rewrite Nat.div_small by exact H. rewrite Nat.add_0_r, Nat.add_comm, Nat.mod_add by lia. rewrite Nat.mod_small by exact H. reflexivity.
Qed.
Lemma word_at_word k : word (word_at k).
Proof. apply valid_at, block_valid. Qed.
Lemma word_at_next k : word_at (k + SIZE) = mixed (word_at k) (word_at (k + 1)) (word_at (k + SHIFT)).
Proof.
  pose proof sizes as Hs. set (b := (k / SIZE)%nat). set (i := (k mod SIZE)%nat).
  assert (Ek : k = (b * SIZE + i)%nat) by (unfold b, i; rewrite Nat.mul_comm; apply Nat.div_mod; lia).
  assert (Hi : (i < SIZE)%nat) by (apply Nat.mod_upper_bound; lia). clearbody b i. subst k.
  destruct (twist_spec (block b) (proj1 (block_valid b))) as (_ & _ & H). specialize (H i Hi). change (twist (block b)) with (block (S b)) in H.
  replace (b * SIZE + i + SIZE)%nat with (S b * SIZE + i)%nat by lia. rewrite !word_at_block by exact Hi. rewrite H. f_equal.
  - destruct (Nat.eqb_spec (i + 1) SIZE) as [E|E].
    + replace (b * SIZE + i + 1)%nat with (S b * SIZE + 0)%nat by lia. rewrite word_at_block by lia. reflexivity.
    + rewrite <- Nat.add_assoc, word_at_block by lia. reflexivity.
  - destruct (Nat.ltb_spec (i + SHIFT) SIZE) as [E|E].
    + rewrite <- Nat.add_assoc, word_at_block by lia. reflexivity.
    + replace (b * SIZE + i + SHIFT)%nat with (S b * SIZE + (i + SHIFT - SIZE))%nat by lia. rewrite word_at_block by lia. reflexivity.
Qed.

(** the state after n draws, and the n-th number *)
Lemma after_state n : exists q, words (after n {| words := mt0; position := SIZE |}) = block q /\
  (n + SIZE = q * SIZE + position (after n {| words := mt0; position := SIZE |}))%nat /\ (0 < position (after n {| words := mt0; position := SIZE |}) <= SIZE)%nat.
Proof.
  pose proof sizes as Hs. induction n as [|n (q & E1 & E2 & E3)]; [exists 0%nat; cbn; split; [reflexivity|lia]|].
  change (after (S n) {| words := mt0; position := SIZE |}) with (snd (genrand (after n {| words := mt0; position := SIZE |}))). set (g := after n _) in *. unfold genrand. destruct (Nat.leb_spec SIZE (position g)) as [L|L].
  - exists (S q). cbn [snd words position]. split; [rewrite E1; reflexivity|]. cbn. lia.
  - exists q. cbn [snd words position]. split; [exact E1|]. lia.
Qed.
Lemma after_word n : fst (genrand (after n {| words := mt0; position := SIZE |})) = temper (word_at (n + SIZE)).
Proof.
  pose proof sizes as Hs. destruct (after_state n) as (q & E1 & E2 & E3). set (g := after n _) in *. unfold genrand. destruct (Nat.leb_spec SIZE (position g)) as [L|L]; cbn [fst]; f_equal.
  - replace (n + SIZE)%nat with (S q * SIZE + 0)%nat by lia. rewrite word_at_block by lia. rewrite E1. reflexivity.
  - rewrite E2, word_at_block by exact L. rewrite E1. reflexivity.
Qed.
End Sequence.
