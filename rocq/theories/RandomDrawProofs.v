(** What the functions of the module random return. *)
From Coq Require Import QArith Nnat Btauto Lia.
From Verif Require Import Base BaseFacts LevModel PairwiseModel DigestModel DigestSpec DigestProofs RandomModel RandomSpec RandomProofs RandomStreamProofs.
Open Scope N_scope.
Open Scope list_scope.
Notation length := List.length.

Definition sound (g : rng) : Prop := valid_words (words g).
Lemma sound_genrand g : sound g -> word (fst (genrand g)) /\ sound (snd (genrand g)).
Proof.
  intros H. unfold genrand. destruct (Nat.leb SIZE (position g)); cbn [fst snd].
  - pose proof (twist_valid _ H) as V. split; [apply word_temper, valid_at; exact V|exact V].
  - split; [apply word_temper, valid_at; exact H|exact H].
Qed.
Lemma sound_after n : forall g, sound g -> sound (after n g).
Proof. induction n as [|n IH]; intros g H; [exact H|]. change (after (S n) g) with (snd (genrand (after n g))). apply sound_genrand, IH, H. Qed.
Lemma sound_seed a : sound (seed a).
Proof. unfold seed, sound. apply init_by_array_ready. Qed.
Lemma after_plus n m g : after n (after m g) = after (n + m) g.
Proof. induction n as [|n IH]; [reflexivity|]. change (after (S n + m) g) with (snd (genrand (after (n + m) g))). rewrite <- IH. reflexivity. Qed.

(** the state after each function *)
Lemma random_spec g : sound g -> exists m, m < 2 ^ 53 /\ fst (random g) = (Z.of_N m # 2 ^ 53)%Q /\ snd (random g) = after 2 g.
Proof.
  intros H. unfold random. destruct (sound_genrand g H) as [W Sg]. pose proof (sound_genrand _ Sg) as [W2 _].
  assert (E : after 2 g = snd (genrand (snd (genrand g)))) by reflexivity. rewrite E.
  destruct (genrand g) as [a g1]. cbn [fst snd] in *. destruct (genrand g1) as [b g2]. cbn [fst snd] in *.
  eexists. split; [|split; reflexivity]. unfold word in *. rewrite !N.shiftr_div_pow2.
  assert (a / 2 ^ 5 < 2 ^ 27) by (apply N.div_lt_upper_bound; [lia|exact W]). assert (b / 2 ^ 6 < 2 ^ 26) by (apply N.div_lt_upper_bound; [lia|exact W2]).
  change (2 ^ 27) with 134217728 in *. change (2 ^ 26) with 67108864 in *. change (2 ^ 53) with 9007199254740992. lia.
Qed.
Lemma random_words_spec turns : forall k g, sound g -> k <= 32 * N.of_nat turns -> fst (random_words turns k g) < 2 ^ k /\ snd (random_words turns k g) = after turns g.
Proof.
  induction turns as [|turns IH]; intros k g H Hk; cbn [random_words]; [split; [apply N.neq_0_lt_0, N.pow_nonzero; lia|reflexivity]|].
  destruct (sound_genrand g H) as [W Sg]. assert (E : after (S turns) g = after turns (snd (genrand g))) by (rewrite <- Nat.add_1_r, <- after_plus; reflexivity).
  rewrite E. clear E. destruct (genrand g) as [r g1]. cbn [fst snd] in *. specialize (IH (k - 32) g1 Sg ltac:(lia)).
  destruct (random_words turns (k - 32) g1) as [high g2]. cbn [fst snd] in *. destruct IH as [IH1 IH2]. split; [|exact IH2]. unfold word in W.
  destruct (N.ltb_spec k 32) as [L|L].
  - replace (k - 32) with 0 in IH1 by lia. change (2 ^ 0) with 1 in IH1. replace high with 0 by lia. rewrite N.mul_0_r, N.add_0_r, N.shiftr_div_pow2.
    apply N.div_lt_upper_bound; [apply N.pow_nonzero; lia|]. rewrite <- N.pow_add_r. replace (32 - k + k) with 32 by lia. exact W.
  - assert (Ek : 2 ^ k = 2 ^ 32 * 2 ^ (k - 32)) by (rewrite <- N.pow_add_r; f_equal; lia). rewrite Ek. set (p := 2 ^ (k - 32)) in *. change (2 ^ 32) with 4294967296 in *. nia.
Qed.
Definition words_for (k : N) : nat := N.to_nat ((k + 31) / 32).
Lemma getrandbits_spec k g : sound g -> fst (getrandbits k g) < 2 ^ k /\ snd (getrandbits k g) = after (words_for k) g.
Proof.
  intros H. unfold getrandbits, words_for. destruct (N.eqb_spec k 0) as [->|Hk]; [split; reflexivity|]. destruct (N.leb_spec k 32) as [L|L].
  - destruct (sound_genrand g H) as [W Sg]. replace ((k + 31) / 32) with 1 by (apply N.div_unique with (r := k - 1); lia).
    change (after (N.to_nat 1) g) with (snd (genrand g)). destruct (genrand g) as [r g1]. cbn [fst snd] in *. split; [|reflexivity].
    rewrite N.shiftr_div_pow2. apply N.div_lt_upper_bound; [apply N.pow_nonzero; lia|]. rewrite <- N.pow_add_r. replace (32 - k + k) with 32 by lia. exact W.
  - replace ((k - 1) / 32 + 1) with ((k + 31) / 32); [|replace (k + 31) with (k - 1 + 1 * 32) by lia; apply N.div_add; lia].
    apply random_words_spec; [exact H|]. rewrite N2Nat.id. pose proof (N.div_mod (k + 31) 32 ltac:(lia)). pose proof (N.mod_lt (k + 31) 32 ltac:(lia)). lia.
Qed.
(** the stream of numbers of k bits *)
Definition bits_stream (k : N) (g : rng) (s : nat) : N := fst (getrandbits k (after (s * words_for k) g)).
Lemma bits_stream_next k g s : sound g -> bits_stream k (snd (getrandbits k g)) s = bits_stream k g (S s).
Proof. intros H. unfold bits_stream. rewrite (proj2 (getrandbits_spec k g H)), after_plus. do 3 f_equal. lia. Qed.
Lemma randbelow_spec fuel n : forall g, sound g ->
  match randbelow fuel n g with
  | Ok (r, g') => exists t, (t < fuel)%nat /\ first_below n (bits_stream (N.size n) g) t /\ r = bits_stream (N.size n) g t /\ g' = after (S t * words_for (N.size n)) g
  | Err e => e = OutOfFuel /\ forall t, (t < fuel)%nat -> n <= bits_stream (N.size n) g t
  end.
Proof.
  induction fuel as [|fuel IH]; intros g H; cbn [randbelow]; [split; [reflexivity|intros; lia]|].
  set (k := N.size n). pose proof (getrandbits_spec k g H) as [_ E]. pose proof (bits_stream_next k g) as NX.
  assert (E0 : fst (getrandbits k g) = bits_stream k g 0) by reflexivity.
  destruct (getrandbits k g) as [r g1]. cbn [fst snd] in *. specialize (IH g1). fold k in IH.
  destruct (N.leb_spec n r) as [L|L].
  - assert (S1 : sound g1) by (subst g1; apply sound_after, H). specialize (IH S1). destruct (randbelow fuel n g1) as [[r' g']|e].
    + destruct IH as (t & T1 & [T2 T3] & T4 & T5). exists (S t). rewrite NX in * by exact H. split; [lia|]. split; [split; [exact T2|]|split; [exact T4|]].
      * intros [|s] Hs; [rewrite <- E0; exact L|]. rewrite <- NX by exact H. apply T3. lia.
      * rewrite T5, E, after_plus. f_equal. cbn [Nat.mul]. lia.
    + destruct IH as [-> IH]. split; [reflexivity|]. intros [|t] Ht; [rewrite <- E0; exact L|]. rewrite <- NX by exact H. apply IH. lia.
  - exists 0%nat. split; [lia|]. split; [split; [rewrite <- E0; exact L|intros; lia]|]. split; [exact E0|]. rewrite E, Nat.mul_1_l. reflexivity.
Qed.
Lemma randbelow_lt fuel n g r g' : sound g -> randbelow fuel n g = Ok (r, g') -> r < n /\ sound g'.
Proof.
  intros H E. pose proof (randbelow_spec fuel n g H) as S. rewrite E in S. destruct S as (t & _ & [S1 _] & -> & ->). split; [exact S1|apply sound_after, H].
Qed.
Lemma randint_range fuel a b g r g' : sound g -> randint fuel a b g = Ok (r, g') -> (a <= r <= b)%Z /\ sound g'.
Proof.
  intros H. unfold randint. destruct (Z.ltb_spec 0 (b + 1 - a)) as [L|L]; [|discriminate]. destruct (randbelow fuel (Z.to_N (b + 1 - a)) g) as [[n g1]|e] eqn:E; cbn [bind]; intros X; [|discriminate].
  injection X as <- <-. apply randbelow_lt in E as [E S]; [|exact H]. split; [lia|exact S].
Qed.
