(** C134 - C136: the generator of python's module random. *)
From Coq Require Import QArith Nnat Lia.
From Verif Require Import Base BaseFacts LevModel RandomModel RandomSpec DigestProofs RandomProofs RandomStreamProofs RandomDrawProofs.
Open Scope N_scope.
Open Scope list_scope.
Notation length := List.length.

(** the n-th word *)
Definition nth_word (g : rng) (n : nat) : N := fst (genrand (after n g)).

(** ** C134: the words are those of the Mersenne Twister *)
Lemma seed_ready a : ready (seed a) /\ at_ (words (seed a)) 0 = 2 ^ 31.
Proof. unfold seed. apply init_by_array_ready. Qed.
Lemma seed_word_at a n : nth_word (seed a) n = temper (word_at (words (seed a)) (n + SIZE)).
Proof.
  destruct (seed_ready a) as [[V P] _]. unfold nth_word. rewrite <- after_word by exact V. repeat f_equal.
  destruct (seed a) as [w p]. cbn [words position] in *. subst p. reflexivity.
Qed.
Theorem C134_sequence a : exists x, recurrence x /\ (forall k, x k < 2 ^ 32) /\ x 0%nat = 2 ^ 31 /\
  (forall k, (k < 624)%nat -> nth_error (words (seed a)) k = Some (x k)) /\ length (words (seed a)) = 624%nat /\
  forall n, tempered (x (n + 624)%nat) (nth_word (seed a) n).
Proof.
  destruct (seed_ready a) as [[V P] Z]. destruct sizes_values as [E1 E2]. exists (word_at (words (seed a))). split; [|split; [|split; [|split; [|split]]]].
  - intros k i. rewrite <- E1, <- E2, word_at_next by exact V. apply mixed_bits. apply word_at_word. exact V.
  - intros k. apply word_at_word. exact V.
  - change 0%nat with (0 * SIZE + 0)%nat. rewrite word_at_block by (rewrite E1; lia). exact Z.
  - intros k Hk. replace k with (0 * SIZE + k)%nat at 2 by lia. rewrite word_at_block by (rewrite E1; exact Hk). apply nth_error_nth'. change (block (words (seed a)) 0) with (words (seed a)). rewrite (proj1 V), E1. exact Hk.
  - rewrite (proj1 V). exact E1.
  - intros n. rewrite seed_word_at, E1. apply temper_spec.
Qed.
Theorem C134_words a n : nth_word (seed a) n < 2 ^ 32.
Proof. apply sound_genrand. apply sound_after, sound_seed. Qed.

(** ** C135: the functions of the module draw numbers of the range *)
(** a generator with a seed, that may have been used *)
Definition used (g : rng) : Prop := exists a n, g = after n (seed a).
Lemma used_sound g : used g -> sound g.
Proof. intros (a & n & ->). apply sound_after, sound_seed. Qed.
Lemma used_after n g : used g -> used (after n g).
Proof. intros (a & m & ->). exists a, (n + m)%nat. apply after_plus. Qed.
(** random: a float of [0, 1), made of 53 bits of two words *)
Theorem C135_random g : used g -> exists m, m < 2 ^ 53 /\ fst (random g) = (Z.of_N m # 2 ^ 53)%Q /\ m / 2 ^ 26 = nth_word g 0 / 2 ^ 5 /\ m mod 2 ^ 26 = nth_word g 1 / 2 ^ 6 /\
  snd (random g) = after 2 g.
Proof.
  intros H. apply used_sound in H. destruct (random_spec g H) as (m & M1 & M2 & M3). exists m. split; [exact M1|]. split; [exact M2|].
  assert (E : m = N.shiftr (nth_word g 0) 5 * 67108864 + N.shiftr (nth_word g 1) 6).
  { unfold random, nth_word in *. change (after 0 g) with g. change (after 1 g) with (snd (genrand g)). destruct (genrand g) as [a g1]. cbn [fst snd] in *. destruct (genrand g1) as [b g2]. cbn [fst snd] in *.
    apply (f_equal Qnum) in M2. cbn [Qnum] in M2. apply N2Z.inj in M2. symmetry. exact M2. }
  rewrite !N.shiftr_div_pow2 in E. assert (B : nth_word g 1 / 2 ^ 6 < 2 ^ 26).
  { apply N.div_lt_upper_bound; [lia|]. change (2 ^ 6 * 2 ^ 26) with (2 ^ 32). apply sound_genrand. apply sound_after, H. }
  split; [|split; [|exact M3]].
  - symmetry. apply (N.div_unique m (2 ^ 26) _ (nth_word g 1 / 2 ^ 6)); [exact B|]. rewrite E. change (2 ^ 26) with 67108864. lia.
  - symmetry. apply (N.mod_unique m (2 ^ 26) (nth_word g 0 / 2 ^ 5)); [exact B|]. rewrite E. change (2 ^ 26) with 67108864. lia.
Qed.
Theorem C135_unit g : used g -> (0 <= fst (random g) < 1)%Q.
Proof.
  intros H. destruct (C135_random g H) as (m & M1 & -> & _). change (2 ^ 53) with 9007199254740992 in M1. change (2 ^ 53)%positive with 9007199254740992%positive. unfold Qle, Qlt. cbn. lia.
Qed.
(** getrandbits: a number of k bits *)
Theorem C135_bits k g : used g -> fst (getrandbits k g) < 2 ^ k /\ used (snd (getrandbits k g)).
Proof. intros H. destruct (getrandbits_spec k g (used_sound g H)) as [G1 G2]. split; [exact G1|]. rewrite G2. apply used_after. exact H. Qed.
(** randint: the first number below the size of the range among numbers of just enough bits *)
Theorem C135_first fuel a b g r g' : used g -> randint fuel a b g = Ok (r, g') ->
  (a <= r <= b)%Z /\ used g' /\ exists gs t, gs 0%nat = g /\ (forall s, gs (S s) = snd (getrandbits (N.size (Z.to_N (b + 1 - a))) (gs s))) /\
    first_below (Z.to_N (b + 1 - a)) (fun s => fst (getrandbits (N.size (Z.to_N (b + 1 - a))) (gs s))) t /\
    (r = a + Z.of_N (fst (getrandbits (N.size (Z.to_N (b + 1 - a))) (gs t))))%Z /\ g' = gs (S t).
Proof.
  intros H E. split; [apply (randint_range fuel a b g r g' (used_sound g H) E)|]. unfold randint in E. destruct (0 <? b + 1 - a)%Z; [|discriminate].
  set (n := Z.to_N (b + 1 - a)) in *. pose proof (randbelow_spec fuel n g (used_sound g H)) as R. destruct (randbelow fuel n g) as [[v g1]|e]; [|discriminate]. cbn [bind] in E. injection E as <- <-.
  destruct R as (t & _ & R1 & R2 & R3). split; [subst g1; apply used_after; exact H|].
  exists (fun s => after (s * words_for (N.size n)) g), t. split; [reflexivity|]. split; [|split; [exact R1|]].
  - intros s. rewrite (proj2 (getrandbits_spec (N.size n) (after (s * words_for (N.size n)) g) (sound_after _ g (used_sound g H)))), after_plus. reflexivity.
  - split; [rewrite R2; reflexivity|exact R3].
Qed.
(** ... without end only if no such number comes; an empty range is an error *)
Theorem C135_found fuel a b g gs t : used g -> (a <= b)%Z -> gs 0%nat = g -> (forall s, gs (S s) = snd (getrandbits (N.size (Z.to_N (b + 1 - a))) (gs s))) -> (t < fuel)%nat ->
  fst (getrandbits (N.size (Z.to_N (b + 1 - a))) (gs t)) < Z.to_N (b + 1 - a) -> exists r g', randint fuel a b g = Ok (r, g').
Proof.
  intros H Hab G0 GS Ht Lt. unfold randint. destruct (Z.ltb_spec 0 (b + 1 - a)) as [L|L]; [|lia]. set (n := Z.to_N (b + 1 - a)) in *.
  pose proof (randbelow_spec fuel n g (used_sound g H)) as R. destruct (randbelow fuel n g) as [[v g1]|e]; [cbn [bind]; eauto|]. exfalso. destruct R as [_ R]. specialize (R t Ht).
  assert (Gt : gs t = after (t * words_for (N.size n)) g).
  { clear -GS G0 H. induction t as [|t IH]; [exact G0|]. rewrite GS, IH, (proj2 (getrandbits_spec (N.size n) _ (sound_after _ g (used_sound g H)))), after_plus. reflexivity. }
  unfold bits_stream in R. rewrite <- Gt in R. lia.
Qed.
Theorem C135_empty fuel a b g : (b < a)%Z -> randint fuel a b g = Err ValueError.
Proof. intros H. unfold randint. destruct (Z.ltb_spec 0 (b + 1 - a)); [lia|reflexivity]. Qed.

(** ** C136: seeds *)
Theorem C136_sign a : seed (- a) = seed a.
Proof. unfold seed. replace (Z.abs_N (- a)) with (Z.abs_N a) by lia. reflexivity. Qed.
Lemma seeds_agree a b n : (forall j, (j < 624)%nat -> nth_word (seed a) (n + j) = nth_word (seed b) (n + j)) ->
  forall k, (1 <= k)%nat -> word_at (words (seed a)) k = word_at (words (seed b)) k.
Proof.
  intros H. destruct (seed_ready a) as [[Va _] _]. destruct (seed_ready b) as [[Vb _] _]. destruct sizes_values as [E1 _].
  apply (agree_all _ _ (word_at_word _ Va) (word_at_word _ Vb) (word_at_next _ Va) (word_at_next _ Vb) (n + SIZE)).
  intros k Hk. specialize (H (k - SIZE - n)%nat). rewrite !seed_word_at in H. replace (n + (k - SIZE - n) + SIZE)%nat with k in H by lia. apply temper_inj. apply H. lia.
Qed.
(** 624 words in a row tell all the others, even those drawn before *)
Theorem C136_known a b n : (forall j, (j < 624)%nat -> nth_word (seed a) (n + j) = nth_word (seed b) (n + j)) -> forall m, nth_word (seed a) m = nth_word (seed b) m.
Proof.
  intros H m. rewrite !seed_word_at. f_equal. apply (seeds_agree a b n H). destruct sizes_values as [E1 _]. lia.
Qed.
(** different seeds of 32 bits give different words, at all times *)
Theorem C136_different a b n : (0 <= a < 2 ^ 32)%Z -> (0 <= b < 2 ^ 32)%Z -> (forall j, (j < 624)%nat -> nth_word (seed a) (n + j) = nth_word (seed b) (n + j)) -> a = b.
Proof.
  intros Ha Hb H. pose proof (seeds_agree a b n H) as G. destruct sizes_values as [E1 _].
  assert (A : forall a, (0 <= a < 2 ^ 32)%Z -> word (Z.to_N a) /\ seed a = init_by_array [Z.to_N a]).
  { intros c Hc. assert (W : word (Z.to_N c)) by (unfold word; change (2 ^ 32) with 4294967296; lia). split; [exact W|]. rewrite <- seed_word by exact W. rewrite Z2N.id by lia. reflexivity. }
  destruct (A a Ha) as [Wa Sa]. destruct (A b Hb) as [Wb Sb]. destruct (seed_ready a) as [[Va _] _]. destruct (seed_ready b) as [[Vb _] _].
  assert (E : Z.to_N a = Z.to_N b); [|lia]. apply init_inj; [exact Wa|exact Wb|]. rewrite <- Sa, <- Sb. intros i Hi. destruct (Nat.lt_ge_cases i SIZE) as [L|L].
  - specialize (G i Hi). replace i with (0 * SIZE + i)%nat in G by lia. rewrite !word_at_block in G by exact L. exact G.
  - unfold at_. rewrite !nth_overflow; [reflexivity|rewrite (proj1 Vb); exact L|rewrite (proj1 Va); exact L].
Qed.

Print Assumptions C134_sequence.
Print Assumptions C134_words.
Print Assumptions C135_random.
Print Assumptions C135_unit.
Print Assumptions C135_bits.
Print Assumptions C135_first.
Print Assumptions C135_found.
Print Assumptions C135_empty.
Print Assumptions C136_sign.
Print Assumptions C136_known.
Print Assumptions C136_different.

(** ** Non-vacuity: the numbers of CPython *)
Fixpoint draws (n : nat) (f : rng -> N * rng) (g : rng) : list N := match n with O => [] | S n => let '(r, g) := f g in r :: draws n f g end.
(** [Random(123).getrandbits(32) for _ in range(630)]: the first four, and those of the second generation *)
Theorem C134_known_words : let l := draws 630 genrand (seed 123) in
  (firstn 4 l, skipn 624 l) = ([224899942; 1149664691; 374463918; 3302642556], [4224834062; 3883225535; 2134312587; 3729923350; 182942442; 1231735652]).
Proof. vm_compute. reflexivity. Qed.
(** random, eight times randint(0, 3), getrandbits(40), randint(0, 2 ** 32 - 1), after a seed *)
Definition session (a : Z) : Q * list Z * N * Z :=
  let '(q, g) := random (seed a) in
  let '(l, g) := fold_left (fun '(l, g) _ => match randint 100 0 3 g with Ok (r, g) => (l ++ [r], g) | Err _ => (l, g) end) (seq 0 8) ([], g) in
  let '(n, g) := getrandbits 40 g in
  (Qred q, l, n, match randint 100 0 4294967295 g with Ok (r, _) => r | Err _ => (-1)%Z end).
Theorem C134_session_123 : session 123 = ((235824684272891 # 4503599627370496)%Q, [0; 3; 2; 0; 0; 3; 2; 2]%Z, 59494259023, 685744792%Z).
Proof. vm_compute. reflexivity. Qed.
Theorem C134_session_0 : session 0 = ((3802937935871711 # 4503599627370496)%Q, [3; 0; 2; 3; 3; 2; 3; 2]%Z, 981758150271, 3900315155%Z).
Proof. vm_compute. reflexivity. Qed.
Theorem C134_session_large : session (2 ^ 32 + 5) = ((708291864335085 # 4503599627370496)%Q, [2; 0; 2; 1; 3; 2; 1; 2]%Z, 741882701954, 2933618875%Z) /\
  session (2 ^ 70) = ((2096770348541275 # 9007199254740992)%Q, [3; 3; 0; 0; 1; 2; 1; 0]%Z, 736682771400, 3636980951%Z).
Proof. vm_compute. split; reflexivity. Qed.
Print Assumptions C134_known_words.
Print Assumptions C134_session_123.
Print Assumptions C134_session_0.
Print Assumptions C134_session_large.
Example seeds_are_used a : used (seed a).
Proof. exists a, 0%nat. reflexivity. Qed.
(** a range of one number takes a draw of one bit until it is 0 *)
Example one_number : match randint 100 5 5 (seed 123) with Ok (r, _) => r | Err _ => 0%Z end = 5%Z /\ randint 0 5 5 (seed 123) = Err OutOfFuel.
Proof. vm_compute. split; reflexivity. Qed.
