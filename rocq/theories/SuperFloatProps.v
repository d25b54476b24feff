(** C152, C153: SuperMinHash in floats. *)
From Coq Require Import QArith Qround ZArith NArith List Permutation Lia String.
From Verif Require Import Base BaseFacts LevModel StringsModel MetricsModel BitsModel MinHashModel MinHashSpec MinHashProofs SuperMinHashProofs FloatModel FloatProofs FloatMetricsProofs
  DigestModel RandomModel RandomProofs RandomDrawProofs SeededModel SeededProofs SuperFloatModel SuperFloatSpec SuperFloatProofs.
From Verif Require MinHashProps.
Import ListNotations.
Open Scope nat_scope.

(** ** C152: a number drawn within 2^-53 of 1 at the second turn is rounded to the next integer: a signature of size 2 then has the value 2 *)
Definition high (t : N) (j : nat) : Q := 9007199254740991 # 9007199254740992.
Theorem C152_range_refuted : ~ (forall random m x, float_draws random -> 0 < m -> numbers (fun t : N => t) x <> [] ->
  exists sig, super_float (fun t => t) (fun l => l) random m x = Ok sig /\ forall v, In v sig -> (0 <= v < Z.of_nat m)%Z).
Proof.
  intros P. destruct (P high 2 (Tokens [7%N])) as (sig & E & G).
  - intros t j. split; vm_compute; discriminate.
  - lia.
  - discriminate.
  - vm_compute in E. injection E as <-. specialize (G 2%Z (or_introl eq_refl)). lia.
Qed.
Print Assumptions C152_range_refuted.

(** ** C153 *)
Section Super.
Context {T : Type}.
Variable crc32 : T -> N.
Variable set_order : list N -> list N.
Hypothesis set_order_perm : forall l, Permutation (set_order l) l.
Variable random : N -> nat -> Q.
Hypothesis draws : float_draws random.

Lemma tokens_in x t : In t (token_set crc32 set_order x) -> In t (numbers crc32 x).
Proof. unfold token_set. intros H. apply (Permutation_in _ (set_order_perm _)) in H. apply (proj1 (set_of_In _ _)) in H. exact H. Qed.

(** without such draws, the x-th value is the least place of x in the shuffles, the products being rounded *)
Theorem C153_least_place m x : 0 < m -> (Z.of_nat m <= 2 ^ 52)%Z -> numbers crc32 x <> [] -> (forall t, In t (numbers crc32 x) -> far_from_one random m t) ->
  exists sig, super_float crc32 set_order random m x = Ok sig /\ List.length sig = m /\
    forall y v, nth_error sig y = Some v -> (0 <= v < Z.of_nat m)%Z /\ least_place (rounded random m) m (fun t => In t (numbers crc32 x)) y (Z.to_nat v).
Proof.
  intros M S N F. rewrite (super_float_rounded random draws m S) by (intros t Ht; apply F, tokens_in, Ht).
  exact (MinHashProps.C30_least_place crc32 set_order set_order_perm (rounded random m) (rounded_unit random draws m) m x M N).
Qed.

(** the signature depends only on the set of tokens *)
Theorem C153_set m x y (other : list N -> list N) : (Z.of_nat m <= 2 ^ 52)%Z -> (forall l, Permutation (other l) l) -> (forall t, In t (numbers crc32 x) <-> In t (numbers crc32 y)) ->
  (forall t, In t (numbers crc32 x) -> far_from_one random m t) -> super_float crc32 set_order random m x = super_float crc32 other random m y.
Proof.
  intros S O E F. rewrite (super_float_rounded random draws m S) by (intros t Ht; apply F, tokens_in, Ht).
  rewrite (super_float_rounded random draws m S crc32 other y).
  - exact (MinHashProps.C30_set crc32 set_order set_order_perm (rounded random m) (rounded_unit random draws m) m x y other O E).
  - intros t Ht. apply F, E. unfold token_set in Ht. apply (Permutation_in _ (O _)) in Ht. apply (proj1 (set_of_In _ _)) in Ht. exact Ht.
Qed.

(** the integer part taken after rounding is within the positions left, and the exact one unless the product is close to the next integer *)
Theorem C153_draw m t j : (Z.of_nat m <= 2 ^ 52)%Z -> j < m -> let n := inject_Z (Z.of_nat (m - j)) in
  (0 <= Qfloor (rounded random m t j * n) < Z.of_nat (m - j))%Z /\
  (Qfloor (rounded random m t j * n) = Qfloor (random t j * n) \/
   Qfloor (rounded random m t j * n) = (Qfloor (random t j * n) + 1)%Z /\ (inject_Z (Qfloor (random t j * n) + 1) - random t j * n <= n * (2 # 1) ^ (-53))%Q).
Proof.
  intros S J n. unfold n. fold (Qnat (m - j)). rewrite rounded_value by assumption. split; [apply product_range; [assumption|lia]|]. exact (rounded_near random draws m t j S J).
Qed.

(** when no product is close to the next integer, the signature is the one of exact arithmetic *)
Theorem C153_exact m x : (Z.of_nat m <= 2 ^ 52)%Z -> (forall t, In t (numbers crc32 x) -> far_from_one random m t) ->
  (forall t j, In t (numbers crc32 x) -> j < m -> let n := inject_Z (Z.of_nat (m - j)) in (n * (2 # 1) ^ (-53) < inject_Z (Qfloor (random t j * n) + 1) - random t j * n)%Q) ->
  super_float crc32 set_order random m x = super_signature crc32 set_order random m x.
Proof.
  intros S F G. rewrite (super_float_rounded random draws m S) by (intros t Ht; apply F, tokens_in, Ht). destruct m as [|last] eqn:Em; [reflexivity|]. rewrite <- Em in *.
  assert (U : forall t, unit_draws (random t)). { intros t j. destruct (draws t j) as [R0 R1]. split; [exact R0|]. eapply Qle_lt_trans; [exact R1|]. reflexivity. }
  rewrite !super_signature_eq by (auto using rounded_unit; lia). f_equal. apply map_ext_in. intros y Hy. apply in_seq in Hy. f_equal.
  destruct (numbers crc32 x) as [|t0 l] eqn:X; [rewrite !super_value_empty by assumption; reflexivity|].
  destruct (super_value_spec crc32 set_order set_order_perm (rounded random m) (rounded_unit random draws m) m x y ltac:(rewrite X; discriminate) ltac:(lia)) as [S1 _].
  eapply least_place_unique; [intros t; reflexivity| |apply super_value_spec; try assumption; [rewrite X; discriminate|lia]]. rewrite X in *.
  assert (Sh : forall t, In t (t0 :: l) -> shuffle (rounded random m t) m = shuffle (random t) m).
  { intros t Ht. unfold shuffle, shuffle_until. apply fold_left_ext_in. intros acc j Hj. apply in_seq in Hj. f_equal. f_equal. f_equal.
    destruct (C153_draw m t j S ltac:(lia)) as [_ [E|[_ E]]]; [exact E|]. specialize (G t j Ht ltac:(lia)). cbn zeta in G, E. exfalso. apply (Qlt_not_le _ _ G). exact E. }
  destruct S1 as [(t & Ht & P) L]. split.
  - exists t. split; [exact Ht|]. unfold place in *. rewrite <- Sh by exact Ht. exact P.
  - intros t' n Ht' P'. apply (L t' n Ht'). unfold place in *. rewrite Sh by exact Ht'. exact P'.
Qed.
End Super.
Print Assumptions C153_least_place.
Print Assumptions C153_exact.
Print Assumptions C153_set.
Print Assumptions C153_draw.

(** python's generator draws such numbers *)
Theorem C153_generator : float_draws token_draw.
Proof.
  intros t j. unfold token_draw. rewrite iter_random by apply sound_seed. destruct (random_spec (after (2 * j) (seed (Z.of_N t)))) as (n & M1 & M2 & _); [apply sound_after, sound_seed|].
  rewrite M2. change (2 ^ 53)%N with 9007199254740992%N in M1. change (2 ^ 53)%positive with 9007199254740992%positive. unfold Qle. cbn. split; lia.
Qed.
Print Assumptions C153_generator.

(** ** python's SuperMinHash(5), run on 'abc'; no draw is close to 1 *)
Fixpoint far_from (m j : nat) (g : rng) : bool :=
  match m with
  | O => true
  | S m => let '(r, g) := random g in (Qle_bool r (1 - inject_Z (Z.of_nat (S j)) * (1 # 9007199254740992)) && far_from m (S j) g)%bool
  end.
Example abc_far : forallb (fun t => far_from 5 0 (seed (Z.of_N t))) [97; 98; 99]%N = true.
Proof. vm_compute. reflexivity. Qed.
Example super_abc : seeded_super_float (fun l => l) 5 (Text (codes "abc")) = Ok [0; 0; 0; 2; 1]%Z.
Proof. vm_compute. reflexivity. Qed.
Example super_high : super_float (fun t : N => t) (fun l => l) high 2 (Tokens [7%N]) = Ok [2; 0]%Z.
Proof. vm_compute. reflexivity. Qed.
