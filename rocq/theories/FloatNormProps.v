(** C150, C151: the norm and the normalized vector, in floats. *)
From Coq Require Import QArith Qabs ZArith List Permutation.
From Verif Require Import Base MetricsModel FloatModel FloatSpec FloatNormModel FloatNormSpec FloatProofs FloatNormProofs FloatNormMoreProofs.
Import ListNotations.
Open Scope Q_scope.

(** ** C150: what rounding breaks *)

(** {a: 1, b: 1} normalized has a norm that is not 1 *)
Theorem C150_unit_refuted : ~ (forall A : dict nat Z, ~ norm_int A == 0 -> norm_float (normalize_int A) == 1).
Proof. intros P. specialize (P [(0%nat, 1%Z); (1%nat, 1%Z)] ltac:(vm_compute; discriminate)). vm_compute in P. discriminate. Qed.
Print Assumptions C150_unit_refuted.

(** {a: 1, b: 5} normalized has a dot product with itself above 1 *)
Theorem C150_dot_refuted : ~ (forall A : dict nat Z, dot_float (normalize_int A) (normalize_int A) <= 1).
Proof. intros P. specialize (P [(0%nat, 1%Z); (1%nat, 5%Z)]). vm_compute in P. apply P. reflexivity. Qed.
Print Assumptions C150_dot_refuted.

(** normalizing {a: 1, b: 1} twice is not normalizing once *)
Theorem C150_twice_refuted : ~ (forall A : dict nat Q, floats A -> pointwise Qeq (normalize_float (normalize_float A)) (normalize_float A)).
Proof.
  intros P. specialize (P [(0%nat, 1); (1%nat, 1)]). assert (F : floats [(0%nat, 1); (1%nat, 1)]).
  { intros k w [[= <- <-]|[[= <- <-]|[]]]; exists 1%Z, 0%Z; split; [vm_compute; discriminate|reflexivity|vm_compute; discriminate|reflexivity]. }
  specialize (P F). vm_compute in P. inversion P as [|? ? ? ? [_ E] _]. discriminate.
Qed.
Print Assumptions C150_twice_refuted.

(** {a: 1, b: 1} and {a: 3, b: 3} have different normalized vectors *)
Theorem C150_scale_refuted : ~ (forall (A : dict nat Q) (c : Z), (0 < c)%Z -> pointwise Qeq (normalize_float (scaled_by (inject_Z c) A)) (normalize_float A)).
Proof.
  intros P. specialize (P [(0%nat, 1); (1%nat, 1)] 3%Z eq_refl). vm_compute in P. inversion P as [|? ? ? ? [_ E] _]. discriminate.
Qed.
Print Assumptions C150_scale_refuted.

(** two equal dicts, {a: 0.1, b: 0.6, c: 0.9} written in two orders, have different norms *)
Theorem C150_order_refuted : ~ (forall A B : dict nat Q, floats A -> Permutation A B -> norm_float A == norm_float B).
Proof.
  assert (F : forall x y z, floats [(0%nat, fl x); (1%nat, fl y); (2%nat, fl z)]) by (intros x y z k w [[= <- <-]|[[= <- <-]|[[= <- <-]|[]]]]; apply fl_float53).
  intros P. specialize (P _ _ (F (1 # 10) (6 # 10) (9 # 10)) (Permutation_rev _)). vm_compute in P. discriminate.
Qed.
Print Assumptions C150_order_refuted.

(** {a: 2^53 + 3} normalized is {a: 1.0000000000000002} *)
Theorem C150_range_refuted : ~ (forall (A : dict nat Z) k v, In (k, v) (normalize_int A) -> v <= 1).
Proof.
  assert (E : normalize_int [(0%nat, 9007199254740995%Z)] = [(0%nat, 4503599627370497 # 4503599627370496)]) by (vm_compute; reflexivity).
  intros P. specialize (P [(0%nat, 9007199254740995%Z)] 0%nat (4503599627370497 # 4503599627370496)). rewrite E in P. specialize (P (or_introl eq_refl)). apply P. reflexivity.
Qed.
Print Assumptions C150_range_refuted.

(** ** C151: what holds *)
Section Norm.
Context {T : Type}.

(** the norm is 0 exactly when all weights are, and then the normalized vector is empty *)
Theorem C151_zero (A : dict T Q) : (norm_float A == 0 <-> forall k w, In (k, w) A -> w == 0) /\ (normalize_float A = [] <-> forall k w, In (k, w) A -> w == 0).
Proof.
  split; [apply norm_zero|]. rewrite <- norm_zero. split.
  - intros E. destruct (Qeq_dec (norm_float A) 0) as [Z|Z]; [exact Z|]. exfalso. rewrite (normalize_some A Z) in E. destruct A as [|kw A]; [apply Z; reflexivity|discriminate].
  - apply normalize_none.
Qed.

(** otherwise the keys are kept in order and each weight is the float nearest to its quotient by the norm *)
Theorem C151_quotients (A : dict T Q) : ~ norm_float A == 0 -> pointwise (fun w v => rounds (w / norm_float A) v) A (normalize_float A).
Proof. exact (normalize_values A). Qed.

(** no weight is above the norm in absolute value, and no normalized weight is outside [-1, 1] *)
Theorem C151_range (A : dict T Q) : floats A ->
  (forall k w, In (k, w) A -> Qabs w <= norm_float A) /\ (forall k v, In (k, v) (normalize_float A) -> -1 <= v /\ v <= 1).
Proof. intros F. split; [intros k w; apply norm_ge; exact F|intros k v; apply normalize_range; exact F]. Qed.

(** signs and the order of the weights are kept *)
Theorem C151_signs (A : dict T Q) : ~ norm_float A == 0 -> pointwise (fun w v => (0 < w <-> 0 < v) /\ (w < 0 <-> v < 0)) A (normalize_float A).
Proof. exact (normalize_sign A). Qed.
Theorem C151_order (A : dict T Q) i j k1 w1 k2 w2 v1 v2 : nth_error A i = Some (k1, w1) -> nth_error A j = Some (k2, w2) ->
  nth_error (normalize_float A) i = Some (k1, v1) -> nth_error (normalize_float A) j = Some (k2, v2) -> w1 <= w2 -> v1 <= v2.
Proof. exact (normalize_mono A i j k1 w1 k2 w2 v1 v2). Qed.

(** a single weight becomes exactly 1 or -1 *)
Theorem C151_single (k : T) w : float53 w -> ~ w == 0 ->
  exists v, normalize_float [(k, w)] = [(k, v)] /\ (0 < w -> v == 1) /\ (w < 0 -> v == -1).
Proof. exact (normalize_single k w). Qed.

(** the normalized vector is unit up to a few units in the last place per weight, by exact arithmetic and by the code's own norm *)
Theorem C151_unit (A : dict T Q) : ~ norm_float A == 0 -> (Z.of_nat (length A) <= 2 ^ 50)%Z ->
  Qabs (squares (map snd (normalize_float A)) - 1) <= (inject_Z (Z.of_nat (length A)) + 12) * (2 # 1) ^ (-52) /\
  Qabs (norm_float (normalize_float A) - 1) <= (inject_Z (Z.of_nat (length A)) + 12) * (2 # 1) ^ (-51).
Proof. intros N B. split; [apply (normalize_unit A N B)|apply (normalize_norm_float A N B)]. Qed.

(** the dot product of two normalized vectors is within [-1, 1], up to as little *)
Theorem C151_dot `{EqDec T} (A B : dict T Q) n : NoDup (map fst A) -> NoDup (map fst B) -> ~ norm_float A == 0 -> ~ norm_float B == 0 ->
  (length A <= n)%nat -> (length B <= n)%nat -> (Z.of_nat n <= 2 ^ 50)%Z ->
  Qabs (dot_float (normalize_float A) (normalize_float B)) <= 1 + (inject_Z (Z.of_nat n) + 12) * (2 # 1) ^ (-51).
Proof. exact (normalize_dot A B n). Qed.

(** multiplying the weights by a power of two changes nothing *)
Theorem C151_powers (A : dict T Q) k : norm_float (scaled_by ((2 # 1) ^ k) A) == (2 # 1) ^ k * norm_float A /\
  pointwise Qeq (normalize_float (scaled_by ((2 # 1) ^ k) A)) (normalize_float A).
Proof. split; [apply (norm_scale k A)|apply (normalize_scale k A)]. Qed.

(** int weights: the norm is the root of the exact sum, rounded once, while the sum is at most 2^53; it is that of the same weights as floats *)
Theorem C151_ints (A : dict T Z) : (zsquares (map snd A) <= 2 ^ 53)%Z ->
  ((0 < zsquares (map snd A))%Z -> rounds_sqrt (inject_Z (zsquares (map snd A))) (norm_int A)) /\
  norm_int A == norm_float (as_floats A) /\ pointwise Qeq (normalize_int A) (normalize_float (as_floats A)).
Proof. intros B. split; [apply norm_int_rounds; exact B|]. split; [apply norm_int_float; exact B|apply normalize_int_float; exact B]. Qed.

(** int weights: the order of the keys does not matter *)
Theorem C151_ints_order (A B : dict T Z) : Permutation A B -> norm_int A = norm_int B /\ Permutation (normalize_int A) (normalize_int B).
Proof. intros P. split; [apply norm_int_perm; exact P|apply normalize_int_perm; exact P]. Qed.
End Norm.
Print Assumptions C151_zero.
Print Assumptions C151_quotients.
Print Assumptions C151_range.
Print Assumptions C151_signs.
Print Assumptions C151_order.
Print Assumptions C151_single.
Print Assumptions C151_unit.
Print Assumptions C151_dot.
Print Assumptions C151_powers.
Print Assumptions C151_ints.
Print Assumptions C151_ints_order.

(** ** Values *)

(** test/metrics/cosine_test.py:73-85, to the last digit *)
Example normalize_test : normalize_int [(0%nat, 34); (1%nat, 78); (2%nat, -16)]%Z =
  [(0%nat, fl (39270291779351885 # 100000000000000000)); (1%nat, fl (900906693761602 # 1000000000000000)); (2%nat, fl (-184801373079303 # 1000000000000000))].
Proof. vm_compute. reflexivity. Qed.
(** python: {1, 1} gives 0.7071067811865475 twice, then 0.7071067811865476 twice *)
Example normalize_twice : normalize_int [(0%nat, 1); (1%nat, 1)]%Z = [(0%nat, fl (7071067811865475 # 10000000000000000)); (1%nat, fl (7071067811865475 # 10000000000000000))] /\
  normalize_float (normalize_int [(0%nat, 1); (1%nat, 1)]%Z) = [(0%nat, fl (7071067811865476 # 10000000000000000)); (1%nat, fl (7071067811865476 # 10000000000000000))].
Proof. vm_compute. split; reflexivity. Qed.
(** python: norms of 0.1, 0.6, 0.9 in both orders *)
Example norm_order : let a := fl (1 # 10) in let b := fl (6 # 10) in let c := fl (9 # 10) in
  norm_float [(0%nat, a); (1%nat, b); (2%nat, c)] = fl (10862780491200217 # 10000000000000000) /\
  norm_float [(2%nat, c); (1%nat, b); (0%nat, a)] = fl (10862780491200215 # 10000000000000000).
Proof. vm_compute. split; reflexivity. Qed.
Example normalize_three_four : normalize_float [(0%nat, 3); (1%nat, -4)] = [(0%nat, fl (3 # 5)); (1%nat, fl (-4 # 5))] /\ norm_float [(0%nat, 3); (1%nat, -4)] = 5 /\
  normalize_float [(0%nat, 0); (1%nat, 0)] = [].
Proof. vm_compute. repeat split; reflexivity. Qed.
