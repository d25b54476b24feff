(** C115-C120: what becomes of the numbers once they are binary64 floats *)
From Coq Require Import QArith Qround Qabs ZArith Lqa SpecFloat.
From Verif Require Import Base BlockingSpec LevModel StringsModel MetricsModel MetricsSpec FloatModel FloatSpec FloatProofs FloatMetricsProofs FloatCountProofs.
Open Scope Q_scope.

(** C115: the rounding of the model is the one of the standard: the nearest float, the even one between two, and no other number is *)
Theorem C115_rounding q x : rounds q x <-> x == fl q.
Proof. split; [apply rounds_fl|]. intros E. apply (rounds_comp q (fl q)); [reflexivity|symmetry; exact E|apply fl_rounds]. Qed.
Theorem C116_sqrt q : 0 < q -> rounds_sqrt q (fsqrt q).
Proof. apply fsqrt_rounds. Qed.

(** the standard library's own binary64 arithmetic, on samples *)
Definition value (f : spec_float) : option Q :=
  match f with
  | S754_finite false m e => Some (Qred (inject_Z (Zpos m) * pow2 e))
  | S754_finite true m e => Some (Qred (- (inject_Z (Zpos m) * pow2 e)))
  | S754_zero _ => Some 0
  | _ => None
  end.
Definition spec_of (z : Z) : spec_float := match z with Z0 => S754_zero false | Zpos p => S754_finite false p 0 | Zneg p => S754_finite true p 0 end.
Definition normal (f : spec_float) : spec_float := SFmul 53 1024 f (S754_finite false 4503599627370496 (-52)).
Definition samples : list Z := [1; 2; 3; 5; 7; 10; 29; 57; 100; 999; 4503599627370497; 9007199254740991]%Z.
Example fl_as_specfloat : forallb (fun a => forallb (fun b =>
  let q := SFdiv 53 1024 (normal (spec_of a)) (normal (spec_of b)) in
  let r := SFdiv 53 1024 (normal (spec_of b)) (normal (spec_of 7)) in
  match value q, value r, value (SFadd 53 1024 q r), value (SFsub 53 1024 q r), value (SFmul 53 1024 q r), value (SFsqrt 53 1024 q) with
  | Some x, Some y, Some add, Some sub, Some mul, Some root =>
    Qeq_bool x (fdiv (inject_Z a) (inject_Z b)) && Qeq_bool y (fdiv (inject_Z b) (inject_Z 7)) && Qeq_bool add (fadd x y) && Qeq_bool sub (fsub x y) && Qeq_bool mul (fmul x y) &&
    Qeq_bool root (fsqrt x)
  | _, _, _, _, _, _ => false
  end) samples) samples = true.
Proof. vm_compute. reflexivity. Qed.

(** the float written c/d, in decimal *)
Notation dec c d := (fl (c # d)).
Lemma dec_rounds c d : rounds (c # d) (dec c d).
Proof. apply fl_rounds. Qed.

Section Sets.
Context {T : Type} `{EqDec T}.

(** C115: comparing a jaccard, dice or overlap similarity with a decimal threshold gives what the exact fractions give *)
Theorem C115_jaccard same (A B : list T) i u c d r : coherent same A B ->
  card (fun x => In x A /\ In x B) i -> card (fun x => In x A \/ In x B) u -> (1 <= u)%nat ->
  (c <= d)%nat -> (1 <= d)%nat -> (Z.of_nat u * Z.of_nat d < 2 ^ 52)%Z -> rounds (Qnat c / Qnat d) r ->
  (r <= jaccard_float same A B <-> (c * u <= i * d)%nat).
Proof. exact (jaccard_float_threshold same A B i u c d r). Qed.
Theorem C115_dice same (A B : list T) i n m c d r : coherent same A B ->
  card (fun x => In x A /\ In x B) i -> card (fun x => In x A) n -> card (fun x => In x B) m -> (1 <= n + m)%nat ->
  (c <= d)%nat -> (1 <= d)%nat -> (Z.of_nat (n + m) * Z.of_nat d < 2 ^ 52)%Z -> rounds (Qnat c / Qnat d) r ->
  (r <= dice_float same A B <-> (c * (n + m) <= 2 * i * d)%nat).
Proof. exact (dice_float_threshold same A B i n m c d r). Qed.
Theorem C115_overlap same (A B : list T) i n m c d r : coherent same A B ->
  card (fun x => In x A /\ In x B) i -> card (fun x => In x A) n -> card (fun x => In x B) m -> (1 <= n)%nat -> (1 <= m)%nat ->
  (c <= d)%nat -> (1 <= d)%nat -> (Z.of_nat (Nat.min n m) * Z.of_nat d < 2 ^ 52)%Z -> rounds (Qnat c / Qnat d) r ->
  (r <= overlap_float same A B <-> (c * Nat.min n m <= i * d)%nat).
Proof. exact (overlap_float_threshold same A B i n m c d r). Qed.
(** C115: they stay between 0 and 1, are symmetric, and jaccard is 1 for the same elements only *)
Theorem C115_range same (A B : list T) :
  0 <= jaccard_float same A B <= 1 /\ 0 <= dice_float same A B <= 1 /\ 0 <= overlap_float same A B <= 1.
Proof. exact (set_metrics_float_range same A B). Qed.
Theorem C115_symmetric same (A B : list T) :
  jaccard_float same A B == jaccard_float same B A /\ dice_float same A B == dice_float same B A /\ overlap_float same A B == overlap_float same B A.
Proof. exact (set_metrics_float_sym same A B). Qed.
Theorem C115_one same (A B : list T) i u : coherent same A B ->
  card (fun x => In x A /\ In x B) i -> card (fun x => In x A \/ In x B) u -> (1 <= u)%nat -> (Z.of_nat u < 2 ^ 52)%Z ->
  (jaccard_float same A B == 1 <-> forall x, In x A <-> In x B).
Proof. exact (jaccard_float_one same A B i u). Qed.

(** C116: binary cosine is between 0 and 1, and compares with a decimal threshold as the exact roots do *)
Theorem C116_range (A B : list T) i n m :
  card (fun x => In x A /\ In x B) i -> card (fun x => In x A) n -> card (fun x => In x B) m -> (1 <= n)%nat -> (1 <= m)%nat ->
  (Z.of_nat (n * m) <= 2 ^ 53)%Z ->
  exists x y, binary_cosine_float false (set_of A) (set_of B) = Ok x /\ binary_cosine_float false (set_of B) (set_of A) = Ok y /\
    0 <= x <= 1 /\ y == x.
Proof.
  intros Ci Cn Cm Hn Hm HB. destruct (binary_cosine_float_value A B i n m Ci Cn Cm Hn Hm HB) as (x & Ex & Vx).
  assert (Ci' : card (fun x => In x B /\ In x A) i) by (revert Ci; apply MetricsProofs.card_ext; intros; tauto).
  destruct (binary_cosine_float_value B A i m n Ci' Cm Cn Hm Hn) as (y & Ey & Vy); [rewrite Nat.mul_comm; exact HB|].
  exists x, y. split; [exact Ex|]. split; [exact Ey|]. rewrite Vx, Vy, (Nat.mul_comm m n). split; [|reflexivity].
  apply cosine_quotient_range; [exact (card_inter_square A B i n m Ci Cn Cm)|nia|exact HB].
Qed.
Theorem C116_threshold (A B : list T) i n m c d r :
  card (fun x => In x A /\ In x B) i -> card (fun x => In x A) n -> card (fun x => In x B) m -> (1 <= n)%nat -> (1 <= m)%nat ->
  (c <= d)%nat -> (1 <= d)%nat -> (Z.of_nat (n * m) * (Z.of_nat d * Z.of_nat d) < 2 ^ 48)%Z -> rounds (Qnat c / Qnat d) r ->
  exists x, binary_cosine_float false (set_of A) (set_of B) = Ok x /\ (r <= x <-> (c * c * (n * m) <= i * i * (d * d))%nat).
Proof.
  intros Ci Cn Cm Hn Hm Hc Hd HB Hr. destruct (binary_cosine_float_value A B i n m Ci Cn Cm Hn Hm) as (x & Ex & Vx); [nia|].
  exists x. split; [exact Ex|]. rewrite Vx. apply cosine_threshold_exact; auto; [exact (card_inter_square A B i n m Ci Cn Cm)|nia].
Qed.

(** C118: what remains true of the metrics of weighted sets: a weighted jaccard similarity is between 0 and 1 *)
Theorem C118_weighted_jaccard same (A B : dict T Q) x : (forall k v, In (k, v) A -> 0 <= v) -> (forall k v, In (k, v) B -> 0 <= v) ->
  weighted_jaccard_float same A B = Ok x -> 0 <= x <= 1.
Proof. exact (weighted_jaccard_float_range same A B x). Qed.
(** C118: a cosine similarity is symmetric when the vectors do not have as many keys, or list them in the same order *)
Theorem C118_cosine_symmetric same (A B : dict T Q) : NoDup (map fst A) -> length A <> length B \/ map fst A = map fst B ->
  cosine_float same A B = cosine_float same B A.
Proof. exact (cosine_float_sym same A B). Qed.
(** C118: it is 1 for a vector and a copy of it listed in the same order *)
Theorem C118_cosine_same (A : dict T Q) x : NoDup (map fst A) -> A <> [] -> cosine_float false A A = Ok x -> x == 1.
Proof. exact (cosine_float_same A x). Qed.
End Sets.
(** C118: the mean of numbers between 0 and 1 is between 0 and 1 *)
Theorem C118_mean l : Forall (fun x => 0 <= x <= 1) l -> l <> [] -> (Z.of_nat (length l) <= 2 ^ 53)%Z ->
  exists x, mean_peek_float (fold_left mean_add_float l (0, 0%nat)) = Ok x /\ 0 <= x <= 1.
Proof. exact (mean_float_range l). Qed.

(** C118: the count is that of the numbers added and not subtracted, and a mean without numbers raises *)
Theorem C118_mean_count m x :
  snd (mean_add_float m x) = S (snd m) /\
  (snd m = 0%nat -> mean_subtract_float m x = Err AssertionError /\ mean_peek_float m = Err StatisticsError) /\
  (snd m <> 0%nat -> exists m' y, mean_subtract_float m x = Ok m' /\ S (snd m') = snd m /\ mean_peek_float m = Ok y).
Proof.
  destruct m as [s n]. unfold mean_add_float, mean_subtract_float, mean_peek_float. cbn. split; [lia|]. split; [intros ->; auto|].
  intros Hn. apply Nat.eqb_neq in Hn as E. rewrite E. eexists. eexists. split; [reflexivity|]. split; [cbn; lia|reflexivity].
Qed.

(** C117: a cosine similarity may be above 1, and depends on the order of the arguments and of the keys *)
Theorem C117_cosine_refuted : exists (A B : dict nat Q) x y,
  (forall k, dget A k = dget B k) /\ Forall float53 (map snd A) /\ Forall float53 (map snd B) /\
  cosine_float false A B = Ok x /\ cosine_float false B A = Ok y /\ 1 < y /\ ~ x == y.
Proof.
  exists [(0, dec 1 10); (1, dec 1 10); (2, dec 3 10)]%nat, [(0, dec 1 10); (2, dec 3 10); (1, dec 1 10)]%nat.
  eexists. eexists. split; [intros [|[|[|k]]]; reflexivity|].
  split; [repeat constructor; apply fl_float53|]. split; [repeat constructor; apply fl_float53|].
  split; [vm_compute; reflexivity|]. split; [vm_compute; reflexivity|]. split; [reflexivity|discriminate].
Qed.
(** C117: so do the dot product and the weighted jaccard similarity *)
Theorem C117_dot_refuted : exists A B : dict nat Q, Forall float53 (map snd A) /\ Forall float53 (map snd B) /\ ~ dot_float A B == dot_float B A.
Proof.
  exists [(0, dec 8 10); (1, dec 9 10); (2, dec 4 10)]%nat, [(2, dec 4 10); (0, dec 8 10); (1, dec 5 10)]%nat.
  split; [repeat constructor; apply fl_float53|]. split; [repeat constructor; apply fl_float53|]. vm_compute. discriminate.
Qed.
Theorem C117_weighted_jaccard_refuted : exists (A B : dict nat Q) x y, Forall float53 (map snd A) /\ Forall float53 (map snd B) /\
  weighted_jaccard_float false A B = Ok x /\ weighted_jaccard_float false B A = Ok y /\ ~ x == y.
Proof.
  exists [(0, dec 5 10); (1, dec 4 10); (2, dec 2 10)]%nat, [(2, dec 1 10); (0, dec 1 10); (1, dec 9 10)]%nat.
  eexists. eexists. split; [repeat constructor; apply fl_float53|]. split; [repeat constructor; apply fl_float53|].
  split; [vm_compute; reflexivity|]. split; [vm_compute; reflexivity|]. vm_compute. discriminate.
Qed.
(** C118: the sum follows the order of the smaller vector; that of the other one does not matter *)
Theorem C118_dot_order {T} `{EqDec T} (A B C : dict T Q) : (length A <= length B)%nat -> length C = length B -> (forall k, dget C k = dget B k) ->
  dot_float A C = dot_float A B /\ ((length A < length B)%nat -> dot_float C A = dot_float A B).
Proof.
  intros L E HC. assert (G : forall l p, fold_left (fun p kv => match dget C (fst kv) with Some w2 => fadd p (fmul (snd kv) w2) | None => p end) l p =
    fold_left (fun p kv => match dget B (fst kv) with Some w2 => fadd p (fmul (snd kv) w2) | None => p end) l p).
  { induction l as [|kv l IH]; intros p; [reflexivity|]. cbn [fold_left]. rewrite HC. apply IH. }
  unfold dot_float. rewrite E. rewrite (proj2 (Nat.ltb_ge (length B) (length A)) L). split; [apply G|].
  intros L2. rewrite (proj2 (Nat.ltb_lt (length A) (length B)) L2). apply G.
Qed.
(** C117: subtracting what was added does not give the mean back, and the mean of three equal numbers is not that number *)
Theorem C117_mean_refuted : exists x y m, float53 x /\ float53 y /\
  mean_subtract_float (mean_add_float (mean_add_float (0, 0%nat) x) y) y = Ok m /\ ~ fst m == x /\
  exists z, mean_peek_float (fold_left mean_add_float [x; x; x] (0, 0%nat)) = Ok z /\ x < z.
Proof.
  exists (dec 1 10), (dec 2 10). eexists. split; [apply fl_float53|]. split; [apply fl_float53|]. split; [vm_compute; reflexivity|].
  split; [vm_compute; discriminate|]. eexists. split; [vm_compute; reflexivity|]. reflexivity.
Qed.

(** C119: the size of the smallest n-gram keys is not always floor(k * threshold): 28 instead of 29 for 100 grams and 0.29 *)
Theorem C119_key_size_refuted : exists k c d r, (0 <= c <= d)%Z /\ (0 < d)%Z /\ rounds (inject_Z c / inject_Z d) r /\
  key_size_float k r <> Z.max 1 (k * c / d).
Proof.
  exists 100%Z, 29%Z, 100%Z, (fl (inject_Z 29 / inject_Z 100)). split; [lia|]. split; [lia|]. split; [apply fl_rounds|]. vm_compute. discriminate.
Qed.

(** C120: it is that number or one less; it is that number when the threshold is rounded up, or when k * threshold is not an integer *)
Theorem C120_key_size k c d r : (0 <= k)%Z -> (0 <= c <= d)%Z -> (0 < d)%Z -> (k * d < 2 ^ 50)%Z -> rounds (inject_Z c / inject_Z d) r ->
  (Z.max 1 (k * c / d) - 1 <= key_size_float k r <= Z.max 1 (k * c / d))%Z /\
  (inject_Z c / inject_Z d <= r \/ ~ (d | k * c)%Z -> key_size_float k r = Z.max 1 (k * c / d)).
Proof.
  intros Hk Hc Hd Hkd Hr. unfold key_size_float. pose proof (key_floor_le k c d Hk Hc Hd Hkd r Hr). pose proof (key_floor_ge k c d Hk Hc Hd Hkd r Hr).
  split; [lia|]. intros HC. rewrite (key_floor_exact k c d Hk Hc Hd Hkd r Hr HC). reflexivity.
Qed.
(** C120: so that no key of the exact threshold is missing, and none is added for the default threshold *)
Theorem C120_keys n s c d r : (1 <= n)%nat -> (0 <= c <= d)%Z -> (0 < d)%Z -> (Z.of_nat (length s) * d < 2 ^ 50)%Z -> rounds (inject_Z c / inject_Z d) r ->
  incl (ngram_keys n s (inject_Z c / inject_Z d)) (ngram_keys_float n s r).
Proof.
  intros Hn Hc Hd HB Hr. destruct (ngram_keys_float_super n s c d r Hn Hc Hd HB Hr) as (extra & -> & _). intros x Hx. apply in_app_iff. auto.
Qed.
Theorem C120_default_keys n s r : (1 <= n)%nat -> (Z.of_nat (length s) * 10 < 2 ^ 50)%Z -> rounds (inject_Z 8 / inject_Z 10) r ->
  ngram_keys_float n s r = ngram_keys n s (inject_Z 8 / inject_Z 10).
Proof.
  intros Hn HB Hr. destruct (ngram_keys_float_super n s 8 10 r Hn ltac:(lia) ltac:(lia) HB Hr) as (extra & -> & E).
  rewrite E, app_nil_r; [reflexivity|]. rewrite (rounds_fl _ _ Hr). vm_compute. discriminate.
Qed.
(** C120: the number of chunks of the parallel versions and the number of leaders are the exact ones *)
Theorem C120_chunks n s : (1 <= s)%nat -> (Z.of_nat n < 2 ^ 53)%Z -> chunks_float n s = Z.of_nat ((n + s - 1) / s).
Proof. exact (chunks_exact n s). Qed.
Theorem C120_leaders n : (Z.of_nat n < 2 ^ 50)%Z -> leaders_float n = Z.of_nat (Nat.sqrt n).
Proof. exact (leaders_exact n). Qed.

(** ** Samples *)
Example dec_values : dec 1 10 = (3602879701896397 # 36028797018963968) /\ dec 8 10 = (3602879701896397 # 4503599627370496) /\ dec 1 2 = (1 # 2).
Proof. vm_compute. auto. Qed.
Example point_three : fadd (dec 1 10) (dec 2 10) = (1351079888211149 # 4503599627370496) /\ ~ fadd (dec 1 10) (dec 2 10) == dec 3 10.
Proof. split; [vm_compute; reflexivity|vm_compute; discriminate]. Qed.
Example root_two : fsqrt 2 = (6369051672525773 # 4503599627370496).
Proof. vm_compute. reflexivity. Qed.
(** 7 of 10 elements are shared: the similarity is 0.7, and reaches the threshold 0.7 *)
Example jaccard_limit : dec 7 10 <= jaccard_float false (seq 0 10) (seq 0 7) /\ ~ dec 71 100 <= jaccard_float false (seq 0 10) (seq 0 7).
Proof. split; vm_compute; [discriminate|intros X; apply X; reflexivity]. Qed.
Example binary_cosine_sample : binary_cosine_float false (set_of [1; 2; 3]%nat) (set_of [3; 1; 4]%nat) = Ok (dec 2 3).
Proof. vm_compute. reflexivity. Qed.
Example keys_sample : key_size_float 100 (dec 29 100) = 28%Z /\ key_size_float 10 (dec 8 10) = 8%Z /\ key_size_float 100 (dec 57 100) = 56%Z.
Proof. vm_compute. auto. Qed.
Example counts_sample : chunks_float 10 3 = 4%Z /\ chunks_float 9 3 = 3%Z /\ leaders_float 99 = 9%Z /\ leaders_float 100 = 10%Z.
Proof. vm_compute. auto. Qed.
Example cosine_sample : exists x, cosine_float false [(0, dec 1 10); (1, dec 1 10); (2, dec 3 10)]%nat [(0, dec 1 10); (1, dec 1 10); (2, dec 3 10)]%nat = Ok x /\ x == 1.
Proof. eexists. split; vm_compute; reflexivity. Qed.

Print Assumptions C115_rounding.
Print Assumptions C116_sqrt.
Print Assumptions C115_jaccard.
Print Assumptions C115_dice.
Print Assumptions C115_overlap.
Print Assumptions C115_range.
Print Assumptions C115_symmetric.
Print Assumptions C115_one.
Print Assumptions C116_range.
Print Assumptions C116_threshold.
Print Assumptions C117_cosine_refuted.
Print Assumptions C117_dot_refuted.
Print Assumptions C117_weighted_jaccard_refuted.
Print Assumptions C117_mean_refuted.
Print Assumptions C118_dot_order.
Print Assumptions C118_weighted_jaccard.
Print Assumptions C118_cosine_symmetric.
Print Assumptions C118_cosine_same.
Print Assumptions C118_mean.
Print Assumptions C118_mean_count.
Print Assumptions C119_key_size_refuted.
Print Assumptions C120_key_size.
Print Assumptions C120_keys.
Print Assumptions C120_default_keys.
Print Assumptions C120_chunks.
Print Assumptions C120_leaders.
