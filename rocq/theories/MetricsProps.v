(** C31-C34: metrics and online mean *)
From Coq Require Import QArith Qminmax Reals Lra.
From Verif Require Import Base BlockingSpec MetricsModel MetricsSpec MetricsProofs.
Open Scope nat_scope.

Section Sets.
Context {T : Type} `{EqDec T}.

(** C31: jaccard, dice and overlap are the expected quotients whenever these are defined *)
Theorem C31_jaccard same (A B : list T) i u : coherent same A B ->
  card (fun x => In x A /\ In x B) i -> card (fun x => In x A \/ In x B) u -> u <> 0 ->
  (jaccard_similarity same A B == Qnat i / Qnat u)%Q.
Proof. exact (jaccard_correct same A B i u). Qed.

Theorem C31_dice same (A B : list T) i n m : coherent same A B ->
  card (fun x => In x A /\ In x B) i -> card (fun x => In x A) n -> card (fun x => In x B) m -> n + m <> 0 ->
  (dice_coefficient same A B == Qnat (2 * i) / Qnat (n + m))%Q.
Proof. exact (dice_correct same A B i n m). Qed.

Theorem C31_overlap same (A B : list T) i n m : coherent same A B ->
  card (fun x => In x A /\ In x B) i -> card (fun x => In x A) n -> card (fun x => In x B) m -> n <> 0 -> m <> 0 ->
  (overlap_coefficient same A B == Qnat i / Qnat (Nat.min n m))%Q.
Proof. exact (overlap_correct same A B i n m). Qed.

(** C31: conventions for empty arguments that are not the same object (the same object always gives 1) *)
Theorem C31_empty (A B : list T) : A = [] \/ B = [] ->
  jaccard_similarity false A B = 0%Q /\ overlap_coefficient false A B = 0%Q /\
  dice_coefficient false A B = (match A, B with [], [] => 1%Q | _, _ => 0%Q end).
Proof. exact (metrics_empty A B). Qed.

Theorem C31_symmetric same (A B : list T) :
  (jaccard_similarity same A B == jaccard_similarity same B A)%Q /\
  (dice_coefficient same A B == dice_coefficient same B A)%Q /\
  overlap_coefficient same A B = overlap_coefficient same B A.
Proof. exact (conj (jaccard_sym same A B) (conj (dice_sym same A B) (overlap_sym same A B))). Qed.

Theorem C31_range same (A B : list T) :
  (0 <= jaccard_similarity same A B <= 1)%Q /\ (0 <= dice_coefficient same A B <= 1)%Q /\
  (0 <= overlap_coefficient same A B <= 1)%Q.
Proof. exact (metrics_range same A B). Qed.

Theorem C31_one same (A B : list T) : coherent same A B ->
  (jaccard_similarity same A B == 1)%Q \/ (dice_coefficient same A B == 1)%Q -> forall x, In x A <-> In x B.
Proof. exact (metrics_one same A B). Qed.

Theorem C31_intersection_size (A B : list T) :
  card (fun x => In x A /\ In x B) (intersection_size false A B).
Proof. exact (intersection_size_correct A B). Qed.

(** one set given twice *)
Theorem C31_intersection_itself (A : list T) : NoDup A -> card (fun x => In x A) (intersection_size true A A).
Proof. exact (intersection_size_itself A). Qed.

(** C32: weighted jaccard, for non-negative weights; dictionaries without any weight raise *)
Theorem C32_value (A B : dict T Q) wa wb ks : weights 0%Q A wa -> weights 0%Q B wb -> covers ks A B ->
  (forall k, 0 <= wa k)%Q -> (forall k, 0 <= wb k)%Q -> A <> [] -> B <> [] ->
  let i := Qsum (map (fun k => Qmin (wa k) (wb k)) ks) in
  let u := Qsum (map (fun k => Qmax (wa k) (wb k)) ks) in
  if Qeq_bool u 0 then weighted_jaccard_similarity false A B = Err ZeroDivisionError
  else exists q, weighted_jaccard_similarity false A B = Ok q /\ (q == i / u)%Q.
Proof. exact (weighted_value A B wa wb ks). Qed.

Theorem C32_empty (A B : dict T Q) : A = [] \/ B = [] -> weighted_jaccard_similarity false A B = Ok 0%Q.
Proof. exact (weighted_empty A B). Qed.

Theorem C32_symmetric (A B : dict T Q) wa wb same : weights 0%Q A wa -> weights 0%Q B wb ->
  (forall k, 0 <= wa k)%Q -> (forall k, 0 <= wb k)%Q ->
  res_Qeq (weighted_jaccard_similarity same A B) (weighted_jaccard_similarity same B A).
Proof. exact (weighted_sym A B wa wb same). Qed.

Theorem C32_range (A B : dict T Q) wa wb same q : weights 0%Q A wa -> weights 0%Q B wb ->
  (forall k, 0 <= wa k)%Q -> (forall k, 0 <= wb k)%Q ->
  weighted_jaccard_similarity same A B = Ok q -> (0 <= q <= 1)%Q.
Proof. exact (weighted_range A B wa wb same q). Qed.

(** C33: cosine of non-empty dictionaries; a null vector raises *)
Theorem C33_cosine (A B : dict T R) wa wb ks : weights 0%R A wa -> weights 0%R B wb -> covers ks A B ->
  A <> [] -> B <> [] ->
  sparse_cosine_similarity false A B =
    if Req_EM_T (norm ks wa * norm ks wb) 0 then Err ZeroDivisionError
    else Ok (dot ks wa wb / (norm ks wa * norm ks wb))%R.
Proof.
  exact (fun HA HB Hks NA NB => eq_trans (cosine_value A B wa wb ks HA HB Hks NA NB) (div_sqrt_norms ks wa wb _)).
Qed.

Theorem C33_range (A B : dict T R) wa wb same x : weights 0%R A wa -> weights 0%R B wb ->
  sparse_cosine_similarity same A B = Ok x ->
  (-1 <= x <= 1)%R /\ ((forall k, 0 <= wa k)%R -> (forall k, 0 <= wb k)%R -> (0 <= x)%R).
Proof. exact (cosine_range A B wa wb same x). Qed.

Theorem C33_symmetric (A B : dict T R) wa wb same : weights 0%R A wa -> weights 0%R B wb ->
  sparse_cosine_similarity same A B = sparse_cosine_similarity same B A.
Proof. exact (cosine_sym A B wa wb same). Qed.

(** C33: a sequence is the vector of its counts *)
Theorem C33_counter (l : list T) : weights 0%R (counter l) (fun k => INR (count_occ eq_dec l k)).
Proof. exact (counter_weights l). Qed.

Theorem C33_dot (A B : dict T R) wa wb ks : weights 0%R A wa -> weights 0%R B wb -> covers ks A B ->
  sparse_dot_product A B = dot ks wa wb.
Proof. exact (dot_product_correct A B wa wb ks). Qed.

(** C33: normalized vectors have norm 1 and their dot product is the cosine *)
Theorem C33_normalize (A : dict T R) wa ks : weights 0%R A wa -> covers ks A A -> norm ks wa <> 0%R ->
  sparse_norm (sparse_normalize A) = 1%R.
Proof. exact (normalize_norm A wa ks). Qed.

Theorem C33_normalized_dot (A B : dict T R) wa wb ks : weights 0%R A wa -> weights 0%R B wb -> covers ks A B ->
  norm ks wa <> 0%R -> norm ks wb <> 0%R ->
  sparse_dot_product (sparse_normalize A) (sparse_normalize B) = (dot ks wa wb / (norm ks wa * norm ks wb))%R.
Proof. exact (normalized_dot A B wa wb ks). Qed.

(** C33: binary cosine *)
Theorem C33_binary (A B : list T) i n m : card (fun x => In x A /\ In x B) i ->
  card (fun x => In x A) n -> card (fun x => In x B) m -> n <> 0 -> m <> 0 ->
  binary_cosine_similarity A B = Ok (INR i / (sqrt (INR n) * sqrt (INR m)))%R.
Proof. exact (binary_cosine_value A B i n m). Qed.

Theorem C33_binary_range (A B : list T) : exists x, binary_cosine_similarity A B = Ok x /\ (0 <= x <= 1)%R /\
  binary_cosine_similarity B A = Ok x.
Proof. exact (binary_cosine_range A B). Qed.
End Sets.

(** C34: online mean *)
Theorem C34_peek h l : holds h l -> exists m, mean_run h = Ok m /\
  match l with
  | [] => mean_peek m = Err StatisticsError /\ forall x, mean_subtract m x = Err AssertionError
  | _ => exists q, mean_peek m = Ok q /\ (q == Qsum l / Qnat (length l))%Q
  end.
Proof. exact (mean_peek_correct h l). Qed.

Theorem C34_len h l : holds h l -> exists m, mean_run h = Ok m /\ mean_len m = length l /\ (fst m == Qsum l)%Q.
Proof. exact (mean_holds h l). Qed.

Theorem C34_undo m x : exists m', mean_subtract (mean_add m x) x = Ok m' /\ snd m' = snd m /\ (fst m' == fst m)%Q.
Proof. exact (mean_subtract_add m x). Qed.

(** C34: [a + b] and [a += b] hold the same values *)
Theorem C34_plus m m' : snd (mean_plus m m') = snd (mean_iadd m m') /\ (fst (mean_plus m m') == fst (mean_iadd m m'))%Q.
Proof. exact (mean_plus_iadd m m'). Qed.

Example C31_ex :
  Qeq (jaccard_similarity false [1; 2; 3; 3] [2; 3; 4]) (1 # 2) /\
  Qeq (dice_coefficient false [1; 2; 3; 3] [2; 3; 4]) (2 # 3) /\
  Qeq (overlap_coefficient false [1; 2; 3; 3] [2; 3]) 1 /\ intersection_size false [1; 2; 3; 3] [2; 3; 4; 5; 6] = 2 /\
  jaccard_similarity false (@nil nat) [] = 0%Q /\ jaccard_similarity true (@nil nat) [] = 1%Q /\
  (* the same list with repetitions *) intersection_size true [1; 1] [1; 1] = 2.
Proof. repeat split; vm_compute; reflexivity. Qed.

Example C32_ex : exists q,
  weighted_jaccard_similarity false [(1, 34%Q); (2, 3%Q)] [(2, 1%Q); (3, 1%Q)] = Ok q /\ (q == 1 # 38)%Q /\
  weighted_jaccard_similarity false [(1, 0%Q)] [(2, 0%Q)] = Err ZeroDivisionError.
Proof. eexists. vm_compute. repeat split. Qed.

Example C33_ex : binary_cosine_similarity [1; 2; 3; 1] [3; 4; 1] = Ok (2 / (sqrt 3 * sqrt 3))%R /\
  weights 0%R [(1, 2%R)] (fun k => if Nat.eqb k 1 then 2%R else 0%R).
Proof.
  split.
  - rewrite (C33_binary [1; 2; 3; 1] [3; 4; 1] 2 3 3); [|..|discriminate|discriminate].
    + replace (INR 2) with 2%R by (simpl; ring). replace (INR 3) with 3%R by (simpl; ring). reflexivity.
    + exists [1; 3]. split; [repeat constructor; simpl; lia|]. split; [|reflexivity]. simpl. intros x. lia.
    + exists [1; 2; 3]. split; [repeat constructor; simpl; lia|]. split; [|reflexivity]. simpl. intros x. lia.
    + exists [1; 3; 4]. split; [repeat constructor; simpl; lia|]. split; [|reflexivity]. simpl. intros x. lia.
  - split; [repeat constructor; simpl; tauto|]. split; simpl.
    + intros k v [[= <- <-]|[]]. reflexivity.
    + intros k Hk. destruct (Nat.eqb_spec k 1); [lia|reflexivity].
Qed.

Example C34_ex : exists m,
  mean_run (Merged (Subtracted (Added (Added New 3) 5) 3) (Added New 10)) = Ok m /\ mean_peek m = Ok (15 # 2)%Q /\
  mean_run (Subtracted New 1) = Err AssertionError.
Proof. eexists. vm_compute. repeat split. Qed.

Print Assumptions C31_jaccard.
Print Assumptions C31_dice.
Print Assumptions C31_overlap.
Print Assumptions C31_empty.
Print Assumptions C31_symmetric.
Print Assumptions C31_range.
Print Assumptions C31_one.
Print Assumptions C31_intersection_size.
Print Assumptions C31_intersection_itself.
Print Assumptions C32_value.
Print Assumptions C32_empty.
Print Assumptions C32_symmetric.
Print Assumptions C32_range.
Print Assumptions C33_cosine.
Print Assumptions C33_range.
Print Assumptions C33_symmetric.
Print Assumptions C33_counter.
Print Assumptions C33_dot.
Print Assumptions C33_normalize.
Print Assumptions C33_normalized_dot.
Print Assumptions C33_binary.
Print Assumptions C33_binary_range.
Print Assumptions C34_peek.
Print Assumptions C34_len.
Print Assumptions C34_undo.
Print Assumptions C34_plus.
