(** The search and the leaders with the cosine. *)
From Coq Require Import QArith Qabs Reals Qreals Lra Lqa.
From Verif Require Import Base BaseFacts PairwiseModel PairwiseProofs SortModel SortSpec SortFacts BlockingProofs CliProofs SpaceProofs MetricsModel FaginModel FaginSpec FaginProofs FaginCosineModel FaginCosineSpec FaginCosineProofs.
Open Scope nat_scope.

(** * Real numbers compared through their signed squares *)
Definition represents (x : R) (s : Q) : Prop := (x * Rabs x = Q2R s)%R.

Lemma signed_squares x y : (x <= y <-> x * Rabs x <= y * Rabs y)%R.
Proof. unfold Rabs. destruct (Rcase_abs x), (Rcase_abs y); split; intros; Lra.nra. Qed.

Lemma represents_le x y s t : represents x s -> represents y t -> (x <= y)%R <-> (s <= t)%Q.
Proof. intros E F. rewrite signed_squares, E, F. split; [apply Rle_Qle | apply Qle_Rle]. Qed.

Lemma Q2R_abs q : Q2R (Qabs q) = Rabs (Q2R q).
Proof.
  assert (Z : Q2R 0 = 0%R) by (unfold Q2R; cbn; Lra.lra).
  apply Qabs_case; intros L; apply Qle_Rle in L; rewrite Z in L.
  - rewrite Rabs_pos_eq by exact L. reflexivity.
  - rewrite Rabs_left1 by exact L. apply Q2R_opp.
Qed.

Section More.
Context {D : Type} `{EqDec D}.
Implicit Types (u v : vector D) (vectors : list (vector D)).

Definition signed u v : Q := (scalar u v * Qabs (scalar u v) / norms u v)%Q.

Lemma represents_0 : represents 0 0.
Proof. unfold represents, Q2R. cbn. Lra.lra. Qed.
Lemma represents_eq x s t : represents x s -> (s == t)%Q -> represents x t.
Proof. unfold represents. intros -> E. apply Qeq_eqR. exact E. Qed.

Lemma cosine_signed u v : no_zero u -> no_zero v -> exists x, cosine false u v = Ok x /\ represents x (signed u v).
Proof.
  intros Zu Zv. destruct u as [|du u'] eqn:Eu.
  { exists 0%R. split; [reflexivity|]. apply (represents_eq 0 0 _ represents_0). unfold signed. unfold scalar, products, ordered. cbn. reflexivity. }
  rewrite <- Eu in *. assert (Hu : u <> []) by (rewrite Eu; discriminate). clear Eu du u'.
  destruct v as [|dv v'] eqn:Ev.
  { exists 0%R. split.
    - unfold cosine, sparse_cosine_similarity. rewrite Bool.orb_true_r. reflexivity.
    - apply (represents_eq 0 0 _ represents_0). unfold signed. unfold scalar, products, ordered. destruct u; [contradiction|]. cbn. reflexivity. }
  rewrite <- Ev in *. assert (Hv : v <> []) by (rewrite Ev; discriminate). clear Ev dv v'.
  rewrite cosine_value by assumption. pose proof (norms_pos u v Hu Hv Zu Zv) as N. unfold div_sqrt, signed.
  assert (Z : Q2R 0 = 0%R) by (unfold Q2R; cbn; Lra.lra).
  pose proof (Qlt_Rlt _ _ N) as NR. rewrite Z in NR. pose proof (sqrt_lt_R0 _ NR) as SR. destruct (Req_EM_T _ 0) as [E|_]; [Lra.lra|].
  eexists. split; [reflexivity|]. unfold represents. rewrite Q2R_div by (intros E; rewrite E in N; apply (Qlt_irrefl 0); exact N).
  rewrite Q2R_mult, Q2R_abs. unfold Rdiv. rewrite Rabs_mult, (Rabs_pos_eq (/ _)) by (left; apply Rinv_0_lt_compat; exact SR).
  rewrite <- (sqrt_sqrt (Q2R (norms u v))) at 3 by (left; exact NR). rewrite Rinv_mult by Lra.lra. ring.
Qed.

Lemma products_self u : forall l st, (forall d w, In (d, w) l -> dget u d = Some w) -> fst st = snd st ->
  fst (fold_left (qstep u) l st) = snd (fold_left (qstep u) l st) /\
  fst (fold_left (qstep u) l st) = fold_left (fun yy w => (yy + w * w)%Q) (dvalues l) (fst st).
Proof.
  induction l as [|[d w] l IH]; intros st Hl E; [split; [exact E | reflexivity]|]. cbn [fold_left dvalues map snd].
  destruct (IH (qstep u st (d, w))) as [K1 K2].
  - intros d' w' Hin. apply Hl. right. exact Hin.
  - unfold qstep. cbn [fst snd]. rewrite (Hl d w (or_introl eq_refl)), E. reflexivity.
  - split; [exact K1|]. rewrite K2. reflexivity.
Qed.

Lemma signed_self u : NoDup (dkeys u) -> no_zero u -> u <> [] -> (signed u u == 1)%Q.
Proof.
  intros Nd Z Hu. pose proof (norms_pos u u Hu Hu Z Z) as N. unfold signed, scalar, norms, ordered in *.
  rewrite (proj2 (Nat.ltb_ge _ _) (Nat.le_refl _)) in *. cbn [fst snd] in *.
  destruct (products_self u u (0, 0)%Q) as [K1 K2]; [intros d w Hin; apply In_dget; assumption | reflexivity|].
  fold (products u u) in K1, K2. cbn [fst] in K2. fold (squares u) in K2. rewrite <- K1, K2 in *. 
  assert (P : (0 < squares u)%Q) by (apply (squares_pos u 0%Q Z); exact Hu).
  rewrite Qabs_pos by (apply Qlt_le_weak; exact P). field. intros E. rewrite E in P. apply (Qlt_irrefl 0). exact P.
Qed.

(** * threshold_algorithm_k1 *)
Variable same : nat -> nat -> bool.

Definition top_rel (b : option (Q * nat)) (t : option (R * nat)) : Prop :=
  match b, t with
  | None, None => True
  | Some (s, j), Some (x, k) => represents x s /\ j = k
  | _, _ => False
  end.
Definition rel (st : threshold_state) (se : @search D) : Prop :=
  visited st = seen se /\ t_vector st = bound se /\ top_rel (best st) (top se) /\ no_zero (t_vector st).

Lemma list_weight vectors d w j : well_formed vectors -> In (w, j) (list_of (sorted_lists vectors) d) -> exists v, In v vectors /\ nth j vectors [] = v /\ In (d, w) v.
Proof.
  intros W Hin. apply (Permutation_in _ (list_of_perm vectors d W)) in Hin. apply in_flat_map in Hin. destruct Hin as ([i v] & Hv & Hin).
  unfold entries in Hin. cbn [fst snd] in Hin. destruct (dget v d) as [w'|] eqn:E; [|contradiction]. destruct Hin as [[= -> ->]|[]].
  rewrite In_enumerate' in Hv. exists v. split; [eapply nth_error_In; exact Hv|]. split; [apply nth_error_nth; exact Hv | apply dget_Some_In; exact E].
Qed.

Lemma nonzero_dset v d w : no_zero v -> ~ (w == 0)%Q -> no_zero (dset v d w).
Proof.
  unfold dset. intros Z Hw. induction v as [|[e x] v IH]; cbn [dmodify].
  - intros d' w' [[= <- <-]|[]]. exact Hw.
  - destruct (eq_dec d e).
    + intros d' w' [[= <- <-]|Hin]; [exact Hw | apply (Z d'); right; exact Hin].
    + intros d' w' [[= <- <-]|Hin]; [apply (Z e); left; reflexivity|]. refine (IH _ d' w' Hin). intros d2 w2 K. apply (Z d2). right. exact K.
Qed.

Variable vectors : list (vector D).
Hypothesis W : well_formed vectors.
Hypothesis Z : Forall no_zero vectors.
Hypothesis same_ok : forall i j, same i j = true -> nth i vectors [] = nth j vectors [].

Lemma nonzero_nth j : no_zero (nth j vectors []).
Proof.
  destruct (Nat.lt_ge_cases j (length vectors)) as [L|L]; [|rewrite nth_overflow by exact L; intros d w []].
  rewrite Forall_forall in Z. apply Z. apply nth_In. exact L.
Qed.
Lemma NoDup_nth' j : NoDup (dkeys (nth j vectors [])).
Proof.
  destruct (Nat.lt_ge_cases j (length vectors)) as [L|L]; [|rewrite nth_overflow by exact L; constructor].
  unfold well_formed in W. rewrite Forall_forall in W. apply W. apply nth_In. exact L.
Qed.

Lemma cosine_at i j : nth i vectors [] <> [] -> exists x, cosine (same i j) (nth i vectors []) (nth j vectors []) = Ok x /\ represents x (signed (nth i vectors []) (nth j vectors [])).
Proof.
  intros Ne. destruct (same i j) eqn:E; [|apply cosine_signed; apply nonzero_nth].
  exists 1%R. split; [reflexivity|]. rewrite <- (same_ok i j E). apply (represents_eq 1 1).
  - unfold represents, Q2R. rewrite Rabs_R1. cbn. Lra.lra.
  - symmetry. apply signed_self; [apply NoDup_nth' | apply nonzero_nth | exact Ne].
Qed.

Lemma search_turn_rel i o : forall ds stop st se, incl ds (dkeys (nth i vectors [])) -> rel st se ->
  exists se', search_turn same vectors (sorted_lists vectors) i (nth i vectors []) ds o stop se =
    Ok (se', snd (threshold_turn signed vectors (sorted_lists vectors) i (nth i vectors []) ds o stop st)) /\
    rel (fst (threshold_turn signed vectors (sorted_lists vectors) i (nth i vectors []) ds o stop st)) se'.
Proof.
  set (vec := nth i vectors []). induction ds as [|d ds IH]; intros stop st se Hd Hr; cbn [search_turn threshold_turn].
  { exists se. split; [reflexivity | exact Hr]. }
  assert (Hd' : incl ds (dkeys vec)) by (intros x Hx; apply Hd; right; exact Hx).
  assert (Ne : vec <> []) by (intros K; specialize (Hd d (or_introl eq_refl)); rewrite K in Hd; exact Hd).
  destruct (nth_error (list_of (sorted_lists vectors) d) o) as [[w0 j0]|] eqn:E0; [|apply IH; assumption].
  destruct (if Nat.eqb i j0 then nth_error (list_of (sorted_lists vectors) d) (o + 1) else Some (w0, j0)) as [[w j]|] eqn:E1; [|apply IH; assumption].
  assert (Hw : ~ (w == 0)%Q).
  { assert (Hin : In (w, j) (list_of (sorted_lists vectors) d)).
    { destruct (Nat.eqb i j0); [apply nth_error_In in E1; exact E1 | injection E1 as -> ->; apply nth_error_In in E0; exact E0]. }
    destruct (list_weight vectors d w j W Hin) as (v & Hv & _ & Hdw). rewrite Forall_forall in Z. exact (Z v Hv d w Hdw). }
  destruct Hr as (R1 & R2 & R3 & R4). rewrite <- R1, <- R2. pose proof (nonzero_dset (t_vector st) d w R4 Hw) as R4'.
  destruct (memb j (visited st)).
  { apply IH; [exact Hd'|]. repeat split; cbn; assumption. }
  destruct (cosine_at i j Ne) as (x & Ex & Rx). fold vec in Ex, Rx. rewrite Ex. cbn [bind]. apply IH; [exact Hd'|].
  split; [reflexivity|]. split; [reflexivity|]. split; [|exact R4']. cbn [best top].
  destruct (best st) as [[b k]|], (top se) as [[y k']|]; cbn [top_rel] in R3 |- *; try contradiction.
  - destruct R3 as [R3 <-]. pose proof (represents_le _ _ _ _ Rx R3) as K.
    destruct (Qle_bool (signed vec (nth j vectors [])) b) eqn:Eb; cbn [negb].
    + apply Qle_bool_iff, K in Eb. destruct (Rlt_dec y x) as [L|_]; [Lra.lra|]. split; [exact R3 | reflexivity].
    + destruct (Rlt_dec y x) as [_|L]; [split; [exact Rx | reflexivity]|]. exfalso. apply Rnot_lt_le in L. apply K in L. apply Qle_bool_iff in L. congruence.
  - split; [exact Rx | reflexivity].
Qed.

Lemma search_while_rel i : forall fuel o st se, rel st se ->
  search_while same fuel vectors (sorted_lists vectors) i (nth i vectors []) o se = threshold_while signed fuel vectors (sorted_lists vectors) i (nth i vectors []) o st.
Proof.
  induction fuel as [|fuel IH]; intros o st se Hr; cbn [search_while threshold_while]; [reflexivity|].
  destruct (search_turn_rel i o (dkeys (nth i vectors [])) true st se (incl_refl _) Hr) as (se' & E & Hr').
  rewrite E. cbn [bind]. destruct (threshold_turn signed vectors (sorted_lists vectors) i (nth i vectors []) (dkeys (nth i vectors [])) o true st) as [st' stop].
  cbn [fst snd] in *. pose proof Hr' as (R1 & R2 & R3 & R4). destruct stop.
  - f_equal. f_equal. destruct (best st') as [[b k]|], (top se') as [[y k']|]; cbn [top_rel] in R3; try contradiction; [destruct R3 as [_ ->]|]; reflexivity.
  - destruct (cosine_signed (nth i vectors []) (t_vector st') (nonzero_nth i) R4) as (t & Et & Rt). rewrite <- R2, Et. cbn [bind].
    destruct (best st') as [[b k]|], (top se') as [[y k']|]; cbn [top_rel] in R3; try contradiction; [|apply IH; exact Hr'].
    destruct R3 as [R3 <-]. pose proof (represents_le _ _ _ _ Rt R3) as K.
    destruct (Qle_bool (signed (nth i vectors []) (t_vector st')) b) eqn:Eb.
    + apply Qle_bool_iff, K in Eb. destruct (Rle_dec t y) as [_|L]; [reflexivity | contradiction].
    + destruct (Rle_dec t y) as [L|_]; [|apply IH; exact Hr']. exfalso. apply K in L. apply Qle_bool_iff in L. congruence.
Qed.

Lemma each_mapM {X Y} (f g : X -> res Y) : forall l out, (forall x, In x l -> f x = g x) -> mapM g l = Ok out ->
  each (fun x => let! y := f x in Ok [y]) l = (out, None).
Proof.
  induction l as [|x l IH]; intros out E M; cbn [each mapM] in *; [injection M as <-; reflexivity|].
  rewrite (E x (or_introl eq_refl)). destruct (g x) as [y|e]; cbn [bind] in *; [|discriminate].
  destruct (mapM g l) as [ys|e] eqn:El; cbn [bind] in M; [|discriminate]. injection M as <-.
  rewrite (IH ys (fun z Hz => E z (or_intror Hz)) eq_refl). reflexivity.
Qed.

Lemma threshold_signed out : threshold_algorithm_k1 signed vectors = Ok out -> threshold_cosine same vectors = (out, None).
Proof.
  unfold threshold_algorithm_k1, threshold_cosine. apply each_mapM. intros [i v] Hin. cbn [fst snd].
  rewrite In_enumerate' in Hin. apply (nth_error_nth _ _ []) in Hin. subst v. apply search_while_rel.
  repeat split; cbn; try reflexivity. intros d w [].
Qed.
End More.
