(** Proofs about FaginCosineModel.v. *)
From Coq Require Import QArith Qabs Reals Qreals Lra Lqa.
From Verif Require Import Base PairwiseModel SortModel MetricsModel FaginModel FaginSpec FaginProofs FaginCosineModel FaginCosineSpec.
Open Scope nat_scope.

Section Cosine.
Context {D : Type} `{EqDec D}.
Implicit Types u v A B : vector D.

(** * The cosine in rational numbers *)
Definition qstep B (st : Q * Q) (kv : D * Q) : Q * Q :=
  (fst st + snd kv * snd kv, match dget B (fst kv) with Some v2 => snd st + snd kv * v2 | None => snd st end)%Q.
Definition products A B : Q * Q := fold_left (qstep B) A (0%Q, 0%Q).
Definition squares B : Q := fold_left (fun yy w => (yy + w * w)%Q) (dvalues B) 0%Q.
Definition ordered u v := if Nat.ltb (length v) (length u) then (v, u) else (u, v).
Definition scalar u v : Q := snd (products (fst (ordered u v)) (snd (ordered u v))).
Definition norms u v : Q := (fst (products (fst (ordered u v)) (snd (ordered u v))) * squares (snd (ordered u v)))%Q.

Lemma real_dget B k : dget (real B) k = match dget B k with Some w => Some (Q2R w) | None => None end.
Proof. induction B as [|[k' w] B IH]; cbn; [reflexivity|]. destruct (eq_dec k k'); [reflexivity | apply IH]. Qed.

Lemma steps_real B : forall A st, fold_left (cosine_step (real B)) (real A) (Q2R (fst st), Q2R (snd st)) =
  (Q2R (fst (fold_left (qstep B) A st)), Q2R (snd (fold_left (qstep B) A st))).
Proof.
  induction A as [|[k w] A IH]; intros st; [reflexivity|]. cbn [real map fold_left]. change (map _ A) with (real A). rewrite <- (IH (qstep B st (k, w))). f_equal.
  unfold qstep. cbn [cosine_step fst snd]. rewrite real_dget. rewrite Q2R_plus, Q2R_mult. f_equal; [ring|].
  destruct (dget B k); [rewrite Q2R_plus, Q2R_mult|]; reflexivity.
Qed.

Lemma squares_real : forall B a, fold_left (fun yy w => (yy + w ^ 2)%R) (dvalues (real B)) (Q2R a) = Q2R (fold_left (fun yy w => (yy + w * w)%Q) (dvalues B) a).
Proof.
  induction B as [|[k w] B IH]; intros a; [reflexivity|]. unfold dvalues in *. cbn [real map fold_left snd fst]. rewrite <- (IH (a + w * w)%Q). unfold real. f_equal.
  rewrite Q2R_plus, Q2R_mult. ring.
Qed.

Lemma cosine_value u v : u <> [] -> v <> [] -> cosine false u v = div_sqrt (Q2R (scalar u v)) (Q2R (norms u v)).
Proof.
  intros Hu Hv. unfold cosine, sparse_cosine_similarity. unfold real at 1 2 3 4. rewrite !map_length.
  assert (Lu : length u <> 0) by (destruct u; [contradiction | discriminate]). assert (Lv : length v <> 0) by (destruct v; [contradiction | discriminate]).
  rewrite (proj2 (Nat.eqb_neq _ _) Lu), (proj2 (Nat.eqb_neq _ _) Lv). cbn [orb]. unfold scalar, norms, ordered.
  destruct (Nat.ltb (length v) (length u)); cbn [fst snd]; unfold products, squares;
    replace 0%R with (Q2R 0) by (unfold Q2R; cbn; Lra.lra);
    [pose proof (steps_real u v (0, 0)%Q) as K | pose proof (steps_real v u (0, 0)%Q) as K]; cbn [fst snd] in K; rewrite K, squares_real, Q2R_mult; reflexivity.
Qed.

(** ** what the sums are *)
Lemma steps_first B : forall A st, (forall d w, In (d, w) A -> ~ w == 0)%Q ->
  (fst st <= fst (fold_left (qstep B) A st))%Q /\ (A <> [] -> fst st < fst (fold_left (qstep B) A st))%Q.
Proof.
  induction A as [|[d w] A IH]; intros st HA; [split; [apply Qle_refl | intros []; reflexivity]|].
  cbn [fold_left]. destruct (IH (qstep B st (d, w)) ltac:(intros d' w' Hin; apply (HA d'); right; exact Hin)) as [K _]. cbn [qstep fst snd] in K.
  assert (W : (0 < w * w)%Q). { pose proof (HA d w (or_introl eq_refl)). destruct (Q_dec w 0) as [[L|L]|E]; [nra | nra | contradiction]. }
  split; [|intros _]; lra.
Qed.

Lemma squares_pos : forall B a, (forall d w, In (d, w) B -> ~ w == 0)%Q ->
  (a <= fold_left (fun yy w => yy + w * w) (dvalues B) a)%Q /\ (B <> [] -> a < fold_left (fun yy w => yy + w * w) (dvalues B) a)%Q.
Proof.
  induction B as [|[d w] B IH]; intros a HA; [split; [apply Qle_refl | intros []; reflexivity]|].
  cbn [dvalues map fold_left snd]. destruct (IH (a + w * w)%Q ltac:(intros d' w' Hin; apply (HA d'); right; exact Hin)) as [K _]. fold (dvalues B).
  assert (W : (0 < w * w)%Q). { pose proof (HA d w (or_introl eq_refl)). destruct (Q_dec w 0) as [[L|L]|E]; [nra | nra | contradiction]. }
  split; [|intros _]; lra.
Qed.

Lemma norms_pos u v : u <> [] -> v <> [] -> no_zero u -> no_zero v -> (0 < norms u v)%Q.
Proof.
  intros Hu Hv Zu Zv. unfold norms, ordered, products, squares.
  destruct (Nat.ltb (length v) (length u)); cbn [fst snd].
  - pose proof (proj2 (steps_first u v (0, 0)%Q Zv) Hv) as K1. pose proof (proj2 (squares_pos u 0%Q Zu) Hu) as K2. cbn [fst] in K1. nra.
  - pose proof (proj2 (steps_first v u (0, 0)%Q Zu) Hu) as K1. pose proof (proj2 (squares_pos v 0%Q Zv) Hv) as K2. cbn [fst] in K1. nra.
Qed.

Lemma steps_none B : forall A st, (forall d w, In (d, w) A -> dget B d = None) -> snd (fold_left (qstep B) A st) = snd st.
Proof.
  induction A as [|[d w] A IH]; intros st HA; [reflexivity|]. cbn [fold_left]. rewrite IH by (intros d' w' Hin; apply (HA d' w'); right; exact Hin).
  unfold qstep. cbn [fst snd]. rewrite (HA d w (or_introl eq_refl)). reflexivity.
Qed.

Lemma dget_in B d w : dget B d = Some w -> In (d, w) B.
Proof. induction B as [|[d' w'] B IH]; cbn; [discriminate|]. destruct (eq_dec d d') as [->|]; [intros [= ->]; left; reflexivity | right; auto]. Qed.

Lemma scalar_none u v : (forall d, In d (dkeys u) -> In d (dkeys v) -> False) -> scalar u v = 0%Q.
Proof.
  intros K. unfold scalar, ordered, products. destruct (Nat.ltb (length v) (length u)); cbn [fst snd]; apply steps_none; intros d w Hin;
    [destruct (dget u d) as [w'|] eqn:E | destruct (dget v d) as [w'|] eqn:E]; try reflexivity; exfalso; apply dget_in in E;
    apply (in_map fst) in E; apply (in_map fst) in Hin; cbn in *; eapply K; eassumption.
Qed.

Lemma steps_some B : positive B -> forall A st, positive A -> (snd st <= snd (fold_left (qstep B) A st))%Q /\
  ((exists d, In d (dkeys A) /\ In d (dkeys B)) -> snd st < snd (fold_left (qstep B) A st))%Q.
Proof.
  intros PB. induction A as [|[d w] A IH]; intros st PA; [split; [apply Qle_refl | intros (d & [] & _)]|].
  cbn [fold_left]. destruct (IH (qstep B st (d, w)) ltac:(intros d' w' Hin; apply (PA d'); right; exact Hin)) as [K1 K2].
  pose proof (PA d w (or_introl eq_refl)) as Pw. cbn [qstep fst snd] in K1, K2. destruct (dget B d) as [w'|] eqn:E.
  - pose proof (PB d w' (dget_in B d w' E)) as Pw'. assert (0 < w * w')%Q by nra. split; [|intros _]; lra.
  - split; [exact K1|]. intros (d' & Hin & Hb). apply K2. exists d'. split; [|exact Hb]. destruct Hin as [<-|Hin]; [|exact Hin].
    exfalso. cbn in Hb. clear -E Hb. induction B as [|[d' w'] B IH]; [contradiction|]. cbn in *. destruct (eq_dec d d') as [|Ne]; [discriminate|].
    destruct Hb as [Hb|Hb]; [congruence | apply IH; assumption].
Qed.

Lemma scalar_pos u v : positive u -> positive v -> (exists d, In d (dkeys u) /\ In d (dkeys v)) -> (0 < scalar u v)%Q.
Proof.
  intros Pu Pv (d & Du & Dv). unfold scalar, ordered, products. destruct (Nat.ltb (length v) (length u)); cbn [fst snd].
  - apply (steps_some u Pu v (0, 0)%Q Pv). exists d. auto.
  - apply (steps_some v Pv u (0, 0)%Q Pu). exists d. auto.
Qed.

Lemma positive_no_zero v : positive v -> no_zero v.
Proof. intros P d w Hin E. specialize (P d w Hin). lra. Qed.

(** * naive_cosine_pairs *)
Lemma cosine_zero u v x : (forall d, In d (dkeys u) -> In d (dkeys v) -> False) -> cosine false u v = Ok x -> x = 0%R.
Proof.
  intros K. destruct u as [|du u]; [cbn; intros [= <-]; reflexivity|]. destruct v as [|dv v].
  { unfold cosine, sparse_cosine_similarity. cbn. intros [= <-]. reflexivity. }
  rewrite cosine_value by discriminate. rewrite (scalar_none _ _ K). unfold div_sqrt. destruct (Req_EM_T _ 0) as [|Hn]; [discriminate|].
  intros [= <-]. unfold Q2R at 1. cbn. unfold Rdiv. ring.
Qed.

Lemma cosine_some u v : positive u -> positive v -> (exists d, In d (dkeys u) /\ In d (dkeys v)) -> exists x, cosine false u v = Ok x /\ (0 < x)%R.
Proof.
  intros Pu Pv S. assert (Hu : u <> []) by (destruct S as (d & K & _); intros ->; exact K). assert (Hv : v <> []) by (destruct S as (d & _ & K); intros ->; exact K).
  rewrite cosine_value by assumption. unfold div_sqrt.
  pose proof (Qlt_Rlt _ _ (norms_pos u v Hu Hv (positive_no_zero u Pu) (positive_no_zero v Pv))) as N.
  pose proof (Qlt_Rlt _ _ (scalar_pos u v Pu Pv S)) as P. replace (Q2R 0) with 0%R in * by (unfold Q2R; cbn; Lra.lra).
  pose proof (sqrt_lt_R0 _ N). destruct (Req_EM_T _ 0) as [E|]; [Lra.lra|]. eexists. split; [reflexivity|]. apply Rdiv_lt_0_compat; assumption.
Qed.
End Cosine.
