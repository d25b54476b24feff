(** The leaders with the cosine, and when the cosine fails. *)
From Coq Require Import QArith Qabs Reals Qreals Lra Lqa.
From Verif Require Import Base BaseFacts PairwiseModel PairwiseProofs SortModel SortSpec SortFacts BlockingProofs CliProofs SpaceProofs MetricsModel FaginModel FaginSpec FaginProofs FaginCosineModel FaginCosineSpec FaginCosineProofs FaginCosineMoreProofs.
Open Scope nat_scope.

Section Sqrt.
Context {D : Type} `{EqDec D}.
Implicit Types (u v : vector D) (vectors : list (vector D)).

(** * When the cosine fails *)
Lemma products_first B : forall (A : vector D) st, fst (fold_left (qstep B) A st) = fold_left (fun yy w => (yy + w * w)%Q) (dvalues A) (fst st).
Proof. induction A as [|[d w] A IH]; intros st; [reflexivity|]. cbn [fold_left dvalues map snd]. rewrite IH. reflexivity. Qed.

Lemma squares_le : forall (B : vector D) a, (a <= fold_left (fun yy w => yy + w * w) (dvalues B) a)%Q.
Proof.
  induction B as [|[d w] B IH]; intros a; [apply Qle_refl|]. cbn [dvalues map fold_left snd]. fold (dvalues B).
  pose proof (IH (a + w * w)%Q) as K. assert (0 <= w * w)%Q by nra. lra.
Qed.

Lemma squares_null v : (squares v == 0)%Q <-> null v.
Proof.
  unfold squares. assert (G : forall a, (0 <= a)%Q -> (fold_left (fun yy w => yy + w * w) (dvalues v) a == 0)%Q <-> (a == 0)%Q /\ null v).
  { induction v as [|[d w] v IH]; intros a La; cbn [dvalues map fold_left snd].
    - split; [intros E; split; [exact E | intros d w []] | intros [E _]; exact E].
    - fold (dvalues v). assert (0 <= w * w)%Q by nra. rewrite IH by lra. split.
      + intros [E N]. assert (E1 : (w * w == 0)%Q) by lra. split; [lra|]. intros d' w' [[= <- <-]|Hin]; [|exact (N d' w' Hin)].
        destruct (Qmult_integral _ _ E1); assumption.
      + intros [E N]. pose proof (N d w (or_introl eq_refl)) as Ew. split; [rewrite E, Ew; reflexivity|]. intros d' w' Hin. apply (N d'). right. exact Hin. }
  rewrite G by apply Qle_refl. split; [intros [_ K]; exact K | intros K; split; [reflexivity | exact K]].
Qed.

Lemma norms_squares u v : (norms u v == squares u * squares v)%Q.
Proof.
  unfold norms, ordered, products. destruct (Nat.ltb (length v) (length u)); cbn [fst snd]; rewrite products_first; cbn [fst]; fold (squares u); fold (squares v).
  - apply Qmult_comm.
  - reflexivity.
Qed.

Lemma cosine_fails s u v e : cosine s u v = Err e <-> s = false /\ u <> [] /\ v <> [] /\ (null u \/ null v) /\ e = ZeroDivisionError.
Proof.
  destruct s; [split; [discriminate | intros (K & _); discriminate]|].
  destruct u as [|du u']; [split; [discriminate | intros (_ & [] & _); reflexivity]|]. destruct v as [|dv v'].
  { split; [|intros (_ & _ & [] & _); reflexivity]. unfold cosine, sparse_cosine_similarity. rewrite Bool.orb_true_r. discriminate. }
  rewrite cosine_value by discriminate. set (u := du :: u'). set (v := dv :: v').
  assert (Z0 : Q2R 0 = 0%R) by (unfold Q2R; cbn; Lra.lra).
  assert (Sq : forall x : vector D, (0 <= squares x)%Q) by (intros x; apply squares_le).
  assert (E : sqrt (Q2R (norms u v)) = 0%R <-> null u \/ null v).
  { rewrite (Qeq_eqR _ _ (norms_squares u v)), <- !squares_null. split.
    - intros E. apply sqrt_eq_0 in E; [|rewrite <- Z0; apply Qle_Rle; apply Qmult_le_0_compat; apply Sq].
      rewrite <- Z0 in E. apply eqR_Qeq in E. apply Qmult_integral. exact E.
    - intros E. replace (Q2R (squares u * squares v)) with 0%R; [apply sqrt_0|]. rewrite <- Z0. apply Qeq_eqR. destruct E as [E|E]; rewrite E; ring. }
  unfold div_sqrt. destruct (Req_EM_T _ 0) as [K|K].
  - apply E in K. split; [intros [= <-] | intros (_ & _ & _ & _ & ->)]; [|reflexivity].
    split; [reflexivity|]. split; [discriminate|]. split; [discriminate|]. split; [exact K | reflexivity].
  - split; [discriminate|]. intros (_ & _ & _ & N & _). apply E in N. contradiction.
Qed.

(** * sqrt_indexation_pairs *)
Variable same : nat -> nat -> bool.
Variable vectors : list (vector D).
Definition cos_at i v x := cosine (same i x) v (nth x vectors []).

Lemma min_cosine_spec i v : forall l m km,
  match min_cosine same vectors i v m km l with
  | Ok r => (forall x, In x l -> exists c, cos_at i v x = Ok c) /\
            exists kr, ((r = m /\ kr = km) \/ (exists l1 l2 c, l = l1 ++ r :: l2 /\ cos_at i v r = Ok c /\ kr = (1 - c)%R /\ (kr < km)%R /\
                forall x c, In x l1 -> cos_at i v x = Ok c -> (kr < 1 - c)%R)) /\
              (kr <= km)%R /\ (forall x c, In x l -> cos_at i v x = Ok c -> (kr <= 1 - c)%R)
  | Err e => exists x, In x l /\ cos_at i v x = Err e
  end.
Proof.
  induction l as [|x l IH]; intros m km; cbn [min_cosine].
  - split; [intros x []|]. exists km. split; [left; auto|]. split; [apply Rle_refl | intros x c []].
  - fold (cos_at i v x). destruct (cos_at i v x) as [c|e] eqn:Ec; cbn [bind]; [|exists x; split; [left; reflexivity | exact Ec]].
    destruct (Rlt_dec (1 - c) km) as [L|L].
    + specialize (IH x (1 - c)%R). destruct (min_cosine same vectors i v x (1 - c) l) as [r|e]; [|destruct IH as (y & Hy & E); exists y; split; [right; exact Hy | exact E]].
      destruct IH as (K1 & kr & K2 & K3 & K4). split; [intros y [<-|Hy]; [exists c; exact Ec | apply K1; exact Hy]|].
      exists kr. split; [right|split; [Lra.lra|]].
      * destruct K2 as [[-> ->]|(l1 & l2 & c2 & -> & E2 & -> & L2 & S2)].
        -- exists [], l, c. repeat split; [exact Ec | exact L | intros y c' []].
        -- exists (x :: l1), l2, c2. repeat split; [exact E2 | Lra.lra|]. intros y c' [<-|Hy] E; [rewrite Ec in E; injection E as <-; exact L2 | apply (S2 y); assumption].
      * intros y c' [<-|Hy] E; [rewrite Ec in E; injection E as <-; exact K3 | apply (K4 y); assumption].
    + specialize (IH m km). destruct (min_cosine same vectors i v m km l) as [r|e]; [|destruct IH as (y & Hy & E); exists y; split; [right; exact Hy | exact E]].
      destruct IH as (K1 & kr & K2 & K3 & K4). split; [intros y [<-|Hy]; [exists c; exact Ec | apply K1; exact Hy]|].
      exists kr. split; [|split; [exact K3|]].
      * destruct K2 as [K2|(l1 & l2 & c2 & -> & E2 & -> & L2 & S2)]; [left; exact K2 | right]. exists (x :: l1), l2, c2. repeat split; [exact E2 | exact L2|].
        intros y c' [<-|Hy] E; [rewrite Ec in E; injection E as <-; Lra.lra | apply (S2 y); assumption].
      * intros y c' [<-|Hy] E; [rewrite Ec in E; injection E as <-; Lra.lra | apply (K4 y); assumption].
Qed.

Lemma leader_cosine_spec leaders i v : leaders <> [] ->
  match leader_cosine same vectors leaders i v with
  | Ok r => exists l1 l2 c, leaders = l1 ++ r :: l2 /\ cos_at i v r = Ok c /\ (forall x, In x leaders -> exists c', cos_at i v x = Ok c' /\ (c' <= c)%R) /\
      forall x c', In x l1 -> cos_at i v x = Ok c' -> (c' < c)%R
  | Err e => e = ZeroDivisionError /\ exists x, In x leaders /\ cos_at i v x = Err e
  end.
Proof.
  destruct leaders as [|m l]; [contradiction|]. intros _. cbn [leader_cosine]. fold (cos_at i v m).
  assert (F : forall x e, cos_at i v x = Err e -> e = ZeroDivisionError) by (intros x e E; apply cosine_fails in E; apply E).
  destruct (cos_at i v m) as [c|e] eqn:Ec; cbn [bind]; [|split; [eapply F; exact Ec | exists m; split; [left; reflexivity | exact Ec]]].
  pose proof (min_cosine_spec i v l m (1 - c)%R) as K. destruct (min_cosine same vectors i v m (1 - c) l) as [r|e].
  - destruct K as (K1 & kr & K2 & K3 & K4).
    assert (All : forall c', kr = (1 - c')%R -> forall x, In x (m :: l) -> exists c2, cos_at i v x = Ok c2 /\ (c2 <= c')%R).
    { intros c' E x [<-|Hx]; [exists c; split; [exact Ec | Lra.lra]|]. destruct (K1 x Hx) as (c2 & E2). exists c2. split; [exact E2|]. specialize (K4 x c2 Hx E2). Lra.lra. }
    destruct K2 as [[-> Ek]|(l1 & l2 & c2 & -> & E2 & Ek & L2 & S2)].
    + exists [], l, c. split; [reflexivity|]. split; [exact Ec|]. split; [apply All; exact Ek | intros x c' []].
    + exists (m :: l1), l2, c2. split; [reflexivity|]. split; [exact E2|]. split; [apply All; exact Ek|].
      intros x c' [<-|Hx] E; [rewrite Ec in E; injection E as <-; Lra.lra | specialize (S2 x c' Hx E); Lra.lra].
  - destruct K as (x & Hx & E). split; [eapply F; exact E | exists x; split; [right; exact Hx | exact E]].
Qed.

Definition leader_at leaders i : nat := match leader_cosine same vectors leaders i (nth i vectors []) with Ok l => l | Err _ => 0 end.

Lemma sqrt_cosine_loop_spec leaders : forall m n prox, n + m = length vectors ->
  (forall l, lget' prox l = filter (fun j => Nat.eqb (leader_at leaders j) l) (seq 0 n)) ->
  exists k e, k <= m /\ sqrt_cosine_loop same vectors leaders (combine (seq n m) (skipn n vectors)) prox = (flat_map (around (leader_at leaders)) (seq n k), e) /\
    (forall i, n <= i < n + k -> leader_cosine same vectors leaders i (nth i vectors []) = Ok (leader_at leaders i)) /\
    match e with
    | None => k = m
    | Some e => k < m /\ leader_cosine same vectors leaders (n + k) (nth (n + k) vectors []) = Err e
    end.
Proof.
  induction m as [|m IH]; intros n prox E Hp; [exists 0, None; split; [lia|]; split; [reflexivity|]; split; [intros i Hi; lia | reflexivity]|].
  destruct (skipn n vectors) as [|v rest] eqn:Es.
  { apply (f_equal (@length _)) in Es. rewrite skipn_length in Es. cbn in Es. lia. }
  assert (Ev : nth_error vectors n = Some v /\ rest = skipn (S n) vectors).
  { clear -Es. revert n Es. induction vectors as [|u l IH]; intros [|n] Es; try discriminate; cbn in *; [injection Es as -> ->; auto | apply IH; exact Es]. }
  destruct Ev as [Ev ->]. assert (Ev' : nth n vectors [] = v) by (apply nth_error_nth; exact Ev). clear Ev. rename Ev' into Ev. cbn [seq combine sqrt_cosine_loop].
  destruct (leader_cosine same vectors leaders n v) as [ld|e] eqn:El.
  2: { exists 0, (Some e). split; [lia|]. split; [reflexivity|]. split; [intros i Hi; lia|]. split; [lia|]. rewrite Nat.add_0_r, Ev. exact El. }
  assert (Ld : ld = leader_at leaders n) by (unfold leader_at; rewrite Ev, El; reflexivity). subst ld.
  fold (lget' prox (leader_at leaders n)). rewrite Hp.
  destruct (IH (S n) (dmodify prox (leader_at leaders n) [] (fun l => l ++ [n]))) as (k & e & K1 & K2 & K3 & K4); [lia| |].
  - intros l. unfold lget'. destruct (Nat.eq_dec l (leader_at leaders n)) as [->|Hne].
    + rewrite dget_dmodify_same. fold (lget' prox (leader_at leaders n)). rewrite seq_S, filter_app. cbn [filter Nat.add]. rewrite Nat.eqb_refl, <- Hp.
      unfold lget'. destruct (dget prox (leader_at leaders n)); reflexivity.
    + rewrite dget_dmodify_other by congruence. fold (lget' prox l). rewrite Hp, seq_S, filter_app. cbn [filter Nat.add].
      rewrite (proj2 (Nat.eqb_neq (leader_at leaders n) l) ltac:(congruence)), app_nil_r. reflexivity.
  - exists (S k), e. split; [lia|]. rewrite K2. split; [reflexivity|]. split.
    + intros i Hi. destruct (Nat.eq_dec i n) as [->|]; [rewrite Ev; exact El | apply K3; lia].
    + destruct e as [e|]; [|lia]. replace (n + S k) with (S n + k) by lia. split; [lia | apply K4].
Qed.

Lemma sqrt_cosine_spec indices : Permutation indices (seq 0 (length vectors)) ->
  exists leader k,
    sqrt_cosine same indices vectors = (flat_map (around leader) (seq 0 k), if Nat.eqb k (length vectors) then None else Some ZeroDivisionError) /\
    k <= length vectors /\
    (forall i, i < k -> exists l1 l2 c, firstn (Nat.sqrt (length vectors)) indices = l1 ++ leader i :: l2 /\
       cos_at i (nth i vectors []) (leader i) = Ok c /\
       (forall x, In x (firstn (Nat.sqrt (length vectors)) indices) -> exists c', cos_at i (nth i vectors []) x = Ok c' /\ (c' <= c)%R) /\
       forall x c', In x l1 -> cos_at i (nth i vectors []) x = Ok c' -> (c' < c)%R) /\
    (k < length vectors -> exists x, In x (firstn (Nat.sqrt (length vectors)) indices) /\ cos_at k (nth k vectors []) x = Err ZeroDivisionError).
Proof.
  intros P. set (leaders := firstn (Nat.sqrt (length vectors)) indices).
  assert (Ne : 0 < length vectors -> leaders <> []).
  { intros Hv K. apply (f_equal (@length _)) in K. unfold leaders in K. rewrite firstn_length, (Permutation_length P), seq_length in K. cbn [length] in K.
    assert (1 <= Nat.sqrt (length vectors)) by (apply (Nat.sqrt_le_mono 1); lia). lia. }
  destruct (sqrt_cosine_loop_spec leaders (length vectors) 0 []) as (k & e & K1 & K2 & K3 & K4); [reflexivity | reflexivity|].
  exists (leader_at leaders), k. unfold sqrt_cosine. fold leaders. change (enumerate vectors) with (combine (seq 0 (length vectors)) (skipn 0 vectors)). rewrite K2.
  split; [|split; [exact K1|split]].
  - f_equal. destruct e as [e|]; [|rewrite K4, Nat.eqb_refl; reflexivity]. destruct K4 as [K4 K5]. cbn [Nat.add] in K5.
    rewrite (proj2 (Nat.eqb_neq _ _)) by lia. pose proof (leader_cosine_spec leaders k (nth k vectors []) (Ne ltac:(lia))) as L. rewrite K5 in L. destruct L as [-> _]. reflexivity.
  - intros i Hi. pose proof (leader_cosine_spec leaders i (nth i vectors []) (Ne ltac:(lia))) as L. rewrite (K3 i) in L by lia. exact L.
  - intros Hk. destruct e as [e|]; [|lia]. destruct K4 as [K4 K5]. cbn [Nat.add] in K5.
    pose proof (leader_cosine_spec leaders k (nth k vectors []) (Ne ltac:(lia))) as L. rewrite K5 in L. destruct L as [-> L]. exact L.
Qed.
End Sqrt.
