(** Proofs about nn_descent_full when no sample is taken. *)
From Coq Require Import QArith Qround String Permutation Lia Lqa.
From Verif Require Import Base BaseFacts ClustersModel ClustersSpec ClustersProofs PairwiseModel PairwiseSpec PairwiseProofs LevModel LevProofs BlockingSpec BlockingProofs GraphModel
  EvaluationProofs CliProofs SpaceProofs NNDescentModel NNDescentSpec NNDescentProofs NNDescentFullProofs.
Open Scope nat_scope.
Open Scope list_scope.
Notation length := List.length.

Section Rate.
Context {A : Type} `{EqDec A}.
Variable set_order : list nat -> list nat.
Hypothesis set_order_perm : forall l, Permutation (set_order l) l.
Variable heapify : list entry_full -> list entry_full.
Variable heapreplace : list entry_full -> entry_full -> list entry_full.
Variable is_heap : list entry_full -> Prop.
Hypothesis heaps : heap_module is_heap heapify heapreplace.
Variable similarity : A -> A -> Q.
Variable V : list A.
Variable later : nat -> nat.
Notation N := (length V).

Lemma unflagged_length h : length (unflagged h) = length h.
Proof. unfold unflagged. apply map_length. Qed.

Lemma unsampled_same rhoK : forall B B', map unflagged B' = map unflagged B -> Forall (unsampled rhoK) B -> Forall (unsampled rhoK) B'.
Proof.
  induction B as [|h B IH]; intros [|h' B'] E U; try discriminate; constructor; cbn in E; injection E as E1 E2; inversion U as [|? ? U1 U2]; subst.
  - unfold unsampled in *. rewrite <- (unflagged_length h'), E1, unflagged_length. exact U1.
  - apply IH; assumption.
Qed.

Lemma descend_unsampled rhoK threshold : (rhoK <= 0)%Z -> forall fuel t c B B', length B = N -> Forall (unsampled rhoK) B ->
  descend_full set_order heapreplace similarity V later fuel t rhoK threshold c B = Ok B' -> map unflagged B' = map unflagged B.
Proof.
  intros Hr. induction fuel as [|fuel IH]; intros t c B B' L U E; cbn [descend_full] in E; [discriminate|]. destruct (Qle_bool threshold _); [|congruence].
  destruct (turn_full_0 set_order set_order_perm heapreplace similarity V later rhoK t B Hr L U) as (B1 & t1 & E1 & U1). rewrite E1 in E. cbn [bind] in E.
  apply IH in E; [congruence| |eapply unsampled_same; eassumption].
  rewrite <- (map_length unflagged B1), U1, map_length. exact L.
Qed.

Lemma links_unflagged radius B i j : In (i, j) (links_full radius B) <-> exists h s, nth_error (map unflagged B) i = Some h /\ In (s, j) h /\ (radius <= s)%Q.
Proof.
  unfold links_full. rewrite in_flat_map. split.
  - intros ([i' h] & Hh & Hin). apply in_flat_map in Hin as ([s [j' b]] & He & Hin). destruct (Qle_bool radius s) eqn:E; [|contradiction].
    destruct Hin as [Ep|[]]. injection Ep as <- <-. apply Qle_bool_iff in E. apply In_enumerate in Hh. exists (unflagged h), s. rewrite nth_error_map, Hh.
    split; [reflexivity|]. split; [|exact E]. unfold unflagged. apply in_map_iff. exists (s, (j', b)). auto.
  - intros (h & s & Hh & Hin & E). rewrite nth_error_map in Hh. destruct (nth_error B i) as [h'|] eqn:Eh; [|discriminate]. cbn in Hh. injection Hh as <-.
    unfold unflagged in Hin. apply in_map_iff in Hin as ([s' [j' b]] & Ep & He). injection Ep as -> ->. exists (i, h'). split; [apply In_enumerate; exact Eh|].
    apply in_flat_map. exists (s, (j, b)). split; [exact He|]. apply Qle_bool_iff in E. rewrite E. left. reflexivity.
Qed.

(** the lists at first *)
Definition first_list (k i : nat) (sampled : list nat) (h : list (Q * nat)) : Prop :=
  NoDup sampled /\ length sampled = k /\ (forall j, In j sampled -> j < N /\ i <> j) /\
  forall s j, In (s, j) h <-> In j sampled /\ exists x y, nth_error V i = Some x /\ nth_error V j = Some y /\ s = similarity x y.

Lemma initial_first k : forall items draws B, (forall r, In r draws -> r < N) -> (forall i, In i items -> i < N) ->
  initial_full set_order heapify similarity V draws k items = Ok B -> exists first, Forall2 (fun ih sampled => first_list k (fst ih) sampled (snd ih)) (combine items (map unflagged B)) first /\ length B = length items.
Proof.
  induction items as [|i items IH]; intros draws B D I E; cbn in E.
  - injection E as <-. exists []. split; [constructor|reflexivity].
  - destruct (sample_loop draws k i []) as [[S draws']|] eqn:Es; [|discriminate]. cbn in E.
    destruct (sample_ok k i draws [] S draws') as (A1 & A2 & A3 & A4 & used & Eu); auto; [constructor|cbn; lia|].
    assert (HS : forall j, In j S -> j < N /\ i <> j).
    { intros j Hj. split; [|intros ->; auto]. destruct (A4 j Hj) as [[]|X]; auto. }
    assert (HO : forall j, In j (set_order S) <-> In j S) by (intros j; split; apply Permutation_in; [apply set_order_perm|apply Permutation_sym, set_order_perm]).
    assert (Em : mapM (fun j => let! s := sim_at similarity V i j in Ok (s, (j, true))) (set_order S) = Ok (map (fun j => (value similarity V i j, (j, true))) (set_order S))).
    { apply mapM_map. intros j Hj. rewrite sim_at_ok; [reflexivity| |apply HS, HO; assumption]. apply I. left. reflexivity. }
    rewrite Em in E. cbn in E. destruct (initial_full _ _ _ _ draws' k items) as [B'|] eqn:Eb; [|discriminate]. cbn in E. injection E as <-.
    destruct (IH draws' B') as (first & F & L); [|intros; apply I; right; assumption|exact Eb|].
    { intros r Hr. apply D. rewrite Eu. apply in_or_app. auto. }
    exists (S :: first). split; [|cbn; congruence]. cbn [map combine]. constructor; [|exact F]. cbn [fst snd]. split; [exact A1|]. split; [exact A3|]. split; [exact HS|].
    assert (Hi : i < N) by (apply I; left; reflexivity).
    intros s j. unfold unflagged. rewrite in_map_iff. split.
    + intros ([s' [j' b]] & Ep & Hin). injection Ep as -> ->. apply (Permutation_in _ (heapify_perm _ _ _ heaps _)) in Hin. apply in_map_iff in Hin as (j' & Ej & Hj). injection Ej as <- <- <-.
      apply HO in Hj. split; [exact Hj|]. destruct (value_spec similarity V i j') as (x & y & Ex & Ey & Ev); [exact Hi|apply HS; exact Hj|]. eauto.
    + intros (Hj & x & y & Ex & Ey & ->). exists (value similarity V i j, (j, true)). split.
      * destruct (value_spec similarity V i j) as (x' & y' & Ex' & Ey' & Ev); [exact Hi|apply HS; exact Hj|]. rewrite Ev. congruence.
      * apply (Permutation_in _ (Permutation_sym (heapify_perm _ _ _ heaps _))). apply in_map_iff. exists j. split; [reflexivity|]. apply HO. exact Hj.
Qed.

Lemma at_place {X} (l : list X) i x : nth_error l i = Some x -> nth_error (combine (seq 0 (length l)) l) i = Some (i, x).
Proof.
  change i with (0 + i) at 3. generalize 0. revert i. induction l as [|y l IH]; intros [|i] m Hi; try discriminate; cbn [length seq combine nth_error] in *.
  - injection Hi as ->. rewrite Nat.add_0_r. reflexivity.
  - rewrite <- Nat.add_succ_comm. apply IH. exact Hi.
Qed.

Lemma unsampled_facts fuel draws k radius rho delta lo hi out : (forall r, In r draws -> r < N) ->
  let k' := match k with Some k => k | None => Nat.log2 N end in
  (rho <= -1 \/ towards_zero (rho * inject_Z (Z.of_nat k')) = 0%Z)%Q ->
  nn_descent_full_with set_order heapify heapreplace similarity V later fuel draws k radius rho delta lo hi "connected_components" = Ok out ->
  exists first clusters, length first = N /\
    (forall i sampled, nth_error first i = Some sampled -> NoDup sampled /\ length sampled = k' /\ forall j, In j sampled -> j < N /\ i <> j) /\
    (let link i j := exists sampled x y, nth_error first i = Some sampled /\ In j sampled /\ nth_error V i = Some x /\ nth_error V j = Some y /\ (radius <= similarity x y)%Q in
     is_components (fun i => exists j, link i j \/ link j i) link lo hi clusters) /\ reads V clusters out.
Proof.
  intros R k' Hrho E. unfold nn_descent_full_with in E.
  assert (Hc : forall k0, match k with Some k => Ok k | None => match V with [] => Err ValueError | _ => Ok (Nat.log2 N) end end = Ok k0 -> k0 = k').
  { unfold k'. intros k0. destruct k; [congruence|]. destruct V; [discriminate|congruence]. }
  destruct (match k with Some k => Ok k | None => match V with [] => Err ValueError | _ => Ok (Nat.log2 N) end end) as [k0|] eqn:Ek; [|discriminate]. cbn [bind] in E.
  rewrite (Hc k0 eq_refl) in E. clear Hc Ek. clearbody k'.
  destruct (initial_full _ _ _ _ _ _ _) as [B0|] eqn:E0; [|discriminate]. cbn [bind] in E.
  destruct (descend_full _ _ _ _ _ _ _ _ _ _ _) as [B|] eqn:Eg; [|discriminate]. cbn [bind] in E.
  destruct (initial_full_all set_order set_order_perm heapify heapreplace is_heap heaps similarity V later k' draws B0 R E0) as [L0 G0].
  destruct (initial_first k' (seq 0 N) draws B0 R) as (first & F & _); [intros i Hi; apply in_seq in Hi; lia|exact E0|].
  assert (HU : map unflagged B = map unflagged B0).
  { eapply descend_unsampled; [|exact L0| |exact Eg].
    - destruct Hrho as [Hr|Hr]; [pose proof (towards_zero_low rho k' Hr); lia|lia].
    - apply Forall_forall. intros h Hh. destruct Hrho as [Hr|Hr]; [|left; exact Hr]. right. apply In_nth_error in Hh as [i Hi]. destruct (G0 i h Hi) as (_ & Lh & _).
      pose proof (towards_zero_low rho k' Hr). lia. }
  assert (Lf : length first = N). { rewrite <- (Forall2_len _ _ _ F), combine_length, seq_length, map_length. lia. }
  assert (F' : forall i sampled h, nth_error first i = Some sampled -> nth_error (map unflagged B0) i = Some h -> first_list k' i sampled h).
  { intros i sampled h Hs Hh. assert (Hi : i < N) by (rewrite <- Lf; apply nth_error_Some; congruence).
    apply (Forall2_nth_both _ _ _ F i (i, h) sampled); [|exact Hs]. replace N with (length (map unflagged B0)) by (rewrite map_length; exact L0).
    apply (at_place (map unflagged B0)). exact Hh. }
  set (link := fun i j => exists sampled x y, nth_error first i = Some sampled /\ In j sampled /\ nth_error V i = Some x /\ nth_error V j = Some y /\ (radius <= similarity x y)%Q).
  assert (HL : forall i j, In (i, j) (links_full radius B) <-> link i j).
  { intros i j. rewrite links_unflagged, HU. split.
    - intros (h & s & Hh & Hin & Hs). assert (Hi : i < length first) by (rewrite Lf, <- L0, <- (map_length unflagged); apply nth_error_Some; congruence).
      destruct (nth_error first i) as [sampled|] eqn:Es; [|apply nth_error_None in Es; lia]. destruct (F' i sampled h Es Hh) as (_ & _ & _ & X). apply X in Hin as (Hj & x & y & Ex & Ey & ->).
      exists sampled, x, y. auto.
    - intros (sampled & x & y & Es & Hj & Ex & Ey & Hs). assert (Hi : i < length (map unflagged B0)) by (rewrite map_length, L0, <- Lf; apply nth_error_Some; congruence).
      destruct (nth_error (map unflagged B0) i) as [h|] eqn:Eh; [|apply nth_error_None in Eh; lia]. destruct (F' i sampled h Es Eh) as (_ & _ & _ & X).
      exists h, (similarity x y). split; [reflexivity|]. split; [|exact Hs]. apply X. split; [exact Hj|]. exists x, y. auto. }
  destruct (BlockingProofs.positions_read set_order V (links_full radius B) link lo hi true) as (idx & out' & E' & Rd & C); auto.
  { intros i j (sampled & x & y & Es & Hj & Ex & Ey & _). split; apply nth_error_Some; congruence. }
  rewrite E in E'. injection E' as <-. exists first, idx. split; [exact Lf|]. split; [|split; [exact C|exact Rd]].
  intros i sampled Es. assert (Hi : i < length (map unflagged B0)) by (rewrite map_length, L0, <- Lf; apply nth_error_Some; congruence).
  destruct (nth_error (map unflagged B0) i) as [h|] eqn:Eh; [|apply nth_error_None in Eh; lia]. destruct (F' i sampled h Es Eh) as (X1 & X2 & X3 & _). auto.
Qed.
End Rate.

Lemma towards_zero_0 q : (- (1) < q < 1)%Q -> towards_zero q = 0%Z.
Proof.
  intros [H1 H2]. unfold towards_zero. destruct (Qle_bool 0 q) eqn:E.
  - apply Qle_bool_iff in E. apply Qfloor_resp_le in E. change (Qfloor 0) with 0%Z in E. assert (Qfloor q < 1)%Z; [|lia].
    rewrite Zlt_Qlt. eapply Qle_lt_trans; [apply Qfloor_le|exact H2].
  - assert (H0 : (0 <= - q)%Q). { destruct (Qlt_le_dec q 0) as [L|L]; [lra|]. apply Qle_bool_iff in L. congruence. }
    apply Qfloor_resp_le in H0. change (Qfloor 0) with 0%Z in H0. assert (Qfloor (- q) < 1)%Z; [|lia].
    rewrite Zlt_Qlt. eapply Qle_lt_trans; [apply Qfloor_le|]. change (inject_Z 1) with 1%Q. lra.
Qed.
