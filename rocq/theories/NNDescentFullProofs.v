From Coq Require Import QArith Lqa String.
From Verif Require Import Base BaseFacts ClustersModel ClustersSpec ClustersProofs PairwiseModel PairwiseSpec PairwiseProofs LevModel LevProofs BlockingProofs GraphModel
  EvaluationProofs CliProofs SpaceProofs NNDescentModel NNDescentSpec NNDescentProofs.
Open Scope nat_scope.
Open Scope list_scope.
Notation length := List.length.

(** folding a function that keeps an invariant *)
Lemma foldM_inv {S X} (f : S -> X -> res S) (Good : S -> Prop) (R : S -> S -> Prop) l :
  (forall s, R s s) -> (forall s1 s2 s3, R s1 s2 -> R s2 s3 -> R s1 s3) ->
  (forall s x, In x l -> Good s -> exists s', f s x = Ok s' /\ Good s' /\ R s s') ->
  forall s, Good s -> exists s', foldM f l s = Ok s' /\ Good s' /\ R s s'.
Proof.
  intros Rr Rt. induction l as [|x l IH]; intros F s G; [exists s; repeat split; auto|]. cbn [foldM].
  destruct (F s x (or_introl eq_refl) G) as (s1 & E1 & G1 & R1). rewrite E1. cbn [bind].
  destruct (IH (fun s x Hx => F s x (or_intror Hx)) s1 G1) as (s2 & E2 & G2 & R2). exists s2. repeat split; eauto.
Qed.

Lemma upd_same {X} (l : list X) j x : j < length l -> nth_error (upd l j x) j = Some x.
Proof. revert j. induction l as [|y l IH]; intros [|j] Hj; cbn in *; try lia; [reflexivity|]. apply IH. lia. Qed.
Lemma upd_other {X} (l : list X) j x i : i <> j -> nth_error (upd l j x) i = nth_error l i.
Proof. revert j i. induction l as [|y l IH]; intros [|j] [|i] Hi; cbn; try reflexivity; try lia. apply IH. lia. Qed.
Lemma upd_In {X} (l : list X) j x y : In y (upd l j x) -> y = x \/ In y l.
Proof. revert j. induction l as [|z l IH]; intros [|j]; cbn; auto; intros [->|K]; auto. apply IH in K. tauto. Qed.

(** ** Sampling *)
Lemma shuffle_ok {X} later : forall n i t (L : list X), i + n <= length L ->
  exists L' t', shuffle_loop later t L n i = Ok (L', t') /\ incl L' L.
Proof.
  induction n as [|n IH]; intros i t L Hi; [exists L, t; split; auto using incl_refl|].
  cbn [shuffle_loop]. destruct (Nat.leb_spec (length L) i); [lia|]. pose proof (Nat.mod_upper_bound (later t) (length L - i)) as Hr. set (r := i + later t mod (length L - i)) in *.
  assert (r < length L) by lia. unfold index. destruct (nth_error L r) as [v|] eqn:Ev; [|apply nth_error_None in Ev; lia].
  destruct (nth_error L i) as [w|] eqn:Ew; [|apply nth_error_None in Ew; lia]. cbn [bind].
  destruct (IH (i + 1) (t + 1) (upd (upd L r w) i v)) as (L' & t' & E & I); [rewrite !upd_length; lia|].
  exists L', t'. rewrite E. split; [reflexivity|]. intros y Hy. apply I in Hy. apply upd_In in Hy. destruct Hy as [->|Hy]; [eapply nth_error_In; eauto|].
  apply upd_In in Hy. destruct Hy as [->|Hy]; [eapply nth_error_In; eauto|assumption].
Qed.
Lemma towards_zero_comp p q : (p == q)%Q -> towards_zero p = towards_zero q.
Proof.
  intros E. unfold towards_zero. rewrite (Qround.Qfloor_comp _ _ E), (Qround.Qfloor_comp _ _ (Qopp_comp _ _ E)).
  destruct (Qle_bool 0 p) eqn:P, (Qle_bool 0 q) eqn:P'; try reflexivity; exfalso.
  - apply Qle_bool_iff in P. rewrite E in P. apply Qle_bool_iff in P. congruence.
  - apply Qle_bool_iff in P'. rewrite <- E in P'. apply Qle_bool_iff in P'. congruence.
Qed.
Lemma towards_zero_low rho k : (rho <= -1)%Q -> (towards_zero (rho * inject_Z (Z.of_nat k)) <= - Z.of_nat k)%Z.
Proof.
  intros Hr. assert (K : (0 <= inject_Z (Z.of_nat k))%Q) by (change 0%Q with (inject_Z 0); rewrite <- Zle_Qle; lia).
  assert (P : (inject_Z (Z.of_nat k) <= - (rho * inject_Z (Z.of_nat k)))%Q) by nra.
  unfold towards_zero. destruct (Qle_bool 0 (rho * inject_Z (Z.of_nat k))) eqn:E.
  - apply Qle_bool_iff in E. assert (Z0 : (inject_Z (Z.of_nat k) <= inject_Z 0)%Q) by (change (inject_Z 0) with 0%Q; lra). rewrite <- Zle_Qle in Z0.
    assert (k = 0) as -> by lia. change (inject_Z (Z.of_nat 0)) with 0%Q. rewrite (Qround.Qfloor_comp _ 0 (Qmult_0_r rho)). cbn. lia.
  - apply Qround.Qfloor_resp_le in P. rewrite Qround.Qfloor_Z in P. lia.
Qed.
Lemma sample_full_ok {X} later t (L : list X) k : exists s t', sample_full later t L k = Ok (s, t') /\ incl s L.
Proof.
  unfold sample_full. destruct (Z.leb_spec (Z.of_nat (length L)) k) as [Hl|Hl].
  - exists L, t. split; auto using incl_refl.
  - destruct (shuffle_ok later (Z.to_nat k) 0 t L) as (L' & t' & E & I); [lia|]. rewrite E. cbn [bind]. eexists _, _. split; [reflexivity|].
    intros y Hy. apply I. eapply firstn_In; eauto.
Qed.

Section Full.
Context {A : Type} `{EqDec A}.
Variable set_order : list nat -> list nat.
Hypothesis set_order_perm : forall l, Permutation (set_order l) l.
Variable heapify : list entry_full -> list entry_full.
Variable heapreplace : list entry_full -> entry_full -> list entry_full.
Variable is_heap : list entry_full -> Prop.
Hypothesis heaps : heap_module is_heap heapify heapreplace.
Variable similarity : A -> A -> Q.
Variable V : list A.
Variable later : nat -> nat.
Notation N := (length V).
Notation value := (value similarity V).
Notation neighbors_full := (neighbors_full similarity V).

Definition good_full (k i : nat) (h : list entry_full) : Prop := is_heap h /\ neighbors_full k i h.
Definition all_full (k : nat) (B : list (list entry_full)) : Prop := length B = N /\ forall i h, nth_error B i = Some h -> good_full k i h.

Lemma full_value k i l s j b : neighbors_full k i l -> In (s, (j, b)) l -> i <> j /\ i < N /\ j < N /\ (s = value i j \/ s = value j i).
Proof.
  intros [_ X] Hin. destruct (X s j b Hin) as (Hne & x & y & Ex & Ey & E). split; [assumption|].
  split; [apply nth_error_Some; congruence|]. split; [apply nth_error_Some; congruence|]. unfold NNDescentProofs.value. rewrite Ex, Ey. assumption.
Qed.

(** ** The potential *)
Definition rank_full (i : nat) (s : Q) : nat :=
  length (filter (fun j => negb (Qle_bool s (value i j))) (seq 0 N)) + length (filter (fun j => negb (Qle_bool s (value j i))) (seq 0 N)).
Definition potential_full (i : nat) (h : list entry_full) : nat := list_sum (map (fun e => rank_full i (fst e)) h).
Definition total_full (B : list (list entry_full)) : nat := list_sum (map (fun i => potential_full i (nth i B [])) (seq 0 N)).

Lemma filter_length_le {X} (f : X -> bool) l : length (filter f l) <= length l.
Proof. induction l; cbn; auto. destruct (f a); cbn; lia. Qed.
Lemma filter_length_mono {X} (f g : X -> bool) l : (forall y, f y = true -> g y = true) -> length (filter f l) <= length (filter g l).
Proof. intros I. induction l; cbn; auto. destruct (f a) eqn:E; [rewrite (I _ E); cbn; lia|]. destruct (g a); cbn; lia. Qed.
Lemma rank_full_le i s : rank_full i s <= 2 * N.
Proof.
  unfold rank_full. pose proof (filter_length_le (fun j => negb (Qle_bool s (value i j))) (seq 0 N)) as X. rewrite seq_length in X.
  pose proof (filter_length_le (fun j => negb (Qle_bool s (value j i))) (seq 0 N)) as Y. rewrite seq_length in Y. lia.
Qed.
Lemma below_mono (v : nat -> Q) w s : (w < s)%Q -> forall j, negb (Qle_bool w (v j)) = true -> negb (Qle_bool s (v j)) = true.
Proof.
  intros L j Hj. destruct (Qle_bool s (v j)) eqn:E; [|reflexivity]. apply Qle_bool_iff in E.
  destruct (Qle_bool w (v j)) eqn:E'; [discriminate|]. exfalso. rewrite (proj2 (Qle_bool_iff _ _)) in E'; [discriminate|]. lra.
Qed.
Lemma rank_full_lt i j w s : j < N -> (w = value i j \/ w = value j i) -> (w < s)%Q -> rank_full i w < rank_full i s.
Proof.
  intros Hj Ew L. unfold rank_full.
  pose proof (filter_length_mono _ _ (seq 0 N) (below_mono (fun j => value i j) w s L)) as M1.
  pose proof (filter_length_mono _ _ (seq 0 N) (below_mono (fun j => value j i) w s L)) as M2. cbn beta in *.
  assert (Hw : Qle_bool w w = true) by (apply Qle_bool_iff; apply Qle_refl).
  assert (Hs : Qle_bool s w = false) by (destruct (Qle_bool s w) eqn:E; [apply Qle_bool_iff in E; lra|reflexivity]).
  destruct Ew as [Ew|Ew].
  - assert (length (filter (fun j => negb (Qle_bool w (value i j))) (seq 0 N)) < length (filter (fun j => negb (Qle_bool s (value i j))) (seq 0 N))); [|lia].
    apply (filter_lt _ _ j); [apply in_seq; lia| | |]; rewrite <- ?Ew; rewrite ?Hw, ?Hs; auto. apply (below_mono (fun j => value i j)). assumption.
  - assert (length (filter (fun j => negb (Qle_bool w (value j i))) (seq 0 N)) < length (filter (fun j => negb (Qle_bool s (value j i))) (seq 0 N))); [|lia].
    apply (filter_lt _ _ j); [apply in_seq; lia| | |]; rewrite <- ?Ew; rewrite ?Hw, ?Hs; auto. apply (below_mono (fun j => value j i)). assumption.
Qed.
Lemma potential_full_perm i h h' : Permutation h h' -> potential_full i h = potential_full i h'.
Proof. unfold potential_full, list_sum. induction 1; cbn [map fold_right]; lia. Qed.
Lemma potential_full_keys i h h' : map fst h = map fst h' -> potential_full i h = potential_full i h'.
Proof. intros E. unfold potential_full. rewrite <- (map_map fst (rank_full i)), <- (map_map fst (rank_full i) h'), E. reflexivity. Qed.
Lemma potential_full_le i h : potential_full i h <= length h * (2 * N).
Proof. unfold potential_full, list_sum. induction h as [|e h IH]; cbn [map fold_right length]; [lia|]. pose proof (rank_full_le i (fst e)). lia. Qed.
Lemma total_full_le k B : all_full k B -> total_full B <= N * (k * (2 * N)).
Proof.
  intros [L G]. unfold total_full, list_sum. rewrite <- (seq_length N 0) at 2.
  assert (K : forall i, In i (seq 0 N) -> potential_full i (nth i B []) <= k * (2 * N)).
  { intros i Hi. apply in_seq in Hi. destruct (nth_error B i) as [h|] eqn:E; [|apply nth_error_None in E; lia]. rewrite (nth_error_nth _ _ _ E).
    destruct (G i h E) as [_ [Lh _]]. rewrite <- Lh. apply potential_full_le. }
  revert K. generalize (seq 0 N) as l. induction l as [|i l IH]; intros K; cbn [map fold_right length]; [lia|].
  pose proof (K i (or_introl eq_refl)). specialize (IH (fun i Hi => K i (or_intror Hi))). lia.
Qed.
Lemma total_full_upd B u h : u < N -> length B = N -> total_full (upd B u h) + potential_full u (nth u B []) = total_full B + potential_full u h.
Proof.
  intros Hu L. unfold total_full, list_sum.
  assert (K : forall i, i <> u -> potential_full i (nth i (upd B u h) []) = potential_full i (nth i B [])).
  { intros i Hi. f_equal. pose proof (upd_other B u h i Hi) as E. destruct (nth_error B i) as [x|] eqn:E'.
    - rewrite (nth_error_nth _ _ _ E'). apply (nth_error_nth _ _ [] E).
    - apply nth_error_None in E'. rewrite !nth_overflow; rewrite ?upd_length; auto. }
  assert (Ku : nth u (upd B u h) [] = h) by (apply nth_error_nth; apply upd_same; lia).
  assert (In u (seq 0 N)) as Hin by (apply in_seq; lia). pose proof (seq_NoDup N 0) as ND. revert Hin ND. generalize (seq 0 N) as l.
  induction l as [|i l IH]; intros Hin ND; [contradiction|]. inversion ND; subst. cbn [map fold_right]. destruct (Nat.eq_dec i u) as [->|Hn].
  - rewrite Ku. assert (E : map (fun i => potential_full i (nth i (upd B u h) [])) l = map (fun i => potential_full i (nth i B [])) l).
    { apply map_ext_in. intros i Hi. apply K. intros ->. contradiction. }
    rewrite E. lia.
  - rewrite (K i Hn). destruct Hin as [->|Hin]; [congruence|]. specialize (IH Hin H3). lia.
Qed.

(** ** Comparisons *)
Definition rises (B B' : list (list entry_full)) : Prop :=
  forall i h h', nth_error B i = Some h -> nth_error B' i = Some h' -> forall q, at_least q h -> at_least q h'.
Definition step (Bc Bc' : list (list entry_full) * nat) : Prop :=
  snd Bc <= snd Bc' /\ total_full (fst Bc) + (snd Bc' - snd Bc) <= total_full (fst Bc') /\ rises (fst Bc) (fst Bc') /\ length (fst Bc) = length (fst Bc').

Lemma step_refl Bc : step Bc Bc.
Proof. unfold step. repeat split; auto; try lia. intros i h h' E E'. rewrite E in E'. injection E' as <-. auto. Qed.
Lemma step_trans s1 s2 s3 : step s1 s2 -> step s2 s3 -> step s1 s3.
Proof.
  intros (C1 & T1 & R1 & L1) (C2 & T2 & R2 & L2). unfold step. repeat split; try lia. intros i h h' E E' q Hq.
  destruct (nth_error (fst s2) i) as [h2|] eqn:E2; [eapply R2; eauto; eapply R1; eauto|].
  apply nth_error_None in E2. assert (i < length (fst s1)) by (apply nth_error_Some; congruence). lia.
Qed.

Lemma insert_ok k B c u v s : 0 < k -> all_full k B -> u <> v -> u < N -> v < N -> (s = value u v \/ s = value v u) ->
  exists Bc, insert_full heapreplace u v s (B, c) = Ok Bc /\ all_full k (fst Bc) /\ step (B, c) Bc.
Proof.
  intros Hk [L G] Hne Hu Hv Hs. unfold insert_full, index. destruct (nth_error B u) as [h|] eqn:Eu; [|apply nth_error_None in Eu; lia]. cbn [bind].
  destruct (G u h Eu) as [Hh Hn]. destruct h as [|[w [jw bw]] h]; [destruct Hn as [Ln _]; cbn in Ln; lia|].
  destruct (Qle_bool s w) eqn:E; [exists (B, c); split; [reflexivity|]; split; [split; assumption|apply step_refl]|].
  assert (Lt : (w < s)%Q). { apply Qnot_le_lt. intros X. apply Qle_bool_iff in X. congruence. }
  pose proof (heapreplace_perm _ _ _ heaps (w, (jw, bw)) h (s, (v, true))) as P. set (h' := heapreplace ((w, (jw, bw)) :: h) (s, (v, true))) in *.
  exists (upd B u h', c + 1). split; [reflexivity|]. cbn [fst snd]. split.
  - split; [rewrite upd_length; assumption|]. intros i hi Ei. destruct (Nat.eq_dec i u) as [->|Hi].
    + rewrite upd_same in Ei by lia. injection Ei as <-. split; [apply (heapreplace_heap _ _ _ heaps); assumption|]. split.
      * rewrite (Permutation_length P). destruct Hn as [Ln _]. cbn in Ln |- *. lia.
      * intros s' j b Hin. apply (Permutation_in _ P) in Hin. destruct Hin as [E'|Hin].
        -- injection E' as <- <- <-. split; [assumption|]. unfold NNDescentProofs.value in Hs.
           destruct (nth_error V u) as [x|] eqn:Ex; [|apply nth_error_None in Ex; lia]. destruct (nth_error V v) as [y|] eqn:Ey; [|apply nth_error_None in Ey; lia]. eauto 6.
        -- apply Hn with b. right. assumption.
    + rewrite upd_other in Ei by assumption. apply G. assumption.
  - unfold step. cbn [fst snd]. split; [lia|]. split; [|split; [|rewrite upd_length; reflexivity]].
    + pose proof (total_full_upd B u h' Hu L) as T. rewrite (nth_error_nth _ _ [] Eu) in T. rewrite (potential_full_perm u _ _ P) in T.
      destruct (full_value _ _ _ w jw bw Hn (or_introl eq_refl)) as (_ & _ & Hjw & Ew).
      pose proof (rank_full_lt u jw w s Hjw Ew Lt) as R. unfold potential_full, list_sum in T. cbn [map fold_right fst] in T. lia.
    + intros i hi hi' Ei Ei' q Hq. destruct (Nat.eq_dec i u) as [->|Hi].
      * rewrite upd_same in Ei' by lia. injection Ei' as <-. rewrite Eu in Ei. injection Ei as <-. intros s' j Hin. apply (Permutation_in _ P) in Hin. destruct Hin as [E'|Hin].
        -- injection E' as <- <-. specialize (Hq w _ (or_introl eq_refl)). lra.
        -- apply (Hq s' j). right. assumption.
      * rewrite upd_other in Ei' by assumption. rewrite Ei in Ei'. injection Ei' as <-. assumption.
Qed.

Lemma compare_full_ok k Bc u1 u2 : 0 < k -> all_full k (fst Bc) -> u1 <> u2 -> u1 < N -> u2 < N ->
  exists Bc', compare_full heapreplace similarity V u1 Bc u2 = Ok Bc' /\ all_full k (fst Bc') /\ step Bc Bc'.
Proof.
  intros Hk G Hne H1 H2. unfold compare_full. rewrite (sim_at_ok similarity V) by assumption. cbn [bind]. destruct Bc as [B c].
  destruct (insert_ok k B c u1 u2 (value u1 u2)) as ([B1 c1] & E1 & G1 & S1); auto. rewrite E1. cbn [bind fst] in *.
  destruct (insert_ok k B1 c1 u2 u1 (value u1 u2)) as ([B2 c2] & E2 & G2 & S2); auto. rewrite E2. cbn [fst] in *.
  exists (B2, c2). split; [reflexivity|]. split; [assumption|]. eapply step_trans; eauto.
Qed.

(** ** Turns *)
Definition low (l : list nat) : Prop := forall j, In j l -> j < N.

Lemma reverse_low sets i : length sets <= N -> low (reverse_full sets i).
Proof.
  intros L j Hj. unfold reverse_full in Hj. apply in_flat_map in Hj. destruct Hj as ([p set] & Hp & Hj). destruct (memb i set); [|contradiction]. destruct Hj as [<-|[]].
  rewrite In_enumerate in Hp. enough (p < length sets) by lia. apply nth_error_Some. congruence.
Qed.

Lemma join_ok k rhoK old new B c t i : 0 < k -> all_full k B -> i < N -> length old = N -> length new = N -> Forall low old -> Forall low new ->
  exists Bc t', join_full set_order heapreplace similarity V later rhoK old new (B, c, t) i = Ok (Bc, t') /\ all_full k (fst Bc) /\ step (B, c) Bc.
Proof.
  intros Hk G Hi Lo Ln Ho Hn. unfold join_full, index. destruct (nth_error old i) as [o|] eqn:Eo; [|apply nth_error_None in Eo; lia].
  destruct (nth_error new i) as [n|] eqn:En; [|apply nth_error_None in En; lia]. cbn [bind].
  destruct (sample_full_ok later t (reverse_full old i) rhoK) as (os & d1 & E1 & I1). rewrite E1. cbn [bind].
  destruct (sample_full_ok later d1 (reverse_full new i) rhoK) as (ns & d2 & E2 & I2). rewrite E2. cbn [bind].
  rewrite Forall_forall in Ho, Hn.
  assert (Hlo : low (set_order (fold_left sadd os o))).
  { intros j Hj. apply (Permutation_in _ (set_order_perm _)) in Hj. rewrite fold_sadd_In in Hj. destruct Hj as [Hj|Hj]; [eapply Ho; [eapply nth_error_In; eauto|assumption]|].
    apply I1 in Hj. eapply reverse_low; [|eauto]; lia. }
  assert (Hln : low (set_order (fold_left sadd ns n))).
  { intros j Hj. apply (Permutation_in _ (set_order_perm _)) in Hj. rewrite fold_sadd_In in Hj. destruct Hj as [Hj|Hj]; [eapply Hn; [eapply nth_error_In; eauto|assumption]|].
    apply I2 in Hj. eapply reverse_low; [|eauto]; lia. }
  revert Hlo Hln. generalize (set_order (fold_left sadd os o)) as O, (set_order (fold_left sadd ns n)) as M. intros O M Hlo Hln.
  edestruct (foldM_inv (fun Bc u1 =>
    let! Bc := foldM (fun Bc u2 => if Nat.leb u2 u1 then Ok Bc else compare_full heapreplace similarity V u1 Bc u2) M Bc in
    foldM (fun Bc u2 => if Nat.eqb u1 u2 then Ok Bc else compare_full heapreplace similarity V u1 Bc u2) O Bc) (fun Bc => all_full k (fst Bc)) step M step_refl step_trans) as (Bc & E & G' & S').
  { intros Bc u1 Hu1 G1.
    destruct (foldM_inv (fun Bc u2 => if Nat.leb u2 u1 then Ok Bc else compare_full heapreplace similarity V u1 Bc u2) (fun Bc => all_full k (fst Bc)) step M step_refl step_trans) with (s := Bc)
      as (Bc2 & Ea & Ga & Sa).
    { intros Bc' u2 Hu2 G2. destruct (Nat.leb_spec u2 u1); [exists Bc'; split; [reflexivity|]; split; [exact G2|apply step_refl]|]. apply compare_full_ok; auto. lia. }
    { assumption. }
    rewrite Ea. cbn [bind].
    destruct (foldM_inv (fun Bc u2 => if Nat.eqb u1 u2 then Ok Bc else compare_full heapreplace similarity V u1 Bc u2) (fun Bc => all_full k (fst Bc)) step O step_refl step_trans) with (s := Bc2)
      as (Bc3 & Eb & Gb & Sb).
    { intros Bc' u2 Hu2 G2. destruct (Nat.eqb_spec u1 u2); [exists Bc'; split; [reflexivity|]; split; [exact G2|apply step_refl]|]. apply compare_full_ok; auto. }
    { assumption. }
    exists Bc3. split; [assumption|]. split; [assumption|]. eapply step_trans; eauto. }
  { exact (G : all_full k (fst (B, c))). }
  rewrite E. cbn [bind]. exists Bc, d2. rewrite <- surjective_pairing. split; [reflexivity|]. split; assumption.
Qed.

(** flags do not matter to the invariant *)
Lemma sampling_ok k i h t rhoK : good_full k i h ->
  exists h' o n t', sampling later t rhoK h = Ok (h', o, n, t') /\ map fst h' = map fst h /\ good_full k i h' /\ low o /\ low n.
Proof.
  intros [Hh Hn]. unfold sampling.
  destruct (sample_full_ok later t (flat_map (fun '(p, (_, (j, flag))) => if flag : bool then [(p, j)] else []) (enumerate h)) rhoK) as (s & d & E & I).
  rewrite E. cbn [bind]. eexists _, _, _, _. split; [reflexivity|].
  assert (F : forall l : list (nat * entry_full), map fst (map (fun '(p, (q, (j, flag))) => (q, (j, andb flag (memb (p, j) s)))) l) = map fst (map snd l)).
  { induction l as [|[p [q [j b]]] l IH]; cbn; [reflexivity|]. f_equal. exact IH. }
  assert (S : map snd (enumerate h) = h).
  { unfold enumerate. generalize 0. clear. induction h; intros n; cbn; [reflexivity|]. f_equal. auto. }
  split; [rewrite F, S; reflexivity|]. split; [|split].
  - split; [apply (heap_keys _ _ _ heaps h); [rewrite F, S; reflexivity|assumption]|]. split.
    + rewrite map_length, enumerate_length. apply Hn.
    + intros q j b Hin. apply in_map_iff in Hin. destruct Hin as ([p [q' [j' b']]] & Eq & Hin). injection Eq as <- <- _.
      apply (in_map snd) in Hin. rewrite S in Hin. destruct Hn as [_ Hn]. exact (Hn _ _ _ Hin).
  - intros j Hj. rewrite set_of_In in Hj. apply in_flat_map in Hj. destruct Hj as ([q [j' b]] & Hin & Hj). destruct b; [contradiction|]. destruct Hj as [<-|[]].
    destruct (full_value _ _ _ _ _ _ Hn Hin) as (_ & _ & Y & _). assumption.
  - intros j Hj. rewrite set_of_In in Hj. apply in_map_iff in Hj. destruct Hj as ([p j'] & <- & Hj). apply I in Hj. apply in_flat_map in Hj.
    destruct Hj as ([p' [q [j'' b]]] & Hin & Hj). destruct b; [|contradiction]. destruct Hj as [Eq|[]]. injection Eq as <- <-. apply (in_map snd) in Hin. rewrite S in Hin.
    destruct (full_value _ _ _ _ _ _ Hn Hin) as (_ & _ & Y & _). assumption.
Qed.

Lemma samplings_ok k rhoK : forall B m t, (forall i h, nth_error B i = Some h -> good_full k (m + i) h) ->
  exists B' old new t', samplings later t rhoK B = Ok (B', old, new, t') /\ map (map fst) B' = map (map fst) B /\ (forall i h, nth_error B' i = Some h -> good_full k (m + i) h) /\
    length old = length B /\ length new = length B /\ Forall low old /\ Forall low new.
Proof.
  induction B as [|h B IH]; intros m t G.
  - exists [], [], [], t. cbn. split; [reflexivity|]. split; [reflexivity|]. split; [intros [|i] h X; discriminate|]. auto.
  - cbn [samplings length] in *. destruct (sampling_ok k (m + 0) h t rhoK) as (h' & o & n & d1 & E1 & K1 & G1 & O1 & N1); [apply G; reflexivity|]. rewrite E1. cbn [bind].
    destruct (IH (m + 1) d1) as (B' & old & new & d2 & E2 & K2 & G2 & Lo & Ln & O2 & N2).
    + intros i h0 Hi. replace (m + 1 + i) with (m + S i) by lia. apply G. exact Hi.
    + rewrite E2. cbn [bind]. eexists _, _, _, _. split; [reflexivity|]. cbn [map length]. rewrite K1, K2. split; [reflexivity|]. split.
      * intros [|i] h0 Hi; cbn in Hi; [injection Hi as <-; assumption|]. replace (m + S i) with (m + 1 + i) by lia. apply G2. exact Hi.
      * repeat split; try lia; constructor; assumption.
Qed.

Lemma keys_rises B B' : map (map fst) B' = map (map fst) B -> rises B B'.
Proof.
  intros E i h h' Hi Hi' q Hq s j Hin. assert (K : map fst h' = map fst h).
  { apply (f_equal (fun l => nth_error l i)) in E. rewrite !nth_error_map, Hi, Hi' in E. injection E. auto. }
  apply (in_map fst) in Hin. rewrite K in Hin. apply in_map_iff in Hin. destruct Hin as ([s' j'] & Es & Hin). cbn in Es. subst s'. exact (Hq _ _ Hin).
Qed.
Lemma keys_total B B' : map (map fst) B' = map (map fst) B -> total_full B' = total_full B.
Proof.
  intros E. unfold total_full. f_equal. apply map_ext. intros i. apply potential_full_keys.
  change (map fst (nth i B' [])) with ((fun h : list entry_full => map fst h) (nth i B' [])). change (map fst (nth i B [])) with ((fun h : list entry_full => map fst h) (nth i B [])).
  rewrite <- !(map_nth (fun h : list entry_full => map fst h)). f_equal. exact E.
Qed.

Lemma turn_full_ok k B t rhoK : 0 < k -> all_full k B ->
  exists B' c t', turn_full set_order heapreplace similarity V later t rhoK B = Ok (B', c, t') /\ all_full k B' /\
    total_full B + c <= total_full B' /\ rises B B' /\ length B = length B'.
Proof.
  intros Hk [L G]. unfold turn_full.
  destruct (samplings_ok k rhoK B 0 t) as (B1 & old & new & d1 & E1 & K1 & G1 & Lo & Ln & O1 & N1); [assumption|]. rewrite E1. cbn [bind].
  assert (A1 : all_full k B1). { split; [|exact G1]. apply (f_equal (@length _)) in K1. rewrite !map_length in K1. lia. }
  assert (M : forall l st, (forall i, In i l -> i < N) -> all_full k (fst (fst st)) ->
    exists st', foldM (join_full set_order heapreplace similarity V later rhoK old new) l st = Ok st' /\ all_full k (fst (fst st')) /\ step (fst st) (fst st')).
  { induction l as [|i l IH]; intros [[Bi ci] di] Hl Gi; cbn [fst snd] in *.
    - exists (Bi, ci, di). cbn [fst snd]. split; [reflexivity|]. split; [assumption|apply step_refl].
    - cbn [foldM]. destruct (join_ok k rhoK old new Bi ci di i) as ([B2 c2] & d2 & E2 & G2 & S2); auto; try lia; [apply Hl; left; reflexivity|]. rewrite E2. cbn [bind].
      destruct (IH (B2, c2, d2)) as (st' & E' & G' & S'); auto; cbn [fst snd] in *; [intros; apply Hl; right; assumption|]. exists st'. split; [exact E'|]. split; [assumption|]. eapply step_trans; eauto. }
  destruct (M (seq 0 N) (B1, 0, d1)) as ([[B2 c2] d2] & E2 & G2 & (C2 & T2 & R2 & L2)); cbn [fst snd] in *.
  - intros i Hi. apply in_seq in Hi. lia.
  - assumption.
  - exists B2, c2, d2. split; [assumption|]. split; [assumption|]. rewrite (keys_total B B1 K1) in T2. split; [lia|]. split; [|destruct A1; lia].
    intros i h h' Hi Hi' q Hq. destruct (nth_error B1 i) as [h1|] eqn:Eh.
    + eapply R2; eauto. eapply (keys_rises B B1); eauto.
    + apply nth_error_None in Eh. assert (i < length B) by (apply nth_error_Some; congruence). destruct A1. lia.
Qed.

Lemma descend_full_ends k rhoK threshold : 0 < k -> (0 < threshold)%Q -> forall fuel B c t, all_full k B -> N * (k * (2 * N)) - total_full B + (if Nat.eqb c 0 then 0 else 1) < fuel ->
  exists B', descend_full set_order heapreplace similarity V later fuel t rhoK threshold c B = Ok B'.
Proof.
  intros Hk Ht. induction fuel as [|fuel IH]; intros B c t G F; [lia|]. cbn [descend_full].
  destruct (Qle_bool threshold (inject_Z (Z.of_nat c))) eqn:E; [|eauto].
  assert (Hc : c <> 0). { intros ->. apply Qle_bool_iff in E. cbn in E. unfold inject_Z in E. lra. }
  destruct (turn_full_ok k B t rhoK Hk G) as (B' & c' & d' & E' & G' & T & _). rewrite E'. cbn [bind].
  apply IH; [assumption|]. pose proof (total_full_le k B' G'). destruct (Nat.eqb_spec c 0); [contradiction|]. destruct (Nat.eqb_spec c' 0); lia.
Qed.
Lemma descend_full_good k rhoK threshold : 0 < k -> forall fuel B c t B', all_full k B ->
  descend_full set_order heapreplace similarity V later fuel t rhoK threshold c B = Ok B' -> all_full k B' /\ rises B B' /\ length B = length B'.
Proof.
  intros Hk. induction fuel as [|fuel IH]; intros B c t B' G E; [discriminate|]. cbn [descend_full] in E. destruct (Qle_bool _ _).
  - destruct (turn_full_ok k B t rhoK Hk G) as (B1 & c1 & t1 & E1 & G1 & _ & R1 & L1). rewrite E1 in E. cbn [bind] in E.
    destruct (IH _ _ _ _ G1 E) as (G2 & R2 & L2). split; [assumption|]. split; [|lia]. intros i h h' Hi Hi' q Hq.
    destruct (nth_error B1 i) as [h1|] eqn:Eh; [eapply R2; eauto; eapply R1; eauto|]. apply nth_error_None in Eh. assert (i < length B) by (apply nth_error_Some; congruence). lia.
  - injection E as <-. split; [assumption|]. split; [|reflexivity]. intros i h h' Hi Hi'. rewrite Hi in Hi'. injection Hi' as <-. auto.
Qed.

Lemma descend_full_endless rhoK threshold : (threshold <= 0)%Q -> forall fuel B c t B', descend_full set_order heapreplace similarity V later fuel t rhoK threshold c B <> Ok B'.
Proof.
  intros Ht. induction fuel as [|fuel IH]; intros B c t B' E; [discriminate|]. cbn [descend_full] in E.
  assert (X : Qle_bool threshold (inject_Z (Z.of_nat c)) = true).
  { apply Qle_bool_iff. assert (0 <= inject_Z (Z.of_nat c))%Q by (change 0%Q with (inject_Z 0); rewrite <- Zle_Qle; lia). lra. }
  rewrite X in E. destruct (turn_full _ _ _ _ _ _ _ _) as [[[B1 c1] d1]|]; [|discriminate]. cbn [bind] in E. exact (IH _ _ _ _ E).
Qed.

(** ** The whole function *)
Lemma initial_full_ok k : forall draws items B, (forall r, In r draws -> r < N) -> (forall i, In i items -> i < N) ->
  initial_full set_order heapify similarity V draws k items = Ok B -> Forall2 (good_full k) items B.
Proof.
  intros draws items. revert draws. induction items as [|i items IH]; intros draws B D I E; cbn in E.
  - injection E as <-. constructor.
  - destruct (sample_loop draws k i []) as [[S draws']|] eqn:Es; [|discriminate]. cbn in E.
    destruct (sample_ok k i draws [] S draws') as (A1 & A2 & A3 & A4 & used & Eu); auto; [constructor|cbn; lia|].
    assert (HS : forall j, In j (set_order S) -> i <> j /\ j < N).
    { intros j Hj. apply (Permutation_in _ (set_order_perm S)) in Hj. split; [intros ->; auto|]. destruct (A4 j Hj) as [[]|X]; auto. }
    assert (Em : mapM (fun j => let! s := sim_at similarity V i j in Ok (s, (j, true))) (set_order S) = Ok (map (fun j => (value i j, (j, true))) (set_order S))).
    { apply mapM_map. intros j Hj. rewrite sim_at_ok; [reflexivity| |apply HS; assumption]. apply I. left. reflexivity. }
    rewrite Em in E. cbn in E. destruct (initial_full _ _ _ _ draws' k items) as [B'|] eqn:Eb; [|discriminate]. cbn in E. injection E as <-.
    constructor.
    + split; [apply (heapify_heap _ _ _ heaps)|]. split.
      * rewrite (Permutation_length (heapify_perm _ _ _ heaps _)), map_length, (Permutation_length (set_order_perm S)). assumption.
      * intros s j b Hin. apply (Permutation_in _ (heapify_perm _ _ _ heaps _)) in Hin. apply in_map_iff in Hin. destruct Hin as (j' & Ej & Hj). injection Ej as <- <- <-.
        destruct (HS _ Hj) as [Hne Hlt]. split; [assumption|]. destruct (value_spec similarity V i j') as (x & y & Ex & Ey & Ev); auto; [apply I; left; reflexivity|]. eauto 6.
    + eapply IH; [| |exact Eb]; [|intros; apply I; right; assumption]. intros r Hr. apply D. rewrite Eu. apply in_or_app. auto.
Qed.
Lemma initial_full_all k draws B : (forall r, In r draws -> r < N) -> initial_full set_order heapify similarity V draws k (seq 0 N) = Ok B -> all_full k B.
Proof.
  intros D E. apply initial_full_ok in E; [|assumption|intros i Hi; apply in_seq in Hi; lia].
  pose proof (Forall2_len _ _ _ E) as L. rewrite seq_length in L. split; [congruence|]. intros i h Hi.
  assert (i < N) by (rewrite L; apply nth_error_Some; congruence).
  assert (Es : nth_error (seq 0 N) i = Some i) by (rewrite (nth_error_nth' _ 0) by (rewrite seq_length; lia); rewrite seq_nth by lia; reflexivity).
  exact (Forall2_nth_both _ _ _ E i i h Es Hi).
Qed.
Lemma initial_full_enough k : k < N -> forall items D blocks, (forall i, In i items -> i < N) -> (forall r, In r (D ++ concat blocks) -> r < N) -> length items <= length blocks ->
  Forall (covers V) blocks -> exists B, initial_full set_order heapify similarity V (D ++ concat blocks) k items = Ok B.
Proof.
  intros Hk. induction items as [|i items IH]; intros D blocks I R L C; [exists []; reflexivity|].
  destruct blocks as [|block blocks]; [cbn in L; lia|]. inversion C as [|? ? Cb C']; subst. cbn [initial_full concat] in *. rewrite app_assoc in *.
  destruct (sample_enough N k i (concat blocks) Hk (D ++ block) []) as (out & D' & E).
  { intros j Hj. right. right. apply in_or_app. auto. }
  rewrite E. cbn [bind].
  destruct (sample_ok k i _ [] out _ (NoDup_nil _) (fun x => x) (Nat.le_0_l _) E) as (A1 & A2 & A3 & A4 & used & Eu).
  erewrite mapM_map.
  2:{ intros j Hj. rewrite sim_at_ok; [reflexivity|apply I; left; reflexivity|]. apply (Permutation_in _ (set_order_perm out)) in Hj. destruct (A4 j Hj) as [[]|X]. auto. }
  cbn [bind]. destruct (IH D' blocks) as (B & EB); auto.
  - intros; apply I; right; assumption.
  - intros r Hr. apply R. rewrite Eu. apply in_or_app. auto.
  - cbn in L. lia.
  - rewrite EB. cbn [bind]. eauto.
Qed.

Lemma links_full_In k B radius i j : all_full k B -> In (i, j) (links_full radius B) ->
  i <> j /\ exists x y, nth_error V i = Some x /\ nth_error V j = Some y /\ (radius <= similarity x y \/ radius <= similarity y x)%Q.
Proof.
  intros [_ G] Hin. unfold links_full in Hin. apply in_flat_map in Hin. destruct Hin as ([i' h] & Hh & Hin). apply in_flat_map in Hin. destruct Hin as ([s [j' b]] & He & Hin).
  destruct (Qle_bool radius s) eqn:E; [|contradiction]. destruct Hin as [Ep|[]]. injection Ep as <- <-. apply Qle_bool_iff in E. rewrite In_enumerate in Hh.
  destruct (G _ _ Hh) as [_ [_ X]]. destruct (X _ _ _ He) as (Hne & x & y & Ex & Ey & [->| ->]); (split; [assumption|]); eauto 6.
Qed.

Notation full := (nn_descent_full_with set_order heapify heapreplace similarity V later).
Lemma full_facts fuel draws k radius rho delta lo hi out : (forall r, In r draws -> r < N) ->
  full fuel draws k radius rho delta lo hi "connected_components" = Ok out ->
  exists pairs clusters, (forall i j, In (i, j) pairs -> i <> j /\ exists x y, nth_error V i = Some x /\ nth_error V j = Some y /\ (radius <= similarity x y \/ radius <= similarity y x)%Q) /\
    is_components (fun i => exists j, In (i, j) pairs \/ In (j, i) pairs) (fun i j => In (i, j) pairs) lo hi clusters /\ reads V clusters out.
Proof.
  intros R E. unfold nn_descent_full_with in E.
  destruct (match k with Some k => Ok k | None => match V with [] => Err ValueError | _ => Ok (Nat.log2 N) end end) as [k'|] eqn:Ek; [|discriminate]. cbn [bind] in E.
  destruct (initial_full _ _ _ _ _ _ _) as [B0|] eqn:E0; [|discriminate]. cbn [bind] in E. apply initial_full_all in E0; [|assumption].
  destruct (descend_full _ _ _ _ _ _ _ _ _ _ _) as [B|] eqn:Eg; [|discriminate]. cbn [bind] in E.
  assert (G : all_full k' B).
  { destruct k' as [|k']; [|eapply (descend_full_good (S k')); [lia|exact E0|exact Eg]]. exfalso. revert Eg. apply descend_full_endless.
    rewrite Nat.mul_0_r. cbn. unfold inject_Z. lra. }
  exists (links_full radius B).
  destruct (BlockingProofs.positions_read set_order V (links_full radius B) (fun i j => In (i, j) (links_full radius B)) lo hi true) as (idx & out' & E' & Rd & C); auto.
  { tauto. }
  { intros i j Hin. destruct (links_full_In _ _ _ _ _ G Hin) as (_ & x & y & Ex & Ey & _). split; apply nth_error_Some; congruence. }
  rewrite E in E'. injection E' as <-. exists idx. split; [|auto]. intros i j Hin. eapply links_full_In; eauto.
Qed.

Lemma full_ends draws blocks k radius rho delta lo hi fuel : (forall r, In r draws -> r < N) -> 0 < chosen V k < N -> (0 < delta)%Q -> draws = concat blocks -> N <= length blocks -> Forall (covers V) blocks ->
  N * (chosen V k * (2 * N)) + 1 < fuel -> exists out, full fuel draws k radius rho delta lo hi "connected_components" = Ok out.
Proof.
  intros R Hk Hdelta Ed L C F.
  destruct (initial_full_enough (chosen V k) (proj2 Hk) (seq 0 N) [] blocks) as (B0 & E0); auto.
  { intros i Hi. apply in_seq in Hi. lia. }
  { rewrite <- Ed. exact R. }
  { rewrite seq_length. assumption. }
  cbn [app] in E0. rewrite <- Ed in E0. pose proof (initial_full_all _ _ _ R E0) as G0.
  set (rhoK := towards_zero (rho * inject_Z (Z.of_nat (chosen V k)))).
  destruct (descend_full_ends (chosen V k) rhoK (delta * inject_Z (Z.of_nat (N * chosen V k)))) with (fuel := fuel) (B := B0) (c := N * chosen V k) (t := 0) as (B & EB); [lia| |assumption| |].
  { assert (X : (inject_Z 0 < inject_Z (Z.of_nat (N * chosen V k)))%Q) by (rewrite <- Zlt_Qlt; nia). change (inject_Z 0) with 0%Q in X. pose proof (Qmult_lt_0_compat _ _ Hdelta X). assumption. }
  { destruct (Nat.eqb _ 0); lia. }
  destruct (descend_full_good (chosen V k) _ _ (proj1 Hk) _ _ _ _ _ G0 EB) as [G _].
  assert (Ek : match k with Some k => Ok k | None => match V with [] => Err ValueError | _ => Ok (Nat.log2 N) end end = Ok (chosen V k)).
  { unfold chosen in *. destruct k; [reflexivity|]. destruct V; [cbn in Hk; lia|reflexivity]. }
  unfold nn_descent_full_with. rewrite Ek. cbn [bind]. rewrite E0. cbn [bind]. fold rhoK. rewrite EB. cbn [bind].
  destruct (BlockingProofs.positions_read set_order V (links_full radius B) (fun i j => In (i, j) (links_full radius B)) lo hi true) as (idx & out' & E' & Rd & X); auto.
  { tauto. }
  { intros i j Hin. destruct (links_full_In _ _ _ _ _ G Hin) as (_ & x & y & Ex & Ey & _). split; apply nth_error_Some; congruence. }
  eauto.
Qed.

Lemma full_endless draws k radius rho delta lo hi fuel mode out : N = 0 \/ chosen V k = 0 \/ (delta <= 0)%Q ->
  full fuel draws k radius rho delta lo hi mode <> Ok out.
Proof.
  intros Hz E. unfold nn_descent_full_with in E.
  destruct (match k with Some k => Ok k | None => match V with [] => Err ValueError | _ => Ok (Nat.log2 N) end end) as [k'|] eqn:Ek; [|discriminate]. cbn [bind] in E.
  assert (Ek' : k' = chosen V k). { unfold chosen. destruct k; [congruence|]. destruct V; [discriminate|]. congruence. }
  destruct (initial_full _ _ _ _ _ _ _) as [B0|] eqn:E0; [|discriminate]. cbn [bind] in E.
  destruct (descend_full _ _ _ _ _ _ _ _ _ _ _) as [B|] eqn:Eg; [|discriminate]. revert Eg. apply descend_full_endless.
  assert (0 <= inject_Z (Z.of_nat (N * k')))%Q by (change 0%Q with (inject_Z 0); rewrite <- Zle_Qle; lia).
  destruct Hz as [Hz|[Hz|Hz]].
  - rewrite Hz. cbn. unfold inject_Z. lra.
  - rewrite Ek', Hz, Nat.mul_0_r. cbn. unfold inject_Z. lra.
  - apply (Qmult_le_compat_r _ _ _ Hz) in H0. lra.
Qed.

Lemma full_endless_many draws k radius rho delta lo hi fuel mode out : V <> [] -> (forall r, In r draws -> r < N) -> N <= k ->
  full fuel draws (Some k) radius rho delta lo hi mode <> Ok out.
Proof.
  intros Hne R Hk E. unfold nn_descent_full_with in E. cbn [bind] in E. destruct (initial_full _ _ _ _ _ _ _) as [B0|] eqn:E0; [|discriminate]. clear E.
  destruct (seq 0 N) as [|i items] eqn:Es; [destruct V; [congruence|discriminate]|]. assert (Hi : i < N) by (assert (X : In i (seq 0 N)) by (rewrite Es; left; reflexivity); apply in_seq in X; lia).
  cbn in E0. destruct (sample_loop draws k i []) as [[S draws']|] eqn:Ess; [|discriminate].
  exact (sample_endless k i N draws S draws' R Hi Hk Ess).
Qed.

(** ** Without samples, nothing is compared *)
Definition unflagged (h : list entry_full) : list (Q * nat) := map (fun '(s, (j, _)) => (s, j)) h.

(** no sample is taken of such a list *)
Definition unsampled {X} (rhoK : Z) (L : list X) : Prop := (rhoK = 0 \/ Z.of_nat (length L) + rhoK <= 0)%Z.

Lemma sample_full_0 {X} rhoK t (L : list X) : unsampled rhoK L -> exists t', sample_full later t L rhoK = Ok ([], t').
Proof.
  intros U. unfold sample_full. destruct L as [|x L].
  - destruct (Z.leb_spec (Z.of_nat (length (@nil X))) rhoK); [eauto|]. cbn [length] in *. replace (Z.to_nat rhoK) with 0 by lia. cbn [shuffle_loop bind]. unfold slice_to. rewrite firstn_nil. eauto.
  - destruct (Z.leb_spec (Z.of_nat (length (x :: L))) rhoK) as [Hl|Hl]; [cbn [length] in *; destruct U; lia|]. assert (rhoK <= 0)%Z by (destruct U; lia).
    replace (Z.to_nat rhoK) with 0 by lia. cbn [shuffle_loop bind]. unfold slice_to. destruct (Z.ltb_spec rhoK 0).
    + destruct U as [U|U]; [lia|]. replace (Z.to_nat (Z.of_nat (length (x :: L)) + rhoK)) with 0 by lia. cbn [firstn]. eauto.
    + replace (Z.to_nat rhoK) with 0 by lia. cbn [firstn]. eauto.
Qed.
Lemma sampling_0 rhoK t h : unsampled rhoK h -> exists h' o t', sampling later t rhoK h = Ok (h', o, [], t') /\ unflagged h' = unflagged h.
Proof.
  intros U. unfold sampling. set (n := flat_map (fun '(p, (_, (j, flag))) => if flag : bool then [(p, j)] else []) (enumerate h)).
  assert (Un : unsampled rhoK n).
  { assert (length n <= length h); [|destruct U; [left|right]; lia]. rewrite <- (enumerate_length h). unfold n. generalize (enumerate h). clear.
    induction l as [|[p [q [j flag]]] l IH]; cbn; [lia|]. destruct flag; cbn; lia. }
  destruct (sample_full_0 rhoK t n Un) as (t' & E). rewrite E. cbn [bind].
  eexists _, _, _. split; [reflexivity|]. unfold unflagged, enumerate. generalize 0. clear. induction h as [|[q [j b]] h IH]; intros n; cbn; [reflexivity|]. f_equal. apply IH.
Qed.
Lemma samplings_0 rhoK : forall B t, Forall (unsampled rhoK) B ->
  exists B' old t', samplings later t rhoK B = Ok (B', old, map (fun _ => []) B, t') /\ map unflagged B' = map unflagged B /\ length old = length B.
Proof.
  induction B as [|h B IH]; intros t U; [exists [], [], t; auto|]. inversion U as [|? ? Uh UB]; subst. cbn [samplings map length].
  destruct (sampling_0 rhoK t h Uh) as (h' & o & t1 & E1 & U1). rewrite E1. cbn [bind].
  destruct (IH t1 UB) as (B' & old & t2 & E2 & U2 & L2). rewrite E2. cbn [bind]. eexists _, _, _. split; [reflexivity|]. cbn [map length]. rewrite U1, U2, L2. auto.
Qed.
Lemma turn_full_0 rhoK t B : (rhoK <= 0)%Z -> length B = N -> Forall (unsampled rhoK) B ->
  exists B' t', turn_full set_order heapreplace similarity V later t rhoK B = Ok (B', 0, t') /\ map unflagged B' = map unflagged B.
Proof.
  intros Hr L UB. unfold turn_full. destruct (samplings_0 rhoK B t UB) as (B' & old & t1 & E & U & Lo). rewrite E. cbn [bind].
  assert (M : forall l t, (forall i, In i l -> i < N) -> exists t', foldM (join_full set_order heapreplace similarity V later rhoK old (map (fun _ => []) B)) l (B', 0, t) = Ok (B', 0, t')).
  { induction l as [|i l IH]; intros t2 Hl; [eexists; reflexivity|]. cbn [foldM]. unfold join_full at 1. assert (Hi : i < N) by (apply Hl; left; reflexivity).
    unfold index. destruct (nth_error old i) as [o|] eqn:Eo; [|apply nth_error_None in Eo; lia]. cbn [bind]. rewrite nth_error_map.
    destruct (nth_error B i) as [h|] eqn:Eb; [|apply nth_error_None in Eb; lia]. cbn [option_map bind].
    destruct (sample_full_ok later t2 (reverse_full old i) rhoK) as (os & t3 & E3 & _). rewrite E3. cbn [bind].
    assert (Er : reverse_full (map (fun _ => []) B) i = []).
    { unfold reverse_full, enumerate. generalize 0. clear. induction B as [|h B IH]; intros n; [reflexivity|]. cbn. apply IH. }
    rewrite Er. destruct (sample_full_0 (X := nat) rhoK t3 []) as (t4 & E4); [right; cbn; lia|]. rewrite E4. cbn [bind fold_left].
    assert (Es : set_order [] = []) by (apply Permutation_nil; apply Permutation_sym; apply set_order_perm). rewrite Es. cbn [foldM bind fst snd].
    apply IH. intros; apply Hl; right; assumption. }
  destruct (M (seq 0 N) t1) as (t' & E'); [intros i Hi; apply in_seq in Hi; lia|]. exists B', t'. rewrite E'. auto.
Qed.
End Full.
