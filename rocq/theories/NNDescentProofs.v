From Coq Require Import QArith Lqa String Sorted.
From Verif Require Import Base BaseFacts ClustersModel ClustersSpec ClustersProofs PairwiseModel PairwiseProofs NeighborhoodProofs PairwiseSpec BlockingProofs GraphModel EvaluationProofs CliProofs
  SpaceProofs NNDescentModel NNDescentSpec.
Open Scope nat_scope.
Open Scope list_scope.
Notation length := List.length.

Lemma Forall2_imp {A B} (P Q : A -> B -> Prop) l l' : (forall a b, P a b -> Q a b) -> Forall2 P l l' -> Forall2 Q l l'.
Proof. intros I. induction 1; constructor; auto. Qed.

Lemma sample_ok k i : forall draws S out draws', NoDup S -> ~ In i S -> length S <= k ->
  sample_loop draws k i S = Ok (out, draws') -> NoDup out /\ ~ In i out /\ length out = k /\ (forall j, In j out -> In j S \/ In j draws) /\
  exists used, draws = used ++ draws'.
Proof.
  induction draws as [|r draws IH]; intros S out draws' ND NI L E; cbn in E; destruct (Nat.leb k (length S)) eqn:Ek; try discriminate.
  - injection E as <- <-. repeat split; auto; try lia. exists []. reflexivity.
  - injection E as <- <-. repeat split; auto; try lia. exists []. reflexivity.
  - destruct (Nat.eqb r i) eqn:Er.
    + destruct (IH _ _ _ ND NI L E) as (A1 & A2 & A3 & A4 & u & Eu). repeat split; auto.
      * intros j Hj. destruct (A4 j Hj); auto. right. right. assumption.
      * exists (r :: u). cbn. congruence.
    + destruct (IH (sadd S r) out draws') as (A1 & A2 & A3 & A4 & u & Eu); auto.
      * apply sadd_NoDup. assumption.
      * rewrite sadd_In. intros [X|X]; [auto|lia].
      * apply Nat.leb_gt in Ek. unfold sadd. destruct (in_dec eq_dec r S); [lia|]. rewrite app_length. cbn. lia.
      * repeat split; auto.
        -- intros j Hj. destruct (A4 j Hj) as [X|X]; [rewrite sadd_In in X; destruct X; subst; cbn; auto|cbn; auto].
        -- exists (r :: u). cbn. congruence.
Qed.

(** when as many items as there are others cannot be found, the loop never ends *)
Lemma sample_endless k i n draws out draws' : (forall r, In r draws -> r < n) -> i < n -> n <= k -> sample_loop draws k i [] <> Ok (out, draws').
Proof.
  intros D Hi Hk E. destruct (sample_ok k i draws [] out draws') as (A1 & A2 & A3 & A4 & _); auto; [constructor|cbn; lia|].
  assert (NoDup (i :: out)) by (constructor; assumption).
  assert (incl (i :: out) (seq 0 n)).
  { intros j [<-|Hj]; apply in_seq; [lia|]. destruct (A4 j Hj) as [[]|X]. specialize (D j X). lia. }
  pose proof (NoDup_incl_length H H0) as X. rewrite seq_length in X. cbn in X. lia.
Qed.

(** draws among which every position appears are enough for one sample *)
Lemma sample_enough n k i rest : k < n -> forall D S, (forall j, j < n -> j = i \/ In j S \/ In j D) ->
  exists out D', sample_loop (D ++ rest) k i S = Ok (out, D' ++ rest).
Proof.
  intros Hk. induction D as [|r D IH]; intros S HP.
  - exists S, []. cbn [app].
    assert (X : incl (seq 0 n) (i :: S)) by (intros j Hj; apply in_seq in Hj; destruct (HP j) as [->|[X|[]]]; [lia|left; reflexivity|right; assumption]).
    pose proof (NoDup_incl_length (seq_NoDup _ _) X) as Y; rewrite seq_length in Y; cbn in Y.
    destruct rest; cbn; destruct (Nat.leb_spec k (length S)); auto; lia.
  - cbn [app sample_loop]. destruct (Nat.leb k (length S)) eqn:E.
    + exists S, (r :: D). reflexivity.
    + destruct (Nat.eqb_spec r i) as [->|Hr]; apply IH; intros j Hj.
      * destruct (HP j Hj) as [X|[X|[X|X]]]; auto.
      * rewrite sadd_In. destruct (HP j Hj) as [X|[X|[X|X]]]; subst; auto.
Qed.

Section NNDescent.
Context {A : Type} `{EqDec A}.
Variable set_order : list nat -> list nat.
Hypothesis set_order_perm : forall l, Permutation (set_order l) l.
Variable heapify : list entry -> list entry.
Variable heapreplace : list entry -> entry -> list entry.
Variable is_heap : list entry -> Prop.
Hypothesis heaps : heap_module is_heap heapify heapreplace.
Variable similarity : A -> A -> Q.
Variable V : list A.
Notation N := (length V).
Notation sim_at := (sim_at similarity V).
Notation neighbors_of := (neighbors_of similarity V).

Definition good (k i : nat) (h : list entry) : Prop := is_heap h /\ neighbors_of k i h.

Definition value (i j : nat) : Q := match nth_error V i, nth_error V j with Some x, Some y => similarity x y | _, _ => 0%Q end.

Lemma sim_at_ok i j : i < N -> j < N -> sim_at i j = Ok (value i j).
Proof.
  intros Hi Hj. unfold NNDescentModel.sim_at, value, index.
  destruct (nth_error V i) eqn:E; [|apply nth_error_None in E; lia]. destruct (nth_error V j) eqn:E'; [|apply nth_error_None in E'; lia]. reflexivity.
Qed.
Lemma value_spec i j : i < N -> j < N -> exists x y, nth_error V i = Some x /\ nth_error V j = Some y /\ value i j = similarity x y.
Proof.
  intros Hi Hj. unfold value.
  destruct (nth_error V i) eqn:E; [|apply nth_error_None in E; lia]. destruct (nth_error V j) eqn:E'; [|apply nth_error_None in E'; lia]. eauto.
Qed.
Lemma neighbors_value k i l s j : neighbors_of k i l -> In (s, j) l -> i <> j /\ i < N /\ j < N /\ s = value i j.
Proof.
  intros [_ X] Hin. destruct (X s j Hin) as (Hne & x & y & Ex & Ey & ->). split; [assumption|].
  split; [apply nth_error_Some; congruence|]. split; [apply nth_error_Some; congruence|]. unfold value. rewrite Ex, Ey. reflexivity.
Qed.

Lemma initial_ok k : forall draws items B, (forall r, In r draws -> r < N) -> (forall i, In i items -> i < N) ->
  initial_loop set_order heapify similarity V draws k items = Ok B -> Forall2 (good k) items B.
Proof.
  intros draws items. revert draws. induction items as [|i items IH]; intros draws B D I E; cbn in E.
  - injection E as <-. constructor.
  - destruct (sample_loop draws k i []) as [[S draws']|] eqn:Es; [|discriminate]. cbn in E.
    destruct (sample_ok k i draws [] S draws') as (A1 & A2 & A3 & A4 & used & Eu); auto; [constructor|cbn; lia|].
    assert (HS : forall j, In j (set_order S) -> i <> j /\ j < N).
    { intros j Hj. apply (Permutation_in _ (set_order_perm S)) in Hj. split; [intros ->; auto|]. destruct (A4 j Hj) as [[]|X]; auto. }
    assert (Em : mapM (fun j => let! s := sim_at i j in Ok (s, j)) (set_order S) = Ok (map (fun j => (value i j, j)) (set_order S))).
    { apply mapM_map. intros j Hj. rewrite sim_at_ok; [reflexivity| |apply HS; assumption]. apply I. left. reflexivity. }
    rewrite Em in E. cbn in E. destruct (initial_loop _ _ _ _ draws' k items) as [B'|] eqn:Eb; [|discriminate]. cbn in E. injection E as <-.
    constructor.
    + split; [apply (heapify_heap _ _ _ heaps)|]. split.
      * rewrite (Permutation_length (heapify_perm _ _ _ heaps _)), map_length, (Permutation_length (set_order_perm S)). assumption.
      * intros s j Hin. apply (Permutation_in _ (heapify_perm _ _ _ heaps _)) in Hin. apply in_map_iff in Hin. destruct Hin as (j' & Ej & Hj). injection Ej as <- <-.
        destruct (HS _ Hj) as [Hne Hlt]. split; [assumption|]. apply value_spec; auto. apply I. left. reflexivity.
    + eapply IH; [| |exact Eb]; [|intros; apply I; right; assumption]. intros r Hr. apply D. rewrite Eu. apply in_or_app. auto.
Qed.

(** the number of positions less similar to [i] than [s] *)
Definition rank (i : nat) (s : Q) : nat := length (filter (fun j => negb (Qle_bool s (value i j))) (seq 0 N)).
Definition potential (i : nat) (h : list entry) : nat := list_sum (map (fun e => rank i (fst e)) h).

Lemma rank_le i s : rank i s <= N.
Proof. unfold rank. rewrite <- (seq_length N 0) at 2. generalize (seq 0 N). induction l; cbn; auto. destruct (negb _); cbn; lia. Qed.
Lemma filter_lt {X} (f g : X -> bool) x l : In x l -> f x = false -> g x = true -> (forall y, f y = true -> g y = true) -> length (filter f l) < length (filter g l).
Proof.
  intros Hin Hf Hg I. induction l as [|y l IH]; [contradiction|]. destruct Hin as [->|Hin].
  - cbn. rewrite Hf, Hg. cbn. assert (length (filter f l) <= length (filter g l)); [|lia]. clear - I. induction l; cbn; auto. destruct (f a) eqn:E.
    + rewrite (I _ E). cbn. lia.
    + destruct (g a); cbn; lia.
  - specialize (IH Hin). cbn. destruct (f y) eqn:E; [rewrite (I _ E); cbn; lia|]. destruct (g y); cbn; lia.
Qed.
Lemma rank_lt i j s : j < N -> (value i j < s)%Q -> rank i (value i j) < rank i s.
Proof.
  intros Hj L. apply (filter_lt _ _ j); [apply in_seq; lia| | |].
  - rewrite (proj2 (Qle_bool_iff _ _)); [reflexivity|apply Qle_refl].
  - destruct (Qle_bool s (value i j)) eqn:E; [|reflexivity]. apply Qle_bool_iff in E. lra.
  - intros y Hy. destruct (Qle_bool s (value i y)) eqn:E; [|reflexivity]. apply Qle_bool_iff in E.
    destruct (Qle_bool (value i j) (value i y)) eqn:E'; [discriminate|]. exfalso. rewrite (proj2 (Qle_bool_iff _ _)) in E'; [discriminate|]. lra.
Qed.
Lemma potential_perm i h h' : Permutation h h' -> potential i h = potential i h'.
Proof. unfold potential, list_sum. induction 1; cbn [map fold_right]; lia. Qed.
Lemma potential_le i h : potential i h <= length h * N.
Proof. unfold potential, list_sum. induction h as [|e h IH]; cbn [map fold_right length]; [lia|]. pose proof (rank_le i (fst e)). lia. Qed.

(** what one comparison does to a neighbor list *)
Definition improves (k i : nat) (h : list entry) (c : nat) (hc : list entry * nat) : Prop :=
  good k i (fst hc) /\ (forall q, at_least q h -> at_least q (fst hc)) /\ c <= snd hc /\ potential i h + (snd hc - c) <= potential i (fst hc).

Lemma improves_refl k i h c : good k i h -> improves k i h c (h, c).
Proof. intros G. unfold improves. cbn [fst snd]. split; [assumption|]. split; [auto|]. lia. Qed.

Lemma compare_ok k i h c jj : 0 < k -> i < N -> jj < N -> good k i h ->
  exists hc, compare heapreplace similarity V i (h, c) jj = Ok hc /\ improves k i h c hc.
Proof.
  intros Hk Hi Hj G. unfold compare. destruct (Nat.eqb_spec i jj) as [->|Hne].
  { exists (h, c). split; [reflexivity|]. apply improves_refl. assumption. }
  rewrite sim_at_ok by assumption. cbn. destruct h as [|[w jw] h]; [destruct G as [_ [L _]]; cbn in L; lia|].
  destruct (Qle_bool (value i jj) w) eqn:E.
  { exists ((w, jw) :: h, c). split; [reflexivity|]. apply improves_refl. assumption. }
  assert (Lt : (w < value i jj)%Q). { apply Qnot_le_lt. intros X. apply Qle_bool_iff in X. congruence. }
  pose proof (heapreplace_perm _ _ _ heaps (w, jw) h (value i jj, jj)) as P.
  destruct G as [Gh G]. eexists. split; [reflexivity|]. unfold improves. cbn [fst snd]. split; [|split; [|split]].
  - split; [apply (heapreplace_heap _ _ _ heaps); assumption|]. split.
    + rewrite (Permutation_length P). destruct G as [L _]. cbn in L |- *. lia.
    + intros s j Hin. apply (Permutation_in _ P) in Hin. destruct Hin as [E'|Hin].
      * injection E' as <- <-. split; [assumption|]. apply value_spec; assumption.
      * apply G. right. assumption.
  - intros q Q s j Hin. apply (Permutation_in _ P) in Hin. destruct Hin as [E'|Hin].
    + injection E' as <- <-. specialize (Q w jw (or_introl eq_refl)). lra.
    + apply (Q s j). right. assumption.
  - lia.
  - rewrite (potential_perm i _ _ P). destruct (neighbors_value _ _ _ w jw G (or_introl eq_refl)) as (_ & _ & Hjw & Ew).
    unfold potential, list_sum. cbn [map fold_right fst]. pose proof (rank_lt i jw (value i jj) Hjw) as R. rewrite <- Ew in R. specialize (R Lt).
    lia.
Qed.

Lemma compares_ok k i : 0 < k -> i < N -> forall js h c, (forall j, In j js -> j < N) -> good k i h ->
  exists hc, foldM (compare heapreplace similarity V i) js (h, c) = Ok hc /\ improves k i h c hc.
Proof.
  intros Hk Hi. induction js as [|j js IH]; intros h c J G.
  - exists (h, c). split; [reflexivity|]. apply improves_refl. assumption.
  - destruct (compare_ok k i h c j) as ([h1 c1] & E1 & G1 & M1 & C1 & P1); auto; [apply J; left; reflexivity|]. cbn [foldM]. rewrite E1. cbn [bind]. cbn [fst snd] in *.
    destruct (IH h1 c1) as ([h2 c2] & E2 & G2 & M2 & C2 & P2); auto; [intros; apply J; right; assumption|]. cbn [fst snd] in *.
    exists (h2, c2). split; [assumption|]. unfold improves. cbn [fst snd]. split; [assumption|]. split; [auto|]. split; lia.
Qed.

Definition all_good (k : nat) (B : list (list entry)) : Prop := Forall2 (good k) (seq 0 N) B.

Lemma all_good_length k B : all_good k B -> length B = N.
Proof. intros G. apply Forall2_len in G. rewrite seq_length in G. congruence. Qed.
Lemma all_good_nth k B i : all_good k B -> i < N -> good k i (nth i B []).
Proof.
  intros G Hi. pose proof (all_good_length k B G) as L. destruct (nth_error B i) as [h|] eqn:E; [|apply nth_error_None in E; lia].
  rewrite (nth_error_nth _ _ _ E). assert (Es : nth_error (seq 0 N) i = Some i) by (rewrite (nth_error_nth' _ 0) by (rewrite seq_length; lia); rewrite seq_nth by lia; reflexivity).
  exact (Forall2_nth_both _ _ _ G i i h Es E).
Qed.
Lemma all_good_entry k B i s j : all_good k B -> In (s, j) (nth i B []) -> i < N /\ j < N /\ 0 < k.
Proof.
  intros G Hin. destruct (Nat.lt_ge_cases i (length B)) as [L|L]; [|rewrite nth_overflow in Hin by assumption; contradiction].
  rewrite (all_good_length k B G) in L. pose proof (all_good_nth k B i G L) as [_ Gn].
  destruct (neighbors_value _ _ _ _ _ Gn Hin) as (_ & _ & Hj & _). repeat split; auto. destruct Gn as [Ln _]. destruct (nth i B []); [contradiction|cbn in Ln; lia].
Qed.

Lemma candidates_In k B i j : all_good k B -> In j (candidates set_order B i) -> i < N /\ j < N /\ 0 < k.
Proof.
  intros G Hj. unfold candidates in Hj. apply (Permutation_in _ (set_order_perm _)) in Hj. rewrite fold_sadd_In, set_of_In in Hj. destruct Hj as [Hj|Hj].
  - apply in_map_iff in Hj. destruct Hj as ([s j'] & <- & Hin). apply (all_good_entry k B i s j' G Hin).
  - unfold reverse in Hj. apply in_flat_map in Hj. destruct Hj as ([k' nb] & Hk & Hj). apply in_flat_map in Hj. destruct Hj as ([s j'] & Hin & Hj).
    destruct (Nat.eqb_spec j' i) as [->|]; [|contradiction]. destruct Hj as [<-|[]]. rewrite In_enumerate in Hk.
    rewrite <- (nth_error_nth _ _ [] Hk) in Hin. destruct (all_good_entry k B k' s i G Hin) as (X & Y & Z). auto.
Qed.

Definition total (ihs : list (nat * list entry)) : nat := list_sum (map (fun ih => potential (fst ih) (snd ih)) ihs).

Lemma all_good_enumerate k B : all_good k B <-> length B = N /\ forall i h, In (i, h) (enumerate B) -> good k i h.
Proof.
  split.
  - intros G. split; [eapply all_good_length; eauto|]. intros i h Hin. rewrite In_enumerate in Hin.
    assert (i < N) by (rewrite <- (all_good_length k B G); apply nth_error_Some; congruence).
    rewrite <- (nth_error_nth _ _ [] Hin). apply all_good_nth; assumption.
  - intros [L G]. unfold all_good. rewrite <- L. unfold enumerate in G. clear L. revert G. generalize 0 as n.
    induction B as [|h B IH]; intros n G; cbn; constructor.
    + apply G. left. reflexivity.
    + apply IH. intros i h' Hin. apply G. right. assumption.
Qed.

(** the heaps of a turn, and the count of changes *)
Lemma results_facts k (ihs : list (nat * list entry)) hcs : Forall2 (fun ih hc => improves k (fst ih) (snd ih) 0 hc) ihs hcs ->
  Forall2 (fun ih h' => good k (fst ih) h' /\ forall q, at_least q (snd ih) -> at_least q h') ihs (map fst hcs) /\
  total ihs + list_sum (map snd hcs) <= total (combine (map fst ihs) (map fst hcs)).
Proof.
  unfold total, list_sum. induction 1 as [|[i h] [h' c] ihs hcs (G & M & _ & P) F [IH1 IH2]]; cbn [map fold_right combine fst snd] in *.
  - split; [constructor|lia].
  - split; [constructor; auto|]. lia.
Qed.

Lemma combine_enumerate {X Y} (l : list X) (l' : list Y) : length l' = length l -> combine (map fst (enumerate l)) l' = enumerate l'.
Proof.
  intros E. unfold enumerate. rewrite E. f_equal. generalize 0. clear E. induction l; intros n; cbn; [reflexivity|]. f_equal. auto.
Qed.

Lemma turn_ok k B : all_good k B -> exists B' c, turn set_order heapreplace similarity V B = Ok (B', c) /\ all_good k B' /\
  Forall2 (fun h h' => forall q, at_least q h -> at_least q h') B B' /\ total (enumerate B) + c <= total (enumerate B').
Proof.
  intros G. unfold turn. set (C := map (candidates set_order B) (seq 0 N)).
  assert (HC : forall ii jj, In jj (nth ii C []) -> jj < N /\ 0 < k).
  { intros ii jj Hj. destruct (Nat.lt_ge_cases ii N) as [L|L]; [|rewrite nth_overflow in Hj by (unfold C; rewrite map_length, seq_length; lia); contradiction].
    unfold C in Hj. rewrite (nth_indep _ [] (candidates set_order B 0)) in Hj by (rewrite map_length, seq_length; lia). rewrite map_nth, seq_nth in Hj by lia.
    apply (candidates_In k) in Hj; [tauto|assumption]. }
  destruct (mapM_exists (fun '(i, h) => improve heapreplace similarity V C i h) (fun ih hc => improves k (fst ih) (snd ih) 0 hc) (enumerate B)) as (hcs & E & F).
  { intros [i h] Hin. cbn [fst snd]. pose proof (proj1 (all_good_enumerate k B) G) as [L Gi]. specialize (Gi _ _ Hin). rewrite In_enumerate in Hin.
    assert (Hi : i < N) by (rewrite <- L; apply nth_error_Some; congruence). unfold improve.
    destruct (flat_map (fun ii => nth ii C []) (nth i C [])) as [|j js] eqn:El.
    - exists (h, 0). split; [reflexivity|]. apply improves_refl. assumption.
    - assert (J : forall jj, In jj (j :: js) -> jj < N /\ 0 < k). { intros jj Hj. rewrite <- El in Hj. apply in_flat_map in Hj. destruct Hj as (ii & _ & Hj). eapply HC; eauto. }
      apply compares_ok; auto; [apply (J j); left; reflexivity|]. intros jj Hj. apply J. assumption. }
  rewrite E. cbn [bind]. exists (map fst hcs), (list_sum (map snd hcs)). split; [reflexivity|].
  destruct (results_facts _ _ _ F) as [F' T]. pose proof (all_good_length k B G) as L.
  assert (L' : length (map fst hcs) = length B). { apply Forall2_len in F'. rewrite enumerate_length in F'. congruence. }
  rewrite (combine_enumerate B (map fst hcs)) in T by assumption.
  split; [|split; [|exact T]].
  - apply all_good_enumerate. split; [congruence|]. intros i h' Hin. rewrite In_enumerate in Hin.
    assert (Hi : i < N) by (rewrite <- L, <- L'; apply nth_error_Some; congruence).
    destruct (nth_error B i) as [h|] eqn:Eb; [|apply nth_error_None in Eb; lia].
    assert (Ee : nth_error (enumerate B) i = Some (i, h)).
    { pose proof (proj2 (In_enumerate B i h) Eb) as X. apply In_nth_error in X. destruct X as [n X]. enough (n = i) by congruence.
      assert (Y : nth_error (map fst (enumerate B)) n = Some i) by (rewrite nth_error_map, X; reflexivity).
      unfold enumerate in Y. assert (Z : forall (l : list (list entry)) m, map fst (combine (seq m (length l)) l) = seq m (length l)) by (induction l; intros; cbn; [reflexivity|]; f_equal; auto).
      rewrite Z in Y. assert (n < length B) by (rewrite <- (seq_length (length B) 0); apply nth_error_Some; congruence).
      rewrite (nth_error_nth' _ 0) in Y by (rewrite seq_length; lia). rewrite seq_nth in Y by lia. injection Y. lia. }
    apply (Forall2_nth_both _ _ _ F' i (i, h) h' Ee Hin).
  - clear - F' L'. unfold enumerate in F'. revert F'. generalize 0. revert L'. generalize (map fst hcs). induction B as [|h B IH]; intros B' L' n F'.
    + destruct B'; [constructor|discriminate].
    + destruct B' as [|h' B']; [discriminate|]. cbn in F'. inversion F' as [|? ? ? ? [_ M] F'']; subst. constructor; [exact M|]. eapply IH; eauto.
Qed.

Lemma total_le k B : all_good k B -> total (enumerate B) <= N * (k * N).
Proof.
  intros G. pose proof (proj1 (all_good_enumerate k B) G) as [L Gi]. rewrite <- L at 1. rewrite <- (enumerate_length B). unfold total, list_sum.
  revert Gi. generalize (enumerate B) as l. induction l as [|[i h] l IH]; intros Gi; cbn [map fold_right length]; [lia|].
  assert (X : good k i h) by (apply Gi; left; reflexivity). destruct X as [_ [Lh _]]. pose proof (potential_le i h) as P. rewrite Lh in P. cbn [fst snd].
  assert (fold_right Nat.add 0 (map (fun ih => potential (fst ih) (snd ih)) l) <= length l * (k * N)) by (apply IH; intros; apply Gi; right; assumption). lia.
Qed.

(** turns happen at most as often as the potential can grow *)
Lemma descend_ends k : forall fuel B, all_good k B -> N * (k * N) - total (enumerate B) < fuel ->
  exists B', descend set_order heapreplace similarity V fuel B = Ok B'.
Proof.
  induction fuel as [|fuel IH]; intros B G F; [lia|]. cbn [descend]. destruct (turn_ok k B G) as (B' & c & E & G' & _ & T). rewrite E. cbn [bind].
  destruct (Nat.eqb_spec c 0); [eauto|]. apply IH; [assumption|]. pose proof (total_le k B' G'). lia.
Qed.
Lemma descend_good k : forall fuel B B', all_good k B -> descend set_order heapreplace similarity V fuel B = Ok B' -> all_good k B' /\
  Forall2 (fun h h' => forall q, at_least q h -> at_least q h') B B'.
Proof.
  induction fuel as [|fuel IH]; intros B B' G E; [discriminate|]. cbn [descend] in E. destruct (turn_ok k B G) as (B1 & c & E1 & G1 & M1 & _). rewrite E1 in E. cbn [bind] in E.
  destruct (Nat.eqb c 0).
  - injection E as <-. auto.
  - destruct (IH _ _ G1 E) as [G2 M2]. split; [assumption|]. clear - M1 M2. revert B' M2. induction M1; intros B' M2; inversion M2; subst; constructor; auto.
Qed.

Lemma links_In k B radius i j : all_good k B -> In (i, j) (links radius B) ->
  i <> j /\ exists x y, nth_error V i = Some x /\ nth_error V j = Some y /\ (radius <= similarity x y)%Q.
Proof.
  intros G Hin. unfold links in Hin. apply in_flat_map in Hin. destruct Hin as ([i' h] & Hh & Hin). apply in_flat_map in Hin. destruct Hin as ([s j'] & He & Hin).
  destruct (Qle_bool radius s) eqn:E; [|contradiction]. destruct Hin as [Ep|[]]. injection Ep as <- <-. apply Qle_bool_iff in E.
  destruct (proj1 (all_good_enumerate k B) G) as [_ Gi]. destruct (Gi _ _ Hh) as [_ [_ X]]. destruct (X _ _ He) as (Hne & x & y & Ex & Ey & ->). split; [assumption|]. eauto.
Qed.

Definition covers (block : list nat) : Prop := forall j, j < N -> In j block.
Lemma initial_enough k : k < N -> forall items D blocks, (forall i, In i items -> i < N) -> (forall r, In r (D ++ concat blocks) -> r < N) -> length items <= length blocks ->
  Forall covers blocks -> exists B, initial_loop set_order heapify similarity V (D ++ concat blocks) k items = Ok B.
Proof.
  intros Hk. induction items as [|i items IH]; intros D blocks I R L C; [exists []; reflexivity|].
  destruct blocks as [|block blocks]; [cbn in L; lia|]. inversion C as [|? ? Cb C']; subst. cbn [initial_loop concat] in *. rewrite app_assoc in *.
  destruct (sample_enough N k i (concat blocks) Hk (D ++ block) []) as (out & D' & E).
  { intros j Hj. right. right. apply in_or_app. auto. }
  rewrite E. cbn [bind].
  destruct (sample_ok k i _ [] out _ (NoDup_nil _) (fun x => x) (Nat.le_0_l _) E) as (A1 & A2 & A3 & A4 & used & Eu).
  erewrite mapM_map.
  2:{ intros j Hj. rewrite sim_at_ok; [reflexivity|apply I; left; reflexivity|]. apply (Permutation_in _ (set_order_perm out)) in Hj. destruct (A4 j Hj) as [[]|X]. auto. }
  cbn [bind]. destruct (IH D' blocks) as (B & EB); auto.
  - intros; apply I; right; assumption.
  - intros r Hr. apply R. rewrite Eu. apply in_or_app. auto.
  - cbn in L. lia.
  - rewrite EB. cbn [bind]. eauto.
Qed.

Lemma initial_endless k : forall items draws B, (forall r, In r draws -> r < N) -> (forall i, In i items -> i < N) -> items <> [] -> N <= k ->
  initial_loop set_order heapify similarity V draws k items <> Ok B.
Proof.
  intros [|i items] draws B R I Hne Hk E; [congruence|]. cbn in E. destruct (sample_loop draws k i []) as [[S draws']|] eqn:Es; [|discriminate].
  exact (sample_endless k i N draws S draws' R (I i (or_introl eq_refl)) Hk Es).
Qed.

(** the chosen number of neighbors *)
Definition chosen (k : option nat) : nat := match k with Some k => k | None => Nat.log2 N end.

Lemma graph_facts fuel draws k B : (forall r, In r draws -> r < N) -> nn_descent_graph set_order heapify heapreplace similarity V fuel draws k = Ok B ->
  all_good (chosen k) B.
Proof.
  intros R E. unfold nn_descent_graph in E.
  assert (E' : (let! B := initial_loop set_order heapify similarity V draws (chosen k) (seq 0 N) in descend set_order heapreplace similarity V fuel B) = Ok B).
  { unfold chosen. destruct k; [exact E|]. destruct V; [discriminate|exact E]. }
  clear E. destruct (initial_loop _ _ _ _ _ _ _) as [B0|] eqn:Ei; [|discriminate]. cbn [bind] in E'.
  eapply descend_good; [|exact E']. unfold all_good. eapply initial_ok; eauto. intros i Hi. apply in_seq in Hi. lia.
Qed.

Lemma with_facts fuel draws k radius lo hi out : (forall r, In r draws -> r < N) ->
  nn_descent_with set_order heapify heapreplace similarity V fuel draws k radius lo hi "connected_components" = Ok out ->
  exists pairs clusters, (forall i j, In (i, j) pairs -> i <> j /\ exists x y, nth_error V i = Some x /\ nth_error V j = Some y /\ (radius <= similarity x y)%Q) /\
    is_components (fun i => exists j, In (i, j) pairs \/ In (j, i) pairs) (fun i j => In (i, j) pairs) lo hi clusters /\ reads V clusters out.
Proof.
  intros R E. unfold nn_descent_with in E. destruct (nn_descent_graph _ _ _ _ _ _ _ _) as [B|] eqn:Eg; [|discriminate]. cbn [bind] in E.
  pose proof (graph_facts _ _ _ _ R Eg) as G. exists (links radius B).
  destruct (BlockingProofs.positions_read set_order V (links radius B) (fun i j => In (i, j) (links radius B)) lo hi true) as (idx & out' & E' & Rd & C); auto.
  { tauto. }
  { intros i j Hin. destruct (links_In _ _ _ _ _ G Hin) as (_ & x & y & Ex & Ey & _). split; apply nth_error_Some; congruence. }
  rewrite E in E'. injection E' as <-. exists idx. split; [|auto]. intros i j Hin. eapply links_In; eauto.
Qed.

Lemma with_ends draws blocks k radius lo hi fuel : V <> [] -> (forall r, In r draws -> r < N) -> chosen k < N -> draws = concat blocks -> N <= length blocks -> Forall covers blocks ->
  N * (chosen k * N) < fuel -> exists out, nn_descent_with set_order heapify heapreplace similarity V fuel draws k radius lo hi "connected_components" = Ok out.
Proof.
  intros Hne R Hk Ed L C F.
  destruct (initial_enough (chosen k) Hk (seq 0 N) [] blocks) as (B0 & E0); auto.
  { intros i Hi. apply in_seq in Hi. lia. }
  { rewrite <- Ed. exact R. }
  { rewrite seq_length. assumption. }
  cbn [app] in E0. rewrite <- Ed in E0.
  assert (G0 : all_good (chosen k) B0). { unfold all_good. eapply initial_ok; eauto. intros i Hi. apply in_seq in Hi. lia. }
  destruct (descend_ends (chosen k) fuel B0 G0) as (B & EB); [lia|].
  assert (Eg : nn_descent_graph set_order heapify heapreplace similarity V fuel draws k = Ok B).
  { unfold nn_descent_graph. unfold chosen in *. destruct k; [cbn [bind]; rewrite E0; exact EB|]. destruct V; [congruence|]. cbn [bind]. rewrite E0. exact EB. }
  pose proof (graph_facts _ _ _ _ R Eg) as G. unfold nn_descent_with. rewrite Eg. cbn [bind].
  destruct (BlockingProofs.positions_read set_order V (links radius B) (fun i j => In (i, j) (links radius B)) lo hi true) as (idx & out' & E' & Rd & X); auto.
  { tauto. }
  { intros i j Hin. destruct (links_In _ _ _ _ _ G Hin) as (_ & x & y & Ex & Ey & _). split; apply nth_error_Some; congruence. }
  eauto.
Qed.

Lemma with_endless draws k radius lo hi fuel mode out : V <> [] -> (forall r, In r draws -> r < N) -> N <= k ->
  nn_descent_with set_order heapify heapreplace similarity V fuel draws (Some k) radius lo hi mode <> Ok out.
Proof.
  intros Hne R Hk E. unfold nn_descent_with, nn_descent_graph in E. cbn [bind] in E.
  destruct (initial_loop _ _ _ _ _ _ _) as [B0|] eqn:Ei; [|discriminate]. revert Ei. apply initial_endless; auto.
  - intros i Hi. apply in_seq in Hi. lia.
  - destruct V; [congruence|discriminate].
Qed.
End NNDescent.

(** sorted lists are heaps *)
Section Sorted.
Context {X : Type}.
Notation ordered := (StronglySorted (fun e e' : Q * X => (fst e <= fst e')%Q)).
Definition entry_leb (e e' : Q * X) : bool := Qle_bool (fst e) (fst e').
Fixpoint insert_entry (x : Q * X) (l : list (Q * X)) : list (Q * X) :=
  match l with [] => [x] | e :: l' => if entry_leb x e then x :: l else e :: insert_entry x l' end.
Definition sort_entries (l : list (Q * X)) : list (Q * X) := fold_right insert_entry [] l.
Definition replace_least (h : list (Q * X)) (x : Q * X) : list (Q * X) := insert_entry x (tl h).

Lemma insert_entry_perm x l : Permutation (insert_entry x l) (x :: l).
Proof. induction l as [|e l IH]; cbn; [reflexivity|]. destruct (entry_leb x e); [reflexivity|]. rewrite IH. apply perm_swap. Qed.
Lemma insert_entry_sorted x l : ordered l -> ordered (insert_entry x l).
Proof.
  induction 1 as [|e l S IH F]; cbn; [repeat constructor|]. unfold entry_leb. destruct (Qle_bool (fst x) (fst e)) eqn:E.
  - apply Qle_bool_iff in E. constructor; [constructor; assumption|]. constructor; [assumption|]. eapply Forall_impl; [|exact F]. cbn. intros. lra.
  - assert (L : (fst e <= fst x)%Q). { destruct (Qlt_le_dec (fst e) (fst x)); [lra|]. apply Qle_bool_iff in q. congruence. }
    constructor; [assumption|]. rewrite Forall_forall in F |- *. intros y Hy. apply (Permutation_in _ (insert_entry_perm x l)) in Hy. destruct Hy as [<-|Hy]; auto.
Qed.
Lemma sorted_heaps : heap_module ordered sort_entries replace_least.
Proof.
  split.
  - intros e h S. inversion S as [|? ? _ F]; subst. rewrite Forall_forall in F. exact F.
  - intros h h' E S. revert h' E. induction S as [|e h S IH F]; intros [|e' h'] E; try discriminate; constructor; injection E as E1 E2; auto.
    rewrite Forall_forall in F |- *. intros y Hy. apply (in_map fst) in Hy. rewrite <- E2 in Hy. apply in_map_iff in Hy. destruct Hy as (z & Ez & Hz).
    rewrite <- E1, <- Ez. auto.
  - induction l; cbn; [constructor|]. apply insert_entry_sorted. assumption.
  - induction l; cbn; [constructor|]. rewrite insert_entry_perm. constructor. assumption.
  - intros e h x S. inversion S; subst. apply insert_entry_sorted. assumption.
  - intros e h x. apply insert_entry_perm.
Qed.
End Sorted.
