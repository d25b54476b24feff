From Coq Require Import QArith Lqa String.
From Verif Require Import Base BaseFacts ClustersModel ClustersSpec PairwiseModel PairwiseProofs PairwiseSpec GraphModel SpaceProofs MinHashProofs EvaluationProofs
  NNDescentModel NNDescentSpec NNDescentProofs NNDescentLocalSpec.
Open Scope nat_scope.
Open Scope list_scope.
Notation length := List.length.

Section Local.
Context {A : Type} `{EqDec A}.
Variable set_order : list nat -> list nat.
Hypothesis set_order_perm : forall l, Permutation (set_order l) l.
Variable heapify : list entry -> list entry.
Variable heapreplace : list entry -> entry -> list entry.
Variable is_heap : list entry -> Prop.
Hypothesis heaps : heap_module is_heap heapify heapreplace.
Variable similarity : A -> A -> Q.
Variable V : list A.
Notation N := (length V).
Notation good := (good is_heap similarity V).
Notation all_good := (all_good is_heap similarity V).
Notation value := (value similarity V).
Notation compare := (compare heapreplace similarity V).
Notation turn := (turn set_order heapreplace similarity V).
Notation descend := (descend set_order heapreplace similarity V).
Notation candidates := (candidates set_order).

Definition tables (B : list (list entry)) : list (list nat) := map (candidates B) (seq 0 N).
Definition visited (B : list (list entry)) (i : nat) : list nat := flat_map (fun ii => nth ii (tables B) []) (nth i (tables B) []).

Lemma tables_nth B i : i < N -> nth i (tables B) [] = candidates B i.
Proof.
  intros L. unfold tables. rewrite (nth_indep _ [] (candidates B 0)) by (rewrite map_length, seq_length; lia). rewrite map_nth, seq_nth by lia. reflexivity.
Qed.
Lemma tables_out B i : N <= i -> nth i (tables B) [] = [].
Proof. intros L. apply nth_overflow. unfold tables. rewrite map_length, seq_length. exact L. Qed.

Lemma turn_nth B B' c i : turn B = Ok (B', c) -> length B = N -> i < N ->
  exists hc, foldM (compare i) (visited B i) (nth i B [], 0) = Ok hc /\ nth i B' [] = fst hc /\ snd hc <= c.
Proof.
  intros E L Hi. unfold NNDescentModel.turn in E. fold (tables B) in E.
  destruct (mapM _ (enumerate B)) as [hcs|e] eqn:Em; cbn [bind] in E; [|discriminate]. injection E as <- <-.
  assert (Eb : nth_error B i = Some (nth i B [])) by (apply nth_error_nth'; lia).
  assert (Ee : nth_error (enumerate B) i = Some (i, nth i B [])).
  { unfold enumerate. clear -Eb. enough (G : forall (B : list (list entry)) n i x, nth_error B i = Some x -> nth_error (combine (seq n (length B)) B) i = Some (n + i, x)) by (apply (G B 0 i); exact Eb).
    clear. induction B as [|h B IH]; intros n i x E; [destruct i; discriminate|]. destruct i as [|i]; cbn in *; [injection E as <-; rewrite Nat.add_0_r; reflexivity|].
    rewrite (IH (S n) i x E). f_equal. f_equal. lia. }
  destruct (mapM_nth _ _ _ Em _ _ Ee) as (hc & E2 & E1).
  exists hc. split; [exact E1|]. split.
  - apply nth_error_nth. rewrite nth_error_map, E2. reflexivity.
  - apply nth_error_In in E2. clear -E2. unfold list_sum. induction hcs as [|x hcs IH]; [contradiction|]. cbn [map fold_right]. destruct E2 as [->|E2]; [lia|]. specialize (IH E2). lia.
Qed.

Lemma compare_count i h c j h' c' : compare i (h, c) j = Ok (h', c') -> c <= c' /\ (c' = c -> h' = h /\ (i <> j -> i < N -> j < N -> exists w k t, h = (w, k) :: t /\ (value i j <= w)%Q)).
Proof.
  intros E. unfold NNDescentModel.compare in E. destruct (Nat.eqb_spec i j) as [->|Hne].
  - injection E as <- <-. split; [lia|]. intros _. split; [reflexivity|]. intros X. contradiction.
  - destruct (NNDescentModel.sim_at similarity V i j) as [s|] eqn:Es; cbn [bind] in E; [|discriminate]. destruct h as [|[w k] t]; [discriminate|].
    destruct (Qle_bool s w) eqn:Q; injection E as <- <-.
    + split; [lia|]. intros _. split; [reflexivity|]. intros _ Hi Hj. rewrite (sim_at_ok similarity V i j Hi Hj) in Es. injection Es as ->.
      exists w, k, t. split; [reflexivity | apply Qle_bool_iff; exact Q].
    + split; lia.
Qed.
Lemma compares_count i js : forall h c h' c', foldM (compare i) js (h, c) = Ok (h', c') -> c <= c' /\
  (c' = c -> h' = h /\ forall j, In j js -> i <> j -> i < N -> j < N -> exists w k t, h = (w, k) :: t /\ (value i j <= w)%Q).
Proof.
  induction js as [|j js IH]; intros h c h' c' E; cbn [foldM] in E.
  - injection E as <- <-. split; [lia|]. intros _. split; [reflexivity | intros j []].
  - destruct (compare i (h, c) j) as [[h1 c1]|] eqn:E1; cbn [bind] in E; [|discriminate]. destruct (compare_count _ _ _ _ _ _ E1) as [L1 K1].
    destruct (IH _ _ _ _ E) as [L2 K2]. split; [lia|]. intros ->. destruct (K1 ltac:(lia)) as [-> K1']. destruct (K2 ltac:(lia)) as [-> K2'].
    split; [reflexivity|]. intros j' [<-|Hj]; auto.
Qed.

Lemma related_candidates B i j : length B = N -> i < N -> (In j (candidates B i) <-> related B i j).
Proof.
  intros L Hi. unfold NNDescentModel.candidates, related. split.
  - intros Hj. apply (Permutation_in _ (set_order_perm _)) in Hj. rewrite fold_sadd_In, set_of_In in Hj. destruct Hj as [Hj|Hj].
    + apply in_map_iff in Hj. destruct Hj as ([s j'] & <- & Hin). exists s. left. exact Hin.
    + unfold reverse in Hj. apply in_flat_map in Hj. destruct Hj as ([k' nb] & Hk & Hj). apply in_flat_map in Hj. destruct Hj as ([s j'] & Hin & Hj).
      destruct (Nat.eqb_spec j' i) as [->|]; [|contradiction]. destruct Hj as [<-|[]]. rewrite In_enumerate in Hk.
      exists s. right. rewrite (nth_error_nth _ _ [] Hk). exact Hin.
  - intros (s & Hs). apply (Permutation_in _ (Permutation_sym (set_order_perm _))). rewrite fold_sadd_In, set_of_In. destruct Hs as [Hs|Hs].
    + left. apply in_map_iff. exists (s, j). split; [reflexivity | exact Hs].
    + right. unfold reverse. apply in_flat_map. exists (j, nth j B []).
      assert (Hj : j < length B) by (destruct (Nat.lt_ge_cases j (length B)); [assumption | rewrite nth_overflow in Hs by assumption; contradiction]).
      split; [apply In_enumerate, nth_error_nth'; exact Hj|]. apply in_flat_map. exists (s, i). split; [exact Hs|]. rewrite Nat.eqb_refl. left. reflexivity.
Qed.
Lemma related_bounds k B i j : all_good k B -> related B i j -> i < N /\ j < N.
Proof.
  intros G (s & [Hs|Hs]); apply (all_good_entry is_heap similarity V k) in Hs; try assumption; tauto.
Qed.

Lemma still_settled k B B' : all_good k B -> turn B = Ok (B', 0) -> B' = B /\ settled similarity V B.
Proof.
  intros G E. pose proof (all_good_length _ _ _ _ _ G) as L.
  assert (Key : forall i, i < N -> nth i B' [] = nth i B [] /\ forall j, In j (visited B i) -> i <> j -> i < N -> j < N -> exists w k t, nth i B [] = (w, k) :: t /\ (value i j <= w)%Q).
  { intros i Hi. destruct (turn_nth _ _ _ _ E L Hi) as ([h c] & E1 & E2 & Lc). cbn [fst snd] in *. destruct (compares_count _ _ _ _ _ _ E1) as [_ K].
    destruct (K ltac:(lia)) as [-> K']. split; [exact E2 | exact K']. }
  destruct (turn_ok set_order set_order_perm heapify heapreplace is_heap heaps similarity V k B G) as (B1 & c1 & E1 & G1 & _ & _).
  rewrite E in E1. injection E1 as <- <-. pose proof (all_good_length _ _ _ _ _ G1) as L1. split.
  - apply (nth_ext B' B [] []); [congruence|]. intros i Hi. apply Key. congruence.
  - intros i j m x y R1 R2 Hne Ex Ey. destruct (related_bounds _ _ _ _ G R1) as [Hi Hj]. destruct (related_bounds _ _ _ _ G R2) as [_ Hm].
    destruct (Key i Hi) as [_ K]. destruct (K m) as (w & k' & t & Eh & Q); auto.
    { unfold visited. apply in_flat_map. exists j. rewrite !tables_nth by assumption. split; apply related_candidates; assumption. }
    destruct (all_good_nth _ _ _ _ _ _ G Hi) as [Gh _]. rewrite Eh in Gh |- *. unfold NNDescentProofs.value in Q. rewrite Ex, Ey in Q.
    intros s j' [Es|Hin]; [injection Es as <- <-; exact Q|]. pose proof (heap_first _ _ _ heaps _ _ Gh _ Hin) as X. cbn [fst] in X. lra.
Qed.
Lemma descend_settled k : forall fuel B B', all_good k B -> descend fuel B = Ok B' -> settled similarity V B'.
Proof.
  induction fuel as [|fuel IH]; intros B B' G E; [discriminate|]. cbn [NNDescentModel.descend] in E.
  destruct (turn_ok set_order set_order_perm heapify heapreplace is_heap heaps similarity V k B G) as (B1 & c & E1 & G1 & _ & _). rewrite E1 in E. cbn [bind] in E.
  destruct (Nat.eqb c 0) eqn:Ec; [apply Nat.eqb_eq in Ec; rewrite Ec in E1|].
  - injection E as <-. destruct (still_settled k B B1 G E1) as [-> St]. exact St.
  - exact (IH _ _ G1 E).
Qed.

(** ** as many neighbors as other items *)
Definition reach (q : Q) (h : list entry) : nat := length (filter (fun e => Qle_bool q (fst e)) h).
Lemma reach_perm q h h' : Permutation h h' -> reach q h = reach q h'.
Proof.
  unfold reach. induction 1 as [|x l l' P IH|x y l|l l' l'' P1 IH1 P2 IH2]; cbn [filter]; try congruence.
  - destruct (Qle_bool q (fst x)); cbn [length]; congruence.
  - destruct (Qle_bool q (fst x)), (Qle_bool q (fst y)); reflexivity.
Qed.
Lemma reach_le q h : reach q h <= length h.
Proof. unfold reach. induction h as [|e h IH]; cbn [filter length]; [lia|]. destruct (Qle_bool q (fst e)); cbn [length]; lia. Qed.
Lemma reach_full q h : reach q h = length h -> at_least q h.
Proof.
  unfold reach. induction h as [|e h IH]; intros E s j Hin; [contradiction|]. cbn [filter length] in E. pose proof (reach_le q h) as L. unfold reach in L.
  destruct (Qle_bool q (fst e)) eqn:Q; cbn [length] in E; [|lia]. destruct Hin as [->|Hin]; [apply Qle_bool_iff; exact Q|]. apply (IH ltac:(lia) s j Hin).
Qed.
Lemma reach_all q h : at_least q h -> reach q h = length h.
Proof.
  unfold reach. induction h as [|[s j] h IH]; intros G; [reflexivity|]. cbn [filter length fst]. rewrite (proj2 (Qle_bool_iff _ _)) by (apply (G s j); left; reflexivity).
  cbn [length]. f_equal. apply IH. intros s' j' Hin. apply (G s' j'). right. exact Hin.
Qed.

Lemma compare_reach k i h c j h' c' m : good k i h -> i < N -> j < N -> m < N -> i <> m -> compare i (h, c) j = Ok (h', c') ->
  Nat.min (length h) (reach (value i m) h + (if Nat.eqb j m then 1 else 0)) <= reach (value i m) h'.
Proof.
  intros [Gh _] Hi Hj Hm Him E. pose proof (reach_le (value i m) h) as Le. unfold NNDescentModel.compare in E. destruct (Nat.eqb_spec i j) as [->|Hij].
  - injection E as <- _. destruct (Nat.eqb_spec j m); [contradiction | lia].
  - rewrite sim_at_ok in E by assumption. cbn [bind] in E. destruct h as [|[w k'] t]; [discriminate|].
    assert (Mn : forall q, (q <= w)%Q -> at_least q ((w, k') :: t)).
    { intros q Q s j' [Es|Hin]; [injection Es as <- <-; exact Q|]. pose proof (heap_first _ _ _ heaps _ _ Gh _ Hin) as X. cbn [fst] in X. lra. }
    destruct (Qle_bool (value i j) w) eqn:Q; injection E as <- _.
    + destruct (Nat.eqb_spec j m) as [->|]; [|lia]. apply Qle_bool_iff in Q. rewrite (reach_all _ _ (Mn _ Q)) in *. lia.
    + rewrite (reach_perm _ _ _ (heapreplace_perm _ _ _ heaps (w, k') t (value i j, j))).
      assert (Lt : (w < value i j)%Q) by (apply Qnot_le_lt; intros X; apply Qle_bool_iff in X; congruence).
      unfold reach in *. cbn [filter fst length] in *. destruct (Qle_bool (value i m) w) eqn:Qw.
      * apply Qle_bool_iff in Qw. pose proof (reach_all _ _ (Mn _ Qw)) as X. unfold reach in X. cbn [filter fst length] in X. rewrite (proj2 (Qle_bool_iff _ _) Qw) in X. cbn [length] in *.
        rewrite (proj2 (Qle_bool_iff _ _)) by lra. cbn [length]. lia.
      * destruct (Nat.eqb_spec j m) as [->|]; [|destruct (Qle_bool (value i m) (value i j)); cbn [length]; lia].
        rewrite (proj2 (Qle_bool_iff _ _)) by lra. cbn [length]. lia.
Qed.
Definition times (m : nat) (js : list nat) : nat := length (filter (fun j => Nat.eqb j m) js).
Lemma compares_reach k i m : 0 < k -> i < N -> m < N -> i <> m -> forall js h c h' c', good k i h -> (forall j, In j js -> j < N) -> foldM (compare i) js (h, c) = Ok (h', c') ->
  good k i h' /\ Nat.min (length h) (reach (value i m) h + times m js) <= reach (value i m) h'.
Proof.
  intros Hk Hi Hm Him. induction js as [|j js IH]; intros h c h' c' G J E; cbn [foldM] in E.
  - injection E as <- <-. split; [exact G|]. unfold times. cbn [filter length]. lia.
  - assert (Hj : j < N) by (apply J; left; reflexivity).
    destruct (compare_ok heapify heapreplace is_heap heaps similarity V k i h c j Hk Hi Hj G) as ([h1 c1] & E1 & G1 & _). cbn [fst] in G1. rewrite E1 in E. cbn [bind] in E.
    pose proof (compare_reach k i h c j h1 c1 m G Hi Hj Hm Him E1) as R1.
    destruct (IH _ _ _ _ G1 (fun x Hx => J x (or_intror Hx)) E) as [G2 R2]. split; [exact G2|].
    assert (Ll : length h1 = length h) by (destruct G as [_ [X _]], G1 as [_ [Y _]]; congruence). rewrite Ll in R2.
    pose proof (reach_le (value i m) h'). unfold times in *. cbn [filter]. destruct (Nat.eqb j m); cbn [length]; lia.
Qed.

Lemma times_app m l l' : times m (l ++ l') = times m l + times m l'.
Proof. unfold times. rewrite filter_app, app_length. reflexivity. Qed.
Lemma times_In m l : In m l -> 1 <= times m l.
Proof. intros Hin. unfold times. induction l as [|x l IH]; [contradiction|]. cbn [filter]. destruct Hin as [->|Hin]; [rewrite Nat.eqb_refl; cbn [length]; lia|]. specialize (IH Hin). destruct (Nat.eqb x m); cbn [length]; lia. Qed.
Lemma times_flat m (f : nat -> list nat) l : length (filter (fun ii => negb (Nat.eqb ii m)) l) <= times m (flat_map f l) \/ exists ii, In ii l /\ ii <> m /\ ~ In m (f ii).
Proof.
  induction l as [|x l [IH|(ii & Hin & Hne & Hn)]]; cbn [flat_map filter].
  - left. cbn. lia.
  - destruct (Nat.eqb_spec x m) as [->|Hx]; cbn [negb].
    + left. rewrite times_app. lia.
    + destruct (in_dec Nat.eq_dec m (f x)) as [Hin|Hn].
      * left. rewrite times_app. pose proof (times_In _ _ Hin). cbn [length]. lia.
      * right. exists x. split; [left; reflexivity | auto].
  - right. exists ii. split; [right; exact Hin | auto].
Qed.

(** every other position was drawn *)
Lemma initial_complete k : N = S k -> forall draws items B, (forall r, In r draws -> r < N) -> (forall i, In i items -> i < N) ->
  initial_loop set_order heapify similarity V draws k items = Ok B ->
  Forall2 (fun i h => forall m, m < N -> i <> m -> exists s, In (s, m) h) items B.
Proof.
  intros Hk draws items. revert draws. induction items as [|i items IH]; intros draws B D I E; cbn [initial_loop] in E.
  - injection E as <-. constructor.
  - destruct (sample_loop draws k i []) as [[St draws']|] eqn:Es; cbn [bind] in E; [|discriminate].
    destruct (sample_ok k i draws [] St draws') as (A1 & A2 & A3 & A4 & used & Eu); auto; [constructor | cbn; lia|].
    assert (Hi : i < N) by (apply I; left; reflexivity).
    assert (Bd : forall j, In j St -> j < N) by (intros j Hj; destruct (A4 j Hj) as [[]|X]; auto).
    assert (Em : mapM (fun j => let! s := NNDescentModel.sim_at similarity V i j in Ok (s, j)) (set_order St) = Ok (map (fun j => (value i j, j)) (set_order St))).
    { apply CliProofs.mapM_map. intros j Hj. rewrite sim_at_ok; [reflexivity | exact Hi|]. apply Bd. apply (Permutation_in _ (set_order_perm St)). exact Hj. }
    rewrite Em in E. cbn [bind] in E. destruct (initial_loop _ _ _ _ draws' k items) as [B'|] eqn:Eb; cbn [bind] in E; [|discriminate]. injection E as <-.
    constructor.
    + intros m Hm Him. exists (value i m). apply (Permutation_in _ (Permutation_sym (heapify_perm _ _ _ heaps _))). apply in_map_iff. exists m. split; [reflexivity|].
      apply (Permutation_in _ (Permutation_sym (set_order_perm St))).
      assert (Inc : incl (seq 0 N) (i :: St)).
      { apply NoDup_length_incl; [constructor; assumption | cbn [length]; rewrite seq_length; lia|]. intros j [<-|Hj]; apply in_seq; [lia|]. specialize (Bd j Hj). lia. }
      destruct (Inc m) as [X|X]; [apply in_seq; lia | contradiction | exact X].
    + eapply IH; [| |exact Eb]; [intros r Hr; apply D; rewrite Eu; apply in_or_app; auto | intros; apply I; right; assumption].
Qed.

Lemma complete_turn k B B' c : N = S k -> 0 < k -> all_good k B -> (forall i m, i < N -> m < N -> i <> m -> exists s, In (s, m) (nth i B [])) ->
  turn B = Ok (B', c) -> forall i m, i < N -> m < N -> i <> m -> at_least (value i m) (nth i B' []).
Proof.
  intros Hk Kp G Cm E i m Hi Hm Him. pose proof (all_good_length _ _ _ _ _ G) as L.
  destruct (turn_nth _ _ _ _ E L Hi) as ([h c'] & E1 & E2 & _). cbn [fst] in E2. rewrite E2.
  pose proof (all_good_nth _ _ _ _ _ _ G Hi) as Gi.
  assert (Rel : forall a b, a < N -> b < N -> a <> b -> In b (candidates B a)).
  { intros a b Ha Hb Hab. apply related_candidates; auto. destruct (Cm a b Ha Hb Hab) as [s Hs]. exists s. left. exact Hs. }
  assert (J : forall j, In j (visited B i) -> j < N).
  { intros j Hj. unfold visited in Hj. apply in_flat_map in Hj. destruct Hj as (ii & _ & Hj). destruct (Nat.lt_ge_cases ii N) as [Li|Li]; [|rewrite tables_out in Hj by exact Li; contradiction].
    rewrite tables_nth in Hj by exact Li. apply (candidates_In set_order set_order_perm is_heap similarity V k) in Hj; [tauto | exact G]. }
  destruct (compares_reach k i m Kp Hi Hm Him _ _ _ _ _ Gi J E1) as [G' R].
  apply reach_full. destruct G' as [_ [Lh _]]. destruct Gi as [_ [Lb Gn]]. rewrite Lb in R.
  (* the initial entry *)
  assert (R0 : 1 <= reach (value i m) (nth i B [])).
  { destruct (Cm i m Hi Hm Him) as [s Hs]. destruct (neighbors_value similarity V k i _ s m (conj Lb Gn) Hs) as (_ & _ & _ & ->).
    unfold reach. assert (X : In (value i m, m) (filter (fun e => Qle_bool (value i m) (fst e)) (nth i B []))) by (apply filter_In; split; [exact Hs | apply Qle_bool_iff; apply Qle_refl]).
    destruct (filter _ _); [contradiction | cbn [length]; lia]. }
  (* the other ones *)
  assert (T : k - 1 <= times m (visited B i)).
  { unfold visited. rewrite (tables_nth B i Hi). destruct (times_flat m (fun ii => nth ii (tables B) []) (candidates B i)) as [T|(ii & Hin & Hne & Hn)].
    - assert (Inc : incl (filter (fun j => negb (Nat.eqb j i) && negb (Nat.eqb j m)) (seq 0 N)) (filter (fun ii => negb (Nat.eqb ii m)) (candidates B i))).
      { intros j Hj. apply filter_In in Hj. destruct Hj as [Hj Eb]. apply andb_prop in Eb. destruct Eb as [Eb1 Eb2]. apply filter_In. split; [|exact Eb2].
        apply in_seq in Hj. apply Rel; [exact Hi | lia|]. intros ->. rewrite Nat.eqb_refl in Eb1. discriminate. }
      apply NoDup_incl_length in Inc; [|apply NoDup_filter, seq_NoDup].
      enough (X : k - 1 <= length (filter (fun j => negb (Nat.eqb j i) && negb (Nat.eqb j m)) (seq 0 N))) by lia.
      assert (Inc2 : incl (seq 0 N) (i :: m :: filter (fun j => negb (Nat.eqb j i) && negb (Nat.eqb j m)) (seq 0 N))).
      { intros j Hj. destruct (Nat.eq_dec j i) as [->|N1]; [left; reflexivity|]. destruct (Nat.eq_dec j m) as [->|N2]; [right; left; reflexivity|]. right; right.
        apply filter_In. split; [exact Hj|]. apply Nat.eqb_neq in N1, N2. rewrite N1, N2. reflexivity. }
      apply NoDup_incl_length in Inc2; [|apply seq_NoDup]. cbn [length] in Inc2. rewrite seq_length in Inc2. lia.
    - exfalso. apply Hn. destruct (candidates_In set_order set_order_perm is_heap similarity V k B i ii G Hin) as (_ & Hii & _).
      rewrite tables_nth by exact Hii. apply Rel; auto. }
  pose proof (reach_le (value i m) h). lia.
Qed.

Lemma complete_nearest k fuel draws B B' : N = S k -> 0 < k -> (forall r, In r draws -> r < N) ->
  initial_loop set_order heapify similarity V draws k (seq 0 N) = Ok B -> descend fuel B = Ok B' ->
  forall i m x y, i <> m -> nth_error V i = Some x -> nth_error V m = Some y -> at_least (similarity x y) (nth i B' []).
Proof.
  intros Hk Kp D E0 E i m x y Him Ex Ey.
  assert (Hi : i < N) by (apply nth_error_Some; congruence). assert (Hm : m < N) by (apply nth_error_Some; congruence).
  assert (Hs : forall j, In j (seq 0 N) -> j < N) by (intros j Hj; apply in_seq in Hj; lia).
  pose proof (initial_ok set_order set_order_perm heapify heapreplace is_heap heaps similarity V k draws (seq 0 N) B D Hs E0) as G. change (all_good k B) in G.
  pose proof (initial_complete k Hk draws (seq 0 N) B D Hs E0) as Cm0.
  assert (Cm : forall a b, a < N -> b < N -> a <> b -> exists s, In (s, b) (nth a B [])).
  { intros a b Ha Hb Hab. assert (Es : nth_error (seq 0 N) a = Some a) by (rewrite (nth_error_nth' _ 0) by (rewrite seq_length; lia); rewrite seq_nth by lia; reflexivity).
    pose proof (all_good_length _ _ _ _ _ G) as L.
    assert (Eb : nth_error B a = Some (nth a B [])) by (apply nth_error_nth'; lia).
    apply (Forall2_nth_both _ _ _ Cm0 a a _ Es Eb b Hb Hab). }
  destruct fuel as [|fuel]; [discriminate|]. cbn [NNDescentModel.descend] in E.
  destruct (turn_ok set_order set_order_perm heapify heapreplace is_heap heaps similarity V k B G) as (B1 & c & E1 & G1 & _ & _). rewrite E1 in E. cbn [bind] in E.
  assert (At : at_least (similarity x y) (nth i B1 [])).
  { pose proof (complete_turn k B B1 c Hk Kp G Cm E1 i m Hi Hm Him) as X. unfold NNDescentProofs.value in X. rewrite Ex, Ey in X. exact X. }
  destruct (Nat.eqb c 0); [injection E as <-; exact At|].
  destruct (descend_good set_order set_order_perm heapify heapreplace is_heap heaps similarity V k fuel B1 B' G1 E) as [G2 M].
  pose proof (all_good_length _ _ _ _ _ G1) as L1. pose proof (all_good_length _ _ _ _ _ G2) as L2.
  refine (Forall2_nth_both _ _ _ M i (nth i B1 []) (nth i B' []) _ _ _ At); apply nth_error_nth'; lia.
Qed.
End Local.
