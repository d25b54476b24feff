From Coq Require Import QArith Qabs String Lqa.
From Verif Require Import Base BaseFacts ClustersModel ClustersSpec ClustersProofs PairwiseModel PairwiseProofs EvaluationProofs CliProofs SpaceModel SpaceSpec.
Open Scope nat_scope.
Open Scope list_scope.
Notation length := List.length.

(** * vp_tree *)
Section VpTree.
Context {A : Type} `{EqDec A}.
Variable within : A -> A -> bool.
Variable all : list A.
Variable query : A -> list A.
Hypothesis query_exact : forall x, ball within all x (query x).

Lemma fold_sadd_In (l v : list A) x : In x (fold_left sadd l v) <-> In x v \/ In x l.
Proof.
  revert v. induction l as [|y l IH]; intros v; cbn [fold_left]; [cbn; tauto|]. rewrite IH, sadd_In. cbn [In].
  split; intros K; repeat destruct K as [K|K]; subst; auto.
Qed.

Definition viable (lo : nat) (hi : option nat) (c : list A) : bool := negb (Nat.ltb (length c) lo || negb (le_max (length c) hi)).

Lemma viable_within lo hi c : viable lo hi c = true <-> size_within lo hi (length c).
Proof. unfold viable, size_within, le_max. destruct hi; lia. Qed.

(** the clusters and their centres *)
Lemma vp_loop_spec lo hi data : forall visited, exists centres,
  Forall2 (fun x c => c = query x) centres (vp_loop query lo hi data visited) /\
  (forall x, In x centres -> In x data /\ ~ In x visited /\ size_within lo hi (length (query x))) /\
  ForallOrdPairs (fun x y => ~ In y (query x)) centres /\
  (forall x, In x data -> size_within lo hi (length (query x)) -> In x visited \/ In x centres \/ exists y, In y centres /\ In x (query y)).
Proof.
  induction data as [|item data IH]; intros visited; cbn [vp_loop].
  - exists []. split; [constructor|]. split; [intros x []|]. split; [constructor | intros x []].
  - destruct (memb_In item visited) as [Hv|Hv].
    + destruct (IH visited) as (cs & H1 & H2 & H3 & H4). exists cs. split; [exact H1|]. split; [|split; [exact H3|]].
      * intros x Hx. destruct (H2 x Hx) as (K1 & K2 & K3). split; [right; exact K1 | auto].
      * intros x [<-|Hx] Hs; [left; exact Hv | exact (H4 x Hx Hs)].
    + destruct (viable lo hi (query item)) eqn:V; unfold viable in V.
      * apply negb_true_iff in V. rewrite V.
        destruct (IH (fold_left sadd (query item) visited)) as (cs & H1 & H2 & H3 & H4). exists (item :: cs).
        assert (Vs : size_within lo hi (length (query item))) by (apply viable_within; unfold viable; rewrite V; reflexivity).
        split; [constructor; [reflexivity | exact H1]|]. split; [|split].
        -- intros x [<-|Hx]; [split; [left; reflexivity | auto]|]. destruct (H2 x Hx) as (K1 & K2 & K3). split; [right; exact K1|].
           split; [|exact K3]. intros K. apply K2. rewrite fold_sadd_In. auto.
        -- constructor; [|exact H3]. apply Forall_forall. intros y Hy Hin. apply (H2 y Hy). rewrite fold_sadd_In. auto.
        -- intros x [<-|Hx] Hs; [right; left; left; reflexivity|]. destruct (H4 x Hx Hs) as [K|[K|(y & Ky & K)]].
           ++ rewrite fold_sadd_In in K. destruct K as [K|K]; [left; exact K|]. right. right. exists item. split; [left; reflexivity | exact K].
           ++ right. left. right. exact K.
           ++ right. right. exists y. split; [right; exact Ky | exact K].
      * apply negb_false_iff in V. rewrite V. destruct (IH visited) as (cs & H1 & H2 & H3 & H4). exists cs.
        split; [exact H1|]. split; [|split; [exact H3|]].
        -- intros x Hx. destruct (H2 x Hx) as (K1 & K2 & K3). split; [right; exact K1 | auto].
        -- intros x [<-|Hx] Hs; [|exact (H4 x Hx Hs)]. exfalso. rewrite <- viable_within in Hs. unfold viable in Hs. rewrite V in Hs. discriminate.
Qed.

Lemma vp_tree_spec lo hi : exists centres,
  Forall2 (ball within all) centres (vp_tree query all lo hi) /\
  (forall x, In x centres -> In x all /\ size_within lo hi (length (filter (within x) all))) /\
  ForallOrdPairs (fun x y => within x y = false) centres /\
  (forall x, In x all -> within x x = true -> size_within lo hi (length (filter (within x) all)) ->
     exists c, In c (vp_tree query all lo hi) /\ In x c).
Proof.
  destruct (vp_loop_spec lo hi all []) as (cs & H1 & H2 & H3 & H4). exists cs.
  assert (Lq : forall x, length (query x) = length (filter (within x) all)) by (intros x; apply Permutation_length, query_exact).
  assert (Iq : forall x y, In y (query x) <-> In y all /\ within x y = true).
  { intros x y. rewrite <- filter_In. split; apply Permutation_in; [apply query_exact | apply Permutation_sym, query_exact]. }
  split.
  { fold (vp_tree query all lo hi) in *. clear -H1 query_exact. induction H1 as [|x c cs out E H1 IH]; constructor; [subst c; apply query_exact | exact IH]. }
  split.
  { intros x Hx. destruct (H2 x Hx) as (K1 & _ & K3). rewrite <- Lq. auto. }
  split.
  { assert (Ha : Forall (fun x => In x all) cs) by (apply Forall_forall; intros x Hx; apply H2; exact Hx).
    clear -H3 Ha Iq. induction H3 as [|x l F H3 IH]; constructor.
    - inversion Ha as [|? ? Hx Hl]; subst. rewrite Forall_forall in *. intros y Hy. specialize (F y Hy).
      destruct (within x y) eqn:E; [|reflexivity]. exfalso. apply F. apply Iq. auto.
    - apply IH. inversion Ha; assumption. }
  intros x Hx Hr Hs. rewrite <- Lq in Hs. unfold vp_tree. destruct (H4 x Hx Hs) as [[]|[K|(y & Ky & K)]].
  - destruct (Forall2_in_left _ _ _ _ H1 K) as (c & Hc & ->). exists (query x). split; [exact Hc|]. apply Iq. auto.
  - destruct (Forall2_in_left _ _ _ _ H1 Ky) as (c & Hc & ->). exists (query y). auto.
Qed.

Lemma vp_tree_default x y : In x all -> In y all -> x <> y -> within x x = true -> within x y = true ->
  exists c, In c (vp_tree query all 2 None) /\ In x c.
Proof.
  intros Hx Hy Hn Hxx Hxy. destruct (vp_tree_spec 2 None) as (cs & _ & _ & _ & K). apply K; [exact Hx | exact Hxx |].
  split; [|exact Logic.I].
  assert (Ix : In x (filter (within x) all)) by (apply filter_In; auto). assert (Iy : In y (filter (within x) all)) by (apply filter_In; auto).
  destruct (filter (within x) all) as [|a [|b l]]; cbn; [destruct Ix | | lia]. destruct Ix as [<-|[]], Iy as [<-|[]]. contradiction.
Qed.
End VpTree.

(** * laesa *)
Section Laesa.
Context {A : Type} `{EqDec A}.
Variable distance : A -> A -> Q.

Lemma nearest_spec pivots x : forall d0,
  match nearest distance pivots x d0 with
  | None => d0 = None /\ pivots = []
  | Some e => (d0 = Some e \/ exists r, In r pivots /\ e = distance r x) /\
      (forall r, In r pivots -> (e <= distance r x)%Q) /\ (forall e0, d0 = Some e0 -> (e <= e0)%Q)
  end.
Proof.
  induction pivots as [|y pivots IH]; intros d0; cbn [nearest].
  - destruct d0 as [e|]; [|auto]. split; [auto|]. split; [intros r []|]. intros e0 E. injection E as <-. apply Qle_refl.
  - set (d1 := match d0 with Some e => if Qle_bool e (distance y x) then d0 else Some (distance y x) | None => Some (distance y x) end).
    specialize (IH d1). assert (D1 : exists e1, d1 = Some e1 /\ (e1 <= distance y x)%Q /\ (forall e0, d0 = Some e0 -> (e1 <= e0)%Q) /\ (d0 = Some e1 \/ e1 = distance y x)).
    { unfold d1. destruct d0 as [e|].
      - destruct (Qle_bool e (distance y x)) eqn:E.
        + exists e. rewrite Qle_bool_iff in E. split; [reflexivity|]. split; [exact E|]. split; [intros e0 K; injection K as <-; apply Qle_refl | auto].
        + exists (distance y x). split; [reflexivity|]. split; [apply Qle_refl|]. split; [|auto]. intros e0 K. injection K as <-.
          apply Qlt_le_weak, Qnot_le_lt. intros K. rewrite <- Qle_bool_iff in K. congruence.
      - exists (distance y x). split; [reflexivity|]. split; [apply Qle_refl|]. split; [intros e0 K; discriminate | auto]. }
    destruct D1 as (e1 & E1 & L1 & L2 & C1). rewrite E1 in *. destruct (nearest distance pivots x (Some e1)) as [e|].
    + destruct IH as (C & L & M). specialize (M e1 eq_refl). split.
      * destruct C as [C|(r & Hr & C)]; [injection C as <-|right; exists r; cbn; auto].
        destruct C1 as [C1|C1]; [left; exact C1 | right; exists y; cbn; auto].
      * split; [|intros e0 K; specialize (L2 e0 K); lra]. intros r [<-|Hr]; [lra | exact (L r Hr)].
    + destruct IH as [IH _]. discriminate.
Qed.

Lemma not_eliminated data pivots i k x y : nth_error data i = Some x -> nth_error data k = Some y ->
  (eliminated (nearest distance pivots x None) (map (fun q => map (distance q) data) pivots) i k = false <-> compared distance pivots x y).
Proof.
  intros Hi Hk. pose proof (nearest_spec pivots x None) as N. unfold eliminated. destruct (nearest distance pivots x None) as [e|].
  - destruct N as (C & L & _). destruct C as [C|(r & Hr & ->)]; [discriminate|].
    assert (Ei : forall q, nth i (map (distance q) data) 0%Q = distance q x) by (intros q; apply nth_error_nth, map_nth_error; exact Hi).
    assert (Ek : forall q, nth k (map (distance q) data) 0%Q = distance q y) by (intros q; apply nth_error_nth, map_nth_error; exact Hk).
    split.
    + intros K q r' Hq Hr'. assert (B : (Qabs (distance q x - distance q y) <= distance r x)%Q).
      { destruct (Qle_bool (Qabs (distance q x - distance q y)) (distance r x)) eqn:B; [apply Qle_bool_iff; exact B|]. exfalso.
        rewrite <- not_true_iff_false in K. apply K. apply existsb_exists. exists (map (distance q) data).
        split; [apply in_map_iff; eauto|]. rewrite Ei, Ek, B. reflexivity. }
      specialize (L r' Hr'). lra.
    + intros K. apply not_true_iff_false. intros B. apply existsb_exists in B. destruct B as (row & Hrow & B).
      apply in_map_iff in Hrow. destruct Hrow as (q & <- & Hq). rewrite Ei, Ek in B. apply negb_true_iff in B.
      assert (B' : Qle_bool (Qabs (distance q x - distance q y)) (distance r x) = true) by (apply Qle_bool_iff, K; assumption).
      congruence.
  - destruct N as [_ ->]. split; [intros _ q r []|reflexivity].
Qed.

Lemma In_enumerate' {B} (l : list B) i x : In (i, x) (enumerate l) <-> nth_error l i = Some x.
Proof. apply In_enumerate. Qed.

Lemma laesa_pairs_In data pivots radius a b :
  In (a, b) (laesa_pairs distance data pivots (map (fun q => map (distance q) data) pivots) radius) <->
  exists i k, i < k /\ nth_error data i = Some a /\ nth_error data k = Some b /\ (distance a b <= radius)%Q /\ compared distance pivots a b.
Proof.
  unfold laesa_pairs. rewrite in_flat_map. split.
  - intros ([i x] & Hi & Hin). apply in_flat_map in Hin. destruct Hin as ([k y] & Hk & Hin). rewrite In_enumerate' in Hi, Hk.
    destruct (Nat.ltb i k && negb (eliminated _ _ i k) && Qle_bool (distance x y) radius) eqn:E; [|destruct Hin].
    destruct Hin as [E2|[]]. injection E2 as <- <-. apply andb_prop in E. destruct E as [E E3]. apply andb_prop in E. destruct E as [E1 E2].
    exists i, k. split; [apply Nat.ltb_lt; exact E1|]. split; [exact Hi|]. split; [exact Hk|]. split; [apply Qle_bool_iff; exact E3|].
    apply negb_true_iff in E2. rewrite (not_eliminated data pivots i k x y Hi Hk) in E2. exact E2.
  - intros (i & k & L & Hi & Hk & Hd & Hc). exists (i, a). rewrite In_enumerate'. split; [exact Hi|]. apply in_flat_map.
    exists (k, b). rewrite In_enumerate'. split; [exact Hk|]. rewrite (proj2 (Nat.ltb_lt i k) L), (proj2 (Qle_bool_iff _ _) Hd).
    rewrite (proj2 (not_eliminated data pivots i k a b Hi Hk) Hc). left. reflexivity.
Qed.

(** a pair closer than the first item is to its nearest pivot is compared *)
Lemma compared_close pivots x y : pseudometric distance -> (forall r, In r pivots -> (distance x y <= distance r x)%Q) -> compared distance pivots x y.
Proof.
  intros [Hs Ht] Hc q r Hq Hr. specialize (Hc r Hr). pose proof (Ht q x y) as T1. pose proof (Ht q y x) as T2. pose proof (Hs x y) as S.
  apply Qabs_Qle_condition. split; lra.
Qed.

(** ** pivots *)
Variable pivot_order : list nat -> list nat.
Hypothesis pivot_order_perm : forall l, Permutation (pivot_order l) l.

Lemma pivot_scan_spec pivot p items : forall maximum b,
  (forall j item a, In (j, (item, a)) items -> (0 <= a)%Q) ->
  let '(acc, b') := pivot_scan distance pivot p items maximum b in
  length acc = length items /\
  (b' = b \/ (~ In b' p /\ In b' (map fst items))) /\
  ((exists j item a, In (j, (item, a)) items /\ ~ In j p /\ (maximum < a + distance pivot item)%Q) -> ~ In b' p /\ In b' (map fst items)) /\
  ((forall item, In item (map (fun x => fst (snd x)) items) -> (0 <= distance pivot item)%Q) -> Forall (fun a => (0 <= a)%Q) acc).
Proof.
  induction items as [|[j [item a]] items IH]; intros maximum b Ha; cbn [pivot_scan].
  - split; [reflexivity|]. split; [auto|]. split; [intros (j & item & a & [] & _) | constructor].
  - assert (Ha' : forall j item a, In (j, (item, a)) items -> (0 <= a)%Q) by (intros j' i' a' K; apply (Ha j' i' a'); right; exact K).
    assert (A0 : (0 <= a)%Q) by (apply (Ha j item a); left; reflexivity).
    destruct (memb_In j p) as [Hj|Hj].
    + specialize (IH maximum b Ha'). destruct (pivot_scan distance pivot p items maximum b) as [acc b']. destruct IH as (H1 & H2 & H3 & H4).
      cbn [length map fst]. split; [lia|]. split; [destruct H2 as [H2|[H2 H2']]; [auto | right; cbn; auto]|]. split.
      * intros (j' & i' & a' & [E|K] & Hp & L); [injection E as <- <- <-; contradiction|].
        destruct H3 as [K1 K2]; [exists j', i', a'; auto|]. split; [exact K1 | right; exact K2].
      * intros K. constructor; [exact A0 | apply H4; intros i' Hi'; apply K; right; exact Hi'].
    + set (a1 := (a + distance pivot item)%Q). destruct (Qle_bool a1 maximum) eqn:E.
      * specialize (IH maximum b Ha'). destruct (pivot_scan distance pivot p items maximum b) as [acc b']. destruct IH as (H1 & H2 & H3 & H4).
        cbn [length map fst]. split; [lia|]. split; [destruct H2 as [H2|[H2 H2']]; [auto | right; cbn; auto]|]. split.
        -- intros (j' & i' & a' & [E'|K] & Hp & L).
           { injection E' as <- <- <-. apply Qle_bool_iff in E. unfold a1 in E. lra. }
           destruct H3 as [K1 K2]; [exists j', i', a'; auto|]. split; [exact K1 | right; exact K2].
        -- intros K. constructor; [|apply H4; intros i' Hi'; apply K; right; exact Hi'].
           assert (0 <= distance pivot item)%Q by (apply K; left; reflexivity). unfold a1. lra.
      * specialize (IH a1 j Ha'). destruct (pivot_scan distance pivot p items a1 j) as [acc b']. destruct IH as (H1 & H2 & H3 & H4).
        cbn [length map fst]. split; [lia|].
        assert (N : ~ In b' p /\ (j = b' \/ In b' (map fst items))) by (destruct H2 as [->|[K1 K2]]; auto).
        split; [right; exact N|]. split; [intros _; exact N|].
        intros K. constructor; [|apply H4; intros i' Hi'; apply K; right; exact Hi'].
        assert (0 <= distance pivot item)%Q by (apply K; left; reflexivity). unfold a1. lra.
Qed.

Lemma enumerate_map_fst {B} (l : list B) j : In j (map fst (enumerate l)) -> j < length l.
Proof.
  intros K. apply in_map_iff in K. destruct K as ([j' x] & <- & K). rewrite In_enumerate' in K. cbn. apply nth_error_Some. congruence.
Qed.

Lemma firstn_In {B} n (l : list B) x : In x (firstn n l) -> In x l.
Proof. intros K. rewrite <- (firstn_skipn n l). apply in_or_app. auto. Qed.

Lemma enumerate_length {B} (l : list B) : length (enumerate l) = length l.
Proof. unfold enumerate. rewrite combine_length, seq_length. lia. Qed.

Lemma combine_length' (data : list A) (acc : list Q) : length acc = length data -> length (combine data acc) = length data.
Proof. intros E. rewrite combine_length. lia. Qed.

Lemma combine_nth_error' (data : list A) (acc : list Q) j x : length acc = length data -> nth_error data j = Some x ->
  exists a, In a acc /\ nth_error (combine data acc) j = Some (x, a).
Proof.
  revert acc j. induction data as [|y data IH]; intros [|a acc] [|j] L E; try discriminate; cbn in *.
  - injection E as ->. exists a. auto.
  - destruct (IH acc j ltac:(lia) E) as (a' & H1 & H2). exists a'. auto.
Qed.

Lemma missing_position p n : NoDup p -> length p < n -> exists j, j < n /\ ~ In j p.
Proof.
  intros Hn L. destruct (existsb (fun j => negb (memb j p)) (seq 0 n)) eqn:E.
  - apply existsb_exists in E. destruct E as (j & Hj & E). apply in_seq in Hj. exists j. split; [lia|].
    apply negb_true_iff in E. rewrite memb_false in E. exact E.
  - exfalso. assert (I : incl (seq 0 n) p).
    { intros j Hj. destruct (memb_In j p) as [K|K]; [exact K|]. exfalso. rewrite <- not_true_iff_false in E. apply E. apply existsb_exists.
      exists j. split; [exact Hj|]. rewrite (proj2 (memb_false j p) K). reflexivity. }
    apply NoDup_incl_length in I; [rewrite seq_length in I; lia | apply seq_NoDup].
Qed.

Lemma sadd_length_new {B} `{EqDec B} (s : list B) x : ~ In x s -> length (sadd s x) = S (length s).
Proof. intros Hx. unfold sadd. destruct (in_dec eq_dec x s); [contradiction|]. rewrite app_length. cbn. lia. Qed.

Lemma pivot_loop_ok data : (forall x y, In x data -> In y data -> (0 <= distance x y)%Q) ->
  forall n acc p b, length acc = length data -> Forall (fun a => (0 <= a)%Q) acc -> NoDup p -> Forall (fun j => j < length data) p -> b < length data ->
  exists p', pivot_loop distance n data acc p b = Ok p' /\ NoDup p' /\ Forall (fun j => j < length data) p' /\
    (distinct_items distance data -> (p = [] \/ In b p) -> length p + n <= length data -> length p' = length p + n).
Proof.
  intros Hpos. induction n as [|n IH]; intros acc p b La Fa Np Fp Lb; cbn [pivot_loop].
  - exists p. split; [reflexivity|]. split; [exact Np|]. split; [exact Fp|]. intros _ _ _. lia.
  - unfold index. destruct (nth_error data b) as [pivot|] eqn:Eb; [|apply nth_error_None in Eb; lia]. cbn [bind].
    pose proof (pivot_scan_spec pivot p (enumerate (combine data acc)) 0%Q b) as S. 
    destruct (pivot_scan distance pivot p (enumerate (combine data acc)) 0%Q b) as [acc' b'] eqn:E.
    destruct S as (S1 & S2 & S3 & S4).
    { intros j item a K. rewrite In_enumerate' in K. apply nth_error_In, in_combine_r in K. rewrite Forall_forall in Fa. exact (Fa a K). }
    rewrite enumerate_length, combine_length' in S1 by exact La.
    assert (Lb' : b' < length data).
    { destruct S2 as [->|[_ S2]]; [exact Lb|]. apply enumerate_map_fst in S2. rewrite combine_length' in S2 by exact La. exact S2. }
    assert (Fa' : Forall (fun a => (0 <= a)%Q) acc').
    { apply S4. intros item K. apply in_map_iff in K. destruct K as ([j [x a]] & <- & K). rewrite In_enumerate' in K. apply nth_error_In, in_combine_l in K.
      apply Hpos; [apply nth_error_In in Eb; exact Eb | exact K]. }
    destruct (IH acc' (sadd p b') b') as (p' & H1 & H2 & H3 & H4).
    + lia.
    + exact Fa'.
    + apply sadd_NoDup. exact Np.
    + apply Forall_forall. intros j Hj. rewrite sadd_In in Hj. rewrite Forall_forall in Fp. destruct Hj as [Hj| ->]; [apply Fp; exact Hj | exact Lb'].
    + exact Lb'.
    + exists p'. split; [exact H1|]. split; [exact H2|]. split; [exact H3|]. intros Hd Hb Hl.
      assert (Nb' : ~ In b' p).
      { destruct Hb as [->|Hb]; [intros []|]. apply S3. destruct (missing_position p (length data) Np ltac:(lia)) as (j & Lj & Hj).
        destruct (nth_error data j) as [x|] eqn:Ej; [|apply nth_error_None in Ej; lia].
        destruct (combine_nth_error' data acc j x La Ej) as (a & Ia & Ea). exists j, x, a. rewrite In_enumerate'. split; [exact Ea|]. split; [exact Hj|].
        assert (0 < distance pivot x)%Q by (apply (Hd b j); [intros ->; contradiction | exact Eb | exact Ej]).
        rewrite Forall_forall in Fa. specialize (Fa a Ia). lra. }
      rewrite H4; [rewrite sadd_length_new by exact Nb'; lia | exact Hd | right; rewrite sadd_In; auto | rewrite sadd_length_new by exact Nb'; lia].
Qed.

Variable set_order : list A -> list A.
Hypothesis set_order_perm : forall l, Permutation (set_order l) l.

Definition pivots_number (data : list A) (pivots : option nat) : nat := match pivots with Some n => n | None => Nat.log2_up (length data) end.

Lemma mapM_index_map {B} (l : list B) idx : Forall (fun i => i < length l) idx -> exists xs, mapM (index l) idx = Ok xs /\ Forall2 (fun i x => nth_error l i = Some x) idx xs.
Proof.
  intros F. apply mapM_exists. intros i Hi. rewrite Forall_forall in F. specialize (F i Hi). unfold index.
  destruct (nth_error l i) as [x|] eqn:E; [eauto|]. apply nth_error_None in E. lia.
Qed.

(** the function fails when too few pivots are found; else its clusters are the components of the compared pairs *)
Lemma laesa_spec draw data radius pivots lo hi :
  data <> [] -> (forall x y, In x data -> In y data -> (0 <= distance x y)%Q) -> draw < length data ->
  let n := pivots_number data pivots in
  laesa set_order pivot_order distance draw data radius pivots lo hi "connected_components" = Err IndexError \/
  exists ps pairs out, length ps = n /\ incl ps data /\
    (forall a b, In (a, b) pairs <-> exists i k, i < k /\ nth_error data i = Some a /\ nth_error data k = Some b /\ (distance a b <= radius)%Q /\ compared distance ps a b) /\
    laesa set_order pivot_order distance draw data radius pivots lo hi "connected_components" = Ok out /\
    is_components (pair_vertex pairs) (pair_link pairs) lo hi out.
Proof.
  intros Hne Hpos Hd n. unfold laesa.
  assert (En : match pivots with Some n => Ok n | None => match data with [] => Err ValueError | _ => Ok (Nat.log2_up (length data)) end end = Ok n).
  { unfold n, pivots_number. destruct pivots; [reflexivity|]. destruct data; [contradiction | reflexivity]. }
  rewrite En. cbn [bind]. unfold pivot_selection. destruct data as [|x0 data0] eqn:Ed; [contradiction|]. rewrite <- Ed in *.
  destruct (pivot_loop_ok data Hpos n (map (fun _ => 0%Q) data) [] draw) as (s & Es & Ns & Fs & _).
  { apply map_length. } { apply Forall_forall. intros a Ha. apply in_map_iff in Ha. destruct Ha as (_ & <- & _). apply Qle_refl. }
  { constructor. } { constructor. } { exact Hd. }
  rewrite Es. cbn [bind]. set (p := pivot_order s). assert (Fp : Forall (fun j => j < length data) p).
  { apply Forall_forall. intros j Hj. rewrite Forall_forall in Fs. apply Fs. apply (Permutation_in _ (pivot_order_perm s)). exact Hj. }
  destruct (Nat.le_gt_cases n (length p)) as [L|L].
  - right. destruct (mapM_index_map data (firstn n p)) as (ps & Eps & Fps).
    { apply Forall_forall. intros j Hj. rewrite Forall_forall in Fp. apply Fp. apply (firstn_In _ _ _ Hj). }
    assert (ED : mapM (fun i => let! b := index p i in let! pivot := index data b in Ok (map (distance pivot) data)) (seq 0 n) = Ok (map (fun q => map (distance q) data) ps)).
    { clear -Eps Fps L. assert (G : forall m k, k + m <= length p -> forall ps, Forall2 (fun i x => nth_error data i = Some x) (firstn m (skipn k p)) ps ->
        mapM (fun i => let! b := index p i in let! pivot := index data b in Ok (map (distance pivot) data)) (seq k m) = Ok (map (fun q => map (distance q) data) ps)).
      { clear. induction m as [|m IH]; intros k L ps F; cbn [seq mapM].
        - inversion F; subst. reflexivity.
        - unfold index at 1. destruct (nth_error p k) as [b|] eqn:Eb; [|apply nth_error_None in Eb; lia]. cbn [bind].
          assert (Sk : skipn k p = b :: skipn (S k) p).
          { clear -Eb. revert k Eb. induction p as [|y p IH]; intros [|k] Eb; try discriminate; cbn in *; [injection Eb as ->; reflexivity | apply IH; exact Eb]. }
          rewrite Sk in F. cbn [firstn] in F. inversion F as [|? x ? ps' Hx F']; subst. unfold index at 1. rewrite Hx. cbn [bind].
          rewrite (IH (S k) ltac:(lia) ps' F'). reflexivity. }
      apply (G n 0 ltac:(lia) ps). exact Fps. }
    rewrite ED. cbn [bind]. rewrite Eps. cbn [bind].
    destruct (clusters_from_pairs_components set_order set_order_perm (laesa_pairs distance data ps (map (fun q => map (distance q) data) ps) radius) lo hi false) as (out & Eo & Ho).
    exists ps, (laesa_pairs distance data ps (map (fun q => map (distance q) data) ps) radius), out.
    split; [rewrite <- (Forall2_len _ _ _ Fps), firstn_length; lia|].
    split. { intros q Hq. clear -Fps Hq. induction Fps as [|i x l xs E F IH]; [destruct Hq|]. destruct Hq as [<-|Hq]; [apply nth_error_In in E; exact E | apply IH; exact Hq]. }
    split; [intros a b; apply laesa_pairs_In|]. split; [exact Eo | exact Ho].
  - left. assert (EE : mapM (fun i => let! b := index p i in let! pivot := index data b in Ok (map (distance pivot) data)) (seq 0 n) = Err IndexError).
    { clear -L Fp. assert (G : forall m k, k <= length p -> length p < k + m ->
        mapM (fun i => let! b := index p i in let! pivot := index data b in Ok (map (distance pivot) data)) (seq k m) = Err IndexError).
      { induction m as [|m IH]; intros k L1 L2; [lia|]. cbn [seq mapM]. unfold index at 1. destruct (nth_error p k) as [b|] eqn:Eb; [|reflexivity]. cbn [bind].
        assert (Lk : k < length p) by (apply nth_error_Some; congruence).
        rewrite Forall_forall in Fp. pose proof (Fp b (nth_error_In _ _ Eb)) as Lb. unfold index at 1.
        destruct (nth_error data b) as [x|] eqn:Ex; [|apply nth_error_None in Ex; lia]. cbn [bind]. rewrite IH by lia. reflexivity. }
      apply G; lia. }
    rewrite EE. reflexivity.
Qed.

(** no failure when the items are distinct and there are not more pivots than items *)
Lemma laesa_total draw data radius pivots lo hi :
  data <> [] -> (forall x y, In x data -> In y data -> (0 <= distance x y)%Q) -> draw < length data -> distinct_items distance data ->
  pivots_number data pivots <= length data ->
  exists out, laesa set_order pivot_order distance draw data radius pivots lo hi "connected_components" = Ok out.
Proof.
  intros Hne Hpos Hd Hdi Hn. destruct (laesa_spec draw data radius pivots lo hi Hne Hpos Hd) as [K|(ps & pairs & out & _ & _ & _ & K & _)]; [|eauto].
  exfalso. unfold laesa in K.
  assert (En : match pivots with Some n => Ok n | None => match data with [] => Err ValueError | _ => Ok (Nat.log2_up (length data)) end end = Ok (pivots_number data pivots)).
  { unfold pivots_number. destruct pivots; [reflexivity|]. destruct data; [contradiction | reflexivity]. }
  rewrite En in K. cbn [bind] in K. set (n := pivots_number data pivots) in *. unfold pivot_selection in K. destruct data as [|x0 data0] eqn:Ed; [contradiction|]. rewrite <- Ed in *.
  destruct (pivot_loop_ok data Hpos n (map (fun _ => 0%Q) data) [] draw) as (s & Es & Ns & Fs & Ls).
  { apply map_length. } { apply Forall_forall. intros a Ha. apply in_map_iff in Ha. destruct Ha as (_ & <- & _). apply Qle_refl. }
  { constructor. } { constructor. } { exact Hd. }
  specialize (Ls Hdi (or_introl eq_refl) ltac:(cbn; lia)). cbn [length Nat.add] in Ls.
  rewrite Es in K. cbn [bind] in K. set (p := pivot_order s) in *.
  assert (Lp : length p = n) by (unfold p; rewrite (Permutation_length (pivot_order_perm s)); exact Ls).
  assert (Fp : forall j, In j p -> j < length data).
  { intros j Hj. rewrite Forall_forall in Fs. apply Fs. apply (Permutation_in _ (pivot_order_perm s)). exact Hj. }
  destruct (mapM_exists (fun i => let! b := index p i in let! pivot := index data b in Ok (map (distance pivot) data)) (fun _ _ => True) (seq 0 n)) as (D & ED & _).
  { intros i Hi. apply in_seq in Hi. unfold index. destruct (nth_error p i) as [b|] eqn:Eb; [|apply nth_error_None in Eb; lia]. cbn [bind].
    pose proof (Fp b (nth_error_In _ _ Eb)) as Lb. destruct (nth_error data b) as [x|] eqn:Ex; [|apply nth_error_None in Ex; lia]. cbn [bind]. eauto. }
  rewrite ED in K. cbn [bind] in K. destruct (mapM_index_map data (firstn n p)) as (ps & Eps & _).
  { apply Forall_forall. intros j Hj. apply Fp. apply (firstn_In _ _ _ Hj). }
  rewrite Eps in K. cbn [bind] in K.
  destruct (clusters_from_pairs_components set_order set_order_perm (laesa_pairs distance data ps D radius) lo hi false) as (out & Eo & _).
  congruence.
Qed.
End Laesa.
