(** Which pairs of records the join accepts. *)
From Coq Require Import QArith Sorted.
From Verif Require Import Base BaseFacts PairwiseModel GraphModel SortModel SortSpec SortFacts PPJoinModel PPJoinOrderProofs PPJoinProofs.
Open Scope nat_scope.
Open Scope list_scope.

Section Accept.
Context {T : Type} `{EqDec T}.
Variable leb : T -> T -> bool.
Hypothesis order : total_preorder leb.
Hypothesis antisym : forall a b, leb a b = true -> leb b a = true -> a = b.
Variable h : helper.
Variable threshold : Q.
Hypothesis bounds : helper_bounds h threshold.
Variables x y : list T.
Hypothesis Hx : increasing leb x.
Hypothesis Hy : increasing leb y.
Hypothesis Nx : x <> [].
Hypothesis Ny : y <> [].
Notation lx := (length x).
Notation ly := (length y).
Notation o := (common x y).
Notation r := (required h lx ly).
Notation ypre := (firstn (probe_length h ly) y).
Notation events := (events_upto h).
Notation value_upto := (value_upto leb h threshold).

Lemma len_x : 1 <= lx. Proof. destruct x; simpl; [congruence|lia]. Qed.
Lemma len_y : 1 <= ly. Proof. destruct y; simpl; [congruence|lia]. Qed.

Lemma nodup_x : NoDup x. Proof. eapply increasing_NoDup; eauto. Qed.
Lemma nodup_y : NoDup y. Proof. eapply increasing_NoDup; eauto. Qed.

Lemma firstn_In_lt (l : list T) n i v : i < n -> nth_error l i = Some v -> In v (firstn n l).
Proof. intros Hi E. apply (nth_error_In _ i). rewrite nth_error_firstn_lt; auto. Qed.
Lemma firstn_In_pos (l : list T) n v : In v (firstn n l) -> exists i, i < n /\ nth_error l i = Some v.
Proof.
  intros Hin. apply In_nth_error in Hin as [i Hi].
  assert (i < length (firstn n l)) by (apply nth_error_Some; congruence). rewrite firstn_length in *.
  exists i. split; [lia|]. rewrite nth_error_firstn_lt in Hi by lia. exact Hi.
Qed.
Lemma skipn_In_pos (l : list T) n v : In v (skipn n l) -> exists i, n <= i /\ nth_error l i = Some v.
Proof.
  revert n. induction l as [|a l IH]; intros n; [rewrite skipn_nil; intros []|].
  destruct n; simpl.
  - intros Hin. change (a = v \/ In v l) with (In v (a :: l)) in Hin. apply In_nth_error in Hin as [i Hi]. exists i. split; [lia|auto].
  - intros Hin. apply IH in Hin as (i & Hi & E). exists (S i). split; [lia|auto].
Qed.
Lemma skipn_In_ge (l : list T) n i v : n <= i -> nth_error l i = Some v -> In v (skipn n l).
Proof.
  revert n i. induction l as [|a l IH]; intros n i Hi E; [destruct i; discriminate|].
  destruct n; simpl.
  - apply nth_error_In in E. exact E.
  - destruct i; [lia|]. simpl in E. apply (IH n i); auto. lia.
Qed.

(** the events up to j are the common tokens of the prefixes *)
Lemma events_length j : j <= lx -> length (events j x y) = common (firstn j x) ypre.
Proof.
  induction j as [|j IH]; intros Hj; [reflexivity|]. rewrite events_upto_S, app_length, IH by lia.
  destruct (nth_error x j) as [w|] eqn:E; [|apply nth_error_None in E; lia].
  rewrite (firstn_snoc _ _ _ E), common_app. f_equal. unfold common. simpl.
  destruct (pos_of w ypre) eqn:P.
  - apply pos_of_Some, nth_error_In in P. destruct (memb_In w ypre); [reflexivity|tauto].
  - apply pos_of_None in P. destruct (memb_In w ypre); [tauto|reflexivity].
Qed.

(** a common token cuts the two records *)
Lemma cut t p w : nth_error x t = Some w -> nth_error y p = Some w -> p < probe_length h ly ->
  o = common (firstn t x) ypre + common (skipn t x) (skipn p y) /\
  common (skipn p y) (skipn t x) = common (skipn t x) (skipn p y).
Proof.
  intros Et Ep Hp. split.
  - rewrite <- (firstn_skipn t x) at 1. rewrite common_app. f_equal; apply common_ext; intros v Hv.
    + apply firstn_In_pos in Hv as (i & Hi & Ev). split.
      * intros Hin. apply In_nth_error in Hin as [j Ej]. apply (firstn_In_lt _ _ j); [|exact Ej].
        assert (L : ltb leb v w = true) by (apply (increasing_pos leb order antisym x i t); auto).
        apply (increasing_pos leb order antisym y j p v w Hy Ej Ep) in L. lia.
      * intros Hin. rewrite <- (firstn_skipn (probe_length h ly) y). apply in_app_iff. auto.
    + apply skipn_In_pos in Hv as (i & Hi & Ev). split.
      * intros Hin. apply In_nth_error in Hin as [j Ej]. apply (skipn_In_ge _ _ j); [|exact Ej].
        destruct (Nat.le_gt_cases p j) as [|L]; [auto|].
        apply (increasing_pos leb order antisym y j p v w Hy Ej Ep) in L.
        apply (increasing_pos leb order antisym x i t v w Hx Ev Et) in L. lia.
      * intros Hin. rewrite <- (firstn_skipn p y). apply in_app_iff. auto.
  - apply common_sym.
    + pose proof nodup_y as N. rewrite <- (firstn_skipn p y) in N. apply NoDup_app_iff in N. tauto.
    + pose proof nodup_x as N. rewrite <- (firstn_skipn t x) in N. apply NoDup_app_iff in N. tauto.
Qed.

(** a count is at most the number of events *)
Lemma step_count algo t p v : match step_val leb h threshold algo x y t p v with
  | Some (Some c) => match v with Some (Some c') => c <= c' + 1 | None => c <= 1 | Some None => False end
  | _ => True end.
Proof.
  unfold step_val, step. destruct algo.
  - destruct v as [[n|]|]; simpl; auto.
  - destruct v as [[n|]|]; simpl; auto; match goal with |- context [if ?b then _ else _] => destruct b end; simpl; auto.
  - destruct v as [[n|]|]; [| exact I |];
      destruct (pruned_by_suffix _ _ _ _ _ _ _ _) as [[|]|]; simpl; auto;
      match goal with |- context [if ?b then _ else _] => destruct b end; simpl; auto.
Qed.
Lemma value_le algo j : match value_upto algo j x y with Some (Some c) => c <= length (events j x y) | _ => True end.
Proof.
  unfold PPJoinProofs.value_upto.
  assert (G : forall ev v n, match v with Some (Some c) => c <= n | _ => True end ->
    match fold_left (fun v '(t, p) => step_val leb h threshold algo x y t p v) ev v with Some (Some c) => c <= n + length ev | _ => True end).
  { induction ev as [|[t p] ev IH]; intros v n Hv; simpl; [destruct v as [[c|]|]; lia|].
    specialize (IH (step_val leb h threshold algo x y t p v) (n + 1)). replace (n + S (length ev)) with (n + 1 + length ev) by lia.
    apply IH. pose proof (step_count algo t p v) as C.
    destruct (step_val leb h threshold algo x y t p v) as [[c|]|]; auto. destruct v as [[c'|]|]; lia. }
  apply (G (events j x y) None 0). exact I.
Qed.

(** nothing is lost when the overlap is reached *)
Definition counted (n : nat) : option (option nat) := match n with 0 => None | _ => Some (Some n) end.

Lemma value_all_pairs j : value_upto AllPairs j x y = counted (length (events j x y)).
Proof.
  unfold PPJoinProofs.value_upto.
  assert (G : forall ev n, fold_left (fun v '(t, p) => step_val leb h threshold AllPairs x y t p v) ev (counted n) = counted (n + length ev)).
  { induction ev as [|[t p] ev IH]; intros n; cbn [fold_left length]; [rewrite Nat.add_0_r; reflexivity|].
    replace (n + S (length ev)) with (S n + length ev) by lia. rewrite <- IH. f_equal.
    destruct n; [reflexivity|]. unfold step_val, step. cbn [counted option_map]. do 2 f_equal. lia. }
  apply (G (events j x y) 0).
Qed.

Lemma seg_skipn (l : list T) a : seg l (Z.of_nat a) (Z.of_nat (length l)) = skipn a l.
Proof. unfold seg, slice. rewrite !Nat2Z.id. apply firstn_all2. rewrite skipn_length. lia. Qed.

Lemma step_counted algo t p w n : nth_error x t = Some w -> nth_error y p = Some w -> p < probe_length h ly ->
  n = common (firstn t x) ypre -> r <= o -> Qle_bool (qn r) (qn lx - threshold) = true ->
  step leb h threshold algo x y t p (counted n) = Ok (Some (Some (n + 1))).
Proof.
  intros Et Ep Hp Hn Ho Hr. destruct (cut t p w Et Ep Hp) as [C1 C2]. rewrite <- Hn in C1.
  assert (Ht : t < lx) by (apply nth_error_Some; congruence). assert (Hp' : p < ly) by (apply nth_error_Some; congruence).
  assert (Hc : common (skipn t x) (skipn p y) <= ly - p).
  { rewrite <- C2. eapply Nat.le_trans; [apply common_le|]. rewrite skipn_length. lia. }
  assert (Hpr : pruned_by_suffix leb algo x y t p (Z.of_nat n) r = Ok false).
  { unfold pruned_by_suffix. destruct algo; auto.
    match goal with |- context [(0 <=? ?u)%Z] => destruct (0 <=? u)%Z eqn:E; [|reflexivity]; set (hd := u) in * end.
    apply Z.leb_le in E.
    destruct (suffix_filter_spec leb order antisym MAX_DEPTH y x (Z.of_nat p) (Z.of_nat ly) (Z.of_nat t) (Z.of_nat lx) hd)
      as (m & -> & _ & B); auto; try lia.
    { exists (Z.of_nat lx - Z.of_nat r + Z.of_nat n - Z.of_nat t)%Z. unfold hd. lia. }
    rewrite bind_Ok. f_equal. apply Z.ltb_ge. rewrite !seg_skipn in B. unfold ham in B. rewrite C2, !skipn_length in B. unfold hd in *. lia. }
  assert (H1 : Nat.ltb (n + (ly - p)) r = false) by (apply Nat.ltb_ge; lia).
  assert (H2 : Qle_bool (qn r) (qn n + (qn lx - threshold)) = true).
  { apply Qle_bool_iff in Hr. apply Qle_bool_iff. eapply Qle_trans; [exact Hr|].
    rewrite <- (Qplus_0_l (qn lx - threshold)) at 1. apply Qplus_le_compat; [|apply Qle_refl].
    unfold qn. change 0%Q with (inject_Z 0). rewrite <- Zle_Qle. lia. }
  unfold step. destruct algo.
  - destruct n; simpl; [reflexivity|]. do 4 f_equal.
  - destruct n.
    + simpl. simpl in Hpr, H1. rewrite Hr, H1. reflexivity.
    + cbn [counted]. rewrite Hpr, bind_Ok, H2, H1. reflexivity.
  - destruct n.
    + cbn [counted]. change 0%Z with (Z.of_nat 0). rewrite Hpr, bind_Ok, Hr. cbn [negb orb].
      rewrite Nat.add_0_l in H1. rewrite H1. reflexivity.
    + cbn [counted]. rewrite Hpr, bind_Ok, H2, H1. reflexivity.
Qed.

Lemma value_counted algo j : j <= lx -> r <= o -> algo = AllPairs \/ Qle_bool (qn r) (qn lx - threshold) = true ->
  value_upto algo j x y = counted (length (events j x y)).
Proof.
  intros Hj Ho [->|Hr]; [apply value_all_pairs|].
  induction j as [|j IH]; [reflexivity|]. unfold PPJoinProofs.value_upto. rewrite events_upto_S, fold_left_app, app_length.
  fold (value_upto algo j x y). rewrite IH by lia.
  destruct (nth_error x j) as [w|] eqn:E; [|apply nth_error_None in E; lia].
  destruct (pos_of w ypre) as [p|] eqn:P; simpl; [|rewrite Nat.add_0_r; reflexivity].
  pose proof (pos_of_lt _ _ _ P) as L. rewrite firstn_length in L. apply pos_of_Some in P. rewrite nth_error_firstn_lt in P by lia.
  unfold step_val. rewrite (step_counted algo j p w); auto; [|lia|apply events_length; lia].
  rewrite Nat.add_1_r. reflexivity.
Qed.

(** the default and plus modes give up when the required overlap is as long as the record *)
Lemma value_lost algo j : algo <> AllPairs -> Qle_bool (qn r) (qn lx - threshold) = false -> value_upto algo j x y = None.
Proof.
  intros Ha Hr. unfold PPJoinProofs.value_upto. induction (events j x y) as [|[t p] ev IH]; simpl; [reflexivity|].
  replace (step_val leb h threshold algo x y t p None) with (@None (option nat)); [exact IH|].
  unfold step_val, step. destruct algo; [congruence| |]; rewrite Hr; cbn [negb orb].
  - simpl. reflexivity.
  - destruct (pruned_by_suffix _ _ _ _ _ _ _ _) as [[|]|]; reflexivity.
Qed.

(** the last check *)
Lemma not_skipped : r <= o -> skipped leb h x y (length (events (probe_length h lx) x y)) = false.
Proof.
  intros Ho. pose proof len_x as Lx. pose proof len_y as Ly.
  pose proof (hb_index h threshold bounds _ Lx) as X1. pose proof (hb_probe h threshold bounds _ Lx) as X2. pose proof (hb_length h threshold bounds _ Lx) as X3.
  pose proof (hb_index h threshold bounds _ Ly) as Y1. pose proof (hb_probe h threshold bounds _ Ly) as Y2. pose proof (hb_length h threshold bounds _ Ly) as Y3.
  rewrite events_length by lia. unfold skipped.
  set (rr := r) in *. clearbody rr.
  set (pl := probe_length h lx) in *. set (il := index_length h ly) in *.
  destruct (nth_error y (il - 1)) as [b|] eqn:Eb; [|reflexivity].
  destruct (nth_error x (pl - 1)) as [a|] eqn:Ea; [|reflexivity].
  destruct (ltb leb b a) eqn:L.
  - apply Nat.ltb_ge. rewrite (common_sym x y nodup_x nodup_y) in Ho.
    rewrite <- (firstn_skipn il y) in Ho. rewrite common_app in Ho.
    pose proof (common_le (skipn il y) x) as C. rewrite skipn_length in C.
    assert (common (firstn il y) x <= common (firstn pl x) ypre); [|lia].
    rewrite (common_sym (firstn pl x) ypre);
      [|pose proof nodup_x as N; rewrite <- (firstn_skipn pl x) in N; apply NoDup_app_iff in N; tauto
       |pose proof nodup_y as N; rewrite <- (firstn_skipn (probe_length h ly) y) in N; apply NoDup_app_iff in N; tauto].
    replace (common (firstn il y) x) with (common (firstn il y) (firstn pl x)).
    + replace ypre with (firstn il y ++ firstn (probe_length h ly - il) (skipn il y)).
      * rewrite common_app. lia.
      * rewrite <- firstn_plus. f_equal. lia.
    + apply common_ext. intros v Hv. split; [intros Hin; rewrite <- (firstn_skipn pl x); apply in_app_iff; auto|].
      intros Hin. apply firstn_In_pos in Hv as (i & Hi & Ev). apply In_nth_error in Hin as [j Ej].
      apply (firstn_In_lt _ _ j); [|exact Ej].
      destruct (Nat.lt_ge_cases j pl) as [|G]; [auto|]. exfalso.
      assert (L1 : ltb leb v a = true).
      { destruct (Nat.eq_dec i (il - 1)) as [->|]; [congruence|]. eapply (lt_trans leb order); [|exact L].
        apply (increasing_pos leb order antisym y i (il - 1)); auto. lia. }
      apply (increasing_pos leb order antisym x j (pl - 1) v a Hx Ej Ea) in L1. lia.
  - apply Nat.ltb_ge. rewrite <- (firstn_skipn pl x) in Ho at 1. rewrite common_app in Ho.
    pose proof (common_le (skipn pl x) y) as C. rewrite skipn_length in C.
    assert (common (firstn pl x) y = common (firstn pl x) ypre); [|lia].
    apply common_ext. intros v Hv. split; [|intros Hin; rewrite <- (firstn_skipn (probe_length h ly) y); apply in_app_iff; auto].
    intros Hin. apply firstn_In_pos in Hv as (i & Hi & Ev). apply In_nth_error in Hin as [j Ej].
    apply (firstn_In_lt _ _ j); [|exact Ej].
    destruct (Nat.lt_ge_cases j il) as [|G]; [lia|]. exfalso.
    assert (L1 : ltb leb b v = true) by (apply (increasing_pos leb order antisym y (il - 1) j); auto; lia).
    destruct (Nat.eq_dec i (pl - 1)) as [->|]; [congruence|].
    assert (L2 : ltb leb v a = true) by (apply (increasing_pos leb order antisym x i (pl - 1)); auto; lia).
    pose proof (lt_trans leb order _ _ _ L1 L2). congruence.
Qed.

(** a common token is in the two prefixes *)
Lemma prefixes_meet : lx - o < probe_length h lx -> ly - o < probe_length h ly -> 1 <= o ->
  1 <= common (firstn (probe_length h lx) x) ypre.
Proof.
  intros H1 H2 H3.
  assert (S : exists a w b, x = a ++ w :: b /\ (forall v, In v a -> ~ In v y) /\ In w y).
  { clear - H3. unfold common in H3. induction x as [|u l IH]; simpl in H3; [lia|].
    destruct (memb_In u y) as [Hu|Hu].
    - exists [], u, l. split; [reflexivity|]. split; [intros v []|auto].
    - destruct (IH H3) as (a & w & b & -> & Ha & Hw). exists (u :: a), w, b. split; [reflexivity|].
      split; [intros v [<-|Hv]; auto|auto]. }
  destruct S as (a & w & b & E & Ha & Hw).
  apply in_split in Hw as (a' & b' & E').
  assert (Pa : nth_error x (length a) = Some w) by (rewrite E, nth_error_app2, Nat.sub_diag by lia; reflexivity).
  assert (Pb : nth_error y (length a') = Some w) by (rewrite E', nth_error_app2, Nat.sub_diag by lia; reflexivity).
  assert (La : length a < probe_length h lx).
  { assert (o <= lx - length a); [|pose proof (common_le x y); lia].
    rewrite E at 1. rewrite common_app, common_none by exact Ha. pose proof (common_le (w :: b) y) as C.
    rewrite E at 1. rewrite app_length. simpl in *. lia. }
  assert (Lb : length a' < probe_length h ly).
  { assert (o <= ly - length a'); [|pose proof (common_le_r x y nodup_x); lia].
    rewrite (common_sym x y nodup_x nodup_y). rewrite E' at 1. rewrite common_app, (common_none a').
    - pose proof (common_le (w :: b') x) as C. rewrite E' at 1. rewrite app_length. simpl in *. lia.
    - intros v Hv Hin. apply In_nth_error in Hv as [i Hi]. assert (Li : i < length a') by (apply nth_error_Some; congruence).
      assert (Ei : nth_error y i = Some v) by (rewrite E', nth_error_app1; auto).
      apply In_nth_error in Hin as [j Ej].
      assert (L : ltb leb v w = true) by (apply (increasing_pos leb order antisym y i (length a')); auto).
      apply (increasing_pos leb order antisym x j (length a) v w Hx Ej Pa) in L.
      apply (Ha v); [|eapply nth_error_In; exact Ei]. rewrite E, nth_error_app1 in Ej by exact L. eapply nth_error_In; exact Ej. }
  unfold common. assert (Hin : In w (filter (fun v => memb v ypre) (firstn (probe_length h lx) x))).
  { apply filter_In. split; [apply (firstn_In_lt _ _ (length a)); auto|]. apply memb_true. apply (firstn_In_lt _ _ (length a')); auto. }
  destruct (filter _ _); [destruct Hin|simpl; lia].
Qed.

Notation accepted := (accepted leb h threshold).

(** a pair is accepted only when its similarity reaches the threshold *)
Lemma accepted_sound algo : accepted algo x y = true -> reaches h lx ly o = true.
Proof.
  unfold PPJoinProofs.accepted, kept. intros A. apply andb_true_iff in A as [_ A].
  destruct (value _ _ _ _ _ _) as [[c|]|]; try discriminate. apply andb_true_iff in A as [_ A].
  pose proof (compute_overlap_spec leb order antisym x y r Hx Hy) as C.
  destruct (compute_overlap leb x y r) as [n|]; [|discriminate]. subst n. exact A.
Qed.

(** the filters only remove pairs *)
Lemma accepted_all_pairs algo : accepted algo x y = true -> accepted AllPairs x y = true.
Proof.
  unfold PPJoinProofs.accepted, value. rewrite value_all_pairs. intros A. apply andb_true_iff in A as [-> A].
  pose proof (value_le algo (probe_length h lx)) as V.
  assert (V1 : match value_upto algo (probe_length h lx) x y with Some (Some 0) => False | _ => True end).
  { unfold PPJoinProofs.value_upto. clear.
    assert (G : forall ev v, match v with Some (Some 0) => False | _ => True end ->
      match fold_left (fun v '(t, p) => step_val leb h threshold algo x y t p v) ev v with Some (Some 0) => False | _ => True end).
    { induction ev as [|[t p] ev IH]; intros v Hv; simpl; [exact Hv|]. apply IH. unfold step_val, step. destruct algo.
      - destruct v as [[[|n]|]|]; simpl; auto.
      - destruct v as [[n|]|]; simpl; auto; match goal with |- context [if ?b then _ else _] => destruct b end; simpl; auto. rewrite Nat.add_1_r. exact I.
      - destruct v as [[n|]|]; [|exact I|]; destruct (pruned_by_suffix _ _ _ _ _ _ _ _) as [[|]|]; simpl; auto;
          match goal with |- context [if ?b then _ else _] => destruct b end; simpl; auto. rewrite Nat.add_1_r. exact I. }
    apply G. exact I. }
  destruct (value_upto algo (probe_length h lx) x y) as [[c|]|]; try discriminate.
  destruct c as [|c]; [destruct V1|]. destruct (length (events (probe_length h lx) x y)) as [|n]; [lia|]. cbn [counted andb].
  unfold kept in *. apply andb_true_iff in A as [A1 ->]. rewrite andb_true_r. apply negb_true_iff in A1. apply negb_true_iff.
  unfold skipped in *. destruct (nth_error y _); [|auto]. destruct (nth_error x _); [|auto].
  destruct (ltb leb t t0); apply Nat.ltb_ge in A1; apply Nat.ltb_ge; lia.
Qed.

(** what makes a pair found *)
Lemma accepted_complete algo : min_possible_length h lx <= ly -> require_overlap h lx ly <= o -> reaches h lx ly o = true ->
  lx - o < probe_length h lx -> ly - o < probe_length h ly ->
  algo = AllPairs \/ Qle_bool (qn (require_overlap h lx ly)) (qn lx - threshold) = true ->
  accepted algo x y = true.
Proof.
  intros Hm Hr Hre P1 P2 Ha. pose proof len_x as Lx. pose proof (hb_length h threshold bounds _ Lx) as X3.
  assert (Er : r = require_overlap h lx ly) by (unfold required; rewrite (proj2 (Nat.leb_le _ _) Hm); reflexivity).
  unfold PPJoinProofs.accepted, value. rewrite (proj2 (Nat.leb_le _ _) Hm). cbn [andb].
  rewrite value_counted; [|lia|rewrite Er; exact Hr|rewrite Er; exact Ha].
  pose proof (prefixes_meet P1 P2 ltac:(lia)) as M. rewrite <- events_length in M by lia.
  destruct (length (events (probe_length h lx) x y)) as [|n] eqn:En; [lia|]. cbn [counted].
  unfold kept. rewrite <- En, not_skipped by (rewrite Er; exact Hr). cbn [negb andb].
  pose proof (compute_overlap_spec leb order antisym x y r Hx Hy) as C.
  destruct (compute_overlap leb x y r) as [m|]; [subst m; exact Hre|lia].
Qed.

Lemma accepted_lost algo : algo <> AllPairs -> Qle_bool (qn (require_overlap h lx ly)) (qn lx - threshold) = false ->
  accepted algo x y = false.
Proof.
  intros Ha Hr. unfold PPJoinProofs.accepted. destruct (Nat.leb (min_possible_length h lx) ly) eqn:Hm; [|reflexivity]. cbn [andb].
  unfold value. rewrite value_lost; auto. unfold required. rewrite Hm. exact Hr.
Qed.
End Accept.
