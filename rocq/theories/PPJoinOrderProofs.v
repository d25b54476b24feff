(** Increasing records, their common tokens, compute_overlap and suffix_filter. *)
From Coq Require Import QArith Sorted.
From Verif Require Import Base BaseFacts PairwiseModel SortModel SortSpec PPJoinModel.
Open Scope nat_scope.
Open Scope list_scope.

Lemma bind_Ok {A B} (a : A) (f : A -> res B) : bind (Ok a) f = f a.
Proof. reflexivity. Qed.

Section Order.
Context {T : Type} `{EqDec T}.
Variable leb : T -> T -> bool.
Hypothesis order : total_preorder leb.
Hypothesis antisym : forall a b, leb a b = true -> leb b a = true -> a = b.
Notation lt a b := (ltb leb a b = true).

Lemma lt_irrefl a : ~ lt a a.
Proof. unfold ltb. destruct (leb_total leb order a a) as [E|E]; rewrite E; discriminate. Qed.
Lemma lt_leb a b : lt a b -> leb a b = true.
Proof. unfold ltb. destruct (leb_total leb order a b) as [E|E]; rewrite E; [auto|discriminate]. Qed.
Lemma lt_trans a b c : lt a b -> lt b c -> lt a c.
Proof.
  intros H1 H2. unfold ltb. destruct (leb c a) eqn:E; [|reflexivity].
  pose proof (leb_trans leb order c a b E (lt_leb _ _ H1)) as E'. unfold ltb in H2. rewrite E' in H2. discriminate.
Qed.
Lemma lt_asym a b : lt a b -> ~ lt b a.
Proof. intros H1 H2. apply (lt_irrefl a). eapply lt_trans; eauto. Qed.
Lemma lt_cases a b : lt a b \/ a = b \/ lt b a.
Proof.
  unfold ltb. destruct (leb a b) eqn:E1, (leb b a) eqn:E2; auto.
Qed.
Lemma not_lt a b : ltb leb a b = false -> a = b \/ lt b a.
Proof. intros E. destruct (lt_cases a b) as [L|L]; [congruence|tauto]. Qed.

Definition increasing (l : list T) : Prop := StronglySorted (fun a b => lt a b) l.

Lemma increasing_nth l i j a b : increasing l -> i < j -> nth_error l i = Some a -> nth_error l j = Some b -> lt a b.
Proof.
  intros Hl. revert i j. induction Hl as [|x l Hl IH Hx]; intros i j Hij Ha Hb; [destruct i; discriminate|].
  destruct j; [lia|]. destruct i; simpl in *.
  - injection Ha as ->. rewrite Forall_forall in Hx. apply Hx. eapply nth_error_In; eauto.
  - apply (IH i j); auto. lia.
Qed.
Lemma increasing_pos l i j a b : increasing l -> nth_error l i = Some a -> nth_error l j = Some b -> (lt a b <-> i < j).
Proof.
  intros Hl Ha Hb. split; intros L.
  - destruct (Nat.lt_trichotomy i j) as [|[->|]]; auto.
    + rewrite Ha in Hb. injection Hb as ->. destruct (lt_irrefl _ L).
    + destruct (lt_asym _ _ L). eapply increasing_nth; eauto.
  - eapply increasing_nth; eauto.
Qed.
Lemma increasing_eq l i j a : increasing l -> nth_error l i = Some a -> nth_error l j = Some a -> i = j.
Proof.
  intros Hl Ha Hb. destruct (Nat.lt_trichotomy i j) as [L|[E|L]]; auto.
  - destruct (lt_irrefl a). eapply increasing_nth; [| exact L | |]; eauto.
  - destruct (lt_irrefl a). eapply increasing_nth; [| exact L | |]; eauto.
Qed.
Lemma increasing_NoDup l : increasing l -> NoDup l.
Proof.
  intros Hl. induction Hl as [|x l Hl IH Hx]; constructor; auto.
  intros Hin. rewrite Forall_forall in Hx. apply (lt_irrefl x). auto.
Qed.
Lemma increasing_app l l' : increasing (l ++ l') <-> increasing l /\ increasing l' /\ forall a b, In a l -> In b l' -> lt a b.
Proof.
  unfold increasing. induction l as [|x l IH]; simpl.
  - split; [intros; split; [constructor|split; [auto|tauto]]|tauto].
  - split.
    + intros Hs. inversion Hs as [|? ? Hs' Hx]; subst. apply IH in Hs' as (H1 & H2 & H3).
      rewrite Forall_app, !Forall_forall in Hx. destruct Hx as [Hx Hx'].
      split; [constructor; [auto|rewrite Forall_forall; auto]|]. split; [auto|].
      intros a b [->|Ha] Hb; auto.
    + intros (H1 & H2 & H3). inversion H1 as [|? ? H1' Hx]; subst. constructor; [apply IH; auto|].
      rewrite Forall_app, !Forall_forall. rewrite Forall_forall in Hx. auto.
Qed.
Lemma increasing_cons x l : increasing (x :: l) <-> increasing l /\ forall b, In b l -> lt x b.
Proof.
  split.
  - intros Hs. inversion Hs as [|? ? Hs' Hx]; subst. rewrite Forall_forall in Hx. auto.
  - intros [H1 H2]. constructor; auto. apply Forall_forall. auto.
Qed.

(** the number of tokens of [a] that are in [b] *)
Definition common (a b : list T) : nat := length (filter (fun v => memb v b) a).

Lemma common_le a b : common a b <= length a.
Proof. clear leb order antisym. unfold common. induction a; simpl; [lia|]. destruct (memb _ _); simpl; lia. Qed.
Lemma common_le_r a b : NoDup a -> common a b <= length b.
Proof. clear leb order antisym.
  intros Ha. unfold common. apply NoDup_incl_length; [apply NoDup_filter; auto|].
  intros v Hv. apply filter_In in Hv as [_ Hv]. apply memb_true in Hv. auto.
Qed.
Lemma common_sym a b : NoDup a -> NoDup b -> common a b = common b a.
Proof. clear leb order antisym.
  intros Ha Hb. unfold common. apply NoDup_same_length; try (apply NoDup_filter; auto).
  intros v. rewrite !filter_In, !memb_true. tauto.
Qed.
Lemma common_app a a' b : common (a ++ a') b = common a b + common a' b.
Proof. clear leb order antisym. unfold common. rewrite filter_app, app_length. reflexivity. Qed.
Lemma common_ext a b b' : (forall v, In v a -> (In v b <-> In v b')) -> common a b = common a b'.
Proof. clear leb order antisym.
  intros E. unfold common. f_equal. apply filter_ext_in. intros v Hv. specialize (E v Hv).
  destruct (memb_In v b), (memb_In v b'); tauto.
Qed.
Lemma common_none a b : (forall v, In v a -> ~ In v b) -> common a b = 0.
Proof. clear leb order antisym. intros E. unfold common. rewrite filter_none; [reflexivity|]. intros v Hv. apply memb_false. auto. Qed.

Lemma common_split_found al ar bl br w :
  (forall v, In v al -> lt v w) -> (forall v, In v ar -> lt w v) -> (forall v, In v bl -> lt v w) -> (forall v, In v br -> lt w v) ->
  common (al ++ w :: ar) (bl ++ w :: br) = common al bl + 1 + common ar br.
Proof.
  intros L1 L2 L3 L4. change (w :: ar) with ([w] ++ ar). rewrite !common_app.
  assert (common al (bl ++ w :: br) = common al bl) as ->.
  { apply common_ext. intros v Hv. rewrite in_app_iff. simpl. split; [|auto].
    intros [?|[->|Hb]]; auto; [destruct (lt_irrefl v); auto|]. destruct (lt_asym _ _ (L1 v Hv)). auto. }
  assert (common ar (bl ++ w :: br) = common ar br) as ->.
  { apply common_ext. intros v Hv. rewrite in_app_iff. simpl. split; [|auto].
    intros [Hb|[->|Hb]]; auto; [|destruct (lt_irrefl v); auto]. destruct (lt_asym _ _ (L2 v Hv)). auto. }
  assert (common [w] (bl ++ w :: br) = 1) as ->; [|lia].
  unfold common. simpl. destruct (memb_In w (bl ++ w :: br)) as [|N]; [reflexivity|].
  destruct N. apply in_app_iff. simpl. auto.
Qed.
Lemma common_split_absent al ar bl br w :
  (forall v, In v al -> lt v w) -> (forall v, In v ar -> lt w v) -> (forall v, In v bl -> lt v w) -> (forall v, In v br -> lt w v) ->
  common (al ++ w :: ar) (bl ++ br) = common al bl + common ar br.
Proof.
  intros L1 L2 L3 L4. change (w :: ar) with ([w] ++ ar). rewrite !common_app.
  assert (common al (bl ++ br) = common al bl) as ->.
  { apply common_ext. intros v Hv. rewrite in_app_iff. split; [|auto].
    intros [?|Hb]; auto. destruct (lt_asym _ _ (L1 v Hv)). auto. }
  assert (common ar (bl ++ br) = common ar br) as ->.
  { apply common_ext. intros v Hv. rewrite in_app_iff. split; [|auto].
    intros [Hb|Hb]; auto. destruct (lt_asym _ _ (L2 v Hv)). auto. }
  assert (common [w] (bl ++ br) = 0) as ->; [|lia].
  apply common_none. intros v [<-|[]]. rewrite in_app_iff. intros [Hb|Hb]; apply (lt_irrefl w); auto.
Qed.

(** compute_overlap *)
Lemma overlap_loop_spec fuel x y cur r : increasing x -> increasing y -> length x + length y <= fuel ->
  match overlap_loop leb fuel x y cur r with
  | Some n => n = cur + common x y
  | None => cur + common x y < r
  end.
Proof.
  revert x y cur. induction fuel as [|fuel IH]; intros x y cur Hx Hy Hf.
  - destruct x; simpl in *; [unfold common; simpl; lia|lia].
  - destruct x as [|a x]; [unfold common; simpl; lia|].
    destruct y as [|b y]; [rewrite common_none by (intros v _ []); simpl; lia|].
    pose proof Hx as Hx0. pose proof Hy as Hy0. apply increasing_cons in Hx as [Hx La]. apply increasing_cons in Hy as [Hy Lb].
    cbn [overlap_loop].
    destruct (Nat.ltb (length (a :: x) + cur) r || Nat.ltb (length (b :: y) + cur) r) eqn:E.
    { pose proof (common_le (a :: x) (b :: y)). pose proof (common_le_r (a :: x) (b :: y) (increasing_NoDup _ Hx0)).
      apply orb_true_iff in E as [E|E]; apply Nat.ltb_lt in E; lia. }
    destruct (eq_dec a b) as [->|Hab].
    + specialize (IH x y (cur + 1) Hx Hy). simpl in Hf.
      pose proof (common_split_found [] x [] y b) as C. simpl in C. rewrite C; auto; try (intros ? []).
      replace (common [] []) with 0 by reflexivity. destruct (overlap_loop leb fuel x y (cur + 1) r); lia.
    + destruct (ltb leb a b) eqn:L.
      * specialize (IH x (b :: y) cur Hx Hy0). simpl in Hf, IH.
        assert (common (a :: x) (b :: y) = common x (b :: y)) as ->.
        { change (a :: x) with ([a] ++ x). rewrite common_app, (common_none [a]); [lia|].
          intros v [<-|[]] [->|Hin]; [congruence|]. apply (lt_irrefl a). eapply lt_trans; [exact L|]. auto. }
        destruct (overlap_loop leb fuel x (b :: y) cur r); lia.
      * apply not_lt in L as [L|L]; [congruence|].
        specialize (IH (a :: x) y cur Hx0 Hy). simpl in Hf, IH.
        assert (common (a :: x) (b :: y) = common (a :: x) y) as ->.
        { apply common_ext. intros v Hv. simpl. split; [|auto]. intros [<-|]; auto.
          destruct Hv as [->|Hv]; [congruence|]. destruct (lt_irrefl b). eapply lt_trans; [exact L|]. auto. }
        destruct (overlap_loop leb fuel (a :: x) y cur r); lia.
Qed.
Lemma compute_overlap_spec x y r : increasing x -> increasing y ->
  match compute_overlap leb x y r with Some n => n = common x y | None => common x y < r end.
Proof. intros Hx Hy. apply (overlap_loop_spec (length x + length y) x y 0 r); auto. Qed.

(** indices *)
Open Scope Z_scope.
Notation zlen l := (Z.of_nat (length l)).

Lemma zindex_ok (l : list T) i : 0 <= i < zlen l -> exists v, zindex l i = Ok v.
Proof. clear leb order antisym.
  intros Hi. unfold zindex. replace (i <? 0) with false by lia. unfold index.
  destruct (nth_error l (Z.to_nat i)) eqn:E; [eauto|]. apply nth_error_None in E. lia.
Qed.
Lemma zindex_nth (l : list T) i v : 0 <= i -> zindex l i = Ok v -> nth_error l (Z.to_nat i) = Some v.
Proof. clear leb order antisym.
  intros Hi. unfold zindex. replace (i <? 0) with false by lia. unfold index.
  destruct (nth_error l (Z.to_nat i)); congruence.
Qed.
Lemma zindex_lt l i j a b : increasing l -> 0 <= i < j -> zindex l i = Ok a -> zindex l j = Ok b -> lt a b.
Proof.
  intros Hl Hij Ha Hb. apply zindex_nth in Ha; [|lia]. apply zindex_nth in Hb; [|lia].
  eapply increasing_nth; [exact Hl| |exact Ha|exact Hb]. lia.
Qed.

Lemma bisect_loop_spec fuel y w lo hi : increasing y -> 0 <= lo -> hi <= zlen y -> hi - lo <= Z.of_nat fuel ->
  exists p, bisect_loop leb fuel y w lo hi = Ok p /\ lo <= p <= Z.max lo hi /\
    (forall i v, lo <= i < p -> zindex y i = Ok v -> lt v w) /\
    (forall i v, p <= i < hi -> zindex y i = Ok v -> ~ lt v w).
Proof.
  intros Hy. revert lo hi. induction fuel as [|fuel IH]; intros lo hi Hlo Hhi Hf.
  - exists lo. simpl. replace (lo <? hi) with false by lia. split; [reflexivity|]. split; [lia|]. split; intros; lia.
  - cbn [bisect_loop]. destruct (lo <? hi) eqn:E.
    2:{ exists lo. split; [reflexivity|]. split; [lia|]. split; intros; lia. }
    apply Z.ltb_lt in E. set (mid := (lo + hi) / 2).
    assert (Hmid : lo <= mid < hi) by (unfold mid; split; [apply Z.div_le_lower_bound|apply Z.div_lt_upper_bound]; lia).
    destruct (zindex_ok y mid) as [m Hm]; [lia|]. rewrite Hm, bind_Ok.
    destruct (ltb leb m w) eqn:L.
    + destruct (IH (mid + 1) hi) as (p & Hp & Hr & H1 & H2); [lia..|]. exists p. split; [exact Hp|]. split; [lia|]. split.
      * intros i v Hi Hv. destruct (Z_le_gt_dec i mid) as [Hle|Hgt]; [|apply (H1 i); auto; lia].
        destruct (Z.eq_dec i mid) as [->|Hne]; [congruence|]. eapply lt_trans; [|exact L].
        eapply (zindex_lt y i mid); eauto. lia.
      * intros i v Hi. apply H2. lia.
    + destruct (IH lo mid) as (p & Hp & Hr & H1 & H2); [lia..|]. exists p. split; [exact Hp|]. split; [lia|]. split.
      * intros i v Hi. apply H1. lia.
      * intros i v Hi Hv. destruct (Z_lt_ge_dec i mid) as [Hlt|Hge]; [apply (H2 i); auto; lia|].
        intros L'. destruct (Z.eq_dec i mid) as [->|Hne]; [congruence|].
        assert (lt m w); [|congruence]. eapply lt_trans; [|exact L']. eapply (zindex_lt y mid i); eauto. lia.
Qed.
Lemma bisect_left_spec y w lo hi : increasing y -> 0 <= lo -> hi <= zlen y ->
  exists p, bisect_left leb y w lo hi = Ok p /\ lo <= p <= Z.max lo hi /\
    (forall i v, lo <= i < p -> zindex y i = Ok v -> lt v w) /\
    (forall i v, p <= i < hi -> zindex y i = Ok v -> ~ lt v w).
Proof.
  intros Hy Hlo Hhi. unfold bisect_left. replace (lo <? 0) with false by lia. apply bisect_loop_spec; auto. lia.
Qed.

(** parts of a record *)
Definition seg (l : list T) (a b : Z) : list T := slice (Z.to_nat a) (Z.to_nat b) l.

Lemma seg_length l a b : 0 <= a <= b -> b <= zlen l -> zlen (seg l a b) = b - a.
Proof. clear leb order antisym. intros Ha Hb. unfold seg. rewrite slice_length. lia. Qed.
Lemma seg_nth l a b i : 0 <= a -> a <= i < b -> nth_error (seg l a b) (Z.to_nat (i - a)) = nth_error l (Z.to_nat i).
Proof. clear leb order antisym. intros Ha Hi. unfold seg. rewrite nth_error_slice by lia. f_equal. lia. Qed.
Lemma seg_In l a b v : 0 <= a <= b -> b <= zlen l -> In v (seg l a b) <-> exists i, a <= i < b /\ zindex l i = Ok v.
Proof. clear leb order antisym.
  intros Ha Hb. split.
  - intros Hin. apply In_nth_error in Hin as [n Hn].
    assert (Hlt : (n < length (seg l a b))%nat) by (apply nth_error_Some; congruence).
    pose proof (seg_length l a b Ha Hb). exists (a + Z.of_nat n). split; [lia|].
    pose proof (seg_nth l a b (a + Z.of_nat n)) as E. replace (Z.to_nat (a + Z.of_nat n - a)) with n in E by lia.
    rewrite Hn in E. unfold zindex, index. replace (a + Z.of_nat n <? 0) with false by lia. rewrite <- E by lia. reflexivity.
  - intros (i & Hi & Hv). apply zindex_nth in Hv; [|lia]. rewrite <- (seg_nth l a b) in Hv by lia. eapply nth_error_In; eauto.
Qed.
Lemma seg_app l a m b : 0 <= a <= m -> m <= b -> b <= zlen l -> seg l a b = seg l a m ++ seg l m b.
Proof. clear leb order antisym.
  intros H1 H2 H3. unfold seg, slice. rewrite <- (firstn_skipn (Z.to_nat m - Z.to_nat a) (firstn (Z.to_nat b - Z.to_nat a) (skipn (Z.to_nat a) l))).
  rewrite firstn_firstn. f_equal; [f_equal; lia|].
  rewrite skipn_firstn_comm. f_equal; [lia|].
  clear - H1 H2 H3. replace (Z.to_nat m) with (Z.to_nat a + (Z.to_nat m - Z.to_nat a))%nat at 2 by lia.
  generalize (Z.to_nat m - Z.to_nat a)%nat as k. intros k. generalize (Z.to_nat a) as n. clear.
  induction l as [|x l IH]; intros n; [rewrite !skipn_nil; reflexivity|].
  destruct n; simpl; [reflexivity|]. apply IH.
Qed.
Lemma seg_cons l m b v : 0 <= m < b -> b <= zlen l -> zindex l m = Ok v -> seg l m b = v :: seg l (m + 1) b.
Proof. clear leb order antisym.
  intros H1 H2 Hv. rewrite (seg_app l m (m + 1) b) by lia.
  apply zindex_nth in Hv; [|lia]. pose proof (seg_nth l m (m + 1) m) as E.
  replace (Z.to_nat (m - m)) with 0%nat in E by lia. rewrite Hv in E.
  pose proof (seg_length l m (m + 1)) as L.
  destruct (seg l m (m + 1)) as [|a [|? ?]]; simpl in L; try lia. simpl in E.
  specialize (E ltac:(lia) ltac:(lia)). simpl. congruence.
Qed.
Lemma seg_NoDup l a b : increasing l -> NoDup (seg l a b).
Proof.
  intros Hl. apply increasing_NoDup in Hl. unfold seg, slice.
  rewrite <- (firstn_skipn (Z.to_nat a) l) in Hl. apply NoDup_app_iff in Hl as (_ & Hl & _).
  rewrite <- (firstn_skipn (Z.to_nat b - Z.to_nat a) (skipn (Z.to_nat a) l)) in Hl. apply NoDup_app_iff in Hl as (Hl & _). exact Hl.
Qed.

(** the Hamming distance of two sets of tokens *)
Definition ham (a b : list T) : Z := zlen a + zlen b - 2 * Z.of_nat (common a b).

Lemma ham_ge a b : NoDup a -> Z.abs (zlen a - zlen b) <= ham a b.
Proof. clear leb order antisym. intros Ha. pose proof (common_le a b). pose proof (common_le_r a b Ha). unfold ham. lia. Qed.

(** where the token [w] is, or would be, in y[ys..ye] *)
Lemma position_exists y w ys ye : increasing y -> 0 <= ys <= ye -> ye <= zlen y ->
  exists p, ys <= p <= ye /\ (forall i v, ys <= i < p -> zindex y i = Ok v -> lt v w) /\
    (forall i v, p <= i < ye -> zindex y i = Ok v -> ~ lt v w).
Proof.
  intros Hy H1 H2. destruct (bisect_left_spec y w ys ye Hy) as (p & _ & Hp & L & R); [lia..|].
  exists p. split; [lia|]. auto.
Qed.

Lemma split_found x y xs xe ys ye mid p w : increasing x -> increasing y -> 0 <= xs <= mid -> mid < xe -> xe <= zlen x ->
  0 <= ys <= p -> p < ye -> ye <= zlen y -> zindex x mid = Ok w -> zindex y p = Ok w ->
  ham (seg x xs xe) (seg y ys ye) = ham (seg x xs mid) (seg y ys p) + ham (seg x (mid + 1) xe) (seg y (p + 1) ye).
Proof.
  intros Hx Hy A1 A2 A3 B1 B2 B3 Hw Hp. unfold ham.
  rewrite !seg_length by lia.
  rewrite (seg_app x xs mid xe), (seg_cons x mid xe w) by (auto; lia).
  rewrite (seg_app y ys p ye), (seg_cons y p ye w) by (auto; lia).
  rewrite common_split_found; [lia|..]; intros v Hv; apply seg_In in Hv as (i & Hi & Hv); try lia.
  - eapply (zindex_lt x i mid); eauto; lia.
  - eapply (zindex_lt x mid i); eauto; lia.
  - eapply (zindex_lt y i p); eauto; lia.
  - eapply (zindex_lt y p i); eauto; lia.
Qed.
Lemma split_absent x y xs xe ys ye mid p w : increasing x -> increasing y -> 0 <= xs <= mid -> mid < xe -> xe <= zlen x ->
  0 <= ys <= p -> p <= ye -> ye <= zlen y -> zindex x mid = Ok w ->
  (forall i v, ys <= i < p -> zindex y i = Ok v -> lt v w) -> (forall i v, p <= i < ye -> zindex y i = Ok v -> lt w v) ->
  ham (seg x xs xe) (seg y ys ye) = ham (seg x xs mid) (seg y ys p) + ham (seg x (mid + 1) xe) (seg y p ye) + 1.
Proof.
  intros Hx Hy A1 A2 A3 B1 B2 B3 Hw L R. unfold ham.
  rewrite !seg_length by lia.
  rewrite (seg_app x xs mid xe), (seg_cons x mid xe w) by (auto; lia).
  rewrite (seg_app y ys p ye) by (auto; lia).
  rewrite common_split_absent; [lia|..]; intros v Hv; apply seg_In in Hv as (i & Hi & Hv); try lia; eauto.
  - eapply (zindex_lt x i mid); eauto; lia.
  - eapply (zindex_lt x mid i); eauto; lia.
Qed.

Definition same_parity (a b : Z) : Prop := exists k, a = b + 2 * k.

(** the positions of the window *)
Lemma window xlen ylen ystart hd : 0 < xlen -> 0 < ylen -> same_parity hd (xlen - ylen) ->
  exists e f, 2 * e = hd + (xlen - ylen) /\ 2 * f = hd - (xlen - ylen) /\
  (if ylen <=? xlen then
     (ystart + xlen / 2 - ((hd - (xlen - ylen)) / 2 + (xlen - ylen)), ystart + xlen / 2 + (hd - (xlen - ylen)) / 2)
   else
     (ystart + xlen / 2 - (hd - (ylen - xlen)) / 2, ystart + xlen / 2 + ((hd - (ylen - xlen)) / 2 + (ylen - xlen))))
  = (ystart + xlen / 2 - e, ystart + xlen / 2 + f).
Proof.
  intros Hx Hy [k Hk]. exists (xlen - ylen + k), k. split; [lia|]. split; [lia|].
  destruct (ylen <=? xlen) eqn:E.
  - replace ((hd - (xlen - ylen)) / 2) with k by (replace (hd - (xlen - ylen)) with (k * 2) by lia; rewrite Z.div_mul; lia).
    f_equal; lia.
  - replace ((hd - (ylen - xlen)) / 2) with (xlen - ylen + k)
      by (replace (hd - (ylen - xlen)) with ((xlen - ylen + k) * 2) by lia; rewrite Z.div_mul; lia).
    f_equal; lia.
Qed.

Lemma suffix_filter_spec levels : forall x y xs xe ys ye hd, increasing x -> increasing y ->
  0 <= xs <= xe -> xe <= zlen x -> 0 <= ys <= ye -> ye <= zlen y -> 0 <= hd -> same_parity hd ((xe - xs) - (ye - ys)) ->
  exists n, suffix_filter leb levels x y xs xe ys ye hd = Ok n /\ (hd < n \/ same_parity n ((xe - xs) - (ye - ys))) /\
    (ham (seg x xs xe) (seg y ys ye) <= hd -> n <= ham (seg x xs xe) (seg y ys ye)).
Proof.
  induction levels as [|levels IH]; intros x y xs xe ys ye hd Hx Hy Hxs Hxe Hys Hye Hhd Hpar.
  all: pose proof (ham_ge (seg x xs xe) (seg y ys ye) (seg_NoDup x xs xe Hx)) as Hge; rewrite !seg_length in Hge by lia.
  all: cbn [suffix_filter].
  all: destruct ((xe <=? xs) || (ye <=? ys)) eqn:E0;
    [ exists (Z.abs (xe - xs - (ye - ys))); split; [reflexivity|]; split; [|lia]; right;
      destruct (Z_le_gt_dec 0 (xe - xs - (ye - ys))); [exists 0; lia|exists (- (xe - xs - (ye - ys))); lia] |].
  all: apply orb_false_iff in E0 as [E1 E2]; apply Z.leb_gt in E1; apply Z.leb_gt in E2.
  all: assert (Hm : 0 <= (xe - xs) / 2 < xe - xs /\ 2 * ((xe - xs) / 2) <= xe - xs <= 2 * ((xe - xs) / 2) + 1)
    by (pose proof (Z.div_mod (xe - xs) 2); pose proof (Z.mod_pos_bound (xe - xs) 2); lia).
  all: destruct (window (xe - xs) (ye - ys) ys hd) as (e & f & He & Hf & ->); [lia..|exact Hpar|].
  all: destruct Hpar as [kp Hpar].
  all: set (m := (xe - xs) / 2) in *; clearbody m.
  all: destruct (zindex_ok x (xs + m)) as [w Hw]; [lia|].
  all: rewrite Hw, bind_Ok.
  (* the true position *)
  all: destruct (position_exists y w ys ye Hy) as (p0 & Hp0 & L0 & R0); [lia..|].
  all: assert (WIN : ham (seg x xs xe) (seg y ys ye) <= hd ->
      (p0 < ye /\ zindex y p0 = Ok w /\ ys + m - e <= p0 <= ys + m + f) \/
      ((forall i v, p0 <= i < ye -> zindex y i = Ok v -> lt w v) /\ ys + m - e + 1 <= p0 <= ys + m + f)).
  1, 3: intros Hh;
    assert (D : (p0 < ye /\ zindex y p0 = Ok w) \/ (forall i v, p0 <= i < ye -> zindex y i = Ok v -> lt w v));
    [ destruct (Z_lt_ge_dec p0 ye) as [Hlt|Hnl]; [|right; intros; lia];
      destruct (zindex_ok y p0) as [v Hv]; [lia|];
      destruct (eq_dec v w) as [->|Hne]; [left; auto|right]; intros i u Hi Hu;
      assert (lt w v) by (destruct (lt_cases v w) as [?|[?|?]]; [exfalso; apply (R0 p0 v); auto; lia|congruence|assumption]);
      destruct (Z.eq_dec i p0) as [->|]; [congruence|]; eapply lt_trans; [eassumption|]; eapply (zindex_lt y p0 i); eauto; lia
    | destruct D as [[D1 D2]|D];
      [ left; split; [auto|]; split; [auto|];
        rewrite (split_found x y xs xe ys ye (xs + m) p0 w) in Hh by (auto; lia);
        pose proof (ham_ge (seg x xs (xs + m)) (seg y ys p0) (seg_NoDup _ _ _ Hx)) as G1;
        pose proof (ham_ge (seg x (xs + m + 1) xe) (seg y (p0 + 1) ye) (seg_NoDup _ _ _ Hx)) as G2;
        rewrite !seg_length in G1 by lia; rewrite !seg_length in G2 by lia; lia
      | right; split; [auto|];
        rewrite (split_absent x y xs xe ys ye (xs + m) p0 w) in Hh by (auto; lia);
        pose proof (ham_ge (seg x xs (xs + m)) (seg y ys p0) (seg_NoDup _ _ _ Hx)) as G1;
        pose proof (ham_ge (seg x (xs + m + 1) xe) (seg y p0 ye) (seg_NoDup _ _ _ Hx)) as G2;
        rewrite !seg_length in G1 by lia; rewrite !seg_length in G2 by lia; lia ] ].
  (* the two tests *)
  all: assert (TL : exists b, (if ys <=? ys + m - e then let! v := zindex y (ys + m - e) in Ok (ltb leb w v) else Ok false) = Ok b /\
      (ham (seg x xs xe) (seg y ys ye) <= hd -> b = false)).
  1, 3: destruct (ys <=? ys + m - e) eqn:EL; [|eauto]; apply Z.leb_le in EL;
    destruct (zindex_ok y (ys + m - e)) as [v Hv]; [lia|]; rewrite Hv, bind_Ok; eexists; split; [reflexivity|];
    intros Hh; destruct (ltb leb w v) eqn:L; [exfalso|reflexivity];
    destruct (WIN Hh) as [(W1 & W2 & W3)|(W1 & W2)];
    [ destruct (Z.eq_dec p0 (ys + m - e)) as [Q|Q];
      [rewrite <- Q, W2 in Hv; injection Hv as ->; apply (lt_irrefl v L)|];
      apply (lt_asym _ _ L); eapply (zindex_lt y (ys + m - e) p0); eauto; lia
    | apply (lt_asym _ _ L); apply (L0 (ys + m - e)); auto; lia ].
  all: destruct TL as (b1 & -> & TL); rewrite bind_Ok.
  all: assert (TR : exists b, (if b1 then Ok true else if ys + m + f <? ye then let! v := zindex y (ys + m + f) in Ok (ltb leb v w) else Ok false) = Ok b /\
      (ham (seg x xs xe) (seg y ys ye) <= hd -> b = false)).
  1, 3: destruct b1; [exists true; split; auto|]; destruct (ys + m + f <? ye) eqn:ER; [|eauto]; apply Z.ltb_lt in ER;
    destruct (zindex_ok y (ys + m + f)) as [v Hv]; [lia|]; rewrite Hv, bind_Ok; eexists; split; [reflexivity|];
    intros Hh; destruct (ltb leb v w) eqn:L; [exfalso|reflexivity];
    apply (R0 (ys + m + f) v); auto; destruct (WIN Hh) as [(W1 & W2 & W3)|(W1 & W2)]; lia.
  all: destruct TR as (b2 & -> & TR); rewrite bind_Ok.
  all: destruct b2; [exists (hd + 1); split; [reflexivity|]; split; [left; lia|]; intros Hh; specialize (TR Hh); discriminate|].
  all: clear TL TR b1.
  (* the search *)
  all: set (sl := if ys <=? ys + m - e then ys + m - e else ys);
    set (sr := if ys + m + f + 1 <? ye then ys + m + f + 1 else ye).
  all: assert (Hsl : ys <= sl /\ sl = Z.max ys (ys + m - e)) by (unfold sl; destruct (ys <=? ys + m - e) eqn:?; lia).
  all: assert (Hsr : sr = Z.min (ys + m + f + 1) ye) by (unfold sr; destruct (ys + m + f + 1 <? ye) eqn:?; lia).
  all: clearbody sl sr.
  all: destruct (bisect_left_spec y w sl sr Hy) as (p & -> & Hp & L & R); [lia..|]; rewrite bind_Ok.
  all: assert (EP : ham (seg x xs xe) (seg y ys ye) <= hd -> p = p0).
  1, 3: intros Hh; assert (sl <= p0 <= sr) by (destruct (WIN Hh) as [(W1 & W2 & W3)|(W1 & W2)]; lia);
    destruct (Z.lt_trichotomy p p0) as [Q|[Q|Q]]; auto; exfalso;
    [ destruct (zindex_ok y p) as [v Hv]; [lia|]; apply (R p v); [lia|auto|]; apply (L0 p); auto; lia
    | destruct (zindex_ok y p0) as [v Hv]; [lia|]; apply (R0 p0 v); [lia|auto|]; apply (L p0); auto; lia ].
  all: assert (Hpy : ys <= p <= ye) by lia.
  all: assert (FD : exists b, (if p <? ye then let! v := zindex y p in Ok (if eq_dec v w then true else false) else Ok false) = Ok b /\
      (b = true -> p < ye /\ zindex y p = Ok w) /\ (b = false -> ham (seg x xs xe) (seg y ys ye) <= hd ->
        (forall i v, p <= i < ye -> zindex y i = Ok v -> lt w v))).
  1, 3: destruct (p <? ye) eqn:EY;
    [ apply Z.ltb_lt in EY; destruct (zindex_ok y p) as [v Hv]; [lia|]; rewrite Hv, bind_Ok; eexists; split; [reflexivity|];
      destruct (eq_dec v w) as [->|Hne]; split; try discriminate; auto; intros _ Hh; rewrite (EP Hh) in *;
      destruct (WIN Hh) as [(W1 & W2 & W3)|(W1 & W2)]; [congruence|auto]
    | apply Z.ltb_ge in EY; exists false; split; [reflexivity|]; split; [discriminate|]; intros; lia ].
  all: destruct FD as (fd & -> & FD1 & FD2); rewrite bind_Ok.
  all: destruct fd; [destruct FD1 as [FD1 FD1']; [reflexivity|]; clear FD2|clear FD1; specialize (FD2 eq_refl)].
  all: replace (xs + m - xs) with m by lia.
  all: set (H0 := ham (seg x xs xe) (seg y ys ye)) in *.
  (* lower bounds *)
  1, 3: assert (HS : H0 = ham (seg x xs (xs + m)) (seg y ys p) + ham (seg x (xs + m + 1) xe) (seg y (p + 1) ye))
    by (clear WIN EP L0 R0 Hp L R Hsl Hsr He Hf Hge; apply (split_found x y xs xe ys ye (xs + m) p w); [assumption|assumption|lia|lia|lia|lia|lia|lia|assumption|assumption]);
    pose proof (ham_ge (seg x xs (xs + m)) (seg y ys p) (seg_NoDup _ _ _ Hx)) as G1;
    pose proof (ham_ge (seg x (xs + m + 1) xe) (seg y (p + 1) ye) (seg_NoDup _ _ _ Hx)) as G2;
    rewrite !seg_length in G1 by lia; rewrite !seg_length in G2 by lia.
  3, 4: assert (HS : H0 <= hd -> H0 = ham (seg x xs (xs + m)) (seg y ys p) + ham (seg x (xs + m + 1) xe) (seg y p ye) + 1)
    by (clear WIN L R Hsl Hsr He Hf Hge; intros Hh; apply (split_absent x y xs xe ys ye (xs + m) p w); [assumption|assumption|lia|lia|lia|lia|lia|lia|assumption|rewrite (EP Hh); assumption|apply (FD2 Hh)]);
    pose proof (ham_ge (seg x xs (xs + m)) (seg y ys p) (seg_NoDup _ _ _ Hx)) as G1;
    pose proof (ham_ge (seg x (xs + m + 1) xe) (seg y p ye) (seg_NoDup _ _ _ Hx)) as G2;
    rewrite !seg_length in G1 by lia; rewrite !seg_length in G2 by lia.
  all: clear WIN EP L0 R0 Hp0 p0 L R Hp Hsl Hsr sl sr He Hf e f.
  all: set (lb := Z.abs (m - (p - ys))) in *.
  1, 2: set (rb := Z.abs (xe - (xs + m) - 1 - (ye - p - 1))) in *;
    assert (P : same_parity (lb + rb) (xe - xs - (ye - ys))) by
     (unfold lb, rb, same_parity; destruct (Z_le_gt_dec 0 (m - (p - ys))), (Z_le_gt_dec 0 (xe - (xs + m) - 1 - (ye - p - 1)));
      [exists 0|exists (- (xe - (xs + m) - 1 - (ye - p - 1)))|exists (- (m - (p - ys)))|
       exists (- (m - (p - ys)) - (xe - (xs + m) - 1 - (ye - p - 1)))]; lia).
  3, 4: set (rb := Z.abs (xe - (xs + m) - 1 - (ye - p))) in *;
    assert (P : same_parity (lb + rb + 1) (xe - xs - (ye - ys))) by
     (unfold lb, rb, same_parity; destruct (Z_le_gt_dec 0 (m - (p - ys))), (Z_le_gt_dec 0 (xe - (xs + m) - 1 - (ye - p)));
      [exists 0|exists (- (xe - (xs + m) - 1 - (ye - p)))|exists (- (m - (p - ys)))|
       exists (- (m - (p - ys)) - (xe - (xs + m) - 1 - (ye - p)))]; lia).
  (* the four cases *)
  - exists (lb + rb). split; [destruct (hd <? lb + rb); reflexivity|]. split; [auto|].
    intros _. rewrite HS. unfold lb, rb. clear - G1 G2. lia.
  - assert (G1' : lb <= ham (seg x xs (xs + m)) (seg y ys p)) by (unfold lb; clear - G1; lia).
    assert (G2' : rb <= ham (seg x (xs + m + 1) xe) (seg y (p + 1) ye)) by (unfold rb; clear - G2; lia).
    clearbody H0.
    destruct (hd <? lb + rb) eqn:E3; [exists (lb + rb); split; [reflexivity|]; split; [auto|]; clear - HS G1' G2'; lia|].
    apply Z.ltb_ge in E3.
    assert (Pl : same_parity (hd - rb) (xs + m - xs - (p - ys))).
    { clear - P Hpar. destruct P as [k P]. unfold same_parity.
      destruct (Z_le_gt_dec 0 (m - (p - ys))); [exists (kp - k)|exists (kp - k - (m - (p - ys)))]; unfold lb in *; lia. }
    destruct (IH x y xs (xs + m) ys p (hd - rb)) as (n1 & -> & Q1 & B1); [auto..|lia|lia|lia|lia|lia|exact Pl|].
    rewrite bind_Ok.
    destruct (hd <? n1 + rb) eqn:E4.
    { apply Z.ltb_lt in E4. exists (n1 + rb). split; [reflexivity|]. split; [left; lia|]. intros Hh. lia. }
    apply Z.ltb_ge in E4. destruct Q1 as [Q1|Q1]; [lia|].
    assert (Pr : same_parity (hd - n1) (xe - (xs + m + 1) - (ye - (p + 1)))).
    { clear - Hpar Q1. destruct Q1 as [k Q]. exists (kp - k). lia. }
    destruct (IH x y (xs + m + 1) xe (p + 1) ye (hd - n1)) as (n2 & -> & Q2 & B2); [auto..|lia|lia|lia|lia|unfold rb in *; lia|exact Pr|].
    rewrite bind_Ok. exists (n1 + n2). split; [reflexivity|]. split; [|intros; lia].
    destruct Q2 as [Q2|Q2]; [left; lia|right]. clear - Q1 Q2.
    destruct Q1 as [k1 Q1], Q2 as [k2 Q2]. exists (k1 + k2). lia.
  - assert (G1' : lb <= ham (seg x xs (xs + m)) (seg y ys p)) by (unfold lb; clear - G1; lia).
    assert (G2' : rb <= ham (seg x (xs + m + 1) xe) (seg y p ye)) by (unfold rb; clear - G2; lia).
    exists (lb + rb + 1). split; [destruct (hd <? lb + rb + 1); reflexivity|]. split; [auto|].
    intros Hh. rewrite (HS Hh). clear - G1' G2'. lia.
  - assert (G1' : lb <= ham (seg x xs (xs + m)) (seg y ys p)) by (unfold lb; clear - G1; lia).
    assert (G2' : rb <= ham (seg x (xs + m + 1) xe) (seg y p ye)) by (unfold rb; clear - G2; lia).
    clearbody H0.
    destruct (hd <? lb + rb + 1) eqn:E3;
      [exists (lb + rb + 1); split; [reflexivity|]; split; [auto|]; intros Hh; specialize (HS Hh); clear - HS G1' G2'; lia|].
    apply Z.ltb_ge in E3.
    assert (Pl : same_parity (hd - rb - 1) (xs + m - xs - (p - ys))).
    { clear - P Hpar. destruct P as [k P]. unfold same_parity.
      destruct (Z_le_gt_dec 0 (m - (p - ys))); [exists (kp - k)|exists (kp - k - (m - (p - ys)))]; unfold lb in *; lia. }
    destruct (IH x y xs (xs + m) ys p (hd - rb - 1)) as (n1 & -> & Q1 & B1); [auto..|lia|lia|lia|lia|lia|exact Pl|].
    rewrite bind_Ok.
    destruct (hd <? n1 + rb + 1) eqn:E4.
    { apply Z.ltb_lt in E4. exists (n1 + rb + 1). split; [reflexivity|]. split; [left; lia|]. intros Hh. specialize (HS Hh). lia. }
    apply Z.ltb_ge in E4. destruct Q1 as [Q1|Q1]; [lia|].
    assert (Pr : same_parity (hd - n1 - 1) (xe - (xs + m + 1) - (ye - p))).
    { clear - Hpar Q1. destruct Q1 as [k Q]. exists (kp - k). lia. }
    destruct (IH x y (xs + m + 1) xe p ye (hd - n1 - 1)) as (n2 & -> & Q2 & B2); [auto..|lia|lia|lia|lia|unfold rb in *; lia|exact Pr|].
    rewrite bind_Ok. exists (n1 + n2 + 1). split; [reflexivity|]. split; [|intros Hh; specialize (HS Hh); lia].
    destruct Q2 as [Q2|Q2]; [left; lia|right]. clear - Q1 Q2.
    destruct Q1 as [k1 Q1], Q2 as [k2 Q2]. exists (k1 + k2). lia.
Qed.

End Order.
