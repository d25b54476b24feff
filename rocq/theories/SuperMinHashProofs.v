From Coq Require Import QArith Qround Lqa.
From Verif Require Import Base BaseFacts LevModel LevProofs PairwiseModel MetricsModel MinHashModel MinHashSpec MinHashProofs.
Open Scope nat_scope.
Open Scope list_scope.

(** ** the shuffle *)
Lemma swap_length l j k : length (swap l j k) = length l.
Proof. unfold swap. rewrite map_length, seq_length. reflexivity. Qed.
Lemma nth_map_seq' (f : nat -> nat) n x : x < n -> nth x (map f (seq 0 n)) 0 = f x.
Proof. intros L. rewrite (nth_indep _ 0 (f 0)) by (rewrite map_length, seq_length; exact L). rewrite map_nth, seq_nth by exact L. reflexivity. Qed.
Lemma swap_nth l j k x : x < length l -> nth x (swap l j k) 0 = nth (if Nat.eqb x j then k else if Nat.eqb x k then j else x) l 0.
Proof. intros L. unfold swap. rewrite nth_map_seq' by exact L. reflexivity. Qed.

(** a list of m different numbers below m *)
Definition perm_of (m : nat) (l : list nat) : Prop := length l = m /\ (forall x, In x l -> x < m) /\ NoDup l.
Lemma perm_of_all m l x : perm_of m l -> x < m -> In x l.
Proof.
  intros [L [B N]] Hx. assert (I : incl (seq 0 m) l).
  { apply NoDup_length_incl; [exact N|rewrite seq_length; lia|]. intros y Hy. apply in_seq. specialize (B y Hy). lia. }
  apply I, in_seq. lia.
Qed.
Lemma perm_of_swap m l j k : j < m -> k < m -> perm_of m l -> perm_of m (swap l j k).
Proof.
  intros Hj Hk [L [B N]]. assert (F : forall x, x < m -> (if Nat.eqb x j then k else if Nat.eqb x k then j else x) < m).
  { intros x Hx. destruct (Nat.eqb x j); [exact Hk|]. destruct (Nat.eqb x k); [exact Hj|exact Hx]. }
  split; [rewrite swap_length; exact L|]. split.
  - intros x Hx. unfold swap in Hx. apply in_map_iff in Hx. destruct Hx as [y [<- Hy]]. apply in_seq in Hy. apply B, nth_In. rewrite L. apply F. lia.
  - apply (NoDup_nth _ 0). rewrite swap_length, L. intros x y Hx Hy. rewrite !swap_nth by lia. intros E.
    apply (proj1 (NoDup_nth l 0) N) in E; rewrite ?L; [|apply F; exact Hx|apply F; exact Hy].
    destruct (Nat.eqb_spec x j), (Nat.eqb_spec y j), (Nat.eqb_spec x k), (Nat.eqb_spec y k); lia.
Qed.
Lemma perm_of_seq m : perm_of m (seq 0 m).
Proof. split; [apply seq_length|]. split; [intros x Hx; apply in_seq in Hx; lia|apply seq_NoDup]. Qed.

Definition draw (r : nat -> Q) (m j : nat) : nat := j + Z.to_nat (Qfloor (r j * Qnat (m - j))).
Lemma draw_range r m j : unit_draws r -> j < m -> j <= draw r m j < m.
Proof.
  intros U L. unfold draw. split; [lia|]. destruct (U j) as [U0 U1].
  assert (P : (0 < Qnat (m - j))%Q) by (unfold Qnat; change 0%Q with (inject_Z 0); rewrite <- Zlt_Qlt; lia).
  assert (B : (Qfloor (r j * Qnat (m - j)) < Z.of_nat (m - j))%Z).
  { rewrite Zlt_Qlt. eapply Qle_lt_trans; [apply Qfloor_le|]. fold (Qnat (m - j)).
    setoid_replace (Qnat (m - j)) with (1 * Qnat (m - j))%Q at 2 by ring. apply Qmult_lt_compat_r; assumption. }
  lia.
Qed.
Lemma shuffle_S r m n : shuffle_until r m (S n) = swap (shuffle_until r m n) n (draw r m n).
Proof. unfold shuffle_until. rewrite seq_S, fold_left_app. reflexivity. Qed.
Lemma shuffle_perm r m n : unit_draws r -> n <= m -> perm_of m (shuffle_until r m n).
Proof.
  intros U. induction n as [|n IH]; intros L; [apply perm_of_seq|]. rewrite shuffle_S. pose proof (draw_range r m n U). apply perm_of_swap; try lia. apply IH. lia.
Qed.
Lemma shuffle_fixed r m j n : unit_draws r -> j < n -> n <= m -> nth j (shuffle_until r m n) 0 = nth j (shuffle_until r m (S j)) 0.
Proof.
  intros U Hj Hn. induction n as [|n IH]; [lia|]. destruct (Nat.eq_dec j n) as [->|N]; [reflexivity|].
  rewrite shuffle_S, swap_nth by (rewrite (proj1 (shuffle_perm r m n U ltac:(lia))); lia).
  pose proof (draw_range r m n U ltac:(lia)). destruct (Nat.eqb_spec j n); [lia|]. destruct (Nat.eqb_spec j (draw r m n)); [lia|]. apply IH; lia.
Qed.

(** the place of x *)
Fixpoint pos (l : list nat) (x : nat) : nat := match l with [] => 0 | y :: l => if Nat.eqb y x then 0 else S (pos l x) end.
Lemma pos_spec l x : In x l -> pos l x < length l /\ nth (pos l x) l 0 = x.
Proof.
  induction l as [|y l IH]; intros I; [contradiction|]. cbn. destruct (Nat.eqb_spec y x) as [->|N]; [split; [lia|reflexivity]|].
  destruct I as [->|I]; [contradiction|]. destruct (IH I). split; [lia|assumption].
Qed.
Lemma pos_unique l x n : NoDup l -> n < length l -> nth n l 0 = x -> pos l x = n.
Proof.
  intros N L E. assert (I : In x l) by (rewrite <- E; apply nth_In, L). destruct (pos_spec l x I) as [P1 P2].
  apply (proj1 (NoDup_nth l 0) N); [exact P1|exact L|]. congruence.
Qed.

(** ** counting *)
Definition cnt (m : nat) (f : nat -> nat) (c : nat) : Z := Z.of_nat (length (filter (fun x => Nat.eqb (f x) c) (seq 0 m))).
Lemma cnt_S m f c : cnt (S m) f c = (cnt m f c + if Nat.eqb (f m) c then 1 else 0)%Z.
Proof. unfold cnt. rewrite seq_S, filter_app, app_length. cbn. destruct (Nat.eqb (f m) c); cbn; lia. Qed.
Lemma cnt_ext m f g c : (forall x, x < m -> f x = g x) -> cnt m f c = cnt m g c.
Proof. induction m as [|m IH]; intros E; [reflexivity|]. rewrite !cnt_S, IH, E; auto. Qed.
Lemma cnt_change m f g x c : x < m -> (forall y, y < m -> y <> x -> f y = g y) ->
  cnt m g c = (cnt m f c - (if Nat.eqb (f x) c then 1 else 0) + (if Nat.eqb (g x) c then 1 else 0))%Z.
Proof.
  induction m as [|m IH]; intros L E; [lia|]. rewrite !cnt_S. destruct (Nat.eq_dec x m) as [->|N].
  - rewrite (cnt_ext m g f) by (intros y Hy; symmetry; apply E; lia). lia.
  - rewrite IH by (try lia; intros; apply E; lia). rewrite (E m) by lia. lia.
Qed.
Lemma cnt_pos m f c : cnt m f c <> 0%Z <-> exists x, x < m /\ f x = c.
Proof.
  unfold cnt. split.
  - intros H. destruct (filter _ _) as [|x l] eqn:F; [contradiction|]. assert (I : In x (filter (fun x => Nat.eqb (f x) c) (seq 0 m))) by (rewrite F; left; reflexivity).
    apply filter_In in I. destruct I as [I E]. apply in_seq in I. apply Nat.eqb_eq in E. exists x. split; [lia|exact E].
  - intros [x [L E]] Z. assert (I : In x (filter (fun x => Nat.eqb (f x) c) (seq 0 m))) by (apply filter_In; split; [apply in_seq; lia|apply Nat.eqb_eq, E]).
    destruct (filter _ _); [exact I|]. cbn in Z. lia.
Qed.

Lemma lower_spec b : forall a, (exists c, c <= a /\ nth c b 0%Z <> 0%Z) ->
  exists a', lower a b = Ok a' /\ a' <= a /\ nth a' b 0%Z <> 0%Z /\ forall c, a' < c <= a -> nth c b 0%Z = 0%Z.
Proof.
  induction a as [|a IH]; intros [c [L N]]; cbn [lower].
  - assert (c = 0) by lia. subst c. destruct (Z.eqb_spec (nth 0 b 0%Z) 0); [contradiction|]. exists 0. repeat split; auto. intros c Hc. lia.
  - destruct (Z.eqb_spec (nth (S a) b 0%Z) 0) as [Z|Z].
    + destruct IH as [a' [E [La [Na F]]]]; [exists c; split; [|exact N]; assert (c <> S a) by congruence; lia|].
      exists a'. split; [exact E|]. split; [lia|]. split; [exact Na|]. intros d Hd. destruct (Nat.eq_dec d (S a)) as [->|]; [exact Z|apply F; lia].
    + exists (S a). split; [reflexivity|]. split; [lia|]. split; [exact Z|]. intros d Hd. lia.
Qed.

(** ** floors *)
Lemma floor_plus r j : (0 <= r < 1)%Q -> Qfloor (r + Qnat j) = Z.of_nat j.
Proof.
  intros [A B]. assert (E : (Qfloor (r + Qnat j) < Z.of_nat j + 1)%Z).
  { rewrite Zlt_Qlt, inject_Z_plus. eapply Qle_lt_trans; [apply Qfloor_le|]. unfold Qnat. change (inject_Z 1) with 1%Q. lra. }
  assert (F : (Z.of_nat j <= Qfloor (r + Qnat j))%Z).
  { rewrite <- (Qfloor_Z (Z.of_nat j)). apply Qfloor_resp_le. unfold Qnat. lra. }
  lia.
Qed.

Lemma fold_min_spec (f : N -> nat) : forall tokens v0, let v := fold_left (fun v t => Nat.min v (f t)) tokens v0 in
  (v = v0 \/ exists t, In t tokens /\ v = f t) /\ v <= v0 /\ forall t, In t tokens -> v <= f t.
Proof.
  induction tokens as [|t l IH]; intros v0; cbn [fold_left]; [split; [left; reflexivity|]; split; [lia|intros t []]|].
  destruct (IH (Nat.min v0 (f t))) as [A [B C]]. cbn zeta in *. set (v := fold_left _ l _) in *. clearbody v. split; [|split; [lia|]].
  - destruct A as [A|[u [U A]]]; [|right; exists u; split; [right; exact U|exact A]].
    destruct (Nat.min_spec v0 (f t)) as [[_ E]|[_ E]]; [left; congruence|right; exists t; split; [left; reflexivity|congruence]].
  - intros u [<-|U]; [lia|apply C, U].
Qed.

Section Super.
Variable random : N -> nat -> Q.
Variable m : nat.
Hypothesis m_pos : 0 < m.
Hypothesis draws : forall t, unit_draws (random t).

Definition level (st : super) (x : nat) : nat := Z.to_nat (Qfloor (nth x (sh st) 0%Q)).
Definition cap (st : super) (x : nat) : nat := Nat.min (level st x) (m - 1).

Record shape (st : super) : Prop := {
  len_h : length (sh st) = m; len_p : length (sp st) = m; len_q : length (sq st) = m; len_b : length (sb st) = m;
  h_pos : forall x, x < m -> (0 <= nth x (sh st) 0)%Q;
  b_cnt : forall c, c < m -> nth c (sb st) 0%Z = cnt m (cap st) c;
  a_max : exists x, x < m /\ cap st x = sa st;
  a_all : forall x, x < m -> cap st x <= sa st }.

Definition view (i : nat) (q : list Z) (p : list nat) (x : nat) : nat := if Z.eqb (nth x q 0%Z) (Z.of_nat i) then nth x p 0 else x.

(** lazily reset positions of p *)
Definition touch (i x : nat) (qp : list Z * list nat) : list Z * list nat :=
  let '(q, p) := qp in if Z.eqb (nth x q 0%Z) (Z.of_nat i) then (q, p) else (upd q x (Z.of_nat i), upd p x x).
Lemma touch_spec i x q p q' p' : touch i x (q, p) = (q', p') -> length q = m -> length p = m -> x < m ->
  length q' = m /\ length p' = m /\ nth x q' 0%Z = Z.of_nat i /\ (forall y, nth y q 0%Z = Z.of_nat i -> nth y q' 0%Z = Z.of_nat i) /\
  (forall y, nth y q' 0%Z = nth y q 0%Z \/ nth y q' 0%Z = Z.of_nat i) /\
  forall y, y < m -> view i q' p' y = view i q p y.
Proof.
  unfold touch. intros E Lq Lp Lx. destruct (Z.eqb_spec (nth x q 0%Z) (Z.of_nat i)) as [Z|Z]; injection E as <- <-.
  - repeat split; auto.
  - rewrite !upd_length. assert (U : forall y, nth y (upd q x (Z.of_nat i)) 0%Z = if Nat.eqb y x then Z.of_nat i else nth y q 0%Z).
    { intros y. rewrite nth_upd. destruct (Nat.ltb_spec x (length q)); [|lia]. rewrite andb_true_r. reflexivity. }
    repeat split; auto.
    + rewrite U, Nat.eqb_refl. reflexivity.
    + intros y Hy. rewrite U. destruct (Nat.eqb y x); auto.
    + intros y. rewrite U. destruct (Nat.eqb y x); auto.
    + intros y Hy. unfold view. rewrite U, nth_upd. destruct (Nat.eqb_spec y x) as [->|N].
      * rewrite Z.eqb_refl. destruct (Nat.ltb_spec x (length p)); [|lia]. cbn. destruct (Z.eqb_spec (nth x q 0%Z) (Z.of_nat i)); [contradiction|reflexivity].
      * cbn. reflexivity.
Qed.

(** where the p and q of a state are after one turn *)
Definition turn_pq (i : nat) (token : N) (j : nat) (st : super) : list Z * list nat :=
  let k := draw (random token) m j in
  let '(q, p) := touch i k (touch i j (sq st, sp st)) in
  (q, upd (upd p j (nth k p 0)) k (nth j p 0)).

Lemma super_step_eq i token j st : super_step random m i token j st =
  let '(q, p) := turn_pq i token j st in
  let x := nth j p 0 in
  let hx := nth x (sh st) 0%Q in
  let v := (random token j + Qnat j)%Q in
  if negb (Qle_bool hx v) then
    let j2 := cap st x in
    if Nat.ltb j j2 then
      let b := upd (sb st) j2 (nth j2 (sb st) 0 - 1)%Z in
      let b := upd b j (nth j b 0 + 1)%Z in
      let! a := lower (sa st) b in
      Ok {| sh := upd (sh st) x v; sp := p; sq := q; sb := b; sa := a |}
    else Ok {| sh := upd (sh st) x v; sp := p; sq := q; sb := sb st; sa := sa st |}
  else Ok {| sh := sh st; sp := p; sq := q; sb := sb st; sa := sa st |}.
Proof.
  unfold super_step, turn_pq, touch, cap, level, draw.
  destruct (Z.eqb (nth j (sq st) 0%Z) (Z.of_nat i)); cbn beta iota zeta;
  match goal with |- context [Z.eqb ?a ?b] => destruct (Z.eqb a b) end; reflexivity.
Qed.

Lemma turn_pq_spec i token j st n q p : j < m -> length (sq st) = m -> length (sp st) = m ->
  (forall x, x < m -> view i (sq st) (sp st) x = nth x (shuffle_until (random token) m j) 0) ->
  (forall x, x < m -> (nth x (sq st) 0 <= n)%Z) -> (Z.of_nat i <= n)%Z ->
  turn_pq i token j st = (q, p) ->
  length q = m /\ length p = m /\ (forall x, x < m -> (nth x q 0 <= n)%Z) /\
  (forall x, x < m -> view i q p x = nth x (shuffle_until (random token) m (S j)) 0) /\
  nth j p 0 = nth j (shuffle_until (random token) m (S j)) 0.
Proof.
  intros Hj Lq Lp V Bn Hi. unfold turn_pq. set (k := draw (random token) m j). pose proof (draw_range (random token) m j (draws token) Hj) as K. fold k in K.
  destruct (touch i j (sq st, sp st)) as [q1 p1] eqn:T1. destruct (touch i k (q1, p1)) as [q2 p2] eqn:T2. intros E. injection E as <- <-.
  apply touch_spec in T1; auto. destruct T1 as [A1 [A2 [A3 [_ [A5 A6]]]]].
  apply touch_spec in T2; auto; [|lia]. destruct T2 as [B1 [B2 [B3 [B4 [B5 B6]]]]].
  assert (Qj : nth j q2 0%Z = Z.of_nat i) by (apply B4, A3).
  assert (V2 : forall x, x < m -> view i q2 p2 x = nth x (shuffle_until (random token) m j) 0) by (intros x Hx; rewrite B6, A6, V; auto).
  assert (Pj : nth j p2 0 = nth j (shuffle_until (random token) m j) 0) by (rewrite <- V2 by exact Hj; unfold view; rewrite Qj, Z.eqb_refl; reflexivity).
  assert (Pk : nth k p2 0 = nth k (shuffle_until (random token) m j) 0) by (rewrite <- V2 by lia; unfold view; rewrite B3, Z.eqb_refl; reflexivity).
  assert (P3 : forall x, nth x (upd (upd p2 j (nth k p2 0)) k (nth j p2 0)) 0 = if Nat.eqb x k then nth j p2 0 else if Nat.eqb x j then nth k p2 0 else nth x p2 0).
  { intros x. rewrite !nth_upd, upd_length, B2. destruct (Nat.ltb_spec k m); [|lia]. destruct (Nat.ltb_spec j m); [|lia]. rewrite !andb_true_r. reflexivity. }
  assert (V3 : forall x, x < m -> view i q2 (upd (upd p2 j (nth k p2 0)) k (nth j p2 0)) x = nth x (shuffle_until (random token) m (S j)) 0).
  { intros x Hx. rewrite shuffle_S, swap_nth by (rewrite (proj1 (shuffle_perm _ m j (draws token) ltac:(lia))); exact Hx). fold k.
    unfold view. rewrite P3. destruct (Nat.eqb_spec x j) as [->|N].
    - rewrite Qj, Z.eqb_refl. destruct (Nat.eqb_spec j k) as [<-|]; [exact Pj|exact Pk].
    - destruct (Nat.eqb_spec x k) as [->|N2].
      + rewrite B3, Z.eqb_refl. exact Pj.
      + rewrite <- V2 by exact Hx. reflexivity. }
  split; [exact B1|]. split; [rewrite !upd_length; exact B2|]. split; [|split; [exact V3|]].
  - intros x Hx. destruct (B5 x) as [->| ->]; [|exact Hi]. destruct (A5 x) as [->| ->]; [apply Bn, Hx|exact Hi].
  - rewrite <- V3 by exact Hj. unfold view. rewrite Qj, Z.eqb_refl. reflexivity.
Qed.

Definition pq_ok (i : nat) (token : N) (j : nat) (st : super) : Prop :=
  (forall x, x < m -> view i (sq st) (sp st) x = nth x (shuffle_until (random token) m j) 0) /\
  (forall x, x < m -> (nth x (sq st) 0 <= Z.of_nat i)%Z).

Lemma floor_level st x : shape st -> x < m -> Qfloor (nth x (sh st) 0%Q) = Z.of_nat (level st x).
Proof.
  intros Sh Hx. unfold level. rewrite Z2Nat.id; [reflexivity|]. rewrite <- (Qfloor_Z 0). apply Qfloor_resp_le. apply (h_pos st Sh x Hx).
Qed.

Lemma super_step_spec i token j st : shape st -> j <= sa st -> pq_ok i token j st ->
  exists st', super_step random m i token j st = Ok st' /\ shape st' /\ pq_ok i token (S j) st' /\
    forall y, y < m -> level st' y = if Nat.eqb y (nth j (shuffle_until (random token) m (S j)) 0) then Nat.min (level st y) j else level st y.
Proof.
  intros Sh Hj [V Bq].
  assert (Ja : sa st < m) by (destruct (a_max st Sh) as [y [_ <-]]; unfold cap; lia).
  assert (Jm : j < m) by lia.
  rewrite super_step_eq. destruct (turn_pq i token j st) as [q p] eqn:T.
  destruct (turn_pq_spec i token j st (Z.of_nat i) q p Jm (len_q st Sh) (len_p st Sh) V Bq (Z.le_refl _) T) as [Lq [Lp [Bq' [V' Pj]]]].
  rewrite Pj. set (x := nth j (shuffle_until (random token) m (S j)) 0). set (v := (random token j + Qnat j)%Q).
  assert (Hx : x < m).
  { destruct (shuffle_perm (random token) m (S j) (draws token) ltac:(lia)) as [L [B _]]. apply B, nth_In. lia. }
  assert (Fv : Qfloor v = Z.of_nat j) by (apply floor_plus, draws).
  pose proof (floor_level st x Sh Hx) as Fx. cbn beta zeta.
  destruct (Qle_bool (nth x (sh st) 0%Q) v) eqn:C; cbn [negb].
  - (* the value is kept *)
    eexists. split; [reflexivity|]. split; [|split; [split; [exact V'|exact Bq']|]].
    + destruct Sh. split; cbn; assumption.
    + intros y Hy. destruct (Nat.eqb_spec y x) as [->|N]; [|reflexivity]. change (level st x = Nat.min (level st x) j).
      apply Qle_bool_iff in C. apply Qfloor_resp_le in C. lia.
  - assert (Lt : (v < nth x (sh st) 0)%Q) by (apply Qnot_le_lt; intros D; apply Qle_bool_iff in D; congruence).
    assert (Lx : j <= level st x) by (apply Qlt_le_weak, Qfloor_resp_le in Lt; lia).
    assert (Vn : (0 <= v)%Q) by (unfold v; pose proof (draws token j); assert (0 <= Qnat j)%Q by (unfold Qnat; change 0%Q with (inject_Z 0); rewrite <- Zle_Qle; lia); lra).
    assert (Lev : forall a b, forall y, y < m -> level {| sh := upd (sh st) x v; sp := p; sq := q; sb := b; sa := a |} y = if Nat.eqb y x then j else level st y).
    { intros a b y Hy. unfold level. cbn [sh]. rewrite nth_upd, (len_h st Sh). destruct (Nat.ltb_spec x m); [|lia]. rewrite andb_true_r.
      destruct (Nat.eqb y x); [rewrite Fv; apply Nat2Z.id|reflexivity]. }
    assert (Cx : cap st x = Nat.min (level st x) (m - 1)) by reflexivity.
    assert (Hh : forall y, y < m -> (0 <= nth y (upd (sh st) x v) 0)%Q).
    { intros y Hy. rewrite nth_upd. destruct (_ && _); [exact Vn|apply (h_pos st Sh), Hy]. }
    assert (Res : forall a b, forall y, y < m -> level {| sh := upd (sh st) x v; sp := p; sq := q; sb := b; sa := a |} y = if Nat.eqb y x then Nat.min (level st y) j else level st y).
    { intros a b y Hy. rewrite Lev by exact Hy. destruct (Nat.eqb_spec y x) as [->|]; lia. }
    assert (Cap : forall a b, forall y, y < m -> cap {| sh := upd (sh st) x v; sp := p; sq := q; sb := b; sa := a |} y = if Nat.eqb y x then j else cap st y).
    { intros a b y Hy. unfold cap. rewrite Lev by exact Hy. destruct (Nat.eqb y x); lia. }
    destruct (Nat.ltb_spec j (cap st x)) as [J2|J2].
    + set (b1 := upd (sb st) (cap st x) _). set (b2 := upd b1 j _).
      assert (B2 : forall c, c < m -> nth c b2 0%Z = cnt m (fun y => if Nat.eqb y x then j else cap st y) c).
      { intros c Hc. rewrite (cnt_change m (cap st) _ x c Hx) by (intros y _ Ny; destruct (Nat.eqb_spec y x); [contradiction|reflexivity]).
        rewrite Nat.eqb_refl. rewrite <- (b_cnt st Sh) by exact Hc.
        unfold b2, b1. rewrite !nth_upd, !upd_length, (len_b st Sh). destruct (Nat.ltb_spec j m); [|lia]. destruct (Nat.ltb_spec (cap st x) m); [|unfold cap in *; lia].
        rewrite !andb_true_r. rewrite (Nat.eqb_sym (cap st x) c), (Nat.eqb_sym j c).
        destruct (Nat.eqb_spec j (cap st x)); [lia|]. destruct (Nat.eqb_spec c j) as [e|e], (Nat.eqb_spec c (cap st x)) as [e'|e']; [lia|rewrite e; lia|rewrite e'; lia|lia]. }
      destruct (lower_spec b2 (sa st)) as [a' [El [La [Na Fa]]]].
      { exists j. split; [exact Hj|]. rewrite B2 by exact Jm. apply cnt_pos. exists x. split; [exact Hx|]. rewrite Nat.eqb_refl. reflexivity. }
      rewrite El. cbn [bind]. eexists. split; [reflexivity|]. split; [|split; [split; [exact V'|exact Bq']|apply Res]].
      split; cbn [sh sp sq sb sa].
      * rewrite upd_length. apply (len_h st Sh).
      * exact Lp.
      * exact Lq.
      * unfold b2, b1. rewrite !upd_length. apply (len_b st Sh).
      * exact Hh.
      * intros c Hc. rewrite B2 by exact Hc. apply cnt_ext. intros y Hy. symmetry. apply Cap, Hy.
      * rewrite B2 in Na by lia. apply cnt_pos in Na. destruct Na as [y [Hy Ey]]. exists y. split; [exact Hy|]. rewrite Cap by exact Hy. exact Ey.
      * intros y Hy. rewrite Cap by exact Hy.
        destruct (Nat.le_gt_cases (if Nat.eqb y x then j else cap st y) a') as [G|G]; [exact G|]. exfalso.
        assert (Up : (if Nat.eqb y x then j else cap st y) <= sa st) by (destruct (Nat.eqb y x); [exact Hj|apply (a_all st Sh), Hy]).
        pose proof (Fa _ (conj G Up)) as Z. rewrite B2 in Z by lia. apply (proj2 (cnt_pos m (fun y => if Nat.eqb y x then j else cap st y) (if Nat.eqb y x then j else cap st y))) in Z; [exact Z|].
        exists y. split; [exact Hy|reflexivity].
    + assert (Cj : cap st x = j) by lia.
      assert (Same : forall a b, forall y, y < m -> cap {| sh := upd (sh st) x v; sp := p; sq := q; sb := b; sa := a |} y = cap st y).
      { intros a b y Hy. rewrite Cap by exact Hy. destruct (Nat.eqb_spec y x) as [->|]; [symmetry; exact Cj|reflexivity]. }
      eexists. split; [reflexivity|]. split; [|split; [split; [exact V'|exact Bq']|apply Res]].
      destruct Sh. split; cbn [sh sp sq sb sa]; try assumption.
      * rewrite upd_length. assumption.
      * intros c Hc. rewrite b_cnt0 by exact Hc. apply cnt_ext. intros y Hy. symmetry. apply Same, Hy.
      * destruct a_max0 as [y [Hy Ey]]. exists y. split; [exact Hy|]. rewrite Same by exact Hy. exact Ey.
      * intros y Hy. rewrite Same by exact Hy. apply a_all0, Hy.
Qed.

Definition plc (token : N) (x : nat) : nat := pos (shuffle (random token) m) x.

Lemma super_loop_spec i token : forall fuel j st L0, j + fuel = m -> shape st -> pq_ok i token j st ->
  (forall y, y < m -> level st y = if Nat.ltb (plc token y) j then Nat.min (L0 y) (plc token y) else L0 y) ->
  exists st', super_loop random fuel m i token j st = Ok st' /\ shape st' /\ (forall x, x < m -> (nth x (sq st') 0 <= Z.of_nat i)%Z) /\
    forall y, y < m -> level st' y = Nat.min (L0 y) (plc token y).
Proof.
  pose proof (shuffle_perm (random token) m m (draws token) (Nat.le_refl m)) as P. fold (shuffle (random token) m) in P.
  assert (PL : forall y, y < m -> plc token y < m /\ nth (plc token y) (shuffle (random token) m) 0 = y).
  { intros y Hy. unfold plc. destruct (pos_spec (shuffle (random token) m) y) as [P1 P2]; [apply (perm_of_all m); assumption|]. rewrite (proj1 P) in P1. auto. }
  induction fuel as [|fuel IH]; intros j st L0 E Sh PQ Lv; cbn [super_loop].
  - assert (Ja : sa st < m) by (destruct (a_max st Sh) as [y [_ <-]]; unfold cap; lia).
    destruct (Nat.leb_spec j (sa st)); [lia|]. exists st. split; [reflexivity|]. split; [exact Sh|]. split; [apply PQ|].
    intros y Hy. rewrite Lv by exact Hy. destruct (PL y Hy). destruct (Nat.ltb_spec (plc token y) j); [reflexivity|lia].
  - destruct (Nat.leb_spec j (sa st)) as [Ja|Ja].
    + destruct (super_step_spec i token j st Sh Ja PQ) as [st1 [E1 [Sh1 [PQ1 Lv1]]]]. rewrite E1. cbn [bind].
      apply (IH (S j) st1 L0); [lia|exact Sh1|exact PQ1|]. intros y Hy. rewrite Lv1 by exact Hy. rewrite Lv by exact Hy.
      assert (X : nth j (shuffle_until (random token) m (S j)) 0 = nth j (shuffle (random token) m) 0) by (symmetry; apply shuffle_fixed; [apply draws|lia|lia]).
      rewrite X. destruct (PL y Hy) as [P1 P2]. destruct (Nat.eqb_spec y (nth j (shuffle (random token) m) 0)) as [Ey|Ny].
      * assert (plc token y = j) as -> by (unfold plc; apply pos_unique; [apply P|rewrite (proj1 P); lia|symmetry; exact Ey]).
        destruct (Nat.ltb_spec j j); [lia|]. destruct (Nat.ltb_spec j (S j)); [reflexivity|lia].
      * assert (plc token y <> j) by (intros F; apply Ny; rewrite <- F; symmetry; exact P2).
        destruct (Nat.ltb_spec (plc token y) j), (Nat.ltb_spec (plc token y) (S j)); lia.
    + exists st. split; [reflexivity|]. split; [exact Sh|]. split; [apply PQ|].
      intros y Hy. pose proof (a_all st Sh y Hy) as C. unfold cap in C. destruct (PL y Hy) as [P1 _]. rewrite Lv in * by exact Hy.
      destruct (Nat.ltb_spec (plc token y) j); [reflexivity|]. lia.
Qed.

Lemma super_tokens_spec : forall tokens i st, shape st -> (forall x, x < m -> (nth x (sq st) 0 < Z.of_nat i)%Z) ->
  exists st', super_tokens random m i tokens st = Ok st' /\ shape st' /\
    forall y, y < m -> level st' y = fold_left (fun v t => Nat.min v (plc t y)) tokens (level st y).
Proof.
  induction tokens as [|t tokens IH]; intros i st Sh Bq; cbn [super_tokens fold_left].
  - exists st. split; [reflexivity|]. split; [exact Sh|reflexivity].
  - destruct (super_loop_spec i t m 0 st (level st) eq_refl Sh) as [st1 [E1 [Sh1 [Bq1 Lv1]]]].
    + split.
      * intros x Hx. unfold view. specialize (Bq x Hx). destruct (Z.eqb_spec (nth x (sq st) 0%Z) (Z.of_nat i)); [lia|]. cbn. rewrite seq_nth by exact Hx. reflexivity.
      * intros x Hx. specialize (Bq x Hx). lia.
    + intros y Hy. destruct (Nat.ltb_spec (plc t y) 0); [lia|reflexivity].
    + rewrite E1. cbn [bind]. destruct (IH (S i) st1 Sh1) as [st2 [E2 [Sh2 Lv2]]].
      * intros x Hx. specialize (Bq1 x Hx). lia.
      * exists st2. split; [exact E2|]. split; [exact Sh2|]. intros y Hy. rewrite Lv2, Lv1 by exact Hy. reflexivity.
Qed.

Lemma floor_Qnat n : Qfloor (Qnat n) = Z.of_nat n.
Proof. apply Qfloor_Z. Qed.

Definition start : super :=
  {| sh := repeat (Qnat (m + 1)) m; sp := repeat 0 m; sq := repeat (-1)%Z m; sb := upd (repeat 0%Z m) (m - 1) (Z.of_nat m); sa := m - 1 |}.
Lemma nth_repeat' {X} (a d : X) n x : x < n -> nth x (repeat a n) d = a.
Proof. revert x. induction n as [|n IH]; intros [|x] L; cbn; try lia; [reflexivity|]. apply IH. lia. Qed.
Lemma start_level x : x < m -> level start x = m + 1.
Proof. intros Hx. unfold level. cbn [sh start]. rewrite nth_repeat' by exact Hx. rewrite floor_Qnat. apply Nat2Z.id. Qed.
Lemma start_shape : shape start.
Proof.
  assert (Cp : forall x, x < m -> cap start x = m - 1) by (intros x Hx; unfold cap; rewrite start_level by exact Hx; lia).
  split; cbn [sh sp sq sb sa start].
  - apply repeat_length.
  - apply repeat_length.
  - apply repeat_length.
  - rewrite upd_length. apply repeat_length.
  - intros x Hx. rewrite nth_repeat' by exact Hx. unfold Qnat. change 0%Q with (inject_Z 0). rewrite <- Zle_Qle. lia.
  - intros c Hc. rewrite (cnt_ext m _ (fun _ => m - 1)) by exact Cp. rewrite nth_upd, repeat_length. destruct (Nat.ltb_spec (m - 1) m); [|lia]. rewrite andb_true_r.
    assert (G : forall n, cnt n (fun _ => m - 1) c = if Nat.eqb c (m - 1) then Z.of_nat n else 0%Z).
    { induction n as [|n IH]; [cbn; destruct (Nat.eqb c (m - 1)); reflexivity|]. rewrite cnt_S, IH. destruct (Nat.eqb_spec c (m - 1)), (Nat.eqb_spec (m - 1) c); lia. }
    rewrite G. destruct (Nat.eqb c (m - 1)); [reflexivity|]. apply nth_repeat'. exact Hc.
  - exists 0. split; [exact m_pos|]. apply Cp, m_pos.
  - intros x Hx. rewrite Cp by exact Hx. lia.
Qed.

Lemma super_run tokens : exists st, super_tokens random m 0 tokens start = Ok st /\
  map Qfloor (sh st) = map (fun y => Z.of_nat (fold_left (fun v t => Nat.min v (plc t y)) tokens (m + 1))) (seq 0 m).
Proof.
  destruct (super_tokens_spec tokens 0 start start_shape) as [st [E [Sh Lv]]].
  - intros x Hx. cbn. rewrite nth_repeat' by exact Hx. lia.
  - exists st. split; [exact E|].
    rewrite <- (map_nth_seq (sh st) 0%Q) at 1. rewrite map_map, (len_h st Sh). apply map_ext_in. intros y Hy. apply in_seq in Hy.
    rewrite (floor_level st y Sh) by lia. rewrite Lv, start_level by lia. reflexivity.
Qed.

Lemma place_plc t x n : x < m -> (place (random t) m x n <-> n = plc t x).
Proof.
  intros Hx. pose proof (shuffle_perm (random t) m m (draws t) (Nat.le_refl m)) as P. fold (shuffle (random t) m) in P.
  assert (I : In x (shuffle (random t) m)) by (apply (perm_of_all m); assumption). destruct (pos_spec _ _ I) as [A B].
  unfold place, plc. split.
  - intros E. symmetry. assert (n < length (shuffle (random t) m)) by (apply nth_error_Some; congruence). apply pos_unique; [apply P|assumption|]. apply nth_error_nth. exact E.
  - intros ->. rewrite (nth_error_nth' _ 0 A). rewrite B. reflexivity.
Qed.
Lemma plc_bound t x : x < m -> plc t x < m.
Proof.
  intros Hx. pose proof (shuffle_perm (random t) m m (draws t) (Nat.le_refl m)) as P. fold (shuffle (random t) m) in P.
  destruct (pos_spec (shuffle (random t) m) x) as [A _]; [apply (perm_of_all m); assumption|]. rewrite (proj1 P) in A. exact A.
Qed.
End Super.

Lemma least_place_unique random m (S S' : N -> Prop) x v v' : (forall t, S t <-> S' t) ->
  least_place random m S x v -> least_place random m S' x v' -> v = v'.
Proof.
  intros E [[t [T P]] L] [[t' [T' P']] L']. apply Nat.le_antisymm; [apply (L t' v'); [apply E, T'|exact P']|apply (L' t v); [apply E, T|exact P]].
Qed.

Section Signature.
Context {T : Type}.
Variable crc32 : T -> N.
Variable set_order : list N -> list N.
Hypothesis set_order_perm : forall l, Permutation (set_order l) l.
Variable random : N -> nat -> Q.
Hypothesis draws : forall t, unit_draws (random t).
Notation numbers := (numbers crc32).

Definition super_value (m : nat) (x : sequence T) (y : nat) : nat := fold_left (fun v t => Nat.min v (plc random m t y)) (token_set crc32 set_order x) (m + 1).
Lemma super_signature_eq m x : 0 < m -> super_signature crc32 set_order random m x = Ok (map (fun y => Z.of_nat (super_value m x y)) (seq 0 m)).
Proof.
  intros Hm. destruct (super_run random m Hm draws (token_set crc32 set_order x)) as [st [E F]].
  unfold super_signature. destruct m as [|last]; [lia|]. unfold start in E. replace (S last - 1) with last in E by lia. rewrite E. cbn [bind]. rewrite F. reflexivity.
Qed.
Lemma super_value_spec m x y : numbers x <> [] -> y < m -> least_place random m (fun t => In t (numbers x)) y (super_value m x y) /\ super_value m x y < m.
Proof.
  intros N Hy. destruct (fold_min_spec (fun t => plc random m t y) (token_set crc32 set_order x) (m + 1)) as [A [_ C]]. fold (super_value m x y) in *.
  assert (W : exists t, In t (token_set crc32 set_order x)).
  { destruct (numbers x) as [|t l] eqn:E; [contradiction|]. exists t. apply (token_set_In crc32 set_order set_order_perm). rewrite E. left. reflexivity. }
  assert (B : super_value m x y < m).
  { destruct W as [t Ht]. specialize (C t Ht). cbn beta in C. pose proof (plc_bound random m draws t y Hy). lia. }
  split; [|exact B]. split.
  - destruct A as [A|[t [Ht A]]]; [lia|]. exists t. split; [apply (token_set_In crc32 set_order set_order_perm), Ht|]. apply place_plc; [exact draws|exact Hy|exact A].
  - intros t n Ht P. apply place_plc in P; [|exact draws|exact Hy]. subst n. apply C. apply (token_set_In crc32 set_order set_order_perm), Ht.
Qed.
Lemma super_value_empty m x y : numbers x = [] -> super_value m x y = m + 1.
Proof.
  intros E. unfold super_value. apply (token_set_empty crc32 set_order set_order_perm) in E. apply Nat.eqb_eq in E. destruct (token_set crc32 set_order x); [reflexivity|discriminate E].
Qed.
End Signature.
