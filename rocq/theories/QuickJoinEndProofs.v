(** When quickjoin can end. *)
From Coq Require Import QArith Qabs Lqa.
From Verif Require Import Base BaseFacts ClustersModel PairwiseModel QuickJoinModel QuickJoinSpec QuickJoinProofs.
Open Scope nat_scope.
Open Scope list_scope.

Section Draws.
Lemma randint_more n draws i rest e : randint n draws = Ok (i, rest) -> randint n (draws ++ e) = Ok (i, rest ++ e).
Proof. destruct n; [discriminate|]. destruct draws as [|d draws]; [discriminate|]. cbn. intros E. injection E as <- <-. reflexivity. Qed.
Lemma draw_other_more n p draws i rest e : draw_other n p draws = Ok (i, rest) -> draw_other n p (draws ++ e) = Ok (i, rest ++ e).
Proof.
  induction draws as [|d draws IH]; [discriminate|]. cbn [draw_other app]. destruct (Nat.eqb p (d mod n)); [exact IH|]. intros E. injection E as <- <-. reflexivity.
Qed.
Lemma randint_spec n draws : n <> 0 -> (exists d rest, draws = d :: rest /\ randint n draws = Ok (d mod n, rest)) \/ (draws = [] /\ randint n draws = Err OutOfFuel).
Proof. intros N. destruct n; [congruence|]. destruct draws as [|d draws]; [right; auto|left]. exists d, draws. auto. Qed.
Lemma draw_other_spec n p draws : n <> 0 ->
  (exists i rest, draw_other n p draws = Ok (i, rest) /\ i <> p /\ i < n /\ length rest < length draws) \/
  (draw_other n p draws = Err OutOfFuel /\ forall i, i < n -> i <> p -> forall more, draw_other n p (draws ++ i :: more) = Ok (i, more)).
Proof.
  intros N. induction draws as [|d draws IH]; cbn [draw_other app].
  - right. split; [reflexivity|]. intros i I D more. rewrite Nat.mod_small by exact I. replace (Nat.eqb p i) with false by (symmetry; apply Nat.eqb_neq; congruence). reflexivity.
  - destruct (Nat.eqb p (d mod n)) eqn:E.
    + destruct IH as [(i & rest & F & ? & ? & ?)|F]; [left|right; exact F]. exists i, rest. cbn [length]. repeat split; try assumption. lia.
    + left. exists (d mod n), draws. apply Nat.eqb_neq in E. repeat split; [congruence|apply Nat.mod_upper_bound; exact N|cbn; lia].
Qed.
End Draws.

Section End.
Context {A : Type}.
Variable distance : A -> A -> Q.
Variable radius beta : Q.
Variable size : nat.
Let blocks := blocks distance radius beta size.

(** what is read at a position of the two lists *)
Definition pivot (s1 s2 : list A) (i : nat) : res A := if Nat.ltb i (length s1) then index s1 i else index s2 (i - length s1).
Lemma pivot_spec s1 s2 i : i < length s1 + length s2 -> exists p, pivot s1 s2 i = Ok p /\ nth_error (s1 ++ s2) i = Some p.
Proof.
  intros I. unfold pivot, index. destruct (Nat.ltb_spec i (length s1)) as [L|L].
  - rewrite nth_error_app1 by exact L. destruct (nth_error s1 i) as [p|] eqn:E; [eauto|]. apply nth_error_None in E. lia.
  - rewrite nth_error_app2 by exact L. destruct (nth_error s2 (i - length s1)) as [p|] eqn:E; [eauto|]. apply nth_error_None in E. lia.
Qed.
Lemma index_spec (s : list A) i : i < length s -> exists p, index s i = Ok p /\ nth_error s i = Some p.
Proof. intros I. unfold index. destruct (nth_error s i) as [p|] eqn:E; [eauto|]. apply nth_error_None in E. lia. Qed.

Definition self_parts (s : list A) (p1 p2 : A) : list (block A) :=
  let '(L, G, Lw, Gw) := partition distance radius s p1 (beta * distance p1 p2) in [Cross Lw Gw; Self L; Self G].
Definition cross_parts (s1 s2 : list A) (p1 p2 : A) : list (block A) :=
  let '(L1, G1, Lw1, Gw1) := partition distance radius s1 p1 (beta * distance p1 p2) in
  let '(L2, G2, Lw2, Gw2) := partition distance radius s2 p1 (beta * distance p1 p2) in
  [Cross Gw1 Lw2; Cross Lw1 Gw2; Cross G1 G2; Cross L1 L2].

Lemma blocks_nil fuel draws : blocks fuel [] draws = Ok ([], draws).
Proof. destruct fuel; reflexivity. Qed.
Lemma self_small s stack fuel draws : length s <= size ->
  blocks (S fuel) (Self s :: stack) draws = (let! (out, draws) := blocks fuel stack draws in Ok (Self s :: out, draws)).
Proof. intros L. unfold blocks. cbn [QuickJoinModel.blocks]. apply Nat.leb_le in L. rewrite L. reflexivity. Qed.
Lemma self_large s stack fuel draws : size < length s ->
  blocks (S fuel) (Self s :: stack) draws =
  (let! (i1, draws) := randint (length s) draws in
   let! (i2, draws) := draw_other (length s) i1 draws in
   let! p1 := index s i1 in let! p2 := index s i2 in blocks fuel (self_parts s p1 p2 ++ stack) draws).
Proof.
  intros L. unfold blocks. cbn [QuickJoinModel.blocks]. replace (Nat.leb (length s) size) with false by (symmetry; apply Nat.leb_gt; exact L).
  destruct (randint (length s) draws) as [(i1 & d1)|]; [|reflexivity]. cbn [bind]. destruct (draw_other (length s) i1 d1) as [(i2 & d2)|]; [|reflexivity]. cbn [bind].
  destruct (index s i1) as [p1|]; [|reflexivity]. cbn [bind]. destruct (index s i2) as [p2|]; [|reflexivity]. cbn [bind].
  unfold self_parts. destruct (partition _ _ _ _ _) as (((L' & G) & Lw) & Gw). reflexivity.
Qed.
Lemma cross_small s1 s2 stack fuel draws : length s1 + length s2 <= size ->
  blocks (S fuel) (Cross s1 s2 :: stack) draws =
  (if Nat.eqb (length s1) 0 || Nat.eqb (length s2) 0 then blocks fuel stack draws else let! (out, draws) := blocks fuel stack draws in Ok (Cross s1 s2 :: out, draws)).
Proof. intros L. unfold blocks. cbn [QuickJoinModel.blocks]. apply Nat.leb_le in L. rewrite L. reflexivity. Qed.
Lemma cross_large s1 s2 stack fuel draws : size < length s1 + length s2 ->
  blocks (S fuel) (Cross s1 s2 :: stack) draws =
  (let! (i1, draws) := randint (length s1 + length s2) draws in
   let! (i2, draws) := draw_other (length s1 + length s2) i1 draws in
   let! p1 := pivot s1 s2 i1 in let! p2 := pivot s1 s2 i2 in blocks fuel (cross_parts s1 s2 p1 p2 ++ stack) draws).
Proof.
  intros L. unfold blocks. cbn [QuickJoinModel.blocks]. replace (Nat.leb (length s1 + length s2) size) with false by (symmetry; apply Nat.leb_gt; exact L).
  destruct (randint _ draws) as [(i1 & d1)|]; [|reflexivity]. cbn [bind]. destruct (draw_other _ i1 d1) as [(i2 & d2)|]; [|reflexivity]. cbn [bind].
  fold (pivot s1 s2 i1) (pivot s1 s2 i2).
  destruct (pivot s1 s2 i1) as [p1|]; [|reflexivity]. cbn [bind]. destruct (pivot s1 s2 i2) as [p2|]; [|reflexivity]. cbn [bind].
  unfold cross_parts. destruct (partition _ _ s1 _ _) as (((L1 & G1) & Lw1) & Gw1). destruct (partition _ _ s2 _ _) as (((L2 & G2) & Lw2) & Gw2). reflexivity.
Qed.
Lemma blocks_zero b stack draws : blocks 0 (b :: stack) draws = Err OutOfFuel.
Proof. destruct b; reflexivity. Qed.

Lemma blocks_app f1 : forall st1 dr1 o1 r1 e f2 st2 o2 r2,
  blocks f1 st1 dr1 = Ok (o1, r1) -> blocks f2 st2 (r1 ++ e) = Ok (o2, r2) ->
  blocks (f1 + f2) (st1 ++ st2) (dr1 ++ e) = Ok (o1 ++ o2, r2).
Proof.
  assert (mono : forall f st dr o r g, blocks f st dr = Ok (o, r) -> blocks (f + g) st dr = Ok (o, r)).
  { induction f as [|f IH]; intros [|[s|s1 s2] st] dr o r g E; rewrite ?blocks_nil in *; try exact E; [discriminate|discriminate| |]; cbn [Nat.add].
    - destruct (Nat.leb_spec (length s) size) as [L|L].
      + rewrite self_small in * by exact L. apply bind_ok in E as ((o' & r') & E & F). rewrite (IH _ _ _ _ g E). exact F.
      + rewrite self_large in * by exact L. apply bind_ok in E as ((i1 & d1) & -> & E). cbn [bind]. apply bind_ok in E as ((i2 & d2) & -> & E). cbn [bind].
        apply bind_ok in E as (p1 & -> & E). cbn [bind]. apply bind_ok in E as (p2 & -> & E). cbn [bind]. apply IH. exact E.
    - destruct (Nat.leb_spec (length s1 + length s2) size) as [L|L].
      + rewrite cross_small in * by exact L. destruct (_ || _); [apply IH; exact E|]. apply bind_ok in E as ((o' & r') & E & F). rewrite (IH _ _ _ _ g E). exact F.
      + rewrite cross_large in * by exact L. apply bind_ok in E as ((i1 & d1) & -> & E). cbn [bind]. apply bind_ok in E as ((i2 & d2) & -> & E). cbn [bind].
        apply bind_ok in E as (p1 & -> & E). cbn [bind]. apply bind_ok in E as (p2 & -> & E). cbn [bind]. apply IH. exact E. }
  induction f1 as [|f1 IH]; intros [|[s|s1 s2] st1] dr1 o1 r1 e f2 st2 o2 r2 E F.
  - rewrite blocks_nil in E. injection E as <- <-. exact F.
  - discriminate.
  - discriminate.
  - rewrite blocks_nil in E. injection E as <- <-. cbn [app]. rewrite Nat.add_comm. apply mono. exact F.
  - cbn [Nat.add app]. destruct (Nat.leb_spec (length s) size) as [L|L].
    + rewrite self_small in * by exact L. apply bind_ok in E as ((o' & r') & E & K). injection K as <- <-. rewrite (IH _ _ _ _ _ _ _ _ _ E F). reflexivity.
    + rewrite self_large in * by exact L. apply bind_ok in E as ((i1 & d1) & E1 & E). rewrite (randint_more _ _ _ _ e E1). cbn [bind].
      apply bind_ok in E as ((i2 & d2) & E2 & E). rewrite (draw_other_more _ _ _ _ _ e E2). cbn [bind].
      apply bind_ok in E as (p1 & -> & E). cbn [bind]. apply bind_ok in E as (p2 & -> & E). cbn [bind]. rewrite app_assoc. apply (IH _ _ _ _ _ _ _ _ _ E F).
  - cbn [Nat.add app]. destruct (Nat.leb_spec (length s1 + length s2) size) as [L|L].
    + rewrite cross_small in * by exact L. destruct (_ || _); [apply (IH _ _ _ _ _ _ _ _ _ E F)|].
      apply bind_ok in E as ((o' & r') & E & K). injection K as <- <-. rewrite (IH _ _ _ _ _ _ _ _ _ E F). reflexivity.
    + rewrite cross_large in * by exact L. apply bind_ok in E as ((i1 & d1) & E1 & E). rewrite (randint_more _ _ _ _ e E1). cbn [bind].
      apply bind_ok in E as ((i2 & d2) & E2 & E). rewrite (draw_other_more _ _ _ _ _ e E2). cbn [bind].
      apply bind_ok in E as (p1 & -> & E). cbn [bind]. apply bind_ok in E as (p2 & -> & E). cbn [bind]. rewrite app_assoc. apply (IH _ _ _ _ _ _ _ _ _ E F).
Qed.

Definition can_end (stack : list (block A)) : Prop := exists fuel draws out, blocks fuel stack draws = Ok (out, []).

Lemma can_end_all stack : Forall (fun b => can_end [b]) stack -> can_end stack.
Proof.
  induction 1 as [|b stack (f & d & o & E) _ (f' & d' & o' & E')].
  - exists 0, [], []. reflexivity.
  - exists (f + f'), (d ++ d'), (o ++ o'). change (b :: stack) with ([b] ++ stack). eapply blocks_app; [exact E|exact E'].
Qed.
Lemma can_end_self_small s : length s <= size -> can_end [Self s].
Proof. intros L. exists 1, [], [Self s]. rewrite self_small by exact L. rewrite blocks_nil. reflexivity. Qed.
Lemma can_end_cross_small s1 s2 : length s1 + length s2 <= size -> can_end [Cross s1 s2].
Proof.
  intros L. exists 1, []. destruct (Nat.eqb (length s1) 0 || Nat.eqb (length s2) 0) eqn:E; eexists; rewrite cross_small by exact L; rewrite E, blocks_nil; reflexivity.
Qed.
Lemma can_end_self s i1 i2 p1 p2 : size < length s -> i1 <> i2 -> nth_error s i1 = Some p1 -> nth_error s i2 = Some p2 ->
  Forall (fun b => can_end [b]) (self_parts s p1 p2) -> can_end [Self s].
Proof.
  intros L N E1 E2 F. apply can_end_all in F as (f & d & o & F). exists (S f), (i1 :: i2 :: d), o. rewrite self_large by exact L.
  assert (i1 < length s) by (apply nth_error_Some; congruence). assert (i2 < length s) by (apply nth_error_Some; congruence).
  unfold randint. destruct (length s) as [|n] eqn:Ln; [lia|]. rewrite <- Ln in *. cbn [bind draw_other]. rewrite !Nat.mod_small by assumption.
  replace (Nat.eqb i1 i2) with false by (symmetry; apply Nat.eqb_neq; exact N). cbn [bind]. unfold index. rewrite E1, E2. cbn [bind]. rewrite app_nil_r. exact F.
Qed.
Lemma can_end_cross s1 s2 i1 i2 p1 p2 : size < length s1 + length s2 -> i1 <> i2 -> nth_error (s1 ++ s2) i1 = Some p1 -> nth_error (s1 ++ s2) i2 = Some p2 ->
  Forall (fun b => can_end [b]) (cross_parts s1 s2 p1 p2) -> can_end [Cross s1 s2].
Proof.
  intros L N E1 E2 F. apply can_end_all in F as (f & d & o & F). exists (S f), (i1 :: i2 :: d), o. rewrite cross_large by exact L.
  assert (I1 : i1 < length s1 + length s2) by (rewrite <- app_length; apply nth_error_Some; congruence).
  assert (I2 : i2 < length s1 + length s2) by (rewrite <- app_length; apply nth_error_Some; congruence).
  unfold randint. destruct (length s1 + length s2) as [|n] eqn:Ln; [lia|]. rewrite <- Ln in *. cbn [bind draw_other]. rewrite !Nat.mod_small by assumption.
  replace (Nat.eqb i1 i2) with false by (symmetry; apply Nat.eqb_neq; exact N). cbn [bind].
  destruct (pivot_spec s1 s2 i1 I1) as (q1 & -> & Q1). destruct (pivot_spec s1 s2 i2 I2) as (q2 & -> & Q2). cbn [bind].
  rewrite E1 in Q1. rewrite E2 in Q2. injection Q1 as <-. injection Q2 as <-. rewrite app_nil_r. exact F.
Qed.

Hypothesis refl : forall x, (distance x x == 0)%Q.
Hypothesis sym : forall x y, (distance x y == distance y x)%Q.
Hypothesis tri : forall x y z, (distance x z <= distance x y + distance y z)%Q.

(** an item has as copies all that is at distance 0 *)
Definition at_ (x z : A) : bool := Qeq_bool (distance x z) 0.
Definition count (f : A -> bool) (l : list A) : nat := length (filter f l).

Lemma copies x z p : at_ x z = true -> (distance p z == distance p x)%Q.
Proof. unfold at_. intros E. apply Qeq_bool_iff in E. pose proof (tri p x z). pose proof (tri p z x). pose proof (sym x z). lra. Qed.
Lemma nonneg x y : (0 <= distance x y)%Q.
Proof. pose proof (tri x y x). pose proof (refl x). pose proof (sym x y). lra. Qed.

Lemma Qle_bool_l x x' y : (x == x')%Q -> Qle_bool x y = Qle_bool x' y.
Proof. intros E. destruct (Qle_bool x y) eqn:B, (Qle_bool x' y) eqn:C; try reflexivity; rewrite ?Qle_bool_iff in *; [apply Qle_false in C|apply Qle_false in B]; lra. Qed.
Lemma Qle_bool_r x y y' : (y == y')%Q -> Qle_bool x y = Qle_bool x y'.
Proof. intros E. destruct (Qle_bool x y) eqn:B, (Qle_bool x y') eqn:C; try reflexivity; rewrite ?Qle_bool_iff in *; [apply Qle_false in C|apply Qle_false in B]; lra. Qed.

Section Endless.
Lemma lower_copy x z p rho : at_ x z = true -> lower distance p rho z = lower distance p rho x.
Proof. intros E. unfold lower. f_equal. apply Qle_bool_r, copies, E. Qed.
Lemma upper_copy x z p rho : at_ x z = true -> upper distance p rho z = upper distance p rho x.
Proof. intros E. unfold upper. f_equal. apply lower_copy, E. Qed.
Lemma window_l_copy x z p rho : at_ x z = true -> window_l distance radius p rho z = window_l distance radius p rho x.
Proof. intros E. unfold window_l. apply Qle_bool_r, copies, E. Qed.
Lemma window_g_copy x z p rho : at_ x z = true -> window_g distance radius p rho z = window_g distance radius p rho x.
Proof. intros E. unfold window_g. apply Qle_bool_l, copies, E. Qed.

Lemma count_keep x g l : (forall z, at_ x z = true -> g z = g x) -> g x = true -> count (at_ x) (filter g l) = count (at_ x) l.
Proof.
  intros C G. unfold count. rewrite filter_and. f_equal. apply filter_equal. intros z _. destruct (at_ x z) eqn:E; [|apply andb_false_r]. rewrite C, G by exact E. reflexivity.
Qed.

Definition halves (x y : A) (s1 s2 : list A) : Prop := size < count (at_ x) s1 + count (at_ y) s2.
Definition stuck (x y : A) (b : block A) : Prop :=
  match b with
  | Self s => size < crowd distance x y s
  | Cross s1 s2 => halves x y s1 s2 \/ halves y x s1 s2
  end.

Lemma count_le f l : count f l <= length l.
Proof. unfold count. induction l as [|z l IH]; cbn; [lia|]. destruct (f z); cbn; lia. Qed.
Lemma crowd_keep x y g l : (forall z, at_ x z = true -> g z = g x) -> (forall z, at_ y z = true -> g z = g y) -> g x = true -> g y = true ->
  crowd distance x y (filter g l) = crowd distance x y l.
Proof.
  intros C D G K. unfold crowd. rewrite filter_and. f_equal. apply filter_equal. intros z _. fold (at_ x z) (at_ y z).
  destruct (at_ x z) eqn:E; [rewrite C, G by exact E; reflexivity|]. destruct (at_ y z) eqn:F; [rewrite D, K by exact F; reflexivity|]. apply andb_false_r.
Qed.
Lemma crowd_halves x y l : crowd distance x y l <= count (at_ x) l + count (at_ y) l.
Proof.
  unfold crowd, count. induction l as [|z l IH]; cbn; [lia|]. fold (at_ x z) (at_ y z). destruct (at_ x z), (at_ y z); cbn; lia.
Qed.

Lemma halves_parts x y s1 s2 p1 p2 : (distance x y <= radius)%Q -> halves x y s1 s2 ->
  Exists (fun b => match b with Self _ => False | Cross t1 t2 => halves x y t1 t2 end) (cross_parts s1 s2 p1 p2).
Proof.
  intros R Hv. unfold cross_parts. rewrite !partition_spec. set (rho := (beta * distance p1 p2)%Q).
  assert (C : close distance radius (x, y) = true) by (apply Qle_bool_iff; exact R).
  destruct (lower distance p1 rho x) eqn:X, (lower distance p1 rho y) eqn:Y.
  - do 3 apply Exists_cons_tl. apply Exists_cons_hd. unfold halves. rewrite !count_keep; try assumption; intros z; apply lower_copy.
  - assert (Y' : upper distance p1 rho y = true) by (unfold upper; rewrite Y; reflexivity).
    destruct (window distance radius tri p1 rho x y X Y' C) as (W & V).
    apply Exists_cons_tl, Exists_cons_hd. unfold halves. rewrite !count_keep; try assumption; intros z; first [apply lower_copy|apply upper_copy|apply window_l_copy|apply window_g_copy].
  - assert (X' : upper distance p1 rho x = true) by (unfold upper; rewrite X; reflexivity).
    assert (C' : close distance radius (y, x) = true) by (change (y, x) with (swap (x, y)); rewrite close_swap by exact sym; exact C).
    destruct (window distance radius tri p1 rho y x Y X' C') as (W & V).
    apply Exists_cons_hd. unfold halves. rewrite !count_keep; try assumption; intros z; first [apply lower_copy|apply upper_copy|apply window_l_copy|apply window_g_copy].
  - do 2 apply Exists_cons_tl. apply Exists_cons_hd. unfold halves. rewrite !count_keep; try assumption; try (intros z; apply upper_copy); unfold upper; [rewrite Y|rewrite X]; reflexivity.
Qed.

Lemma stuck_self x y s p1 p2 : (distance x y <= radius)%Q -> stuck x y (Self s) -> Exists (stuck x y) (self_parts s p1 p2).
Proof.
  intros R K. cbn in K. unfold self_parts. rewrite !partition_spec. set (rho := (beta * distance p1 p2)%Q).
  assert (C : close distance radius (x, y) = true) by (apply Qle_bool_iff; exact R).
  pose proof (crowd_halves x y s) as CH.
  destruct (lower distance p1 rho x) eqn:X, (lower distance p1 rho y) eqn:Y.
  - apply Exists_cons_tl, Exists_cons_hd. cbn. rewrite crowd_keep; try assumption; intros z; apply lower_copy.
  - assert (Y' : upper distance p1 rho y = true) by (unfold upper; rewrite Y; reflexivity).
    destruct (window distance radius tri p1 rho x y X Y' C) as (W & V).
    apply Exists_cons_hd. cbn. left. unfold halves. rewrite !count_keep; try assumption; try lia; intros z; first [apply lower_copy|apply upper_copy|apply window_l_copy|apply window_g_copy].
  - assert (X' : upper distance p1 rho x = true) by (unfold upper; rewrite X; reflexivity).
    assert (C' : close distance radius (y, x) = true) by (change (y, x) with (swap (x, y)); rewrite close_swap by exact sym; exact C).
    destruct (window distance radius tri p1 rho y x Y X' C') as (W & V).
    apply Exists_cons_hd. cbn. right. unfold halves. rewrite !count_keep; try assumption; try lia; intros z; first [apply lower_copy|apply upper_copy|apply window_l_copy|apply window_g_copy].
  - do 2 apply Exists_cons_tl. apply Exists_cons_hd. cbn. rewrite crowd_keep; try assumption; try (intros z; apply upper_copy); unfold upper; [rewrite X|rewrite Y]; reflexivity.
Qed.

Lemma stuck_cross x y s1 s2 p1 p2 : (distance x y <= radius)%Q -> stuck x y (Cross s1 s2) -> Exists (stuck x y) (cross_parts s1 s2 p1 p2).
Proof.
  intros R [K|K].
  - apply (halves_parts x y s1 s2 p1 p2 R) in K. apply Exists_exists in K as ([s|t1 t2] & I & K); [contradiction|]. apply Exists_exists. eexists. split; [exact I|]. left. exact K.
  - assert (R' : (distance y x <= radius)%Q) by (rewrite sym; exact R).
    apply (halves_parts y x s1 s2 p1 p2 R') in K. apply Exists_exists in K as ([s|t1 t2] & I & K); [contradiction|]. apply Exists_exists. eexists. split; [exact I|]. right. exact K.
Qed.

Lemma endless x y : (distance x y <= radius)%Q -> forall fuel stack draws, Exists (stuck x y) stack -> blocks fuel stack draws = Err OutOfFuel.
Proof.
  intros R. induction fuel as [|fuel IH]; intros [|b stack] draws K; try (inversion K; fail); [apply blocks_zero|].
  destruct b as [s|s1 s2].
  - destruct (Nat.leb_spec (length s) size) as [L|L].
    + rewrite self_small by exact L. apply Exists_cons in K as [K|K]; [|rewrite IH by exact K; reflexivity].
      cbn in K. unfold crowd in K. pose proof (count_le (fun z => Qeq_bool (distance x z) 0 || Qeq_bool (distance y z) 0) s) as Z. unfold count in Z. lia.
    + rewrite self_large by exact L. assert (N : length s <> 0) by lia.
      destruct (randint_spec (length s) draws N) as [(d & rest & -> & ->)|(_ & ->)]; [|reflexivity]. cbn [bind].
      pose proof (Nat.mod_upper_bound d _ N) as I1. destruct (draw_other_spec (length s) (d mod length s) rest N) as [(i2 & rest' & -> & _ & I2 & _)|(-> & _)]; [|reflexivity].
      cbn [bind]. destruct (index_spec s _ I1) as (p1 & -> & _). destruct (index_spec s _ I2) as (p2 & -> & _). cbn [bind].
      apply IH. apply Exists_app. apply Exists_cons in K as [K|K]; [left|right; exact K]. apply stuck_self; assumption.
  - destruct (Nat.leb_spec (length s1 + length s2) size) as [L|L].
    + rewrite cross_small by exact L. apply Exists_cons in K as [K|K]; [|rewrite IH by exact K; destruct (_ || _); reflexivity].
      exfalso. destruct K as [K|K]; unfold halves in K; [pose proof (count_le (at_ x) s1); pose proof (count_le (at_ y) s2)|pose proof (count_le (at_ y) s1); pose proof (count_le (at_ x) s2)]; lia.
    + rewrite cross_large by exact L. assert (N : length s1 + length s2 <> 0) by lia.
      destruct (randint_spec _ draws N) as [(d & rest & -> & ->)|(_ & ->)]; [|reflexivity]. cbn [bind].
      pose proof (Nat.mod_upper_bound d _ N) as I1. destruct (draw_other_spec _ (d mod (length s1 + length s2)) rest N) as [(i2 & rest' & -> & _ & I2 & _)|(-> & _)]; [|reflexivity].
      cbn [bind]. destruct (pivot_spec s1 s2 _ I1) as (p1 & -> & _). destruct (pivot_spec s1 s2 _ I2) as (p2 & -> & _). cbn [bind].
      apply IH. apply Exists_app. apply Exists_cons in K as [K|K]; [left|right; exact K]. apply stuck_cross; assumption.
Qed.
End Endless.

Section Ends.
Hypothesis beta_one : (beta == 1)%Q.
Hypothesis radius_nonneg : (0 <= radius)%Q.
Variable data : list A.
Hypothesis not_crowded : sparse distance radius size data.

Definition sub (l : list A) : Prop := exists r, Permutation data (l ++ r).
Lemma sub_filter2 s1 s2 f g : sub (s1 ++ s2) -> sub (filter f s1 ++ filter g s2).
Proof.
  intros (r & E). exists (filter (fun x => negb (f x)) s1 ++ filter (fun x => negb (g x)) s2 ++ r). eapply perm_trans; [exact E|].
  eapply perm_trans; [apply Permutation_app_tail, Permutation_app; [apply (split_filter f)|apply (split_filter g)]|]. app_perm.
Qed.
Lemma sub_filter s f : sub s -> sub (filter f s).
Proof. intros S. pose proof (sub_filter2 s [] f f) as K. cbn in K. rewrite !app_nil_r in K. exact (K S). Qed.
Lemma sub_perm s t : Permutation s t -> sub s -> sub t.
Proof. intros E (r & S). exists r. eapply perm_trans; [exact S|]. apply Permutation_app_tail. exact E. Qed.
Lemma sub_In s x : sub s -> In x s -> In x data.
Proof. intros (r & E) I. apply (Permutation_in _ (Permutation_sym E)), in_or_app. left. exact I. Qed.
Lemma sub_crowd s x y : sub s -> crowd distance x y s <= crowd distance x y data.
Proof.
  intros (r & E). unfold crowd. rewrite (Permutation_length (perm_filter _ _ _ E)), filter_app, app_length. lia.
Qed.

Definition apart (s1 s2 : list A) : Prop := forall x y, In x s1 -> In y s2 -> (0 < distance x y)%Q.
Definition sound (b : block A) : Prop := match b with Self s => sub s | Cross s1 s2 => sub (s1 ++ s2) /\ apart s1 s2 end.

Lemma lower_upper_apart p rho s1 s2 : apart (filter (lower distance p rho) s1) (filter (upper distance p rho) s2).
Proof.
  intros x y I J. apply filter_In in I as (_ & I), J as (_ & J). unfold upper in J. unfold lower in *. rewrite negb_involutive in J. apply negb_true_iff, Qle_false in I. apply Qle_bool_iff in J.
  pose proof (tri p x y). lra.
Qed.
Lemma apart_filter f g s1 s2 : apart s1 s2 -> apart (filter f s1) (filter g s2).
Proof. intros P x y I J. apply filter_In in I as (I & _), J as (J & _). apply P; assumption. Qed.

Lemma sound_self s p1 p2 : sound (Self s) -> Forall sound (self_parts s p1 p2).
Proof.
  cbn. intros S. unfold self_parts. rewrite partition_spec. set (rho := (beta * distance p1 p2)%Q).
  constructor; [split|constructor; [|constructor; [|constructor]]].
  - apply sub_filter2. eapply sub_perm; [|exact S]. apply (split_filter (lower distance p1 rho)).
  - apply apart_filter, lower_upper_apart.
  - apply sub_filter, S.
  - apply sub_filter, S.
Qed.
Lemma sound_cross s1 s2 p1 p2 : sound (Cross s1 s2) -> Forall sound (cross_parts s1 s2 p1 p2).
Proof.
  cbn. intros (S & P). unfold cross_parts. rewrite !partition_spec.
  repeat constructor; repeat first [apply sub_filter2|apply apart_filter]; assumption.
Qed.

(** two copies, or two items that differ *)
Lemma one_class s : (exists i j x y, i <> j /\ nth_error s i = Some x /\ nth_error s j = Some y /\ (0 < distance x y)%Q) \/
  (forall x y, In x s -> In y s -> (distance x y == 0)%Q).
Proof.
  destruct s as [|x s]; [right; intros ? ? []|].
  destruct (forallb (at_ x) s) eqn:E.
  - right. assert (K : forall y, In y (x :: s) -> (distance x y == 0)%Q).
    { intros y [<-|I]; [apply refl|]. rewrite forallb_forall in E. apply Qeq_bool_iff, E, I. }
    intros y z I J. apply K in I, J. pose proof (tri y x z). pose proof (sym x y). pose proof (nonneg y z). lra.
  - left. assert (K : exists y, In y s /\ at_ x y = false).
    { clear -E. induction s as [|y s IH]; [discriminate|]. cbn in E. destruct (at_ x y) eqn:F; [destruct (IH E) as (z & I & Z); exists z; split; [right; exact I|exact Z]|exists y; split; [left; reflexivity|exact F]]. }
    destruct K as (y & I & F). apply In_nth_error in I as (j & J). exists 0, (S j), x, y. repeat split; [discriminate|exact J|].
    unfold at_ in F. destruct (Qeq_dec (distance x y) 0) as [Z|Z]; [apply Qeq_bool_iff in Z; congruence|]. pose proof (nonneg x y). lra.
Qed.
Lemma class_small s x : sub s -> In x s -> (forall y, In y s -> (distance x y == 0)%Q) -> length s <= size.
Proof.
  intros S I C. assert (D : In x data) by (eapply sub_In; eassumption).
  pose proof (not_crowded x x D D) as K. pose proof (sub_crowd s x x S) as L. rewrite (refl x) in K. specialize (K radius_nonneg).
  unfold crowd at 1 in L. rewrite filter_all in L; [lia|]. intros y J. apply orb_true_iff. left. apply Qeq_bool_iff, C, J.
Qed.

Lemma filter_shorter (f : A -> bool) l x : In x l -> f x = false -> length (filter f l) < length l.
Proof.
  intros I E. pose proof (filter_length_split f l) as K. assert (J : In x (filter (fun x => negb (f x)) l)) by (apply filter_In; rewrite E; auto).
  destruct (filter (fun x => negb (f x)) l); [contradiction|]. cbn in K. lia.
Qed.
Lemma filter_le (f : A -> bool) l : length (filter f l) <= length l.
Proof. pose proof (filter_length_split f l). lia. Qed.

Lemma pivot_lower p1 p2 : (0 < distance p1 p2)%Q -> lower distance p1 (beta * distance p1 p2) p1 = true.
Proof. intros D. unfold lower. apply negb_true_iff. destruct (Qle_bool _ _) eqn:E; [|reflexivity]. apply Qle_bool_iff in E. rewrite refl, beta_one in E. lra. Qed.
Lemma pivot_upper p1 p2 : upper distance p1 (beta * distance p1 p2) p2 = true.
Proof. unfold upper, lower. rewrite negb_involutive. apply Qle_bool_iff. rewrite beta_one. lra. Qed.

Lemma cross_can_end n : forall s1 s2, length s1 + length s2 <= n -> sound (Cross s1 s2) -> can_end [Cross s1 s2].
Proof.
  induction n as [n IH] using lt_wf_ind. intros s1 s2 N Sd.
  destruct (Nat.leb_spec (length s1 + length s2) size) as [L|L]; [apply can_end_cross_small; exact L|].
  pose proof Sd as (S & P).
  assert (pick : forall i j x y, i <> j -> nth_error (s1 ++ s2) i = Some x -> nth_error (s1 ++ s2) j = Some y -> (0 < distance x y)%Q ->
    (In x s1 /\ In y s1) \/ (In x s2 /\ In y s2) -> can_end [Cross s1 s2]).
  { intros i j x y D E F X I. apply (can_end_cross s1 s2 i j x y L D E F).
    pose proof (sound_cross s1 s2 x y Sd) as Q. unfold cross_parts in *. rewrite !partition_spec in *.
    set (rho := (beta * distance x y)%Q) in *.
    pose proof (pivot_lower x y X) as Lx. pose proof (pivot_upper x y) as Uy. fold rho in Lx, Uy.
    assert (Ux : upper distance x rho x = false) by (unfold upper; rewrite Lx; reflexivity).
    assert (Ly : lower distance x rho y = false) by (unfold upper in Uy; apply negb_true_iff; exact Uy).
    pose proof (filter_le (lower distance x rho) s1) as B1. pose proof (filter_le (lower distance x rho) s2) as B2.
    pose proof (filter_le (upper distance x rho) s1) as B3. pose proof (filter_le (upper distance x rho) s2) as B4.
    pose proof (filter_le (window_l distance radius x rho) (filter (lower distance x rho) s1)) as B5.
    pose proof (filter_le (window_l distance radius x rho) (filter (lower distance x rho) s2)) as B6.
    pose proof (filter_le (window_g distance radius x rho) (filter (upper distance x rho) s1)) as B7.
    pose proof (filter_le (window_g distance radius x rho) (filter (upper distance x rho) s2)) as B8.
    assert (K : (length (filter (lower distance x rho) s1) < length s1 /\ length (filter (upper distance x rho) s1) < length s1) \/
      (length (filter (lower distance x rho) s2) < length s2 /\ length (filter (upper distance x rho) s2) < length s2)).
    { destruct I as [(I & J)|(I & J)]; [left|right]; (split; [apply filter_shorter with y|apply filter_shorter with x]); assumption. }
    apply Forall_cons_iff in Q as (Q1 & Q). apply Forall_cons_iff in Q as (Q2 & Q). apply Forall_cons_iff in Q as (Q3 & Q). apply Forall_cons_iff in Q as (Q4 & _).
    constructor; [|constructor; [|constructor; [|constructor; [|constructor]]]].
    all: eapply IH; [|apply Nat.le_refl|assumption]; lia. }
  destruct (one_class s1) as [(i & j & x & y & D & E & F & X)|C1].
  { apply (pick i j x y D); [rewrite nth_error_app1 by (apply nth_error_Some; congruence); exact E|rewrite nth_error_app1 by (apply nth_error_Some; congruence); exact F|exact X|].
    left. split; eapply nth_error_In; eassumption. }
  destruct (one_class s2) as [(i & j & x & y & D & E & F & X)|C2].
  { apply (pick (length s1 + i) (length s1 + j) x y); [lia| | |exact X|].
    - rewrite nth_error_app2 by lia. replace (length s1 + i - length s1) with i by lia. exact E.
    - rewrite nth_error_app2 by lia. replace (length s1 + j - length s1) with j by lia. exact F.
    - right. split; eapply nth_error_In; eassumption. }
  assert (S1 : sub s1). { destruct S as (r & S). exists (s2 ++ r). rewrite app_assoc. exact S. }
  assert (S2 : sub s2). { destruct S as (r & S). exists (s1 ++ r). eapply perm_trans; [exact S|]. app_perm. }
  destruct s1 as [|x s1].
  { destruct s2 as [|y s2]; [cbn in L; lia|]. pose proof (class_small (y :: s2) y S2 (or_introl eq_refl) (fun z J => C2 y z (or_introl eq_refl) J)) as K. cbn in *. lia. }
  destruct s2 as [|y s2].
  { pose proof (class_small (x :: s1) x S1 (or_introl eq_refl) (fun z J => C1 x z (or_introl eq_refl) J)) as K. cbn in *. lia. }
  pose proof (class_small (y :: s2) y S2 (or_introl eq_refl) (fun z J => C2 y z (or_introl eq_refl) J)) as K2.
  pose proof (class_small (x :: s1) x S1 (or_introl eq_refl) (fun z J => C1 x z (or_introl eq_refl) J)) as K1.
  assert (far : (radius < distance x y)%Q).
  { apply Qnot_le_lt. intros R. assert (Ix : In x data) by (eapply sub_In; [exact S1|left; reflexivity]). assert (Iy : In y data) by (eapply sub_In; [exact S2|left; reflexivity]).
    pose proof (not_crowded x y Ix Iy R) as K. pose proof (sub_crowd _ x y S) as M. unfold crowd at 1 in M. rewrite filter_all in M; [rewrite app_length in M; lia|].
    intros z J. apply orb_true_iff. apply in_app_or in J as [J|J]; [left|right]; apply Qeq_bool_iff; [apply C1|apply C2]; try assumption; left; reflexivity. }
  apply (can_end_cross (x :: s1) (y :: s2) 0 (length (x :: s1)) x y L); [discriminate|reflexivity|rewrite nth_error_app2, Nat.sub_diag by lia; reflexivity|].
  unfold cross_parts. rewrite !partition_spec. set (rho := (beta * distance x y)%Q).
  assert (W : filter (window_l distance radius x rho) (filter (lower distance x rho) (x :: s1)) = []).
  { rewrite filter_and. apply filter_none. intros z I. apply andb_false_iff. right. unfold window_l. destruct (Qle_bool _ _) eqn:E; [|reflexivity].
    apply Qle_bool_iff in E. unfold rho in E. pose proof (C1 x z (or_introl eq_refl) I) as Z. rewrite Z, beta_one in E. lra. }
  assert (U : filter (upper distance x rho) (x :: s1) = []).
  { apply filter_none. intros z I. unfold upper, lower. rewrite negb_involutive. destruct (Qle_bool _ _) eqn:E; [|reflexivity].
    apply Qle_bool_iff in E. unfold rho in E. pose proof (C1 x z (or_introl eq_refl) I) as Z. rewrite Z, beta_one in E. lra. }
  assert (V : filter (lower distance x rho) (y :: s2) = []).
  { apply filter_none. intros z I. unfold lower. apply negb_false_iff. apply Qle_bool_iff. unfold rho.
    rewrite beta_one. pose proof (tri x z y). pose proof (C2 z y I (or_introl eq_refl)). lra. }
  pose proof (filter_le (lower distance x rho) (x :: s1)) as B1. pose proof (filter_le (upper distance x rho) (y :: s2)) as B2.
  pose proof (filter_le (window_g distance radius x rho) (filter (upper distance x rho) (y :: s2))) as B3.
  rewrite W, U, V.
  constructor; [|constructor; [|constructor; [|constructor; [|constructor]]]]; apply can_end_cross_small;
    change (filter (window_l distance radius x rho) []) with (@nil A); change (filter (window_g distance radius x rho) []) with (@nil A); change (length (@nil A)) with 0; lia.
Qed.

Lemma self_can_end n : forall s, length s <= n -> sound (Self s) -> can_end [Self s].
Proof.
  induction n as [n IH] using lt_wf_ind. intros s N Sd.
  destruct (Nat.leb_spec (length s) size) as [L|L]; [apply can_end_self_small; exact L|].
  destruct (one_class s) as [(i & j & x & y & D & E & F & X)|C].
  - apply (can_end_self s i j x y L D E F). pose proof (sound_self s x y Sd) as Q. unfold self_parts in *. rewrite !partition_spec in *.
    set (rho := (beta * distance x y)%Q) in *.
    pose proof (pivot_lower x y X) as Lx. pose proof (pivot_upper x y) as Uy. fold rho in Lx, Uy.
    assert (Ux : upper distance x rho x = false) by (unfold upper; rewrite Lx; reflexivity).
    assert (Ly : lower distance x rho y = false) by (unfold upper in Uy; apply negb_true_iff; exact Uy).
    apply Forall_cons_iff in Q as (Q1 & Q). apply Forall_cons_iff in Q as (Q2 & Q). apply Forall_cons_iff in Q as (Q3 & _).
    apply nth_error_In in E, F.
    constructor; [eapply cross_can_end; [apply Nat.le_refl|exact Q1]|].
    pose proof (filter_shorter (lower distance x rho) s y F Ly). pose proof (filter_shorter (upper distance x rho) s x E Ux).
    constructor; [|constructor; [|constructor]]; (eapply IH; [|apply Nat.le_refl|assumption]; lia).
  - destruct s as [|x s]; [cbn in L; lia|].
    pose proof (class_small (x :: s) x Sd (or_introl eq_refl) (fun z J => C x z (or_introl eq_refl) J)). lia.
Qed.

Lemma sound_can_end stack : Forall sound stack -> can_end stack.
Proof.
  intros F. apply can_end_all. eapply Forall_impl; [|exact F]. intros [s|s1 s2] Sd; [eapply self_can_end|eapply cross_can_end]; try apply Nat.le_refl; exact Sd.
Qed.

Lemma size_positive s : sub s -> s <> [] -> 1 <= size.
Proof.
  destruct s as [|x s]; [congruence|]. intros (r & S) _. assert (I : In x data) by (apply (Permutation_in _ (Permutation_sym S)); left; reflexivity).
  apply (class_small [x] x); [exists (s ++ r); exact S|left; reflexivity|]. intros y [<-|[]]. apply refl.
Qed.

Lemma may_end m : forall stack draws, length draws <= m -> Forall sound stack -> exists more fuel out rest, blocks fuel stack (draws ++ more) = Ok (out, rest).
Proof.
  induction m as [m IHm] using lt_wf_ind. induction stack as [|b stack IHs]; intros draws M F.
  { exists [], 0, [], (draws ++ []). reflexivity. }
  apply Forall_cons_iff in F as (Fb & F).
  destruct (IHs draws M F) as (more & fuel & out & rest & E).
  destruct b as [s|s1 s2].
  - destruct (Nat.leb_spec (length s) size) as [L|L].
    + exists more, (S fuel), (Self s :: out), rest. rewrite self_small by exact L. rewrite E. reflexivity.
    + clear more fuel out rest E IHs.
      assert (N : length s <> 0) by lia. assert (N2 : 2 <= length s). { pose proof (size_positive s Fb). destruct s; [cbn in N; lia|]. assert (1 <= size) by (apply H; discriminate). lia. }
      destruct draws as [|d draws].
      * destruct (sound_can_end (Self s :: stack)) as (fuel & draws & out & E); [constructor; assumption|]. exists draws, fuel, out, []. exact E.
      * assert (R : forall e, randint (length s) (d :: e) = Ok (d mod length s, e)) by (intros e; unfold randint; destruct (length s); [lia|reflexivity]).
        pose proof (Nat.mod_upper_bound d _ N) as I1. destruct (index_spec s _ I1) as (p1 & P1 & _).
        destruct (draw_other_spec (length s) (d mod length s) draws N) as [(i2 & rest & D & _ & I2 & Ls)|(_ & D)].
        -- destruct (index_spec s _ I2) as (p2 & P2 & _). cbn in M.
           destruct (IHm (length rest) ltac:(lia) (self_parts s p1 p2 ++ stack) rest (Nat.le_refl _)) as (more & fuel & out & rest' & E).
           { apply Forall_app. split; [apply sound_self; exact Fb|exact F]. }
           exists more, (S fuel), out, rest'. rewrite self_large by exact L. cbn [app]. rewrite R. cbn [bind]. rewrite (draw_other_more _ _ _ _ _ more D). cbn [bind]. rewrite P1, P2. exact E.
        -- assert (I2 : exists i2, i2 < length s /\ i2 <> d mod length s) by (destruct (Nat.eq_dec (d mod length s) 0); [exists 1|exists 0]; lia).
           destruct I2 as (i2 & I2 & D2). destruct (index_spec s _ I2) as (p2 & P2 & _).
           destruct (sound_can_end (self_parts s p1 p2 ++ stack)) as (fuel & more & out & E). { apply Forall_app. split; [apply sound_self; exact Fb|exact F]. }
           exists (i2 :: more), (S fuel), out, []. rewrite self_large by exact L. cbn [app]. rewrite R. cbn [bind]. rewrite D by assumption. cbn [bind]. rewrite P1, P2. exact E.
  - destruct (Nat.leb_spec (length s1 + length s2) size) as [L|L].
    + destruct (Nat.eqb (length s1) 0 || Nat.eqb (length s2) 0) eqn:Z; [exists more, (S fuel), out, rest|exists more, (S fuel), (Cross s1 s2 :: out), rest]; rewrite cross_small by exact L; rewrite Z, E; reflexivity.
    + clear more fuel out rest E IHs.
      assert (N : length s1 + length s2 <> 0) by lia. assert (N2 : 2 <= length s1 + length s2).
      { pose proof (size_positive (s1 ++ s2) (proj1 Fb)) as K. assert (1 <= size) by (apply K; intros E; apply (f_equal (@length A)) in E; rewrite app_length in E; cbn in E; lia). lia. }
      destruct draws as [|d draws].
      * destruct (sound_can_end (Cross s1 s2 :: stack)) as (fuel & draws & out & E); [constructor; assumption|]. exists draws, fuel, out, []. exact E.
      * set (n := length s1 + length s2) in *.
        assert (R : forall e, randint n (d :: e) = Ok (d mod n, e)) by (intros e; unfold randint; destruct n; [lia|reflexivity]).
        pose proof (Nat.mod_upper_bound d _ N) as I1. destruct (pivot_spec s1 s2 _ I1) as (p1 & P1 & _).
        destruct (draw_other_spec n (d mod n) draws N) as [(i2 & rest & D & _ & I2 & Ls)|(_ & D)].
        -- destruct (pivot_spec s1 s2 _ I2) as (p2 & P2 & _). cbn in M.
           destruct (IHm (length rest) ltac:(lia) (cross_parts s1 s2 p1 p2 ++ stack) rest (Nat.le_refl _)) as (more & fuel & out & rest' & E).
           { apply Forall_app. split; [apply sound_cross; exact Fb|exact F]. }
           exists more, (S fuel), out, rest'. rewrite cross_large by exact L. fold n. cbn [app]. rewrite R. cbn [bind]. rewrite (draw_other_more _ _ _ _ _ more D). cbn [bind]. rewrite P1, P2. exact E.
        -- assert (I2 : exists i2, i2 < n /\ i2 <> d mod n) by (destruct (Nat.eq_dec (d mod n) 0); [exists 1|exists 0]; lia).
           destruct I2 as (i2 & I2 & D2). destruct (pivot_spec s1 s2 _ I2) as (p2 & P2 & _).
           destruct (sound_can_end (cross_parts s1 s2 p1 p2 ++ stack)) as (fuel & more & out & E). { apply Forall_app. split; [apply sound_cross; exact Fb|exact F]. }
           exists (i2 :: more), (S fuel), out, []. rewrite cross_large by exact L. fold n. cbn [app]. rewrite R. cbn [bind]. rewrite D by assumption. cbn [bind]. rewrite P1, P2. exact E.
Qed.
End Ends.
End End.
