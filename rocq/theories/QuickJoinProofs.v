(** quickjoin: the blocks hold exactly the close pairs. *)
From Coq Require Import QArith Qabs String Lqa.
From Verif Require Import Base BaseFacts ClustersModel ClustersSpec ClustersProofs PairwiseModel LevModel QuickJoinModel QuickJoinSpec.
Open Scope nat_scope.
Open Scope list_scope.
Notation length := List.length.

Lemma perm_filter {A} (f : A -> bool) l l' : Permutation l l' -> Permutation (filter f l) (filter f l').
Proof.
  induction 1; cbn.
  - apply perm_nil.
  - destruct (f x); [apply perm_skip|]; assumption.
  - destruct (f x), (f y); try apply Permutation_refl. apply perm_swap.
  - eapply perm_trans; eassumption.
Qed.
Lemma filter_and {A} (f g : A -> bool) l : filter f (filter g l) = filter (fun x => g x && f x) l.
Proof. induction l as [|x l IH]; cbn; [reflexivity|]. destruct (g x) eqn:E; cbn; [|exact IH]. destruct (f x); rewrite IH; reflexivity. Qed.
Lemma filter_map_comm {A B} (f : B -> bool) (g : A -> B) l : filter f (map g l) = map g (filter (fun x => f (g x)) l).
Proof. induction l as [|x l IH]; cbn; [reflexivity|]. destruct (f (g x)); cbn; rewrite IH; reflexivity. Qed.
Lemma filter_equal {A} (f g : A -> bool) l : (forall x, In x l -> f x = g x) -> filter f l = filter g l.
Proof.
  induction l as [|x l IH]; cbn; intros E; [reflexivity|]. rewrite (E x (or_introl eq_refl)), IH; [reflexivity|]. intros y Hy. apply E. right. exact Hy.
Qed.
Lemma filter_all {A} (f : A -> bool) l : (forall x, In x l -> f x = true) -> filter f l = l.
Proof.
  induction l as [|x l IH]; cbn; intros E; [reflexivity|]. rewrite (E x (or_introl eq_refl)), IH; [reflexivity|]. intros y Hy. apply E. right. exact Hy.
Qed.
Lemma filter_none {A} (f : A -> bool) l : (forall x, In x l -> f x = false) -> filter f l = [].
Proof.
  induction l as [|x l IH]; cbn; intros E; [reflexivity|]. rewrite (E x (or_introl eq_refl)). apply IH. intros y Hy. apply E. right. exact Hy.
Qed.
Lemma flat_map_filter {A B} (f : A -> bool) (g : A -> B) l : flat_map (fun x => if f x then [g x] else []) l = map g (filter f l).
Proof. induction l as [|x l IH]; cbn; [reflexivity|]. destruct (f x); cbn; rewrite IH; reflexivity. Qed.
Lemma split_filter {A} (f : A -> bool) l : Permutation l (filter f l ++ filter (fun x => negb (f x)) l).
Proof.
  induction l as [|x l IH]; cbn; [apply perm_nil|]. destruct (f x); cbn; [apply perm_skip; exact IH|].
  apply Permutation_cons_app. exact IH.
Qed.
Lemma filter_length_split {A} (f : A -> bool) l : length (filter f l) + length (filter (fun x => negb (f x)) l) = length l.
Proof. rewrite <- app_length. symmetry. apply Permutation_length, split_filter. Qed.

(** equality of two concatenations up to the order *)
Ltac app_perm :=
  rewrite <- ?app_assoc;
  lazymatch goal with
  | |- Permutation (?a ++ _) (?a ++ _) => apply Permutation_app_head; app_perm
  | |- Permutation ?a ?a => apply Permutation_refl
  | |- Permutation (?a ++ _) (_ ++ _) => eapply perm_trans; [|apply Permutation_app_comm]; app_perm
  end.

Section Pairs.
Context {A : Type}.
Implicit Types p q : list (A * A).

Lemma both_app p q : Permutation (both_ways (p ++ q)) (both_ways p ++ both_ways q).
Proof.
  unfold both_ways. rewrite map_app, <- !app_assoc. apply Permutation_app_head. rewrite !app_assoc. apply Permutation_app_tail, Permutation_app_comm.
Qed.
Lemma same_refl p : same_pairs p p.
Proof. apply Permutation_refl. Qed.
Lemma same_trans p q r : same_pairs p q -> same_pairs q r -> same_pairs p r.
Proof. apply perm_trans. Qed.
Lemma same_sym p q : same_pairs p q -> same_pairs q p.
Proof. apply Permutation_sym. Qed.
Lemma same_app p p' q q' : same_pairs p p' -> same_pairs q q' -> same_pairs (p ++ q) (p' ++ q').
Proof.
  intros E F. unfold same_pairs. eapply perm_trans; [apply both_app|]. eapply perm_trans; [|apply Permutation_sym, both_app]. apply Permutation_app; assumption.
Qed.
Lemma same_perm p q : Permutation p q -> same_pairs p q.
Proof. intros E. unfold same_pairs, both_ways. apply Permutation_app; [exact E|]. apply Permutation_map. exact E. Qed.
Lemma swap_swap (x : A * A) : swap (swap x) = x.
Proof. destruct x; reflexivity. Qed.
Lemma same_swap p : same_pairs (map swap p) p.
Proof.
  unfold same_pairs, both_ways. rewrite map_map. replace (map (fun x => swap (swap x)) p) with p; [apply Permutation_app_comm|]. rewrite <- (map_id p) at 1. apply map_ext. intros x. symmetry. apply swap_swap.
Qed.
Lemma same_filter (c : A * A -> bool) p q : (forall x, c (swap x) = c x) -> same_pairs p q -> same_pairs (filter c p) (filter c q).
Proof.
  intros Sy E.
  assert (K : forall p, both_ways (filter c p) = filter c (both_ways p)).
  { intros l. unfold both_ways. rewrite filter_app, filter_map_comm. f_equal. f_equal. apply filter_equal. intros x _. symmetry. apply Sy. }
  unfold same_pairs. rewrite !K. apply perm_filter. exact E.
Qed.
Lemma same_In p q x : same_pairs p q -> In x p -> In x q \/ In (swap x) q.
Proof.
  intros E I. assert (J : In x (both_ways q)) by (apply (Permutation_in _ E), in_or_app; left; exact I).
  apply in_app_or in J as [J|J]; [left; exact J|]. right. apply in_map_iff in J as (y & <- & J). rewrite swap_swap. exact J.
Qed.
Lemma same_length p q : same_pairs p q -> length p = length q.
Proof.
  intros E. apply Permutation_length in E. unfold both_ways in E. rewrite !app_length, !map_length in E. lia.
Qed.
Lemma same_nil p : same_pairs p [] -> p = [].
Proof. intros E. apply same_length in E. destruct p; [reflexivity|discriminate]. Qed.
Lemma same_concat (ps qs : list (list (A * A))) : Forall2 same_pairs ps qs -> same_pairs (concat ps) (concat qs).
Proof. induction 1; cbn; [apply same_refl|]. apply same_app; assumption. Qed.

Lemma product_cons_r (l : list A) (y : A) (m : list A) : Permutation (list_prod l (y :: m)) (map (fun x => (x, y)) l ++ list_prod l m).
Proof.
  induction l as [|x l IH]; cbn; [apply perm_nil|]. apply perm_skip.
  eapply perm_trans; [apply Permutation_app_head; exact IH|]. rewrite !app_assoc. apply Permutation_app_tail, Permutation_app_comm.
Qed.
Lemma product_perm (l l' m m' : list A) : Permutation l l' -> Permutation m m' -> Permutation (list_prod l m) (list_prod l' m').
Proof.
  intros E F. apply perm_trans with (list_prod l' m).
  - clear F. induction E; cbn.
    + apply perm_nil.
    + apply Permutation_app_head; assumption.
    + rewrite !app_assoc. apply Permutation_app_tail, Permutation_app_comm.
    + eapply perm_trans; eassumption.
  - clear E. induction l' as [|x l' IH]; cbn; [apply perm_nil|]. apply Permutation_app; [apply Permutation_map; exact F|exact IH].
Qed.
Lemma product_app_l (l l' m : list A) : list_prod (l ++ l') m = list_prod l m ++ list_prod l' m.
Proof. induction l as [|x l IH]; cbn; [reflexivity|]. rewrite IH, app_assoc. reflexivity. Qed.
Lemma product_nil_r (l : list A) : list_prod l (@nil A) = [].
Proof. induction l; [reflexivity|assumption]. Qed.
Lemma product_app_r (l m m' : list A) : Permutation (list_prod l (m ++ m')) (list_prod l m ++ list_prod l m').
Proof.
  induction m as [|y m IH]; [rewrite product_nil_r; apply Permutation_refl|]. cbn [app].
  eapply perm_trans; [apply product_cons_r|]. eapply perm_trans; [apply Permutation_app_head; exact IH|].
  rewrite app_assoc. apply Permutation_app_tail, Permutation_sym, product_cons_r.
Qed.
Lemma product_swap (l m : list A) : Permutation (map swap (list_prod l m)) (list_prod m l).
Proof.
  induction l as [|x l IH]; [rewrite product_nil_r; apply Permutation_refl|]. cbn [list_prod]. rewrite map_app, map_map. cbn.
  eapply perm_trans; [|apply Permutation_sym, product_cons_r]. apply Permutation_app; [|exact IH]. apply Permutation_refl.
Qed.

Lemma filter_product (c : A * A -> bool) (f g : A -> bool) (l m : list A) : (forall x y, c (x, y) = true -> f x = true /\ g y = true) ->
  filter c (list_prod (filter f l) (filter g m)) = filter c (list_prod l m).
Proof.
  intros W.
  assert (row : forall x, f x = true -> filter c (map (fun y => (x, y)) (filter g m)) = filter c (map (fun y => (x, y)) m)).
  { intros x _. rewrite !filter_map_comm, filter_and. f_equal. apply filter_equal. intros y _.
    destruct (c (x, y)) eqn:E; [|apply andb_false_r]. apply W in E as (_ & ->). reflexivity. }
  induction l as [|x l IH]; cbn [list_prod]; [reflexivity|]. cbn [filter]. destruct (f x) eqn:E.
  - cbn [list_prod]. rewrite !filter_app, IH. f_equal. apply row. exact E.
  - rewrite filter_app, IH. rewrite (filter_none c (map (fun y => (x, y)) m)); [reflexivity|].
    intros q I. apply in_map_iff in I as (y & <- & _). destruct (c (x, y)) eqn:F; [|reflexivity]. apply W in F as (F & _). congruence.
Qed.

(** splitting a list in two *)
Lemma ordered_split (f : A -> bool) l :
  same_pairs (ordered_pairs l)
    (list_prod (filter f l) (filter (fun x => negb (f x)) l) ++ ordered_pairs (filter f l) ++ ordered_pairs (filter (fun x => negb (f x)) l)).
Proof.
  induction l as [|a l IH]; cbn; [apply same_refl|].
  set (L := filter f l) in *. set (G := filter (fun x => negb (f x)) l) in *.
  assert (E : Permutation (map (pair a) l) (map (pair a) L ++ map (pair a) G)) by (rewrite <- map_app; apply Permutation_map, split_filter).
  eapply same_trans; [apply same_app; [apply same_perm; exact E|exact IH]|].
  destruct (f a); cbn [negb list_prod ordered_pairs].
  - fold L G. cbn [list_prod ordered_pairs]. apply same_perm. change (fun y => (a, y)) with (@pair A A a). app_perm.
  - fold L G. cbn [list_prod ordered_pairs].
    apply same_trans with ((map (fun x => (x, a)) L ++ map (pair a) G) ++ list_prod L G ++ ordered_pairs L ++ ordered_pairs G).
    + apply same_app; [|apply same_refl]. apply same_app; [|apply same_refl].
      eapply same_trans; [|apply same_swap]. apply same_perm. rewrite map_map. cbn. apply Permutation_refl.
    + apply same_perm. eapply perm_trans; [|apply Permutation_app_tail, Permutation_sym, product_cons_r]. app_perm.
Qed.
End Pairs.

Lemma Qle_false x y : Qle_bool x y = false -> (y < x)%Q.
Proof. intros E. apply Qnot_le_lt. intros F. apply Qle_bool_iff in F. congruence. Qed.
Lemma bind_ok {A B} (m : res A) (f : A -> res B) y : bind m f = Ok y -> exists x, m = Ok x /\ f x = Ok y.
Proof. destruct m; cbn; [eauto|discriminate]. Qed.

Section Exact.
Context {A : Type}.
Variable distance : A -> A -> Q.
Variable radius : Q.

Definition lower (p : A) (rho : Q) (x : A) : bool := negb (Qle_bool rho (distance p x)).
Definition upper (p : A) (rho : Q) (x : A) : bool := negb (lower p rho x).
Definition window_l (p : A) (rho : Q) (x : A) : bool := Qle_bool (rho - radius) (distance p x).
Definition window_g (p : A) (rho : Q) (x : A) : bool := Qle_bool (distance p x) (rho + radius).

Lemma partition_spec items p rho : partition distance radius items p rho =
  (filter (lower p rho) items, filter (upper p rho) items,
   filter (window_l p rho) (filter (lower p rho) items), filter (window_g p rho) (filter (upper p rho) items)).
Proof.
  induction items as [|x items IH]; [reflexivity|]. cbn [partition filter]. rewrite IH. unfold upper. change (negb (Qle_bool rho (distance p x))) with (lower p rho x).
  destruct (lower p rho x); cbn [negb filter]; reflexivity.
Qed.

Definition block_pairs (b : block A) : list (A * A) :=
  match b with
  | Self s => close_pairs distance radius s
  | Cross s1 s2 => filter (close distance radius) (list_prod s1 s2)
  end.

Hypothesis sym : forall x y, (distance x y == distance y x)%Q.
Hypothesis tri : forall x y z, (distance x z <= distance x y + distance y z)%Q.

Lemma close_swap x : close distance radius (swap x) = close distance radius x.
Proof.
  unfold close, swap; cbn. destruct (Qle_bool (distance (fst x) (snd x)) radius) eqn:E.
  - apply Qle_bool_iff. apply Qle_bool_iff in E. rewrite sym. exact E.
  - destruct (Qle_bool (distance (snd x) (fst x)) radius) eqn:F; [|reflexivity]. apply Qle_bool_iff in F. apply Qle_false in E. rewrite sym in E. lra.
Qed.

Lemma window p rho x y : lower p rho x = true -> upper p rho y = true -> close distance radius (x, y) = true ->
  window_l p rho x = true /\ window_g p rho y = true.
Proof.
  unfold lower, upper, window_l, window_g, close, lower. cbn. rewrite negb_involutive, negb_true_iff. intros F G C.
  apply Qle_false in F. apply Qle_bool_iff in G, C. rewrite !Qle_bool_iff. pose proof (tri p x y) as T. split; lra.
Qed.

Lemma filter_window p rho l m :
  filter (close distance radius) (list_prod (filter (window_l p rho) (filter (lower p rho) l)) (filter (window_g p rho) (filter (upper p rho) m))) =
  filter (close distance radius) (list_prod (filter (lower p rho) l) (filter (upper p rho) m)).
Proof.
  rewrite !filter_and.
  transitivity (filter (fun q => (lower p rho (fst q) && upper p rho (snd q)) && close distance radius q) (list_prod l m)).
  - rewrite <- (filter_product _ (fun x => lower p rho x && window_l p rho x) (fun x => upper p rho x && window_g p rho x) l m).
    + apply filter_equal. intros (x & y) I. apply in_prod_iff in I as (I & J). apply filter_In in I as (_ & I), J as (_ & J). cbn.
      apply andb_true_iff in I as (-> & _), J as (-> & _). reflexivity.
    + intros x y E. cbn in E. apply andb_true_iff in E as (E & C). apply andb_true_iff in E as (E & F). rewrite E, F. apply (window p rho x y); assumption.
  - rewrite <- (filter_product _ (lower p rho) (upper p rho) l m).
    + apply filter_equal. intros (x & y) I. apply in_prod_iff in I as (I & J). apply filter_In in I as (_ & I), J as (_ & J). cbn. rewrite I, J. reflexivity.
    + intros x y E. cbn in E. apply andb_true_iff in E as (E & _). apply andb_true_iff in E as (-> & ->). split; reflexivity.
Qed.

Lemma filter_window' p rho l m :
  filter (close distance radius) (list_prod (filter (window_g p rho) (filter (upper p rho) l)) (filter (window_l p rho) (filter (lower p rho) m))) =
  filter (close distance radius) (list_prod (filter (upper p rho) l) (filter (lower p rho) m)).
Proof.
  rewrite !filter_and.
  transitivity (filter (fun q => (upper p rho (fst q) && lower p rho (snd q)) && close distance radius q) (list_prod l m)).
  - rewrite <- (filter_product _ (fun x => upper p rho x && window_g p rho x) (fun x => lower p rho x && window_l p rho x) l m).
    + apply filter_equal. intros (x & y) I. apply in_prod_iff in I as (I & J). apply filter_In in I as (_ & I), J as (_ & J). cbn.
      apply andb_true_iff in I as (-> & _), J as (-> & _). reflexivity.
    + intros x y E. cbn in E. apply andb_true_iff in E as (E & C). apply andb_true_iff in E as (E & F). rewrite E, F.
      change (x, y) with (swap (y, x)) in C. rewrite close_swap in C. destruct (window p rho y x F E C) as (-> & ->). split; reflexivity.
  - rewrite <- (filter_product _ (upper p rho) (lower p rho) l m).
    + apply filter_equal. intros (x & y) I. apply in_prod_iff in I as (I & J). apply filter_In in I as (_ & I), J as (_ & J). cbn. rewrite I, J. reflexivity.
    + intros x y E. cbn in E. apply andb_true_iff in E as (E & _). apply andb_true_iff in E as (-> & ->). split; reflexivity.
Qed.

Lemma self_step items p rho : let '(L, G, Lw, Gw) := partition distance radius items p rho in
  same_pairs (block_pairs (Cross Lw Gw) ++ block_pairs (Self L) ++ block_pairs (Self G)) (block_pairs (Self items)).
Proof.
  rewrite partition_spec. cbn [block_pairs]. rewrite filter_window. unfold close_pairs. rewrite <- !filter_app.
  apply same_filter; [apply close_swap|]. apply same_sym, ordered_split.
Qed.

Lemma cross_step s1 s2 p rho : let '(L1, G1, Lw1, Gw1) := partition distance radius s1 p rho in
  let '(L2, G2, Lw2, Gw2) := partition distance radius s2 p rho in
  same_pairs (block_pairs (Cross Gw1 Lw2) ++ block_pairs (Cross Lw1 Gw2) ++ block_pairs (Cross G1 G2) ++ block_pairs (Cross L1 L2)) (block_pairs (Cross s1 s2)).
Proof.
  rewrite !partition_spec. cbn [block_pairs]. rewrite filter_window, filter_window'. rewrite <- !filter_app.
  apply same_filter; [apply close_swap|]. apply same_perm.
  eapply perm_trans; [|apply Permutation_sym, product_perm; apply (split_filter (lower p rho))].
  change (fun x => negb (lower p rho x)) with (upper p rho).
  rewrite product_app_l.
  eapply perm_trans; [|apply Permutation_app; apply Permutation_sym, product_app_r]. app_perm.
Qed.

Lemma blocks_exact beta size fuel stack draws out rest :
  blocks distance radius beta size fuel stack draws = Ok (out, rest) -> same_pairs (flat_map block_pairs out) (flat_map block_pairs stack).
Proof.
  revert stack draws out rest. induction fuel as [|fuel IH]; intros [|[s|s1 s2] stack] draws out rest; cbn [blocks]; intros E;
    try discriminate; try (injection E as <- <-; apply same_refl).
  - destruct (Nat.leb (length s) size).
    + apply bind_ok in E as ((o & r) & E & F). injection F as <- <-. cbn [flat_map]. apply same_app; [apply same_refl|]. eapply IH; exact E.
    + apply bind_ok in E as ((i1 & d1) & _ & E). apply bind_ok in E as ((i2 & d2) & _ & E). apply bind_ok in E as (p1 & _ & E). apply bind_ok in E as (p2 & _ & E).
      pose proof (self_step s p1 (beta * distance p1 p2)%Q) as K. destruct (partition distance radius s p1 (beta * distance p1 p2)) as (((L & G) & Lw) & Gw).
      apply IH in E. eapply same_trans; [exact E|]. cbn [flat_map]. rewrite !app_assoc. rewrite app_assoc in K. apply same_app; [exact K|apply same_refl].
  - destruct (Nat.leb (length s1 + length s2) size).
    + destruct (Nat.eqb (length s1) 0 || Nat.eqb (length s2) 0) eqn:Z.
      * apply IH in E. cbn [flat_map block_pairs]. assert (P : list_prod s1 s2 = []).
        { apply orb_true_iff in Z as [Z|Z]; apply Nat.eqb_eq in Z; [destruct s1|destruct s2]; try discriminate; [reflexivity|apply product_nil_r]. }
        rewrite P. exact E.
      * apply bind_ok in E as ((o & r) & E & F). injection F as <- <-. cbn [flat_map]. apply same_app; [apply same_refl|]. eapply IH; exact E.
    + apply bind_ok in E as ((i1 & d1) & _ & E). apply bind_ok in E as ((i2 & d2) & _ & E). apply bind_ok in E as (p1 & _ & E). apply bind_ok in E as (p2 & _ & E).
      pose proof (cross_step s1 s2 p1 (beta * distance p1 p2)%Q) as K.
      destruct (partition distance radius s1 p1 (beta * distance p1 p2)) as (((L1 & G1) & Lw1) & Gw1).
      destruct (partition distance radius s2 p1 (beta * distance p1 p2)) as (((L2 & G2) & Lw2) & Gw2).
      apply IH in E. eapply same_trans; [exact E|]. cbn [flat_map]. rewrite !app_assoc. rewrite !app_assoc in K. apply same_app; [exact K|apply same_refl].
Qed.
End Exact.

Lemma perm_concat {A} (ls ms : list (list A)) : Permutation ls ms -> Permutation (concat ls) (concat ms).
Proof.
  induction 1; cbn.
  - apply perm_nil.
  - apply Permutation_app_head; assumption.
  - rewrite !app_assoc. apply Permutation_app_tail, Permutation_app_comm.
  - eapply perm_trans; eassumption.
Qed.

Section Solve.
Context {A : Type} `{EqDec A}.
Variable distance : A -> A -> Q.
Variable radius : Q.

Lemma bruteforce_row a s : flat_map (fun b => if Qle_bool (distance a b) radius then [(a, b)] else []) s = filter (close distance radius) (map (fun y => (a, y)) s).
Proof. rewrite filter_map_comm. apply (flat_map_filter (fun b => Qle_bool (distance a b) radius) (fun b => (a, b))). Qed.

Lemma bruteforce_spec s1 s2 : quickjoin_bruteforce distance radius s1 s2 = filter (close distance radius) (list_prod s1 s2).
Proof.
  unfold quickjoin_bruteforce. induction s1 as [|a s1 IH]; [reflexivity|]. cbn [flat_map list_prod]. rewrite filter_app, IH, bruteforce_row. reflexivity.
Qed.
Lemma self_bruteforce_spec s : quickjoin_self_bruteforce distance radius s = close_pairs distance radius s.
Proof.
  unfold close_pairs. induction s as [|a s IH]; [reflexivity|]. cbn [quickjoin_self_bruteforce ordered_pairs]. rewrite filter_app, IH, bruteforce_row. reflexivity.
Qed.

Variable neighbors : list A -> A -> list A.
Hypothesis neighbors_exact : forall s x, Permutation (neighbors s x) (filter (fun y => Qle_bool (distance x y) radius) s).
Variable identity : A -> nat.
Hypothesis identity_inj : forall x y, identity x = identity y -> x = y.
Hypothesis sym : forall x y, (distance x y == distance y x)%Q.

Lemma neighbors_product s1 s2 : Permutation (flat_map (fun a => map (fun b => (a, b)) (neighbors s1 a)) s2) (filter (close distance radius) (list_prod s2 s1)).
Proof.
  induction s2 as [|a s2 IH]; cbn [flat_map list_prod]; [apply perm_nil|]. rewrite filter_app, filter_map_comm. apply Permutation_app; [|exact IH].
  apply Permutation_map. apply neighbors_exact.
Qed.

Lemma vptree_spec s1 s2 : exists ps, quickjoin_vptree distance radius neighbors s1 s2 = Ok ps /\ same_pairs ps (filter (close distance radius) (list_prod s1 s2)).
Proof.
  assert (back : forall l m, same_pairs (filter (close distance radius) (list_prod m l)) (filter (close distance radius) (list_prod l m))).
  { intros l m. apply same_filter; [apply close_swap; exact sym|]. eapply same_trans; [|apply same_swap]. apply same_perm, Permutation_sym, product_swap. }
  unfold quickjoin_vptree.
  set (l := if Nat.ltb (length s2) (length s1) then s2 else s1). set (m := if Nat.ltb (length s2) (length s1) then s1 else s2).
  replace (if Nat.ltb (length s2) (length s1) then (s2, s1) else (s1, s2)) with (l, m) by (unfold l, m; destruct (Nat.ltb _ _); reflexivity).
  assert (E : exists ps, (if Nat.eqb (length l) 1 then let! b := index l 0 in Ok (flat_map (fun a => if Qle_bool (distance a b) radius then [(a, b)] else []) m)
      else Ok (flat_map (fun a => map (fun b => (a, b)) (neighbors l a)) m)) = Ok ps /\ same_pairs ps (filter (close distance radius) (list_prod m l))).
  { destruct (Nat.eqb (length l) 1) eqn:E.
    - apply Nat.eqb_eq in E. destruct l as [|b [|]]; try discriminate. cbn. eexists. split; [reflexivity|].
      apply same_perm. clear. induction m as [|a m IH]; cbn; [apply perm_nil|]. unfold close at 1; cbn.
      destruct (Qle_bool (distance a b) radius); cbn; [apply perm_skip|]; exact IH.
    - eexists. split; [reflexivity|]. apply same_perm, neighbors_product. }
  destruct E as (ps & E & S). exists ps. split; [exact E|]. unfold l, m in S. destruct (Nat.ltb (length s2) (length s1)); [exact S|]. eapply same_trans; [exact S|apply back].
Qed.

Definition differ (p : A * A) : bool := if eq_dec (fst p) (snd p) then false else true.
Definition ahead (p : A * A) : bool := Nat.ltb (identity (fst p)) (identity (snd p)).

Lemma product_self (s : list A) : Permutation (list_prod s s) (map (fun x => (x, x)) s ++ both_ways (ordered_pairs s)).
Proof.
  induction s as [|a s IH]; cbn [list_prod map ordered_pairs app]; [apply perm_nil|]. apply perm_skip.
  eapply perm_trans; [apply Permutation_app_head, product_cons_r|].
  eapply perm_trans; [apply Permutation_app_head, Permutation_app_head; exact IH|].
  eapply perm_trans; [|apply Permutation_app_head, Permutation_sym, both_app]. unfold both_ways at 2. rewrite map_map. cbn [swap fst snd].
  change (fun y => (a, y)) with (@pair A A a). unfold swap. cbn [fst snd]. app_perm.
Qed.

Lemma self_vptree_spec s : same_pairs (quickjoin_self_vptree neighbors identity s) (filter differ (close_pairs distance radius s)).
Proof.
  assert (E : Permutation (quickjoin_self_vptree neighbors identity s) (filter (fun p => ahead p && close distance radius p) (list_prod s s))).
  { unfold quickjoin_self_vptree. destruct (Nat.eqb (length s) 1) eqn:L.
    - apply Nat.eqb_eq in L. destruct s as [|x [|]]; try discriminate. cbn [list_prod map app filter]. unfold ahead at 1. cbn [fst snd]. rewrite Nat.ltb_irrefl. apply perm_nil.
    - clear L. set (t := s) at 2 3. generalize t. clear t. intros t. induction t as [|a t IH]; cbn [flat_map list_prod]; [apply perm_nil|].
      rewrite filter_app. apply Permutation_app; [|exact IH]. rewrite filter_map_comm.
      transitivity (map (fun b => (a, b)) (filter (fun b => Nat.ltb (identity a) (identity b)) (neighbors s a))).
      + rewrite <- flat_map_filter. match goal with |- Permutation ?x ?y => replace x with y; [apply Permutation_refl|] end.
        apply flat_map_ext. intros b. destruct (eq_dec a b) as [->|]; [|reflexivity]. rewrite Nat.ltb_irrefl. reflexivity.
      + apply Permutation_map. eapply perm_trans; [apply perm_filter, neighbors_exact|]. rewrite filter_and.
        match goal with |- Permutation ?x ?y => replace x with y; [apply Permutation_refl|] end.
        apply filter_equal. intros b _. unfold ahead, close. cbn [fst snd]. apply andb_comm. }
  eapply same_trans; [apply same_perm; exact E|]. clear E.
  eapply same_trans; [apply same_perm, perm_filter, product_self|]. rewrite filter_app.
  rewrite filter_none by (intros p I; apply in_map_iff in I as (x & <- & _); unfold ahead; cbn [fst snd]; rewrite Nat.ltb_irrefl; reflexivity). cbn [app].
  unfold both_ways, close_pairs. rewrite filter_app, filter_map_comm, filter_and.
  set (o := ordered_pairs s). generalize o. clear o. intros o.
  apply same_trans with (filter (fun p => ahead p && close distance radius p) o ++ filter (fun p => ahead (swap p) && close distance radius (swap p)) o).
  { apply same_app; [apply same_refl|apply same_swap]. }
  apply same_perm. induction o as [|p o IH]; [apply perm_nil|]. cbn [filter]. rewrite close_swap by exact sym.
  assert (D : differ p = ahead p || ahead (swap p)).
  { unfold differ, ahead, swap. cbn [fst snd]. destruct (eq_dec (fst p) (snd p)) as [e|n]; [rewrite e, Nat.ltb_irrefl; reflexivity|].
    symmetry. apply orb_true_iff. rewrite !Nat.ltb_lt. assert (identity (fst p) <> identity (snd p)) by (intros e; apply n, identity_inj, e). lia. }
  assert (X : ahead p && ahead (swap p) = false).
  { unfold ahead, swap. cbn [fst snd]. apply andb_false_iff. rewrite !Nat.ltb_ge. lia. }
  destruct (close distance radius p); rewrite ?andb_true_r, ?andb_false_r; cbn [andb]; [|exact IH]. rewrite D.
  destruct (ahead p), (ahead (swap p)); try discriminate; cbn [orb app].
  - apply perm_skip. exact IH.
  - eapply perm_trans; [apply Permutation_sym, Permutation_middle|]. apply perm_skip. exact IH.
  - exact IH.
Qed.
End Solve.
