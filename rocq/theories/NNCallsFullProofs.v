(** Proofs about the number of calls of the similarity by nn_descent_full. *)
From Coq Require Import QArith Qround String Permutation Lia.
From Verif Require Import Base BaseFacts ClustersModel PairwiseModel PairwiseProofs LevModel GraphModel NNDescentModel NNDescentSpec
  NNDescentProofs NNDescentFullProofs CallsModel CallsSpec CallsProofs NNCallsModel NNCallsSpec NNCallsProofs NNCallsEndProofs NNCallsCountProofs.
Open Scope nat_scope.
Open Scope list_scope.
Notation length := List.length.
Notation concat := List.concat.

Section AtMost.
Context {Q B C W : Type}.
Variable f : @user Q B W.
Notation prog := (prog Q B C).

(** no more than [n] calls, and a result that satisfies [post] *)
Definition at_most {R} (p : prog R) (n : nat) (post : R -> Prop) : Prop :=
  forall w, length (asked (fst (fst (run f w p)))) <= n /\ match snd (run f w p) with Ok r => post r | Err _ => True end.

Lemma most_ret {R} (r : R) (post : R -> Prop) : post r -> at_most (Ret r) 0 post.
Proof. intros P w. cbn. auto. Qed.
Lemma most_raise {R} e (post : R -> Prop) : at_most (Raise e) 0 post.
Proof. intros w. cbn. auto. Qed.
Lemma most_lift {R} (r : res R) (post : R -> Prop) : (forall x, r = Ok x -> post x) -> at_most (lift r) 0 post.
Proof. intros P. destruct r; [apply most_ret; auto|apply most_raise]. Qed.
Lemma most_call {R} q (k : B -> prog R) n post : (forall b, at_most (k b) n post) -> at_most (Call q k) (S n) post.
Proof.
  intros P w. cbn. destruct (f w q) as [w1 [b|e]]; [|cbn; split; [lia|exact Logic.I]]. destruct (P b w1) as [P1 P2].
  destruct (run f w1 (k b)) as [[t w'] o]. cbn in *. split; [lia|exact P2].
Qed.
Lemma most_bind {R R'} (p : prog R) (k : R -> prog R') n n' post post' :
  at_most p n post -> (forall r, post r -> at_most (k r) n' post') -> at_most (pbind p k) (n + n') post'.
Proof.
  intros P K w. rewrite run_bind. destruct (P w) as [P1 P2]. destruct (run f w p) as [[t w'] [r|e]]; cbn [fst snd then_] in *; [|split; [lia|exact Logic.I]].
  destruct (K r P2 w') as [K1 K2]. destruct (run f w' (k r)) as [[t' w''] o]. cbn [fst snd] in *. rewrite asked_app, app_length. split; [lia|exact K2].
Qed.
Lemma most_le {R} (p : prog R) n n' (post post' : R -> Prop) : n <= n' -> (forall r, post r -> post' r) -> at_most p n post -> at_most p n' post'.
Proof. intros L I P w. destruct (P w) as [P1 P2]. split; [lia|]. destruct (snd (run f w p)); auto. Qed.
Lemma most_for_each {X St} (inv : St -> Prop) (n : X -> nat) (body : St -> X -> prog St) l :
  (forall x st, In x l -> inv st -> at_most (body st x) (n x) inv) -> forall st, inv st -> at_most (for_each l st body) (list_sum (map n l)) inv.
Proof.
  induction l as [|x l IH]; intros P st I; cbn [for_each map]; [apply most_ret; exact I|]. rewrite sum_cons.
  eapply most_bind; [apply P; [left; reflexivity|exact I]|]. intros st' I'. apply IH; [|exact I']. intros y st'' Hy. apply P. right. exact Hy.
Qed.
Lemma most_pmap {X Y} (l : list X) (h : X -> prog Y) : (forall x, at_most (h x) 1 (fun _ => True)) -> at_most (pmap l h) (length l) (fun ys => length ys = length l).
Proof.
  intros H. induction l as [|x l IH]; [apply most_ret; reflexivity|]. cbn [pmap length]. apply (most_bind _ _ 1 (length l) (fun _ => True)); [apply H|].
  intros y _. eapply most_le; [| |apply (most_bind _ _ (length l) 0 (fun ys : list Y => length ys = length l) (fun ys => length ys = S (length l)))].
  - lia.
  - intros r Hr. exact Hr.
  - exact IH.
  - intros ys Hy. apply most_ret. cbn. lia.
Qed.
End AtMost.

(** ** Sizes of the samples *)
Lemma sample_full_length {X} later t (L : list X) k s t' : sample_full later t L (Z.of_nat k) = Ok (s, t') -> length s <= k.
Proof.
  unfold sample_full. destruct (Z.leb_spec (Z.of_nat (length L)) (Z.of_nat k)); [intros E; injection E as <- <-; lia|]. destruct (shuffle_loop later t L _ 0) as [[L' t'']|]; [|discriminate].
  cbn [bind]. intros E. injection E as <- <-. unfold slice_to. destruct (Z.ltb_spec (Z.of_nat k) 0); [lia|]. rewrite firstn_length. lia.
Qed.

Lemma fold_sadd_length (l s : list nat) : length (fold_left sadd l s) <= length s + length l.
Proof.
  revert s. induction l as [|x l IH]; intros s; cbn [fold_left length]; [lia|]. specialize (IH (sadd s x)).
  assert (length (sadd s x) <= length s + 1); [|lia]. unfold sadd. destruct (in_dec eq_dec x s); rewrite ?app_length; cbn; lia.
Qed.

Lemma set_of_length (l : list nat) : length (set_of l) <= length l.
Proof. unfold set_of. pose proof (fold_sadd_length l []). cbn in H. exact H. Qed.

(** the pairs of distinct numbers, in increasing order *)
Lemma count_greater l : NoDup l -> 2 * list_sum (map (fun u => length (filter (fun v => negb (Nat.leb v u)) l)) l) <= length l * (length l - 1).
Proof.
  intros ND.
  assert (G : forall l, NoDup l -> forall l', 
    list_sum (map (fun u => length (filter (fun v => negb (Nat.leb v u)) (l ++ l'))) l) = 
    list_sum (map (fun u => length (filter (fun v => negb (Nat.leb v u)) l)) l) + list_sum (map (fun u => length (filter (fun v => negb (Nat.leb v u)) l')) l)).
  { intros l0 _ l'. rewrite <- list_sum_add. apply list_sum_ext. intros u _. rewrite filter_app, app_length. reflexivity. }
  clear G. induction ND as [|x l Hx ND IH]; [cbn; lia|]. cbn [map length]. rewrite sum_cons. cbn [filter]. rewrite Nat.leb_refl. cbn [negb].
  assert (E : list_sum (map (fun u => length (if negb (Nat.leb x u) then x :: filter (fun v => negb (Nat.leb v u)) l else filter (fun v => negb (Nat.leb v u)) l)) l)
    = length (filter (fun u => negb (Nat.leb x u)) l) + list_sum (map (fun u => length (filter (fun v => negb (Nat.leb v u)) l)) l)).
  { rewrite (list_sum_ext _ (fun u => (if negb (Nat.leb x u) then 1 else 0) + length (filter (fun v => negb (Nat.leb v u)) l))).
    - rewrite list_sum_add. f_equal. rewrite <- (list_sum_filter (fun u => negb (Nat.leb x u)) (fun _ => 1)), (list_sum_const _ 1) by reflexivity. lia.
    - intros u _. destruct (negb (Nat.leb x u)); reflexivity. }
  rewrite E.
  assert (F : length (filter (fun v => negb (Nat.leb v x)) l) + length (filter (fun u => negb (Nat.leb x u)) l) <= length l).
  { clear. induction l as [|y l IH]; [cbn; lia|]. cbn [filter]. destruct (Nat.leb_spec y x), (Nat.leb_spec x y); cbn [negb length]; lia. }
  destruct l; cbn [length] in *; lia.
Qed.

Section Full.
Context {A W : Type}.
Variable set_order : list nat -> list nat.
Hypothesis set_order_perm : forall l, Permutation (set_order l) l.
Variable neg : bool.
Variable V : list A.
Variable f : @user (A * A) Q W.
Variable heapify : list entry_full -> list entry_full.
Hypothesis heapify_perm : forall l, Permutation (heapify l) l.
Variable heapreplace : list entry_full -> entry_full -> list entry_full.
Hypothesis heapreplace_perm : forall e h x, Permutation (heapreplace (e :: h) x) (x :: h).
Variable later : nat -> nat.
Notation N := (length V).

Definition small (k : nat) (B : list (list entry_full)) : Prop := Forall (fun h => length h <= k) B.

Lemma most_ask i j : at_most (C := list A) f (ask_at neg V i j) 1 (fun _ => True).
Proof.
  unfold ask_at. apply (most_bind f _ _ 0 1 (fun _ => True)); [apply most_lift; auto|]. intros x _.
  apply (most_bind f _ _ 0 1 (fun _ => True)); [apply most_lift; auto|]. intros y _. apply most_call. intros b. apply most_ret. exact Logic.I.
Qed.

Lemma insert_small k u v s Bc Bc' : small k (fst Bc) -> insert_full heapreplace u v s Bc = Ok Bc' -> small k (fst Bc').
Proof.
  destruct Bc as [B c]. unfold insert_full, index. cbn [fst]. intros HS. destruct (nth_error B u) as [h|] eqn:Eh; [|discriminate]. cbn [bind].
  destruct h as [|[worst e] h]; [discriminate|]. destruct (Qle_bool s worst); intros E; injection E as <-; cbn [fst]; [exact HS|].
  apply Forall_forall. intros h' Hin. unfold small in HS. rewrite Forall_forall in HS. apply NNDescentFullProofs.upd_In in Hin. destruct Hin as [->|Hin]; [|apply HS; exact Hin].
  rewrite (Permutation_length (heapreplace_perm (worst, e) h (s, (v, true)))). apply nth_error_In in Eh. specialize (HS _ Eh). exact HS.
Qed.

Lemma most_measure k u1 Bc u2 : small k (fst Bc) -> at_most f (measure_full_prog neg V heapreplace u1 Bc u2) 1 (fun Bc => small k (fst Bc)).
Proof.
  intros HS. unfold measure_full_prog. apply (most_bind f _ _ 1 0 (fun _ => True)); [apply most_ask|]. intros s _. apply most_lift. intros Bc' E.
  destruct (insert_full heapreplace u1 u2 s Bc) as [Bc1|] eqn:E1; [|discriminate]. cbn [bind] in E. eapply insert_small; [|exact E]. eapply insert_small; eassumption.
Qed.

Definition per_item (k r : nat) : nat := r * (2 * r - 1) + 2 * r * (k + r).

Definition sets_ok (m : nat) (sets : list (list nat)) : Prop := Forall (fun s => NoDup s /\ length s <= m) sets.

Lemma union_size (s l : list nat) m m' : NoDup s -> length s <= m -> length l <= m' ->
  NoDup (set_order (fold_left sadd l s)) /\ length (set_order (fold_left sadd l s)) <= m + m'.
Proof.
  intros ND H1 H2. pose proof (set_order_perm (fold_left sadd l s)) as P. split.
  - eapply Permutation_NoDup; [apply Permutation_sym; exact P|]. apply fold_sadd_NoDup. exact ND.
  - rewrite (Permutation_length P). pose proof (fold_sadd_length l s). lia.
Qed.

Lemma most_join k r old new st i : sets_ok k old -> sets_ok r new -> small k (fst (fst st)) ->
  at_most f (join_full_prog set_order neg V heapreplace later (Z.of_nat r) old new st i) (per_item k r) (fun st => small k (fst (fst st))).
Proof.
  intros Ho Hn HS. destruct st as [[B c] t]. cbn [fst] in HS. unfold join_full_prog.
  apply (most_bind f _ _ 0 (per_item k r) (fun o => NoDup o /\ length o <= k)).
  { apply most_lift. intros o E. unfold index in E. destruct (nth_error old i) eqn:E'; [|discriminate]. injection E as <-. apply nth_error_In in E'.
    unfold sets_ok in Ho. rewrite Forall_forall in Ho. apply Ho. exact E'. }
  intros o [O1 O2]. apply (most_bind f _ _ 0 (per_item k r) (fun n => NoDup n /\ length n <= r)).
  { apply most_lift. intros n E. unfold index in E. destruct (nth_error new i) eqn:E'; [|discriminate]. injection E as <-. apply nth_error_In in E'.
    unfold sets_ok in Hn. rewrite Forall_forall in Hn. apply Hn. exact E'. }
  intros n [N1 N2]. apply (most_bind f _ _ 0 (per_item k r) (fun st => length (fst st) <= r)).
  { apply most_lift. intros [os t'] E. cbn. eapply sample_full_length. exact E. }
  intros [os t1] L1. cbn [fst] in L1. apply (most_bind f _ _ 0 (per_item k r) (fun st => length (fst st) <= r)).
  { apply most_lift. intros [ns t'] E. cbn. eapply sample_full_length. exact E. }
  intros [ns t2] L2. cbn [fst] in L2. cbv zeta.
  destruct (union_size o os k r O1 O2 L1) as [_ Lo]. destruct (union_size n ns r r N1 N2 L2) as [Nn Ln].
  set (o' := set_order (fold_left sadd os o)) in *. set (n' := set_order (fold_left sadd ns n)) in *. clearbody o' n'.
  eapply most_le with (n := list_sum (map (fun u1 => length (filter (fun v => negb (Nat.leb v u1)) n') + length o') n') + 0); [|intros st Hst; exact Hst|].
  - rewrite list_sum_add, (list_sum_const (fun _ => length o') (length o')) by reflexivity. pose proof (count_greater n' Nn). unfold per_item.
    assert (length n' * (length n' - 1) <= 2 * r * (2 * r - 1)) by (apply Nat.mul_le_mono; lia).
    assert (length n' * length o' <= 2 * r * (k + r)) by (apply Nat.mul_le_mono; lia). lia.
  - eapply most_bind with (post := fun Bc => small k (fst Bc)).
    + apply most_for_each; [|exact HS]. intros u1 Bc _ H1. eapply most_bind with (post := fun Bc => small k (fst Bc)).
      * eapply most_le with (n := list_sum (map (fun u2 => if negb (Nat.leb u2 u1) then 1 else 0) n')); [|intros st Hst; exact Hst|].
        -- rewrite <- (list_sum_filter (fun u2 => negb (Nat.leb u2 u1)) (fun _ => 1)), (list_sum_const _ 1) by reflexivity. lia.
        -- apply most_for_each; [|exact H1]. intros u2 Bc' _ H2. destruct (Nat.leb u2 u1); cbn [negb]; [apply most_ret; exact H2|apply most_measure; exact H2].
      * intros Bc1 H2. eapply most_le with (n := list_sum (map (fun _ => 1) o')); [|intros st Hst; exact Hst|].
        -- rewrite (list_sum_const _ 1) by reflexivity. lia.
        -- apply most_for_each; [|exact H2]. intros u2 Bc' _ H3. destruct (Nat.eqb u1 u2); [|apply most_measure; exact H3].
           eapply most_le with (n := 0); [lia|intros st Hst; exact Hst|]. apply most_ret. exact H3.
    + intros Bc H1. apply most_ret. exact H1.
Qed.

Lemma sampling_sizes k t r h h' o n t' : length h <= k -> sampling later t (Z.of_nat r) h = Ok (h', o, n, t') ->
  length h' <= k /\ (NoDup o /\ length o <= k) /\ (NoDup n /\ length n <= r).
Proof.
  intros Hh E. unfold sampling in E. destruct (sample_full later t _ (Z.of_nat r)) as [[s t1]|] eqn:Es; [|discriminate]. cbn [bind] in E. injection E as <- <- <- <-.
  split; [|split].
  - rewrite map_length. unfold enumerate. rewrite combine_length, seq_length. lia.
  - split; [apply set_of_NoDup|]. etransitivity; [apply set_of_length|]. rewrite length_flat. rewrite <- (Nat.mul_1_r k). etransitivity; [apply (list_sum_upper _ 1)|apply Nat.mul_le_mono_r; exact Hh].
    intros [q [j flag]] _. destruct flag; cbn; lia.
  - split; [apply set_of_NoDup|]. etransitivity; [apply set_of_length|]. rewrite map_length. eapply sample_full_length. exact Es.
Qed.

Lemma samplings_sizes k r : forall B t B' old new t', small k B -> samplings later t (Z.of_nat r) B = Ok (B', old, new, t') ->
  small k B' /\ sets_ok k old /\ sets_ok r new.
Proof.
  induction B as [|h B IH]; intros t B' old new t' HS E; cbn [samplings] in E; [injection E as <- <- <- <-; repeat constructor|].
  inversion HS as [|? ? Hh HS']; subst. destruct (sampling later t (Z.of_nat r) h) as [[[[h' o] n] t1]|] eqn:Eh; [|discriminate]. cbn [bind] in E.
  destruct (samplings later t1 (Z.of_nat r) B) as [[[[B1 old1] new1] t2]|] eqn:EB; [|discriminate]. cbn [bind] in E. injection E as <- <- <- <-.
  destruct (sampling_sizes k _ _ _ _ _ _ _ Hh Eh) as (X1 & X2 & X3). destruct (IH _ _ _ _ _ HS' EB) as (Y1 & Y2 & Y3). repeat split; constructor; assumption.
Qed.

Lemma most_turn k r t B : small k B ->
  at_most f (turn_full_prog set_order neg V heapreplace later t (Z.of_nat r) B) (N * per_item k r) (fun st => small k (fst (fst st))).
Proof.
  intros HS. unfold turn_full_prog. apply (most_bind f _ _ 0 _ (fun st => small k (fst (fst (fst st))) /\ sets_ok k (snd (fst (fst st))) /\ sets_ok r (snd (fst st)))).
  { apply most_lift. intros [[[B' old] new] t'] E. cbn [fst snd]. eapply samplings_sizes; eassumption. }
  intros [[[B' old] new] t'] (H1 & H2 & H3). cbn [fst snd] in *.
  eapply most_le with (n := list_sum (map (fun _ => per_item k r) (seq 0 N))); [|intros st Hst; exact Hst|].
  - rewrite (list_sum_const _ (per_item k r)), seq_length by reflexivity. apply Nat.le_refl.
  - apply (most_for_each f (fun st => small k (fst (fst st)))); [|exact H1]. intros i st _ Hst. apply most_join; assumption.
Qed.

Lemma most_descend k r threshold : forall fuel t c B, small k B ->
  at_most f (descend_full_prog set_order neg V heapreplace later fuel t (Z.of_nat r) threshold c B) (fuel * (N * per_item k r)) (fun _ => True).
Proof.
  induction fuel as [|fuel IH]; intros t c B HS; cbn [descend_full_prog]; [apply most_raise|]. destruct (Qle_bool threshold _).
  - eapply most_bind; [apply (most_turn k); exact HS|]. intros [[B' c'] t'] HS'. apply IH. exact HS'.
  - eapply most_le with (n := 0); [lia|intros st Hst; exact Hst|]. apply most_ret. exact Logic.I.
Qed.

Lemma most_initial k : forall items draws, (forall r, In r draws -> r < N) ->
  at_most f (initial_full_prog set_order neg V heapify draws k items) (length items * k) (small k).
Proof.
  induction items as [|i items IH]; intros draws D; cbn [initial_full_prog]; [apply most_ret; constructor|]. cbn [length].
  destruct (sample_loop draws k i []) as [[S draws']|e] eqn:Es; [|cbn [lift pbind]; eapply most_le with (n := 0); [lia|intros st Hst; exact Hst|]; apply most_raise].
  destruct (sample_ok k i draws [] S draws') as (A1 & A2 & A3 & A4 & used & Eu); auto; [constructor|cbn; lia|]. cbn [lift pbind].
  assert (L : length (set_order S) = k) by (rewrite (Permutation_length (set_order_perm S)); exact A3).
  apply (most_bind f _ _ k (length items * k) (fun nb => length nb = k)).
  - eapply most_le; [| |apply most_pmap].
    + rewrite L; apply Nat.le_refl.
    + intros ys Hy. rewrite Hy. exact L.
    + intros j. apply (most_bind f _ _ 1 0 (fun _ => True)); [apply most_ask|]. intros s _. apply most_ret. exact Logic.I.
  - intros nb Hn. eapply most_le with (n := length items * k + 0); [lia|intros st Hst; exact Hst|].
    eapply most_bind; [apply IH; intros r Hr; apply D; rewrite Eu; apply in_or_app; right; exact Hr|]. intros B HB. apply most_ret. constructor; [|exact HB].
    rewrite (Permutation_length (heapify_perm nb)). lia.
Qed.

Lemma most_clusters links lo hi mode : at_most f (clusters_of set_order V links lo hi mode) 0 (fun _ => True).
Proof.
  intros w. destruct (run f w (clusters_of set_order V links lo hi mode)) as [[t w'] o] eqn:E. apply clusters_of_any in E. destruct E as (_ & out & -> & _).
  cbn [fst snd]. rewrite asked_Gave. split; [cbn; lia|destruct o; exact Logic.I].
Qed.

Lemma most_full fuel draws k radius rho delta lo hi mode r : (forall r, In r draws -> r < N) ->
  let k' := match k with Some k => k | None => Nat.log2 N end in
  towards_zero (rho * inject_Z (Z.of_nat k')) = Z.of_nat r ->
  at_most f (nn_full_prog set_order neg V heapify heapreplace later fuel draws k radius rho delta lo hi mode)
    (N * k' + fuel * (N * per_item k' r)) (fun _ => True).
Proof.
  intros D k' Hr. unfold nn_full_prog. assert (Hc : forall k0, choose_k V k = Ok k0 -> k0 = k').
  { unfold choose_k, k'. intros k0. destruct k; [congruence|]. destruct V; [discriminate|congruence]. }
  destruct (choose_k V k) as [k0|e]; [|cbn [lift pbind]; eapply most_le with (n := 0); [lia|intros st Hst; exact Hst|]; apply most_raise].
  rewrite (Hc k0 eq_refl). cbn [lift pbind]. rewrite Hr. clearbody k'. eapply most_bind.
  - pose proof (most_initial k' (seq 0 N) draws D) as H. rewrite seq_length in H. exact H.
  - intros B HB. rewrite <- (Nat.add_0_r (fuel * _)). eapply most_bind; [apply (most_descend k'); exact HB|]. intros B' _. apply most_clusters.
Qed.
End Full.
