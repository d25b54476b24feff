From Coq Require Import QArith Qfield Lqa.
From Verif Require Import Base BaseFacts MetricsModel MetricsSpec MetricsProofs EvaluationModel EvaluationSpec.
Open Scope nat_scope.

Lemma dset_fresh {K V} `{EqDec K} (d : dict K V) k v : ~ In k (dkeys d) -> dset d k v = d ++ [(k, v)].
Proof. unfold dset. induction d as [|[a b] d IH]; simpl; intros Hk; [reflexivity|].
  destruct (eq_dec k a); [exfalso; apply Hk; left; congruence|]. rewrite IH; [reflexivity|tauto]. Qed.

Lemma dget_app {K V} `{EqDec K} (d e : dict K V) k :
  dget (d ++ e) k = match dget d k with Some v => Some v | None => dget e k end.
Proof. induction d as [|[a b] d IH]; simpl; [reflexivity|]. destruct (eq_dec k a); [reflexivity|apply IH]. Qed.

Lemma dkeys_const {K V} (l : list K) (i : V) : dkeys (map (fun x => (x, i)) l) = l.
Proof. unfold dkeys. rewrite map_map. simpl. apply map_id. Qed.

Lemma dget_const {K V} `{EqDec K} (l : list K) (i : V) x :
  dget (map (fun x => (x, i)) l) x = if memb x l then Some i else None.
Proof. induction l as [|a l IH]; simpl; [reflexivity|]. destruct (eq_dec x a) as [->|Hn].
  - replace (memb a (a :: l)) with true; [reflexivity|]. symmetry. rewrite memb_true. left; reflexivity.
  - rewrite IH. replace (memb x (a :: l)) with (memb x l); [reflexivity|].
    destruct (memb_In x l) as [Hi|Hi]; symmetry; [rewrite memb_true; right; exact Hi|].
    rewrite memb_false. intros [E|E]; [congruence|tauto]. Qed.

Section BestMatching.
Context {T : Type} `{EqDec T}.

Definition kept (ti c : list T) : list T := filter (fun x => memb x ti) c.

Lemma index_items_spec allow ti i c : forall index l,
  match index_items allow ti i c index l with
  | Ok r => (allow = true \/ (forall x, In x c -> In x ti)) /\ NoDup (kept ti c) /\
            (forall x, In x (kept ti c) -> ~ In x (dkeys index)) /\
            r = (index ++ map (fun x => (x, i)) (kept ti c), l + length (kept ti c))
  | Err e => e = TypeError /\ ~ ((allow = true \/ (forall x, In x c -> In x ti)) /\ NoDup (kept ti c) /\
            (forall x, In x (kept ti c) -> ~ In x (dkeys index)))
  end.
Proof.
  induction c as [|a c IH]; intros index l.
  - simpl. split; [right; intros x []|]. split; [constructor|]. split; [intros x []|].
    rewrite app_nil_r, Nat.add_0_r. reflexivity.
  - simpl index_items. unfold kept. simpl filter. fold (kept ti c).
    destruct (memb_In a ti) as [Ha|Ha]; simpl negb; cbv iota.
    + destruct (memb_In a (dkeys index)) as [Hk|Hk]; simpl.
      * split; [reflexivity|]. intros (_ & _ & Hd). exact (Hd a (or_introl eq_refl) Hk).
      * specialize (IH (dset index a i) (l + 1)). rewrite dset_fresh in * by exact Hk.
        unfold dkeys in IH. rewrite map_app in IH. simpl in IH. fold (dkeys index) in IH.
        destruct (index_items allow ti i c (index ++ [(a, i)]) (l + 1)) as [r|e].
        -- destruct IH as (Hall & Hnd & Hd & Hr). split; [|split; [|split]].
           ++ destruct Hall as [E|Hall]; [left; exact E|right]. intros x [<-|Hx]; [exact Ha|auto].
           ++ constructor; [|exact Hnd]. intros Hin. apply (Hd a Hin). apply in_or_app. right; left; reflexivity.
           ++ intros x [<-|Hx] Hin; [tauto|]. apply (Hd x Hx). apply in_or_app. left; exact Hin.
           ++ rewrite Hr, <- app_assoc. simpl. f_equal. lia.
        -- destruct IH as [-> Hno]. split; [reflexivity|]. intros (Hall & Hnd & Hd). apply Hno.
           inversion Hnd; subst. split; [|split].
           ++ destruct Hall as [E|Hall]; [left; exact E|right]. intros x Hx. apply Hall. right; exact Hx.
           ++ assumption.
           ++ intros x Hx Hin. apply in_app_or in Hin. destruct Hin as [Hin|[<-|[]]]; [|tauto].
              apply (Hd x); [right; exact Hx|exact Hin].
    + destruct allow; simpl.
      * specialize (IH index l). destruct (index_items true ti i c index l) as [r|e].
        -- destruct IH as (Hall & Hnd & Hd & Hr). split; [left; reflexivity|]. tauto.
        -- destruct IH as [-> Hno]. split; [reflexivity|]. intros (Hall & Hnd & Hd). apply Hno.
           split; [left; reflexivity|]. tauto.
      * split; [reflexivity|]. intros ([E|Hall] & _); [discriminate|]. apply Ha, Hall. left; reflexivity.
Qed.

Fixpoint indexed (ti : list T) (i : nat) (predicted : list (list T)) : dict T nat :=
  match predicted with
  | [] => []
  | c :: p => map (fun x => (x, i)) (kept ti c) ++ indexed ti (S i) p
  end.
Fixpoint sized (ti : list T) (i : nat) (predicted : list (list T)) : dict nat nat :=
  match predicted with
  | [] => []
  | c :: p => (i, length (kept ti c)) :: sized ti (S i) p
  end.

Lemma kept_app ti a b : kept ti (a ++ b) = kept ti a ++ kept ti b.
Proof. apply filter_app. Qed.

Definition good_predicted allow ti (predicted : list (list T)) (keys : list T) : Prop :=
  Forall (fun c => c <> []) predicted /\ (allow = true \/ forall x, In x (concat predicted) -> In x ti) /\
  NoDup (kept ti (concat predicted)) /\ (forall x, In x (kept ti (concat predicted)) -> ~ In x keys).

Lemma index_predicted_spec allow ti predicted : forall i index sizes,
  (forall j, In j (dkeys sizes) -> j < i) ->
  match index_predicted allow ti i predicted index sizes with
  | Ok r => good_predicted allow ti predicted (dkeys index) /\
            r = (index ++ indexed ti i predicted, sizes ++ sized ti i predicted)
  | Err e => e = TypeError /\ ~ good_predicted allow ti predicted (dkeys index)
  end.
Proof.
  unfold good_predicted. induction predicted as [|c p IH]; intros i index sizes Hs.
  - simpl. rewrite !app_nil_r. repeat split; auto; try constructor; try (right; intros x []); intros x [].
  - simpl index_predicted. destruct c as [|a c'].
    + simpl. split; [reflexivity|]. intros (Hf & _). inversion Hf; subst. tauto.
    + remember (a :: c') as c eqn:Ec. replace (Nat.eqb (length c) 0) with false by (subst c; reflexivity).
      assert (Hne : c <> []) by (subst c; discriminate). clear a c' Ec.
      pose proof (index_items_spec allow ti i c index 0) as Hi.
      destruct (index_items allow ti i c index 0) as [r|e]; cbn [bind].
      * destruct Hi as (Hall & Hnd & Hd & ->). rewrite dset_fresh by (intros Hin; apply Hs in Hin; lia).
        rewrite Nat.add_1_r. rewrite Nat.add_0_l.
        specialize (IH (S i) (index ++ map (fun x => (x, i)) (kept ti c)) (sizes ++ [(i, length (kept ti c))])).
        assert (Hk : dkeys (index ++ map (fun x => (x, i)) (kept ti c)) = dkeys index ++ kept ti c).
        { unfold dkeys. rewrite map_app, map_map. simpl. rewrite map_id. reflexivity. }
        rewrite Hk in IH.
        match type of IH with ?A -> _ => assert (HA : A) end.
        { intros j Hj. unfold dkeys in Hj. rewrite map_app in Hj. apply in_app_or in Hj.
          destruct Hj as [Hj|[<-|[]]]; [apply Hs in Hj; lia|simpl; lia]. }
        specialize (IH HA). simpl concat. rewrite kept_app.
        destruct (index_predicted _ _ _ _ _ _) as [r|e].
        -- destruct IH as ((Hf & Hall' & Hnd' & Hd') & ->). split.
           ++ split; [constructor; auto|]. split; [|split].
              ** destruct Hall as [E|Hall]; [left; exact E|]. destruct Hall' as [E|Hall']; [left; exact E|].
                 right. intros x Hx. apply in_app_or in Hx. destruct Hx; auto.
              ** rewrite NoDup_app_iff. split; [exact Hnd|]. split; [exact Hnd'|].
                 intros x Hx Hx'. apply (Hd' x Hx'). apply in_or_app. right; exact Hx.
              ** intros x Hx. apply in_app_or in Hx. destruct Hx as [Hx|Hx]; [auto|].
                 intros Hin. apply (Hd' x Hx). apply in_or_app. left; exact Hin.
           ++ rewrite <- !app_assoc. reflexivity.
        -- destruct IH as [-> Hno]. split; [reflexivity|]. intros (Hf & Hall' & Hnd' & Hd'). apply Hno.
           inversion Hf; subst. rewrite NoDup_app_iff in Hnd'. destruct Hnd' as (_ & Hnd2 & Hdis).
           split; [assumption|]. split; [|split].
           ++ destruct Hall' as [E|Hall']; [left; exact E|right]. intros x Hx. apply Hall'. apply in_or_app. right; exact Hx.
           ++ exact Hnd2.
           ++ intros x Hx Hin. apply in_app_or in Hin. destruct Hin as [Hin|Hin].
              ** apply (Hd' x); [apply in_or_app; right; exact Hx|exact Hin].
              ** exact (Hdis x Hin Hx).
      * destruct Hi as [-> Hno]. split; [reflexivity|]. simpl concat. rewrite kept_app.
        intros (Hf & Hall & Hnd & Hd). apply Hno. rewrite NoDup_app_iff in Hnd. destruct Hnd as (Hnd & _ & _).
        split; [|split; [exact Hnd|]].
        -- destruct Hall as [E|Hall]; [left; exact E|right]. intros x Hx. apply Hall, in_or_app. left; exact Hx.
        -- intros x Hx. apply Hd, in_or_app. left; exact Hx.
Qed.

Lemma dget_sized ti predicted : forall i j,
  dget (sized ti i predicted) j =
  if Nat.ltb j i then None else option_map (fun c => length (kept ti c)) (nth_error predicted (j - i)).
Proof.
  induction predicted as [|c p IH]; intros i j; simpl.
  - destruct (Nat.ltb j i); [reflexivity|]. destruct (j - i); reflexivity.
  - destruct (eq_dec j i) as [->|Hn].
    + rewrite Nat.ltb_irrefl, Nat.sub_diag. reflexivity.
    + rewrite IH. destruct (Nat.ltb_spec j (S i)), (Nat.ltb_spec j i); try lia; [reflexivity|].
      replace (j - i) with (S (j - S i)) by lia. reflexivity.
Qed.

Lemma dget_indexed_Some ti predicted : forall i x j, dget (indexed ti i predicted) x = Some j ->
  i <= j /\ exists c, nth_error predicted (j - i) = Some c /\ In x (kept ti c).
Proof.
  induction predicted as [|c p IH]; intros i x j; simpl; [discriminate|].
  rewrite dget_app, dget_const. destruct (memb_In x (kept ti c)) as [Hx|Hx].
  - injection 1 as <-. split; [lia|]. exists c. rewrite Nat.sub_diag. split; [reflexivity|exact Hx].
  - intros Hg. apply IH in Hg. destruct Hg as (Hle & c' & Hn & Hin). split; [lia|]. exists c'.
    replace (j - i) with (S (j - S i)) by lia. split; [exact Hn|exact Hin].
Qed.

Lemma dget_indexed_None ti predicted : forall i x, dget (indexed ti i predicted) x = None ->
  ~ In x (kept ti (concat predicted)).
Proof.
  induction predicted as [|c p IH]; intros i x; simpl; [tauto|].
  rewrite dget_app, dget_const. destruct (memb_In x (kept ti c)) as [Hx|Hx]; [discriminate|].
  intros Hg. apply IH in Hg. rewrite kept_app. intros Hin. apply in_app_or in Hin. tauto.
Qed.

Lemma kept_concat_unique ti (predicted : list (list T)) : NoDup (kept ti (concat predicted)) -> forall i j x c c',
  nth_error predicted i = Some c -> nth_error predicted j = Some c' -> In x (kept ti c) -> In x (kept ti c') -> i = j.
Proof.
  induction predicted as [|a p IH]; intros Hnd i j x c c' Hi Hj Hx Hx'; [destruct i; discriminate|].
  simpl in Hnd. rewrite kept_app, NoDup_app_iff in Hnd. destruct Hnd as (_ & Hnd & Hd).
  assert (Hp : forall k d, nth_error p k = Some d -> In x (kept ti d) -> In x (kept ti (concat p))).
  { intros k d Hk Hin. unfold kept in *. rewrite filter_In in *. split; [|tauto].
    apply in_concat. exists d. split; [eapply nth_error_In; exact Hk|tauto]. }
  destruct i as [|i], j as [|j]; simpl in *; [reflexivity| | |].
  - injection Hi as <-. exfalso. exact (Hd x Hx (Hp _ _ Hj Hx')).
  - injection Hj as <-. exfalso. exact (Hd x Hx' (Hp _ _ Hi Hx)).
  - f_equal. exact (IH Hnd i j x c c' Hi Hj Hx Hx').
Qed.

Lemma dget_indexed_iff ti predicted : NoDup (kept ti (concat predicted)) -> forall x j,
  dget (indexed ti 0 predicted) x = Some j <-> exists c, nth_error predicted j = Some c /\ In x (kept ti c).
Proof.
  intros Hnd x j. split.
  - intros Hg. apply dget_indexed_Some in Hg. rewrite Nat.sub_0_r in Hg. apply Hg.
  - intros (c & Hc & Hx). destruct (dget (indexed ti 0 predicted) x) as [k|] eqn:Hg.
    + apply dget_indexed_Some in Hg. rewrite Nat.sub_0_r in Hg. destruct Hg as (_ & c' & Hc' & Hx').
      f_equal. exact (kept_concat_unique ti predicted Hnd k j x c' c Hc' Hc Hx' Hx).
    + apply dget_indexed_None in Hg. exfalso. apply Hg. unfold kept in *. rewrite filter_In in *.
      split; [|tauto]. apply in_concat. exists c. split; [eapply nth_error_In; exact Hc|tauto].
Qed.

(* ---- candidates ---- *)
Definition cand (d : dict nat nat) (i : nat) : nat := match dget d i with Some n => n | None => 0 end.
Definition at_index (index : dict T nat) (i : nat) (x : T) : bool :=
  match dget index x with Some j => Nat.eqb j i | None => false end.

Lemma count_candidates_spec index c : forall cands n, NoDup (dkeys cands) ->
  match count_candidates index c cands n with
  | Ok (cands', n') => (forall x, In x c -> dget index x <> None) /\ n' = n + length c /\ NoDup (dkeys cands') /\
      (forall i, cand cands' i = cand cands i + length (filter (at_index index i) c)) /\
      (forall i, In i (dkeys cands') <-> In i (dkeys cands) \/ exists x, In x c /\ dget index x = Some i)
  | Err e => e = TypeError /\ exists x, In x c /\ dget index x = None
  end.
Proof.
  induction c as [|a c IH]; intros cands n Hnd; simpl.
  - split; [intros x []|]. split; [lia|]. split; [exact Hnd|]. split; [intros i; lia|].
    intros i. split; [tauto|]. intros [Hi|(x & [] & _)]; exact Hi.
  - destruct (dget index a) as [k|] eqn:Ha.
    + assert (Hk : forall i, In i (dkeys (dmodify cands k 0 (fun n => n + 1))) <-> In i (dkeys cands) \/ i = k).
      { intros i. rewrite dkeys_dmodify. apply sadd_In. }
      assert (Hnd' : NoDup (dkeys (dmodify cands k 0 (fun n => n + 1)))).
      { rewrite dkeys_dmodify. apply sadd_NoDup. exact Hnd. }
      specialize (IH _ (n + 1) Hnd').
      destruct (count_candidates index c (dmodify cands k 0 (fun n => n + 1)) (n + 1)) as [[c' n']|e].
      * destruct IH as (Hall & -> & Hnd2 & Hc & Hkeys). split; [|split; [|split; [|split]]].
        -- intros x [<-|Hx]; [congruence|auto].
        -- lia.
        -- exact Hnd2.
        -- intros i. rewrite Hc. unfold at_index at 2. rewrite Ha. unfold cand.
           destruct (Nat.eqb_spec k i) as [->|Hn].
           ++ rewrite dget_dmodify_same. destruct (dget cands i); cbn [length]; lia.
           ++ rewrite dget_dmodify_other by congruence. reflexivity.
        -- intros i. rewrite Hkeys, Hk. split.
           ++ intros [[Hi| ->]|(x & Hx & Hg)]; [left; exact Hi|right; exists a; auto|right; exists x; auto].
           ++ intros [Hi|(x & [<-|Hx] & Hg)]; [tauto|left; right; congruence|right; exists x; auto].
      * destruct IH as [-> (x & Hx & Hg)]. split; [reflexivity|]. exists x. auto.
    + split; [reflexivity|]. exists a. auto.
Qed.

(* ---- scores ---- *)
Definition same3 (a b : Q * Q * Q) : Prop :=
  (fst (fst a) == fst (fst b) /\ snd (fst a) == snd (fst b) /\ snd a == snd b)%Q.

Lemma frac_pos n : 1 <= n -> (0 < inject_Z (Z.of_nat n))%Q.
Proof. intros. unfold Qlt. simpl. lia. Qed.

Lemma qdiv_ok a b : ~ (b == 0)%Q -> qdiv a b = Ok (a / b)%Q.
Proof. intros Hb. unfold qdiv. destruct (Qeq_bool b 0) eqn:E; [|reflexivity]. apply Qeq_bool_eq in E. contradiction. Qed.

Lemma score_spec tp s n : 1 <= tp -> 1 <= s -> 1 <= n -> exists q, score tp s n = Ok q /\
  same3 q (frac tp s, frac tp n, frac (2 * tp) (s + n)).
Proof.
  intros Ht Hs Hn. unfold score.
  pose proof (frac_pos tp Ht) as Pt. pose proof (frac_pos s Hs) as Ps. pose proof (frac_pos n Hn) as Pn.
  assert (E1 : (inject_Z (Z.of_nat tp) + inject_Z (Z.of_nat s - Z.of_nat tp) == inject_Z (Z.of_nat s))%Q).
  { rewrite <- inject_Z_plus. apply inject_Z_injective. lia. }
  assert (E2 : (inject_Z (Z.of_nat tp) + inject_Z (Z.of_nat n - Z.of_nat tp) == inject_Z (Z.of_nat n))%Q).
  { rewrite <- inject_Z_plus. apply inject_Z_injective. lia. }
  assert (E3 : (inject_Z (Z.of_nat (2 * tp)) == 2 * inject_Z (Z.of_nat tp))%Q).
  { change 2%Q with (inject_Z 2). rewrite <- inject_Z_mult. apply inject_Z_injective. lia. }
  assert (E4 : (inject_Z (Z.of_nat (s + n)) == inject_Z (Z.of_nat s) + inject_Z (Z.of_nat n))%Q).
  { rewrite <- inject_Z_plus. apply inject_Z_injective. lia. }
  rewrite qdiv_ok by (rewrite E1; lra). cbn [bind].
  rewrite qdiv_ok by (rewrite E2; lra). cbn [bind].
  set (p := (inject_Z (Z.of_nat tp) / (inject_Z (Z.of_nat tp) + inject_Z (Z.of_nat s - Z.of_nat tp)))%Q).
  set (r := (inject_Z (Z.of_nat tp) / (inject_Z (Z.of_nat tp) + inject_Z (Z.of_nat n - Z.of_nat tp)))%Q).
  assert (Ep : (p == frac tp s)%Q) by (unfold p, frac; rewrite E1; reflexivity).
  assert (Er : (r == frac tp n)%Q) by (unfold r, frac; rewrite E2; reflexivity).
  assert (Pp : (0 < frac tp s)%Q) by (unfold frac; apply Qlt_shift_div_l; [exact Ps|rewrite Qmult_0_l; exact Pt]).
  assert (Pr : (0 < frac tp n)%Q) by (unfold frac; apply Qlt_shift_div_l; [exact Pn|rewrite Qmult_0_l; exact Pt]).
  rewrite qdiv_ok by (rewrite Ep, Er; lra). cbn [bind].
  eexists. split; [reflexivity|]. unfold same3. simpl fst. simpl snd. split; [exact Ep|]. split; [exact Er|].
  rewrite Ep, Er. unfold frac. rewrite E3, E4. field. repeat split; nra.
Qed.

Lemma Qltb_lt a b : Qltb a b = true <-> (a < b)%Q.
Proof. unfold Qltb. rewrite negb_true_iff. destruct (Qle_bool b a) eqn:E.
  - apply Qle_bool_iff in E. split; [discriminate|]. intros. lra.
  - split; [intros _|reflexivity]. apply Qnot_le_lt. intros Hle. apply Qle_bool_iff in Hle. congruence. Qed.
Lemma Qltb_ge a b : Qltb a b = false <-> (b <= a)%Q.
Proof. unfold Qltb. rewrite negb_false_iff. apply Qle_bool_iff. Qed.

Definition cand_f1 (sizes : dict nat nat) (n : nat) (it : nat * nat) : Q := frac (2 * snd it) (cand sizes (fst it) + n).

Lemma find_best_spec sizes n cands : 1 <= n ->
  (forall i tp, In (i, tp) cands -> 1 <= tp /\ exists s, dget sizes i = Some s /\ 1 <= s) -> forall bf b,
  exists r, find_best sizes n cands bf b = Ok r /\
    ((r = b /\ forall it, In it cands -> (cand_f1 sizes n it <= bf)%Q) \/
     exists i tp q, In (i, tp) cands /\ r = Some q /\
       same3 q (frac tp (cand sizes i), frac tp n, cand_f1 sizes n (i, tp)) /\ (bf < cand_f1 sizes n (i, tp))%Q /\
       forall it, In it cands -> (cand_f1 sizes n it <= cand_f1 sizes n (i, tp))%Q).
Proof.
  intros Hn. induction cands as [|[i tp] cands IH]; intros Hok bf b; simpl find_best.
  - exists b. split; [reflexivity|]. left. split; [reflexivity|]. intros it [].
  - destruct (Hok i tp (or_introl eq_refl)) as (Ht & s & Hs & Hs1). rewrite Hs.
    destruct (score_spec tp s n Ht Hs1 Hn) as ([[p r] f] & Eq & Hp & Hr & Hf). rewrite Eq. cbn [bind]. simpl in Hp, Hr, Hf.
    assert (Hc : cand sizes i = s) by (unfold cand; rewrite Hs; reflexivity).
    assert (Hcf : (f == cand_f1 sizes n (i, tp))%Q) by (rewrite Hf; unfold cand_f1; cbn [fst snd]; rewrite Hc; reflexivity).
    assert (Hok' : forall i tp, In (i, tp) cands -> 1 <= tp /\ exists s, dget sizes i = Some s /\ 1 <= s)
      by (intros i' tp' Hin; apply Hok; right; exact Hin).
    assert (Hhere : same3 (p, r, f) (frac tp (cand sizes i), frac tp n, cand_f1 sizes n (i, tp))).
    { split; [|split]; cbn [fst snd]; [rewrite Hc; exact Hp|exact Hr|exact Hcf]. }
    destruct (Qltb bf f) eqn:Eb.
    + apply Qltb_lt in Eb. destruct (IH Hok' f (Some (p, r, f))) as (o & Eo & [[-> Hle]|(i' & tp' & q & Hin & -> & Hq & Hlt & Hle)]).
      * exists (Some (p, r, f)). split; [exact Eo|]. right. exists i, tp, (p, r, f).
        split; [left; reflexivity|]. split; [reflexivity|]. split; [exact Hhere|]. split; [lra|].
        intros it [<-|Hit]; [lra|]. apply Hle in Hit. lra.
      * exists (Some q). split; [exact Eo|]. right. exists i', tp', q.
        split; [right; exact Hin|]. split; [reflexivity|]. split; [exact Hq|]. split; [lra|].
        intros it [<-|Hit]; [lra|auto].
    + apply Qltb_ge in Eb. destruct (IH Hok' bf b) as (o & Eo & [[-> Hle]|(i' & tp' & q & Hin & -> & Hq & Hlt & Hle)]).
      * exists b. split; [exact Eo|]. left. split; [reflexivity|]. intros it [<-|Hit]; [lra|auto].
      * exists (Some q). split; [exact Eo|]. right. exists i', tp', q.
        split; [right; exact Hin|]. split; [reflexivity|]. split; [exact Hq|]. split; [exact Hlt|].
        intros it [<-|Hit]; [lra|auto].
Qed.

(* ---- one truth cluster ---- *)
Section Cluster.
Variables (truth predicted : list (list T)).
Let ti := set_of (concat truth).
Hypothesis Hnd : NoDup (kept ti (concat predicted)).

Lemma ti_memb x : memb x ti = memb x (concat truth).
Proof. clear Hnd. unfold ti. destruct (memb_In x (set_of (concat truth))) as [Hi|Hi]; symmetry;
  [rewrite memb_true|rewrite memb_false]; rewrite set_of_In in Hi; exact Hi. Qed.

Lemma kept_counted c : length (kept ti c) = counted truth c.
Proof. clear Hnd. unfold kept, counted. f_equal. apply filter_ext. apply ti_memb. Qed.

Lemma at_index_hits t j c : incl t (concat truth) -> nth_error predicted j = Some c ->
  length (filter (at_index (indexed ti 0 predicted) j) t) = hits t c.
Proof.
  intros Ht Hc. unfold hits. f_equal. apply filter_ext_in. intros x Hx. unfold at_index.
  destruct (memb_In x c) as [Hi|Hi].
  - assert (Hg : dget (indexed ti 0 predicted) x = Some j).
    { apply dget_indexed_iff; [exact Hnd|]. exists c. split; [exact Hc|]. unfold kept. rewrite filter_In.
      split; [exact Hi|]. rewrite ti_memb, memb_true. apply Ht, Hx. }
    rewrite Hg. apply Nat.eqb_refl.
  - destruct (dget (indexed ti 0 predicted) x) as [k|] eqn:Hg; [|reflexivity].
    destruct (Nat.eqb_spec k j) as [->|]; [|reflexivity]. exfalso. apply Hi.
    apply dget_indexed_iff in Hg; [|exact Hnd]. destruct Hg as (c' & Hc' & Hx'). rewrite Hc in Hc'. injection Hc' as <-.
    unfold kept in Hx'. rewrite filter_In in Hx'. tauto.
Qed.

Lemma hits_counted t c : 1 <= hits t c -> incl t (concat truth) -> 1 <= counted truth c.
Proof.
  clear Hnd. unfold hits, counted. intros Hh Ht. destruct (filter (fun x => memb x c) t) as [|x l] eqn:E; [simpl in Hh; lia|].
  assert (Hx : In x (filter (fun x => memb x c) t)) by (rewrite E; left; reflexivity). rewrite filter_In in Hx.
  destruct Hx as [Hx Hxc]. rewrite memb_true in Hxc.
  assert (Hin : In x (filter (fun x => memb x (concat truth)) c)).
  { rewrite filter_In. split; [exact Hxc|]. rewrite memb_true. apply Ht, Hx. }
  destruct (filter _ c); [destruct Hin|simpl; lia].
Qed.

Lemma match_cluster_spec t : incl t (concat truth) ->
  match match_cluster (indexed ti 0 predicted) (sized ti 0 predicted) t with
  | Ok q => t <> [] /\ incl t (concat predicted) /\
      exists c, best_match truth predicted t c /\ same3 q (precision_of truth t c, recall_of t c, f1_of truth t c)
  | Err e => e = TypeError /\ ~ (t <> [] /\ incl t (concat predicted))
  end.
Proof.
  intros Ht. unfold match_cluster. destruct t as [|a t'].
  { simpl. split; [reflexivity|]. tauto. }
  remember (a :: t') as t eqn:Et. replace (Nat.eqb (length t) 0) with false by (subst t; reflexivity).
  assert (Hne : t <> []) by (subst t; discriminate).
  assert (Hlen : 1 <= length t) by (subst t; simpl; lia).
  assert (Ha : In a t) by (subst t; left; reflexivity). clear t' Et.
  pose proof (count_candidates_spec (indexed ti 0 predicted) t [] 0 (NoDup_nil _)) as Hc.
  destruct (count_candidates (indexed ti 0 predicted) t [] 0) as [[cands n]|e].
  - destruct Hc as (Hall & Hn & Hndc & Hcount & Hkeys). simpl in Hn. subst n. cbn [bind].
    assert (Hread : forall i tp, In (i, tp) cands -> exists c, nth_error predicted i = Some c /\ tp = hits t c /\ 1 <= hits t c).
    { intros i tp Hin. assert (Hk : In i (dkeys cands)) by (apply (in_map fst) in Hin; exact Hin).
      apply Hkeys in Hk. destruct Hk as [[]|(x & Hx & Hg)].
      pose proof Hg as Hg'. apply dget_indexed_iff in Hg; [|exact Hnd]. destruct Hg as (c & Hnth & Hxc).
      exists c. split; [exact Hnth|]. specialize (Hcount i). unfold cand in Hcount at 1.
      rewrite (In_dget cands i tp Hndc Hin) in Hcount. cbn in Hcount. rewrite (at_index_hits t i c Ht Hnth) in Hcount.
      split; [exact Hcount|]. rewrite <- (at_index_hits t i c Ht Hnth).
      assert (Hf : In x (filter (at_index (indexed ti 0 predicted) i) t)).
      { rewrite filter_In. split; [exact Hx|]. unfold at_index. rewrite Hg'. apply Nat.eqb_refl. }
      destruct (filter _ t); [destruct Hf|simpl; lia]. }
    assert (Hsz : forall i c, nth_error predicted i = Some c -> dget (sized ti 0 predicted) i = Some (counted truth c)).
    { intros i c Hi. rewrite dget_sized. simpl. rewrite Nat.sub_0_r, Hi. simpl. rewrite kept_counted. reflexivity. }
    destruct (find_best_spec (sized ti 0 predicted) (length t) cands Hlen) with (bf := (-1)%Q) (b := @None (Q * Q * Q))
      as (r & Er & Hr).
    { intros i tp Hin. destruct (Hread i tp Hin) as (c & Hi & -> & Hh). split; [exact Hh|].
      exists (counted truth c). split; [apply Hsz, Hi|]. exact (hits_counted t c Hh Ht). }
    rewrite Er. cbn [bind].
    assert (Hf1 : forall i c, nth_error predicted i = Some c -> cand_f1 (sized ti 0 predicted) (length t) (i, hits t c) = f1_of truth t c).
    { intros i c Hi. unfold cand_f1, f1_of. cbn [fst snd]. unfold cand. rewrite (Hsz i c Hi). reflexivity. }
    assert (Hpos : forall c, (0 <= f1_of truth t c)%Q).
    { intros c. unfold f1_of, frac. apply Qle_shift_div_l; [apply frac_pos; lia|]. rewrite Qmult_0_l. unfold Qle. simpl. lia. }
    destruct Hr as [[-> Hle]|(i & tp & q & Hin & -> & Hq & Hlt & Hle)].
    + exfalso. destruct (dget (indexed ti 0 predicted) a) as [i|] eqn:Hg; [|exact (Hall a Ha Hg)].
      assert (Hk : In i (dkeys cands)) by (apply Hkeys; right; exists a; auto).
      unfold dkeys in Hk. apply in_map_iff in Hk. destruct Hk as ([i' tp] & E & Hin). simpl in E. subst i'.
      destruct (Hread i tp Hin) as (c & Hi & -> & _). specialize (Hle _ Hin). rewrite (Hf1 i c Hi) in Hle.
      specialize (Hpos c). lra.
    + destruct (Hread i tp Hin) as (c & Hi & -> & Hh). split; [exact Hne|]. split.
      { intros x Hx. destruct (dget (indexed ti 0 predicted) x) as [k|] eqn:Hg; [|exfalso; exact (Hall x Hx Hg)].
        apply dget_indexed_iff in Hg; [|exact Hnd]. destruct Hg as (c' & Hc' & Hx'). unfold kept in Hx'.
        rewrite filter_In in Hx'. apply in_concat. exists c'. split; [eapply nth_error_In; exact Hc'|tauto]. }
      exists c. split.
      * split; [eapply nth_error_In; exact Hi|]. split; [exact Hh|]. intros c' Hc'.
        destruct (Nat.eq_dec (hits t c') 0) as [E0|E0].
        { unfold f1_of at 1. rewrite E0. apply Qle_trans with 0%Q; [|apply Hpos]. unfold frac. simpl. unfold Qdiv. rewrite Qmult_0_l. lra. }
        apply In_nth_error in Hc'. destruct Hc' as (j & Hj).
        rewrite <- (Hf1 j c' Hj), <- (Hf1 i c Hi). apply Hle.
        assert (Hk : In j (dkeys cands)).
        { apply Hkeys. right. pose proof (at_index_hits t j c' Ht Hj) as Hat.
          destruct (filter (at_index (indexed ti 0 predicted) j) t) as [|x l] eqn:Ef; [simpl in Hat; lia|].
          assert (Hx : In x (filter (at_index (indexed ti 0 predicted) j) t)) by (rewrite Ef; left; reflexivity).
          rewrite filter_In in Hx. exists x. split; [tauto|]. destruct Hx as [_ Hx]. unfold at_index in Hx.
          destruct (dget (indexed ti 0 predicted) x); [|discriminate]. apply Nat.eqb_eq in Hx. congruence. }
        unfold dkeys in Hk. apply in_map_iff in Hk. destruct Hk as ([j' tp'] & E & Hin'). simpl in E. subst j'.
        destruct (Hread j tp' Hin') as (c'' & Hj' & E & _). rewrite Hj in Hj'. injection Hj' as <-. subst tp'. exact Hin'.
      * rewrite (Hf1 i c Hi) in Hq. unfold cand in Hq. rewrite (Hsz i c Hi) in Hq. exact Hq.
  - destruct Hc as [-> (x & Hx & Hg)]. cbn [bind]. split; [reflexivity|]. intros [_ Hincl].
    apply dget_indexed_None in Hg. apply Hg. unfold kept. rewrite filter_In. split; [apply Hincl, Hx|].
    rewrite ti_memb, memb_true. apply Ht, Hx.
Qed.

Lemma match_truth_spec index sizes l : forall means,
  match match_truth index sizes l means with
  | Ok m => exists qs, Forall2 (fun t q => match_cluster index sizes t = Ok q) l qs /\
      let '(P, R, F) := means in let '(P', R', F') := m in
      snd P' = snd P + length qs /\ snd R' = snd R + length qs /\ snd F' = snd F + length qs /\
      (fst P' == fst P + Qsum (map (fun q => fst (fst q)) qs))%Q /\
      (fst R' == fst R + Qsum (map (fun q => snd (fst q)) qs))%Q /\
      (fst F' == fst F + Qsum (map snd qs))%Q
  | Err e => exists t, In t l /\ match_cluster index sizes t = Err e
  end.
Proof.
  clear ti Hnd. induction l as [|t l IH]; intros [[P R] F]; simpl match_truth.
  - exists []. split; [constructor|]. simpl. rewrite !Nat.add_0_r. repeat split; lra.
  - destruct (match_cluster index sizes t) as [[[p r] f]|e] eqn:Et; cbn [bind].
    + specialize (IH (mean_add P p, mean_add R r, mean_add F f)).
      destruct (match_truth index sizes l _) as [[[P' R'] F']|e].
      * destruct IH as (qs & Hqs & H1 & H2 & H3 & H4 & H5 & H6). exists ((p, r, f) :: qs).
        split; [constructor; assumption|]. destruct P, R, F. simpl in *.
        repeat split; try lia; [rewrite H4|rewrite H5|rewrite H6]; unfold Qsum; simpl; lra.
      * destruct IH as (t' & Hin & E). exists t'. split; [right; exact Hin|exact E].
    + exists t. split; [left; reflexivity|exact Et].
Qed.
End Cluster.

Lemma valid_dec_errors truth predicted allow :
  match best_matching_macro_average truth predicted allow with
  | Ok (p, r, f) => valid truth predicted allow /\
      exists qs cs, Forall2 (fun t q => match_cluster (indexed (set_of (concat truth)) 0 predicted) (sized (set_of (concat truth)) 0 predicted) t = Ok q) truth qs /\
        Forall2 (best_match truth predicted) truth cs /\
        Forall2 (fun tc q => same3 q (precision_of truth (fst tc) (snd tc), recall_of (fst tc) (snd tc), f1_of truth (fst tc) (snd tc))) (combine truth cs) qs /\
        (p == average (map (fun q => fst (fst q)) qs))%Q /\ (r == average (map (fun q => snd (fst q)) qs))%Q /\
        (f == average (map snd qs))%Q
  | Err e => e = TypeError /\ ~ valid truth predicted allow
  end.
Proof.
  unfold best_matching_macro_average. destruct truth as [|t0 tr].
  { simpl. split; [reflexivity|]. intros (Hv & _). tauto. }
  remember (t0 :: tr) as truth eqn:Etr. assert (Hnt : truth <> []) by (subst; discriminate).
  replace (Nat.eqb (length truth) 0) with false by (subst; reflexivity). clear t0 tr Etr.
  destruct predicted as [|p0 pr].
  { simpl. split; [reflexivity|]. intros (_ & Hv & _). tauto. }
  remember (p0 :: pr) as predicted eqn:Epr. assert (Hnp : predicted <> []) by (subst; discriminate).
  replace (Nat.eqb (length predicted) 0) with false by (subst; reflexivity). clear p0 pr Epr.
  pose proof (index_predicted_spec allow (set_of (concat truth)) predicted 0 [] [] ltac:(intros j [])) as Hi.
  assert (Hke : kept (set_of (concat truth)) (concat predicted) = filter (fun x => memb x (concat truth)) (concat predicted)).
  { unfold kept. apply filter_ext. intros x. apply ti_memb. }
  destruct (index_predicted allow (set_of (concat truth)) 0 predicted [] []) as [r|e].
  - destruct Hi as ((Hf & Hall & Hnd & _) & ->). cbn [bind app].
    pose proof (match_cluster_spec truth predicted Hnd) as Hm.
    pose proof (match_truth_spec (indexed (set_of (concat truth)) 0 predicted) (sized (set_of (concat truth)) 0 predicted) truth (mean_new, mean_new, mean_new)) as Ht.
    assert (Hincl : forall t, In t truth -> incl t (concat truth)).
    { intros t Hin x Hx. apply in_concat. exists t. auto. }
    destruct (match_truth _ _ truth _) as [[[P R] F]|e].
    + destruct Ht as (qs & Hqs & H1 & H2 & H3 & H4 & H5 & H6). cbn [bind].
      assert (Hlen : length qs = length truth) by (clear - Hqs; induction Hqs; simpl; lia).
      assert (Hl1 : length qs <> 0) by (destruct truth; [congruence|simpl in Hlen; lia]).
      unfold mean_peek. destruct P as [P nP], R as [R nR], F as [F nF]. simpl in H1, H2, H3, H4, H5, H6. subst nP nR nF.
      cbn [fst snd]. destruct (Nat.eqb_spec (length qs) 0) as [|_]; [contradiction|]. cbn [bind].
      assert (Hcs : exists cs, Forall2 (best_match truth predicted) truth cs /\
        Forall2 (fun tc q => same3 q (precision_of truth (fst tc) (snd tc), recall_of (fst tc) (snd tc), f1_of truth (fst tc) (snd tc))) (combine truth cs) qs /\
        Forall (fun t => t <> [] /\ incl t (concat predicted)) truth).
      { assert (Hs : incl truth truth) by apply incl_refl. revert Hs Hqs. clear - Hm Hincl. enough (HH : forall l, incl l truth -> forall qs, Forall2 (fun t q => match_cluster (indexed (set_of (concat truth)) 0 predicted) (sized (set_of (concat truth)) 0 predicted) t = Ok q) l qs ->
          exists cs, Forall2 (best_match truth predicted) l cs /\ Forall2 (fun tc q => same3 q (precision_of truth (fst tc) (snd tc), recall_of (fst tc) (snd tc), f1_of truth (fst tc) (snd tc))) (combine l cs) qs /\ Forall (fun t => t <> [] /\ incl t (concat predicted)) l) by (intros Hs Hqs; exact (HH truth Hs qs Hqs)).
        clear qs. intros l Hs qs Hqs. induction Hqs as [|t q l qs Hq Hqs IH].
        - exists []. repeat split; constructor.
        - destruct IH as (cs & Hcs & Hsc & Hne). { intros x Hx. apply Hs. right; exact Hx. }
          assert (Htin : In t truth) by (apply Hs; left; reflexivity).
          specialize (Hm t (Hincl t Htin)). rewrite Hq in Hm. destruct Hm as (Hn & Hi & c & Hb & Hsame).
          exists (c :: cs). split; [constructor; assumption|]. split; [constructor; [exact Hsame|exact Hsc]|].
          constructor; [split; assumption|exact Hne]. }
      destruct Hcs as (cs & Hcs & Hsc & Hne). split.
      * split; [exact Hnt|]. split; [exact Hnp|]. rewrite Forall_forall in Hne.
        split; [apply Forall_forall; intros t Hin; apply (Hne t Hin)|]. split; [exact Hf|]. split; [|split].
        -- destruct Hall as [E|Hall]; [left; exact E|right]. intros x Hx. specialize (Hall x Hx). rewrite set_of_In in Hall. exact Hall.
        -- rewrite <- Hke. exact Hnd.
        -- intros x Hx. apply in_concat in Hx. destruct Hx as (t & Hin & Hx). apply (Hne t Hin), Hx.
      * exists qs, cs. split; [exact Hqs|]. split; [exact Hcs|]. split; [exact Hsc|].
        unfold average. rewrite !map_length. unfold Qnat, Qsum in *. 
        repeat split; [rewrite H4|rewrite H5|rewrite H6]; rewrite Qplus_0_l; reflexivity.
    + destruct Ht as (t & Hin & Et). cbn [bind]. specialize (Hm t (Hincl t Hin)). rewrite Et in Hm. destruct Hm as [-> Hno].
      split; [reflexivity|]. intros (_ & _ & Hft & _ & _ & _ & Hcov). apply Hno. rewrite Forall_forall in Hft.
      split; [apply Hft, Hin|]. intros x Hx. apply Hcov, (Hincl t Hin x Hx).
  - destruct Hi as [-> Hno]. cbn [bind]. split; [reflexivity|]. intros (_ & _ & _ & Hf & Hall & Hnd & _). apply Hno.
    split; [exact Hf|]. split; [|split].
    + destruct Hall as [E|Hall]; [left; exact E|right]. intros x Hx. rewrite set_of_In. auto.
    + rewrite Hke. exact Hnd.
    + intros x _ [].
Qed.
End BestMatching.

(* ---- averages ---- *)
Lemma Qsum_bounds l : Forall (fun q => (0 <= q <= 1)%Q) l -> (0 <= fold_right Qplus 0 l <= inject_Z (Z.of_nat (length l)))%Q.
Proof.
  induction 1 as [|q l Hq Hl IH]; [simpl; unfold Qle; simpl; lia|]. cbn [fold_right length].
  rewrite Nat2Z.inj_succ. unfold Z.succ. rewrite inject_Z_plus. change (inject_Z 1) with 1%Q. lra.
Qed.

Lemma average_bounds l : l <> [] -> Forall (fun q => (0 <= q <= 1)%Q) l -> (0 <= average l <= 1)%Q.
Proof.
  intros Hne Hl. apply Qsum_bounds in Hl. unfold average.
  assert (Hp : (0 < inject_Z (Z.of_nat (length l)))%Q) by (apply frac_pos; destruct l; [congruence|simpl; lia]).
  split; [apply Qle_shift_div_l; [exact Hp|lra]|apply Qle_shift_div_r; [exact Hp|lra]].
Qed.

Lemma Qsum_one l : Forall (fun q => (0 <= q <= 1)%Q) l ->
  ((fold_right Qplus 0 l == inject_Z (Z.of_nat (length l)))%Q <-> Forall (fun q => (q == 1)%Q) l).
Proof.
  induction 1 as [|q l Hq Hl IH]; [simpl; split; [constructor|reflexivity]|]. cbn [fold_right length].
  rewrite Nat2Z.inj_succ. unfold Z.succ. rewrite inject_Z_plus. change (inject_Z 1) with 1%Q.
  pose proof (Qsum_bounds l Hl) as Hb. split.
  - intros E. constructor; [lra|]. apply IH. lra.
  - intros Hf. inversion Hf as [|? ? E1 E2]; subst. apply IH in E2. lra.
Qed.

Lemma average_one l : l <> [] -> Forall (fun q => (0 <= q <= 1)%Q) l -> ((average l == 1)%Q <-> Forall (fun q => (q == 1)%Q) l).
Proof.
  intros Hne Hl. rewrite <- (Qsum_one l Hl). unfold average.
  assert (Hp : (0 < inject_Z (Z.of_nat (length l)))%Q) by (apply frac_pos; destruct l; [congruence|simpl; lia]).
  split; intros E.
  - assert (E' : (fold_right Qplus 0 l / inject_Z (Z.of_nat (length l)) * inject_Z (Z.of_nat (length l)) == 1 * inject_Z (Z.of_nat (length l)))%Q)
      by (rewrite E; reflexivity). rewrite Qmult_comm, Qmult_div_r in E' by lra. lra.
  - rewrite E. apply Qmult_inv_r. lra.
Qed.

Lemma average_ext l l' : Forall2 Qeq l l' -> (average l == average l')%Q.
Proof.
  intros Hl. unfold average. assert (Hn : length l = length l') by (induction Hl; simpl; lia). rewrite Hn.
  assert (E : (fold_right Qplus 0 l == fold_right Qplus 0 l')%Q).
  { clear Hn. induction Hl as [|a b l l' Hab Hl IH]; [reflexivity|]. simpl. rewrite Hab, IH. reflexivity. }
  rewrite E. reflexivity.
Qed.

Lemma average_perm l l' : Permutation l l' -> (average l == average l')%Q.
Proof.
  intros Hp. unfold average. rewrite (Permutation_length Hp).
  assert (E : (fold_right Qplus 0 l == fold_right Qplus 0 l')%Q).
  { induction Hp; simpl; [reflexivity|rewrite IHHp; reflexivity|lra|rewrite IHHp1; exact IHHp2]. }
  rewrite E. reflexivity.
Qed.

Lemma frac_bounds a b : a <= b -> (0 <= frac a b <= 1)%Q.
Proof. exact (Qnat_div_0_1 a b). Qed.

Section Scores.
Context {T : Type} `{EqDec T}.
Implicit Types truth predicted : list (list T).

Lemma hits_le_length (t c : list T) : hits t c <= length t.
Proof. unfold hits. induction t as [|a t IH]; simpl; [lia|]. destruct (memb a c); simpl; lia. Qed.

Lemma hits_le_counted truth (t c : list T) : NoDup t -> incl t (concat truth) -> hits t c <= counted truth c.
Proof.
  intros Hn Hi. unfold hits, counted. apply NoDup_incl_length; [apply NoDup_filter, Hn|].
  intros x Hx. rewrite filter_In in *. destruct Hx as [Hx Hc]. rewrite memb_true in *. split; [exact Hc|auto].
Qed.

Lemma scores_bounds truth (t c : list T) : NoDup t -> incl t (concat truth) ->
  (0 <= precision_of truth t c <= 1 /\ 0 <= recall_of t c <= 1 /\ 0 <= f1_of truth t c <= 1)%Q.
Proof.
  intros Hn Hi. pose proof (hits_le_length t c). pose proof (hits_le_counted truth t c Hn Hi).
  unfold precision_of, recall_of, f1_of. split; [|split]; apply frac_bounds; lia.
Qed.

Definition in01 (q : Q * Q * Q) : Prop := (0 <= fst (fst q) <= 1 /\ 0 <= snd (fst q) <= 1 /\ 0 <= snd q <= 1)%Q.

Lemma scored_bounds truth l cs qs : incl l truth -> Forall (@NoDup T) l -> length cs = length l ->
  Forall2 (fun tc q => same3 q (precision_of truth (fst tc) (snd tc), recall_of (fst tc) (snd tc), f1_of truth (fst tc) (snd tc))) (combine l cs) qs ->
  Forall in01 qs.
Proof.
  intros Hi Hn Hl Hq. remember (combine l cs) as z eqn:Ez. revert l cs Ez Hl Hi Hn.
  induction Hq as [|tc q z qs Hs Hq IH]; intros l cs Ez Hl Hi Hn; [constructor|].
  destruct l as [|t l], cs as [|c cs]; try discriminate. simpl in Ez. injection Ez as -> ->. simpl in Hl.
  inversion Hn; subst. constructor.
  - assert (Hit : incl t (concat truth)). { intros x Hx. apply in_concat. exists t. split; [apply Hi; left; reflexivity|exact Hx]. }
    destruct (scores_bounds truth t c H2 Hit) as (B1 & B2 & B3). destruct Hs as (E1 & E2 & E3). simpl in E1, E2, E3.
    unfold in01. rewrite E1, E2, E3. auto.
  - apply (IH l cs eq_refl); [lia| |assumption]. intros x Hx. apply Hi. right; exact Hx.
Qed.

Lemma Forall2_len {A B} (P : A -> B -> Prop) l l' : Forall2 P l l' -> length l = length l'.
Proof. induction 1; simpl; lia. Qed.

Lemma Forall2_nth_both {A B} (P : A -> B -> Prop) l l' : Forall2 P l l' -> forall k a b,
  nth_error l k = Some a -> nth_error l' k = Some b -> P a b.
Proof. induction 1; intros [|k] a b Ha Hb; simpl in *; try discriminate; [congruence|eauto]. Qed.

Lemma bounded_score truth predicted allow p r f : Forall (@NoDup T) truth ->
  best_matching_macro_average truth predicted allow = Ok (p, r, f) -> (0 <= p <= 1 /\ 0 <= r <= 1 /\ 0 <= f <= 1)%Q.
Proof.
  intros Hn E. pose proof (valid_dec_errors truth predicted allow) as Hs. rewrite E in Hs.
  destruct Hs as (Hv & qs & cs & Hqs & Hcs & Hsc & Ep & Er & Ef).
  assert (Hb : Forall in01 qs).
  { apply (scored_bounds truth truth cs qs (incl_refl _) Hn); [symmetry; exact (Forall2_len _ _ _ Hcs)|exact Hsc]. }
  assert (Hne : qs <> []). { apply Forall2_len in Hqs. destruct Hv as (Hv & _). destruct truth, qs; try congruence; discriminate. }
  rewrite Ep, Er, Ef. repeat split; apply average_bounds; try (destruct qs; [congruence|discriminate]);
    apply Forall_map; eapply Forall_impl; [|exact Hb| |exact Hb| |exact Hb| |exact Hb| |exact Hb| |exact Hb]; intros q Hq; apply Hq.
Qed.

(* ---- perfect score ---- *)
Lemma frac_one a b : 1 <= b -> ((frac a b == 1)%Q <-> a = b).
Proof.
  intros Hb. split; [exact (Qnat_div_1 a b ltac:(lia))|exact (Qdiv_nat_eq a b ltac:(lia))].
Qed.

(** [c], without what is outside of the truth, is [t] *)
Lemma f1_one truth (t c : list T) : NoDup t -> t <> [] -> incl t (concat truth) ->
  NoDup (filter (fun x => memb x (concat truth)) c) ->
  ((f1_of truth t c == 1)%Q <-> Permutation t (filter (fun x => memb x (concat truth)) c)).
Proof.
  intros Hn Hne Hi Hc. pose proof (hits_le_length t c) as H1. pose proof (hits_le_counted truth t c Hn Hi) as H2.
  unfold f1_of. rewrite frac_one by (destruct t; [congruence|simpl; lia]).
  split.
  - intros E. assert (E1 : hits t c = length t) by lia. assert (E2 : counted truth c = length t) by lia.
    apply NoDup_Permutation_bis; [exact Hn| |].
    + unfold counted in E2. lia.
    + intros x Hx. rewrite filter_In, memb_true. split; [|auto].
      assert (Ef : filter (fun x => memb x c) t = t).
      { unfold hits in E1. clear - E1. induction t as [|a t IH]; [reflexivity|]. simpl in *.
        pose proof (hits_le_length t c) as Hle. unfold hits in Hle.
        destruct (memb a c); simpl in *; [f_equal; apply IH; lia|lia]. }
      rewrite <- Ef in Hx. rewrite filter_In, memb_true in Hx. tauto.
  - intros Hp. pose proof (Permutation_length Hp) as Hl. unfold counted.
    assert (Ef : filter (fun x => memb x c) t = t).
    { apply filter_all. intros x Hx. rewrite memb_true. apply (Permutation_in _ Hp) in Hx. rewrite filter_In in Hx. tauto. }
    unfold hits. rewrite Ef. lia.
Qed.

Lemma kept_NoDup_one truth (predicted : list (list T)) (c : list T) : NoDup (filter (fun x => memb x (concat truth)) (concat predicted)) ->
  In c predicted -> NoDup (filter (fun x => memb x (concat truth)) c).
Proof.
  induction predicted as [|a p IH]; simpl; intros Hn Hin; [contradiction|]. rewrite filter_app, NoDup_app_iff in Hn.
  destruct Hin as [->|Hin]; [tauto|]. apply IH; tauto.
Qed.

Lemma one_scores truth (t c : list T) : NoDup t -> t <> [] -> incl t (concat truth) ->
  (f1_of truth t c == 1)%Q -> (precision_of truth t c == 1)%Q /\ (recall_of t c == 1)%Q.
Proof.
  intros Hn Hne Hi E. pose proof (hits_le_length t c) as H1. pose proof (hits_le_counted truth t c Hn Hi) as H2.
  assert (Hl : 1 <= length t) by (destruct t; [congruence|simpl; lia]).
  unfold f1_of in E. apply frac_one in E; [|lia].
  unfold precision_of, recall_of. rewrite !frac_one by lia. lia.
Qed.

Definition recovered truth predicted : Prop :=
  forall t, In t truth -> exists c, In c predicted /\ Permutation t (filter (fun x => memb x (concat truth)) c).

Lemma perfect_score truth predicted allow p r f : Forall (@NoDup T) truth ->
  best_matching_macro_average truth predicted allow = Ok (p, r, f) ->
  (recovered truth predicted -> (p == 1 /\ r == 1 /\ f == 1)%Q) /\ ((f == 1)%Q -> recovered truth predicted).
Proof.
  intros Hn E. pose proof (valid_dec_errors truth predicted allow) as Hs. rewrite E in Hs.
  destruct Hs as (Hv & qs & cs & Hqs & Hcs & Hsc & Ep & Er & Ef).
  assert (Hb : Forall in01 qs).
  { apply (scored_bounds truth truth cs qs (incl_refl _) Hn); [symmetry; exact (Forall2_len _ _ _ Hcs)|exact Hsc]. }
  destruct Hv as (Hne0 & _ & Hft & _ & _ & Hnd & _).
  assert (Hne : qs <> []). { apply Forall2_len in Hqs. destruct truth, qs; try congruence; discriminate. }
  (* positionwise facts *)
  assert (Hpos : Forall2 (fun t q => exists c, best_match truth predicted t c /\ NoDup t /\ t <> [] /\ incl t (concat truth) /\
     same3 q (precision_of truth t c, recall_of t c, f1_of truth t c)) truth qs).
  { assert (Hi : incl truth truth) by apply incl_refl.
    assert (G : forall l, incl l truth -> Forall (@NoDup T) l -> Forall (fun t => t <> []) l -> forall cs qs, Forall2 (best_match truth predicted) l cs ->
       Forall2 (fun tc q => same3 q (precision_of truth (fst tc) (snd tc), recall_of (fst tc) (snd tc), f1_of truth (fst tc) (snd tc))) (combine l cs) qs ->
       Forall2 (fun t q => exists c, best_match truth predicted t c /\ NoDup t /\ t <> [] /\ incl t (concat truth) /\
         same3 q (precision_of truth t c, recall_of t c, f1_of truth t c)) l qs).
    { clear. intros l Hi Hn Hft cs qs Hc. revert qs. induction Hc as [|t c l cs Hbest Hc IH]; intros qs Hq.
      - inversion Hq; constructor.
      - simpl in Hq. inversion Hq; subst. inversion Hn; subst. inversion Hft; subst. constructor.
        + exists c. split; [exact Hbest|]. split; [assumption|]. split; [assumption|]. split; [|assumption].
          intros x Hx. apply in_concat. exists t. split; [apply Hi; left; reflexivity|exact Hx].
        + apply IH; try assumption. intros x Hx. apply Hi. right; exact Hx. }
    exact (G truth Hi Hn Hft cs qs Hcs Hsc). }
  assert (HF : ((average (map snd qs) == 1)%Q <-> Forall (fun q => (q == 1)%Q) (map snd qs))).
  { apply average_one; [destruct qs; [congruence|discriminate]|]. apply Forall_map. eapply Forall_impl; [|exact Hb]. intros q Hq; apply Hq. }
  split.
  - intros Hrec.
    assert (Hall : Forall (fun q => fst (fst q) == 1 /\ snd (fst q) == 1 /\ snd q == 1)%Q qs).
    { enough (G : forall l qs, Forall2 (fun t q => exists c, best_match truth predicted t c /\ NoDup t /\ t <> [] /\ incl t (concat truth) /\
         same3 q (precision_of truth t c, recall_of t c, f1_of truth t c)) l qs -> incl l truth ->
         Forall (fun q => fst (fst q) == 1 /\ snd (fst q) == 1 /\ snd q == 1)%Q qs) by exact (G truth qs Hpos (incl_refl _)).
      clear - Hrec Hnd. intros l qs Hpos.
      induction Hpos as [|t q l qs (c & (Hc & Hh & Hmax) & Hn & Hne & Hit & (E1 & E2 & E3)) Hpos IH]; intros Hi; [constructor|].
      constructor; [|apply IH; intros x Hx; apply Hi; right; exact Hx].
      simpl in E1, E2, E3. destruct (Hrec t (Hi t (or_introl eq_refl))) as (c' & Hc' & Hp).
        specialize (Hmax c' Hc'). apply f1_one in Hp; [|assumption..|eapply kept_NoDup_one; eassumption].
        rewrite Hp in Hmax. pose proof (scores_bounds truth t c Hn Hit) as (_ & _ & Hb).
        assert (E : (f1_of truth t c == 1)%Q) by lra.
        destruct (one_scores truth t c Hn Hne Hit E) as [Ep Er]. rewrite E1, E2, E3. auto. }
    rewrite Ep, Er, Ef.
    repeat split; apply average_one; try (destruct qs; [congruence|discriminate]);
      apply Forall_map; try (eapply Forall_impl; [|exact Hb]; intros q Hq; apply Hq); eapply Forall_impl; [|exact Hall| |exact Hall| |exact Hall];
      intros q Hq; apply Hq.
  - intros E1 t Hin. rewrite Ef in E1. apply HF in E1. rewrite Forall_map in E1.
    apply In_nth_error in Hin. destruct Hin as (k & Hk).
    assert (exists q, nth_error qs k = Some q /\ exists c, best_match truth predicted t c /\ NoDup t /\ t <> [] /\ incl t (concat truth) /\
     same3 q (precision_of truth t c, recall_of t c, f1_of truth t c)).
    { destruct (nth_error qs k) as [q|] eqn:Eq.
      - exists q. split; [reflexivity|]. exact (Forall2_nth_both _ _ _ Hpos k t q Hk Eq).
      - exfalso. apply nth_error_None in Eq. rewrite <- (Forall2_len _ _ _ Hpos) in Eq.
        apply nth_error_None in Eq. congruence. }
    destruct H0 as (q & Hq & c & (Hc & Hh & Hm) & Hnt & Hne' & Hit & (_ & _ & E3)). simpl in E3.
    exists c. split; [exact Hc|]. apply f1_one; try assumption; [eapply kept_NoDup_one; eassumption|].
    rewrite <- E3. rewrite Forall_forall in E1. apply E1. eapply nth_error_In; exact Hq.
Qed.
End Scores.

(* ---- the order of the clusters ---- *)
Definition map_keys {V} (s : nat -> nat) (d : dict nat V) : dict nat V := map (fun kv => (s (fst kv), snd kv)) d.

Section Relabel.
Context {T : Type} `{EqDec T}.
Variables (s : nat -> nat) (index index' : dict T nat) (sizes sizes' : dict nat nat).
Hypothesis inj : forall i j, s i = s j -> i = j.

Lemma dmodify_map_keys {V} (d : dict nat V) k v f : dmodify (map_keys s d) (s k) v f = map_keys s (dmodify d k v f).
Proof.
  induction d as [|[a b] d IH]; simpl; [reflexivity|]. destruct (eq_dec (s k) (s a)) as [E|E], (eq_dec k a) as [E'|E']; simpl.
  - reflexivity.
  - exfalso. apply E', inj, E.
  - congruence.
  - f_equal. exact IH.
Qed.

Lemma count_candidates_relabel t : (forall x, In x t -> dget index' x = option_map s (dget index x)) -> forall c n,
  count_candidates index' t (map_keys s c) n =
  match count_candidates index t c n with Ok (c', n') => Ok (map_keys s c', n') | Err e => Err e end.
Proof.
  induction t as [|a t IH]; intros Hg c n; simpl; [reflexivity|].
  rewrite (Hg a (or_introl eq_refl)). destruct (dget index a) as [k|]; simpl; [|reflexivity].
  rewrite dmodify_map_keys. apply IH. intros x Hx. apply Hg. right; exact Hx.
Qed.

Lemma find_best_relabel n : (forall i, dget sizes' (s i) = dget sizes i) -> forall c bf b,
  find_best sizes' n (map_keys s c) bf b = find_best sizes n c bf b.
Proof.
  clear inj. intros Hs. induction c as [|[i tp] c IH]; intros bf b; simpl; [reflexivity|]. rewrite Hs.
  destruct (dget sizes i); [|reflexivity]. destruct (score tp _ n) as [[[p r] f]|]; simpl; [|reflexivity].
  destruct (Qltb bf f); apply IH.
Qed.

Lemma match_cluster_relabel t : (forall x, In x t -> dget index' x = option_map s (dget index x)) ->
  (forall i, dget sizes' (s i) = dget sizes i) -> match_cluster index' sizes' t = match_cluster index sizes t.
Proof.
  intros Hg Hs. unfold match_cluster. destruct (Nat.eqb (length t) 0); [reflexivity|].
  pose proof (count_candidates_relabel t Hg [] 0) as Hc. simpl in Hc. rewrite Hc.
  destruct (count_candidates index t [] 0) as [[c n]|]; simpl; [|reflexivity].
  rewrite find_best_relabel by exact Hs. reflexivity.
Qed.
End Relabel.

Section Orders.
Context {T : Type} `{EqDec T}.
Implicit Types truth predicted : list (list T).

Lemma memb_ext (x : T) l l' : (forall y, In y l <-> In y l') -> memb x l = memb x l'.
Proof. intros Hl. destruct (memb_In x l) as [Hi|Hi], (memb_In x l') as [Hi'|Hi']; try reflexivity; exfalso; rewrite Hl in Hi; tauto. Qed.

Lemma Permutation_filt (f : T -> bool) l l' : Permutation l l' -> Permutation (filter f l) (filter f l').
Proof.
  induction 1; simpl.
  - constructor.
  - destruct (f x); [constructor|]; assumption.
  - destruct (f x), (f y); try apply Permutation_refl; apply perm_swap.
  - eapply Permutation_trans; eassumption.
Qed.

Lemma concat_perm {A} (l l' : list (list A)) : Permutation l l' -> Permutation (concat l) (concat l').
Proof.
  induction 1; simpl.
  - constructor.
  - apply Permutation_app_head. assumption.
  - rewrite !app_assoc. apply Permutation_app_tail, Permutation_app_comm.
  - eapply Permutation_trans; eassumption.
Qed.

Lemma concat_perm_inside {A} (l l' : list (list A)) : Forall2 (@Permutation A) l l' -> Permutation (concat l) (concat l').
Proof. induction 1; simpl; [constructor|]. apply Permutation_app; assumption. Qed.

Lemma valid_perm truth truth' predicted predicted' allow :
  length truth = length truth' -> length predicted = length predicted' ->
  (Forall (fun c => c <> []) truth -> Forall (fun c => c <> []) truth') ->
  (Forall (fun c => c <> []) predicted -> Forall (fun c => c <> []) predicted') ->
  Permutation (concat truth) (concat truth') -> Permutation (concat predicted) (concat predicted') ->
  valid truth predicted allow -> valid truth' predicted' allow.
Proof.
  intros Lt Lp Ht Hp Pt Pp (V1 & V2 & V3 & V4 & V5 & V6 & V7). unfold valid.
  assert (Et : forall y, In y (concat truth) <-> In y (concat truth')) by (intros y; split; apply Permutation_in; [|apply Permutation_sym]; exact Pt).
  assert (Ep : forall y, In y (concat predicted) <-> In y (concat predicted')) by (intros y; split; apply Permutation_in; [|apply Permutation_sym]; exact Pp).
  split; [destruct truth, truth'; try congruence; discriminate|].
  split; [destruct predicted, predicted'; try congruence; discriminate|].
  split; [auto|]. split; [auto|]. split; [|split].
  - destruct V5 as [E|V5]; [left; exact E|right]. intros x. rewrite <- Ep, <- Et. apply V5.
  - rewrite (filter_ext _ (fun x => memb x (concat truth))) by (intros x; apply memb_ext; intros y; symmetry; apply Et).
    eapply Permutation_NoDup; [|exact V6]. apply Permutation_filt. exact Pp.
  - intros x. rewrite <- Ep, <- Et. apply V7.
Qed.

Lemma valid_clusters_order truth truth' predicted predicted' allow :
  Permutation truth truth' -> Permutation predicted predicted' ->
  valid truth predicted allow -> valid truth' predicted' allow.
Proof.
  intros Pt Pp. apply valid_perm; try (apply Permutation_length; assumption); try (apply concat_perm; assumption);
    apply Permutation_Forall; assumption.
Qed.

Lemma Forall2_perm_nonempty (l l' : list (list T)) : Forall2 (@Permutation T) l l' -> Forall (fun c => c <> []) l -> Forall (fun c => c <> []) l'.
Proof.
  induction 1 as [|a b l l' Hab Hl IH]; intros Hf; [constructor|]. inversion Hf; subst. constructor; [|auto].
  intros ->. apply Permutation_sym, Permutation_nil in Hab. congruence.
Qed.

Lemma valid_items_order truth truth' predicted predicted' allow :
  Forall2 (@Permutation T) truth truth' -> Forall2 (@Permutation T) predicted predicted' ->
  valid truth predicted allow -> valid truth' predicted' allow.
Proof.
  intros Pt Pp. apply valid_perm; try (eapply Forall2_len; eassumption); try (apply concat_perm_inside; assumption);
    apply Forall2_perm_nonempty; assumption.
Qed.

Lemma Forall2_fun {A B} (g : A -> res B) l qs : Forall2 (fun t q => g t = Ok q) l qs -> map Ok qs = map g l.
Proof. induction 1 as [|t q l qs E Hl IH]; [reflexivity|]. simpl. rewrite E, IH. reflexivity. Qed.

Lemma Permutation_map_Ok {B} (l l' : list B) : Permutation (map Ok l) (map Ok l') -> Permutation l l'.
Proof.
  intros Hp. set (g := fun r : res B => match r with Ok q => [q] | Err _ => [] end).
  assert (E : forall l : list B, flat_map g (map Ok l) = l) by (induction l0 as [|a l0 IH]; simpl; [reflexivity|rewrite IH; reflexivity]).
  rewrite <- (E l), <- (E l'). apply Permutation_flat_map. exact Hp.
Qed.

Lemma clusters_order truth truth' predicted predicted' allow p r f :
  Permutation truth truth' -> Permutation predicted predicted' ->
  best_matching_macro_average truth predicted allow = Ok (p, r, f) ->
  exists p' r' f', best_matching_macro_average truth' predicted' allow = Ok (p', r', f') /\ (p == p' /\ r == r' /\ f == f')%Q.
Proof.
  intros Pt Pp E. pose proof (valid_dec_errors truth predicted allow) as Hs. rewrite E in Hs.
  destruct Hs as (Hv & qs & cs & Hqs & _ & _ & Ep & Er & Ef).
  pose proof (valid_clusters_order _ _ _ _ allow Pt Pp Hv) as Hv'.
  pose proof (valid_dec_errors truth' predicted' allow) as Hs'.
  destruct (best_matching_macro_average truth' predicted' allow) as [[[p' r'] f']|e]; [|tauto].
  destruct Hs' as (_ & qs' & cs' & Hqs' & _ & _ & Ep' & Er' & Ef'). exists p', r', f'. split; [reflexivity|].
  assert (Et : forall y, In y (concat truth) <-> In y (concat truth')).
  { intros y; split; apply Permutation_in; [|apply Permutation_sym]; apply concat_perm; exact Pt. }
  assert (Ek : forall c, kept (set_of (concat truth')) c = kept (set_of (concat truth)) c).
  { intros c. unfold kept. apply filter_ext. intros x. apply memb_ext. intros y. rewrite !set_of_In. symmetry. apply Et. }
  assert (Hke : forall tr pr, kept (set_of (concat tr)) (concat pr) = filter (fun x : T => memb x (concat tr)) (concat pr)).
  { intros tr pr. unfold kept. apply filter_ext. intros x. apply ti_memb. }
  destruct (Permutation_nth_error predicted predicted') as [Hpn _]. destruct (Hpn Pp) as (Hl & s & Hinj & Hs).
  assert (Hm : forall t, match_cluster (indexed (set_of (concat truth)) 0 predicted) (sized (set_of (concat truth)) 0 predicted) t =
                         match_cluster (indexed (set_of (concat truth')) 0 predicted') (sized (set_of (concat truth')) 0 predicted') t).
  { intros t. apply (match_cluster_relabel s); [exact Hinj| |].
    - assert (N1 : NoDup (kept (set_of (concat truth)) (concat predicted))) by (rewrite Hke; apply Hv).
      assert (N2 : NoDup (kept (set_of (concat truth')) (concat predicted'))) by (rewrite Hke; apply Hv').
      intros x _. destruct (dget (indexed (set_of (concat truth')) 0 predicted') x) as [j|] eqn:Ej; simpl.
      + apply dget_indexed_iff in Ej; [|exact N2]. destruct Ej as (c & Hc & Hx). apply dget_indexed_iff; [exact N1|].
        exists c. rewrite <- Hs. split; [exact Hc|]. rewrite <- Ek. exact Hx.
      + destruct (dget (indexed (set_of (concat truth)) 0 predicted) x) as [i|] eqn:Ei; [|reflexivity]. exfalso.
        apply dget_indexed_None in Ej. apply Ej. rewrite Ek. unfold kept. rewrite filter_In.
        apply dget_indexed_iff in Ei; [|exact N1]. destruct Ei as (c & Hc & Hx). unfold kept in Hx. rewrite filter_In in Hx.
        split; [|tauto]. apply (Permutation_in x (concat_perm _ _ Pp)). apply in_concat. exists c. split; [eapply nth_error_In; exact Hc|tauto].
    - intros i. rewrite !dget_sized. simpl. rewrite !Nat.sub_0_r, <- Hs.
      destruct (nth_error predicted' i); [|reflexivity]. simpl. rewrite Ek. reflexivity. }
  assert (Pq : Permutation qs qs').
  { apply Permutation_map_Ok. rewrite (Forall2_fun _ _ _ Hqs), (Forall2_fun _ _ _ Hqs').
    rewrite (map_ext _ _ Hm). apply Permutation_map. exact Pt. }
  rewrite Ep, Er, Ef, Ep', Er', Ef'. repeat split; apply average_perm, Permutation_map, Pq.
Qed.

Lemma f1_ext truth truth' (t t' c c' : list T) : (forall y, In y (concat truth) <-> In y (concat truth')) ->
  Permutation t t' -> Permutation c c' -> f1_of truth t c = f1_of truth' t' c'.
Proof.
  intros Et Pt Pc. unfold f1_of, hits, counted. rewrite (Permutation_length Pt).
  rewrite (Permutation_length (Permutation_filt (fun x => memb x c) _ _ Pt)).
  rewrite (Permutation_length (Permutation_filt (fun x => memb x (concat truth)) _ _ Pc)).
  rewrite (filter_ext (fun x => memb x c) (fun x => memb x c')).
  - rewrite (filter_ext (fun x => memb x (concat truth)) (fun x => memb x (concat truth'))); [reflexivity|].
    intros x. apply memb_ext, Et.
  - intros x. apply memb_ext. intros y; split; apply Permutation_in; [|apply Permutation_sym]; exact Pc.
Qed.

Lemma Forall2_in_left {A B} (P : A -> B -> Prop) l l' a : Forall2 P l l' -> In a l -> exists b, In b l' /\ P a b.
Proof. induction 1 as [|x y l l' Hxy Hl IH]; intros Hin; [contradiction|]. destruct Hin as [<-|Hin]; [exists y; simpl; auto|].
  destruct (IH Hin) as (b & Hb & Hp). exists b. simpl; auto. Qed.
Lemma Forall2_flip' {A B} (P : A -> B -> Prop) l l' : Forall2 P l l' -> Forall2 (fun b a => P a b) l' l.
Proof. induction 1; constructor; auto. Qed.

Lemma items_order truth truth' predicted predicted' allow p r f :
  Forall2 (@Permutation T) truth truth' -> Forall2 (@Permutation T) predicted predicted' ->
  best_matching_macro_average truth predicted allow = Ok (p, r, f) ->
  exists p' r' f', best_matching_macro_average truth' predicted' allow = Ok (p', r', f') /\ (f == f')%Q.
Proof.
  intros Pt Pp E. pose proof (valid_dec_errors truth predicted allow) as Hs. rewrite E in Hs.
  destruct Hs as (Hv & qs & cs & Hqs & Hcs & Hsc & _ & _ & Ef).
  pose proof (valid_items_order _ _ _ _ allow Pt Pp Hv) as Hv'.
  pose proof (valid_dec_errors truth' predicted' allow) as Hs'.
  destruct (best_matching_macro_average truth' predicted' allow) as [[[p' r'] f']|e]; [|tauto].
  destruct Hs' as (_ & qs' & cs' & Hqs' & Hcs' & Hsc' & _ & _ & Ef'). exists p', r', f'. split; [reflexivity|].
  assert (Et : forall y, In y (concat truth) <-> In y (concat truth')).
  { intros y; split; apply Permutation_in; [|apply Permutation_sym]; apply concat_perm_inside; exact Pt. }
  rewrite Ef, Ef'. apply average_ext.
  assert (Hf : forall tr pr l cs qs, Forall2 (best_match tr pr) l cs ->
    Forall2 (fun tc q => same3 q (precision_of tr (fst tc) (snd tc), recall_of (fst tc) (snd tc), f1_of tr (fst tc) (snd tc))) (combine l cs) qs ->
    Forall2 (fun t q => exists c : list T, best_match tr pr t c /\ (snd q == f1_of tr t c)%Q) l qs).
  { clear. intros tr pr l cs qs Hc. revert qs. induction Hc as [|t c l cs Hb Hc IH]; intros qs Hq; simpl in Hq; inversion Hq; subst; constructor.
    - exists c. split; [exact Hb|]. apply H2.
    - apply IH. assumption. }
  apply (Hf _ _ _ _ _ Hcs) in Hsc. apply (Hf _ _ _ _ _ Hcs') in Hsc'.
  clear - Pt Pp Et Hsc Hsc'.
  enough (G : forall l l', Forall2 (@Permutation T) l l' -> forall qs qs',
    Forall2 (fun t q => exists c : list T, best_match truth predicted t c /\ (snd q == f1_of truth t c)%Q) l qs ->
    Forall2 (fun t q => exists c : list T, best_match truth' predicted' t c /\ (snd q == f1_of truth' t c)%Q) l' qs' ->
    Forall2 Qeq (map snd qs) (map snd qs')) by exact (G _ _ Pt _ _ Hsc Hsc').
  clear Pt Hsc Hsc' qs qs'. intros l l' Hl. induction Hl as [|t t' l l' Ht Hl IH]; intros qs qs' Hq Hq'; inversion Hq; subst; inversion Hq'; subst; [constructor|].
  simpl. constructor; [|apply IH; assumption].
  destruct H2 as (c & (Hc & _ & Hm) & ->), H3 as (c' & (Hc' & _ & Hm') & ->).
  apply Qle_antisym.
  - destruct (Forall2_in_left _ _ _ c Pp Hc) as (d & Hd & Hcd). rewrite (f1_ext truth truth' t t' c d Et Ht Hcd). apply Hm', Hd.
  - destruct (Forall2_in_left _ _ _ c' (Forall2_flip' _ _ _ Pp) Hc') as (d & Hd & Hcd). rewrite <- (f1_ext truth truth' t t' d c' Et Ht Hcd). apply Hm, Hd.
Qed.
End Orders.

(* ---- labels ---- *)
Lemma list_nth_ext {A} (l l' : list A) : (forall i, nth_error l i = nth_error l' i) -> l = l'.
Proof.
  revert l'. induction l as [|a l IH]; intros [|b l'] Hn; [reflexivity|specialize (Hn 0); discriminate..|].
  pose proof (Hn 0) as H0. simpl in H0. injection H0 as ->. f_equal. apply IH. intros i. exact (Hn (S i)).
Qed.

Section Labels.
Context {I L : Type} `{EqDec L}.

Lemma labels_fold_get (labels : list (I * L)) : forall d l,
  (match dget (fold_left (fun clusters il => dmodify clusters (snd il) [] (fun c => c ++ [fst il])) labels d) l with Some c => c | None => [] end)
  = (match dget d l with Some c => c | None => [] end) ++ labelled labels l.
Proof.
  unfold labelled. induction labels as [|[x m] labels IH]; intros d l; simpl; [rewrite app_nil_r; reflexivity|].
  rewrite IH. unfold eqb. destruct (eq_dec m l) as [->|Hn].
  - rewrite dget_dmodify_same. simpl. destruct (dget d l); rewrite <- app_assoc; reflexivity.
  - rewrite dget_dmodify_other by congruence. reflexivity.
Qed.

Lemma labels_fold_keys (labels : list (I * L)) : forall d : dict L (list I),
  dkeys (fold_left (fun clusters il => dmodify clusters (snd il) [] (fun c => c ++ [fst il])) labels d) = fold_left sadd (map snd labels) (dkeys d).
Proof. induction labels as [|[x m] labels IH]; intros d; simpl; [reflexivity|]. rewrite IH, dkeys_dmodify. reflexivity. Qed.

Lemma dvalues_get {V} (d : dict L (list V)) : NoDup (dkeys d) ->
  dvalues d = map (fun k => match dget d k with Some c => c | None => [] end) (dkeys d).
Proof.
  intros Hn. unfold dvalues, dkeys. rewrite map_map. apply map_ext_in. intros [k v] Hin. simpl.
  rewrite (In_dget d k v Hn Hin). reflexivity.
Qed.

Lemma labels_to_clusters_spec (labels : list (I * L)) :
  labels_to_clusters labels = map (labelled labels) (set_of (map snd labels)).
Proof.
  unfold labels_to_clusters. rewrite dvalues_get.
  - rewrite labels_fold_keys. apply map_ext. intros l. rewrite labels_fold_get. reflexivity.
  - rewrite labels_fold_keys. apply fold_sadd_NoDup. constructor.
Qed.

Lemma In_labelled (labels : list (I * L)) l x : In x (labelled labels l) <-> In (x, l) labels.
Proof.
  unfold labelled. rewrite in_map_iff. split.
  - intros ([y m] & E & Hin). simpl in E. subst y. rewrite filter_In in Hin. destruct Hin as [Hin E]. simpl in E.
    rewrite eqb_true in E. subst m. exact Hin.
  - intros Hin. exists (x, l). split; [reflexivity|]. rewrite filter_In. split; [exact Hin|]. simpl. rewrite eqb_true. reflexivity.
Qed.
End Labels.

Section Clusters.
Context {I K : Type} `{EqDec K}.
Variable key : I -> K.

Definition set_all (i : nat) (c : list I) (labels : dict K nat) : dict K nat :=
  fold_left (fun labels item => dset labels (key item) i) c labels.

Lemma dget_dset (d : dict K nat) k v k' : dget (dset d k v) k' = if eq_dec k' k then Some v else dget d k'.
Proof. unfold dset. destruct (eq_dec k' k) as [->|Hn]; [rewrite dget_dmodify_same; reflexivity|rewrite dget_dmodify_other; [reflexivity|congruence]]. Qed.

Lemma dget_set_all i c : forall d k, dget (set_all i c d) k = if in_dec eq_dec k (map key c) then Some i else dget d k.
Proof.
  unfold set_all. induction c as [|x c IH]; intros d k; cbn [fold_left map].
  - destruct (in_dec eq_dec k []) as [[]|]; reflexivity.
  - rewrite IH, dget_dset. destruct (in_dec eq_dec k (map key c)) as [Hi|Hi], (in_dec eq_dec k (key x :: map key c)) as [Hj|Hj]; try reflexivity.
    + exfalso. apply Hj. right; exact Hi.
    + destruct (eq_dec k (key x)) as [->|Hn]; [reflexivity|]. destruct Hj as [E|Hj]; [congruence|contradiction].
    + destruct (eq_dec k (key x)) as [->|Hn]; [exfalso; apply Hj; left; reflexivity|reflexivity].
Qed.

Definition labels_from (s : nat) (clusters : list (list I)) (d : dict K nat) : dict K nat :=
  fold_left (fun labels ic => fold_left (fun labels item => dset labels (key item) (fst ic)) (snd ic) labels)
    (combine (seq s (length clusters)) clusters) d.

Definition last_with (s : nat) (clusters : list (list I)) (k : K) (i : nat) : Prop :=
  s <= i /\ (exists c x, nth_error clusters (i - s) = Some c /\ In x c /\ key x = k) /\
  forall j c x, i < j -> nth_error clusters (j - s) = Some c -> In x c -> key x <> k.

Lemma labels_from_get clusters : forall s d k i, dget (labels_from s clusters d) k = Some i <->
  last_with s clusters k i \/ (dget d k = Some i /\ forall c x, In c clusters -> In x c -> key x <> k).
Proof.
  induction clusters as [|c clusters IH]; intros s d k i.
  - unfold labels_from. simpl. split.
    + intros Hg. right. split; [exact Hg|]. intros c x [].
    + intros [(_ & (c & x & Hc & _) & _)|[Hg _]]; [destruct (i - s); discriminate|exact Hg].
  - change (labels_from s (c :: clusters) d) with (labels_from (S s) clusters (set_all s c d)).
    rewrite IH, dget_set_all. split.
    + intros [(Hle & (c' & x & Hc & Hx & Hk) & Hlast)|[Hg Hno]].
      * left. split; [lia|]. split.
        -- exists c', x. replace (i - s) with (S (i - S s)) by lia. auto.
        -- intros j c'' y Hj Hc'' Hy. apply (Hlast j c'' y Hj); [|exact Hy].
           replace (j - s) with (S (j - S s)) in Hc'' by lia. exact Hc''.
      * destruct (in_dec eq_dec k (map key c)) as [Hi|Hi].
        -- injection Hg as <-. left. split; [lia|]. apply in_map_iff in Hi. destruct Hi as (x & Hk & Hx). split.
           ++ exists c, x. rewrite Nat.sub_diag. auto.
           ++ intros j c' y Hj Hc' Hy. replace (j - s) with (S (j - S s)) in Hc' by lia. simpl in Hc'.
              apply (Hno c' y); [eapply nth_error_In; exact Hc'|exact Hy].
        -- right. split; [exact Hg|]. intros c' x [<-|Hc'] Hx; [|exact (Hno c' x Hc' Hx)].
           intros E. apply Hi. rewrite <- E. apply in_map. exact Hx.
    + intros [(Hle & (c' & x & Hc & Hx & Hk) & Hlast)|[Hg Hno]].
      * destruct (Nat.eq_dec i s) as [->|Hn].
        -- right. rewrite Nat.sub_diag in Hc. simpl in Hc. injection Hc as <-. split.
           ++ destruct (in_dec eq_dec k (map key c)) as [Hi|Hi]; [reflexivity|]. exfalso. apply Hi. rewrite <- Hk. apply in_map. exact Hx.
           ++ intros c'' y Hc'' Hy. apply In_nth_error in Hc''. destruct Hc'' as (j & Hj).
              apply (Hlast (S s + j) c'' y); [lia| |exact Hy]. replace (S s + j - s) with (S j) by lia. exact Hj.
        -- left. split; [lia|]. split.
           ++ exists c', x. replace (i - s) with (S (i - S s)) in Hc by lia. auto.
           ++ intros j c'' y Hj Hc'' Hy. apply (Hlast j c'' y Hj); [|exact Hy].
              replace (j - s) with (S (j - S s)) by lia. exact Hc''.
      * right. split.
        -- destruct (in_dec eq_dec k (map key c)) as [Hi|Hi]; [|exact Hg]. exfalso. apply in_map_iff in Hi.
           destruct Hi as (x & Hk & Hx). exact (Hno c x (or_introl eq_refl) Hx Hk).
        -- intros c' x Hc'. apply Hno. right; exact Hc'.
Qed.

Lemma clusters_to_labels_last clusters k i : dget (clusters_to_labels key clusters) k = Some i <->
  (exists c x, nth_error clusters i = Some c /\ In x c /\ key x = k) /\
  (forall j c x, i < j -> nth_error clusters j = Some c -> In x c -> key x <> k).
Proof.
  unfold clusters_to_labels. fold (labels_from 0 clusters []). rewrite labels_from_get. unfold last_with. rewrite Nat.sub_0_r.
  split.
  - intros [(_ & H1 & H2)|[Hg _]]; [|discriminate]. split; [exact H1|]. intros j c x Hj Hc. apply (H2 j c x Hj). rewrite Nat.sub_0_r. exact Hc.
  - intros [H1 H2]. left. split; [lia|]. split; [exact H1|]. intros j c x Hj Hc. rewrite Nat.sub_0_r in Hc. apply (H2 j c x Hj Hc).
Qed.

Lemma concat_keys_unique (clusters : list (list I)) : NoDup (map key (concat clusters)) -> forall i j c c' x x',
  nth_error clusters i = Some c -> nth_error clusters j = Some c' -> In x c -> In x' c' -> key x = key x' -> i = j.
Proof.
  induction clusters as [|a p IH]; intros Hnd i j c c' x x' Hi Hj Hx Hx' Hk; [destruct i; discriminate|].
  simpl in Hnd. rewrite map_app, NoDup_app_iff in Hnd. destruct Hnd as (_ & Hnd & Hd).
  assert (Hp : forall k d y, nth_error p k = Some d -> In y d -> In (key y) (map key (concat p))).
  { intros k d y Hkk Hin. apply in_map, in_concat. exists d. split; [eapply nth_error_In; exact Hkk|exact Hin]. }
  destruct i as [|i], j as [|j]; simpl in *; [reflexivity| | |].
  - injection Hi as <-. exfalso. apply (Hd (key x)); [apply in_map; exact Hx|]. rewrite Hk. exact (Hp _ _ _ Hj Hx').
  - injection Hj as <-. exfalso. apply (Hd (key x')); [apply in_map; exact Hx'|]. rewrite <- Hk. exact (Hp _ _ _ Hi Hx).
  - f_equal. exact (IH Hnd i j c c' x x' Hi Hj Hx Hx' Hk).
Qed.

Lemma clusters_to_labels_disjoint clusters i c x : NoDup (map key (concat clusters)) ->
  nth_error clusters i = Some c -> In x c -> dget (clusters_to_labels key clusters) (key x) = Some i.
Proof.
  intros Hn Hc Hx. apply clusters_to_labels_last. split; [exists c, x; auto|].
  intros j c' y Hj Hc' Hy E. assert (i = j) by (eapply concat_keys_unique; [exact Hn|exact Hc|exact Hc'|exact Hx|exact Hy|congruence]). lia.
Qed.

Lemma set_all_fresh i c : forall d, NoDup (map key c) -> (forall k, In k (map key c) -> ~ In k (dkeys d)) ->
  set_all i c d = d ++ map (fun x => (key x, i)) c.
Proof.
  unfold set_all. induction c as [|x c IH]; intros d Hn Hd; cbn [fold_left map]; [rewrite app_nil_r; reflexivity|].
  inversion Hn; subst. rewrite dset_fresh by (apply Hd; left; reflexivity). rewrite IH; [rewrite <- app_assoc; reflexivity|assumption|].
  intros k Hk Hin. unfold dkeys in Hin. rewrite map_app in Hin. apply in_app_or in Hin. destruct Hin as [Hin|[<-|[]]].
  - apply (Hd k); [right; exact Hk|exact Hin].
  - simpl in Hk. tauto.
Qed.

Fixpoint flat (s : nat) (clusters : list (list I)) : list (K * nat) :=
  match clusters with [] => [] | c :: clusters => map (fun x => (key x, s)) c ++ flat (S s) clusters end.

Lemma labels_from_fresh clusters : forall s d, NoDup (map key (concat clusters)) ->
  (forall k, In k (map key (concat clusters)) -> ~ In k (dkeys d)) -> labels_from s clusters d = d ++ flat s clusters.
Proof.
  induction clusters as [|c clusters IH]; intros s d Hn Hd; [unfold labels_from; simpl; rewrite app_nil_r; reflexivity|].
  change (labels_from s (c :: clusters) d) with (labels_from (S s) clusters (set_all s c d)).
  simpl in Hn, Hd. rewrite map_app in Hn, Hd. rewrite NoDup_app_iff in Hn. destruct Hn as (N1 & N2 & N3).
  rewrite set_all_fresh; [|exact N1|intros k Hk; apply Hd; apply in_or_app; left; exact Hk].
  rewrite IH; [simpl; rewrite <- app_assoc; reflexivity|exact N2|].
  intros k Hk Hin. unfold dkeys in Hin. rewrite map_app, map_map in Hin. simpl in Hin. apply in_app_or in Hin. destruct Hin as [Hin|Hin].
  - apply (Hd k); [apply in_or_app; right; exact Hk|exact Hin].
  - exact (N3 k Hin Hk).
Qed.

Lemma flat_labels_ge clusters : forall s l, In l (map snd (flat s clusters)) -> s <= l.
Proof.
  induction clusters as [|c clusters IH]; intros s l; simpl; [tauto|]. rewrite map_app, map_map. simpl. rewrite in_app_iff.
  intros [Hin|Hin]; [apply in_map_iff in Hin; destruct Hin as (? & <- & _); lia|apply IH in Hin; lia].
Qed.

Lemma fold_sadd_repeat (x : nat) (n : nat) : forall s, In x s -> fold_left sadd (repeat x n) s = s.
Proof. induction n as [|n IH]; intros s Hx; simpl; [reflexivity|]. unfold sadd at 2. destruct (in_dec eq_dec x s); [apply IH; exact Hx|tauto]. Qed.

Lemma flat_ranks clusters : Forall (fun c => c <> []) clusters -> forall s acc, (forall i, In i acc -> i < s) ->
  fold_left sadd (map snd (flat s clusters)) acc = acc ++ seq s (length clusters).
Proof.
  induction 1 as [|c clusters Hc Hcs IH]; intros s acc Ha; simpl; [rewrite app_nil_r; reflexivity|].
  rewrite map_app, map_map, fold_left_app. simpl.
  assert (E : map (fun _ : I => s) c = repeat s (length c)).
  { clear. induction c; simpl; congruence. }
  rewrite E. destruct c as [|x c]; [congruence|]. simpl. unfold sadd at 3.
  destruct (in_dec eq_dec s acc) as [Hi|Hi]; [apply Ha in Hi; lia|].
  rewrite fold_sadd_repeat by (apply in_or_app; right; left; reflexivity).
  rewrite IH; [rewrite <- app_assoc; reflexivity|]. intros i Hin. apply in_app_or in Hin. destruct Hin as [Hin|[<-|[]]]; [apply Ha in Hin; lia|lia].
Qed.

Lemma labelled_app {A B} `{EqDec B} (l l' : list (A * B)) b : labelled (l ++ l') b = labelled l b ++ labelled l' b.
Proof. unfold labelled. rewrite filter_app, map_app. reflexivity. Qed.

Lemma flat_labelled clusters : forall s i, labelled (flat s clusters) i =
  if Nat.ltb i s then [] else match nth_error clusters (i - s) with Some c => map key c | None => [] end.
Proof.
  induction clusters as [|c clusters IH]; intros s i; simpl flat.
  - unfold labelled. simpl. destruct (Nat.ltb i s); [reflexivity|]. destruct (i - s); reflexivity.
  - rewrite labelled_app, IH.
    assert (E : labelled (map (fun x => (key x, s)) c) i = if Nat.eqb s i then map key c else []).
    { unfold labelled. clear. induction c as [|x c IH]; simpl; [destruct (Nat.eqb s i); reflexivity|].
      unfold eqb. destruct (eq_dec s i) as [->|Hn].
      - simpl. unfold eqb in IH. rewrite IH, Nat.eqb_refl. reflexivity.
      - unfold eqb in IH. rewrite IH. destruct (Nat.eqb_spec s i); [congruence|reflexivity]. }
    rewrite E. destruct (Nat.eqb_spec s i) as [->|Hn].
    + rewrite (proj2 (Nat.ltb_lt i (S i))) by lia. rewrite Nat.ltb_irrefl, Nat.sub_diag, app_nil_r. reflexivity.
    + destruct (Nat.ltb_spec i (S s)), (Nat.ltb_spec i s); try lia; [reflexivity|].
      replace (i - s) with (S (i - S s)) by lia. reflexivity.
Qed.

Lemma round_trip clusters : NoDup (map key (concat clusters)) -> Forall (fun c => c <> []) clusters ->
  labels_to_clusters (clusters_to_labels key clusters) = map (map key) clusters.
Proof.
  intros Hn Hne. unfold clusters_to_labels. fold (labels_from 0 clusters []). rewrite labels_from_fresh; [|exact Hn|intros k _ []].
  rewrite labels_to_clusters_spec. simpl app. unfold set_of. rewrite flat_ranks; [|exact Hne|intros i []]. simpl app.
  apply list_nth_ext. intros i. rewrite !nth_error_map.
  destruct (nth_error clusters i) as [c|] eqn:Ec.
  - assert (Hi : i < length clusters) by (apply nth_error_Some; congruence).
    rewrite (nth_error_nth' _ 0) by (rewrite seq_length; exact Hi). rewrite seq_nth by exact Hi. simpl.
    rewrite flat_labelled. simpl. rewrite Nat.sub_0_r, Ec. reflexivity.
  - apply nth_error_None in Ec. rewrite (proj2 (nth_error_None (seq 0 (length clusters)) i)) by (rewrite seq_length; exact Ec). reflexivity.
Qed.
End Clusters.

Section LabelsBack.
Context {I L : Type} `{EqDec I} `{EqDec L}.

Lemma labels_round_trip (labels : list (I * L)) x l i : NoDup (map fst labels) -> In (x, l) labels ->
  (dget (clusters_to_labels (fun x => x) (labels_to_clusters labels)) x = Some i <-> nth_error (set_of (map snd labels)) i = Some l).
Proof.
  intros Hn Hin. rewrite clusters_to_labels_last, labels_to_clusters_spec.
  assert (Huniq : forall m, In (x, m) labels -> m = l).
  { intros m Hm. clear - Hn Hin Hm. induction labels as [|[y k] labels IH]; [contradiction|]. simpl in Hn. inversion Hn; subst.
    destruct Hin as [E|Hin], Hm as [E'|Hm].
    - congruence.
    - injection E as -> ->. exfalso. apply H1. change x with (fst (x, m)). apply in_map. exact Hm.
    - injection E' as -> ->. exfalso. apply H1. change x with (fst (x, l)). apply in_map. exact Hin.
    - auto. }
  split.
  - intros [(c & y & Hc & Hy & ->) _]. rewrite nth_error_map in Hc. destruct (nth_error (set_of (map snd labels)) i) as [m|]; [|discriminate].
    simpl in Hc. injection Hc as <-. rewrite In_labelled in Hy. rewrite (Huniq m Hy). reflexivity.
  - intros Hi. split.
    + exists (labelled labels l), x. rewrite nth_error_map, Hi. split; [reflexivity|]. split; [apply In_labelled; exact Hin|reflexivity].
    + intros j c y Hj Hc Hy ->. rewrite nth_error_map in Hc. destruct (nth_error (set_of (map snd labels)) j) as [m|] eqn:Ej; [|discriminate].
      simpl in Hc. injection Hc as <-. rewrite In_labelled in Hy. rewrite (Huniq m Hy) in Ej.
      pose proof (set_of_NoDup (map snd labels)) as Hs. rewrite NoDup_nth_error in Hs.
      assert (i = j) by (apply Hs; [apply nth_error_Some; congruence|congruence]). lia.
Qed.
End LabelsBack.

(* ---- flat ---- *)
Lemma py_set_nat {V} (l : list V) (k : nat) v : k < length l -> exists r, py_set l (Z.of_nat k) v = Ok r /\ length r = length l /\
  forall j, nth_error r j = if Nat.eqb j k then Some v else nth_error l j.
Proof.
  intros Hk. unfold py_set.
  replace (Z.of_nat k <? 0)%Z with false by lia. replace ((Z.of_nat k <? 0) || (Z.of_nat (length l) <=? Z.of_nat k))%Z with false by lia.
  rewrite Nat2Z.id. eexists. split; [reflexivity|]. split.
  - rewrite !app_length, firstn_length, skipn_length. simpl. lia.
  - intros j. destruct (Nat.eqb_spec j k) as [->|Hn].
    + rewrite nth_error_app2; rewrite firstn_length; [|lia]. replace (k - Nat.min k (length l)) with 0 by lia. reflexivity.
    + destruct (Nat.lt_ge_cases j k).
      * rewrite nth_error_app1 by (rewrite firstn_length; lia). rewrite <- (firstn_skipn k l) at 2.
        rewrite nth_error_app1 by (rewrite firstn_length; lia). reflexivity.
      * rewrite nth_error_app2; rewrite firstn_length; [|lia]. replace (j - Nat.min k (length l)) with (S (j - S k)) by lia.
        simpl. rewrite <- (firstn_skipn (S k) l) at 2. rewrite nth_error_app2; rewrite firstn_length; [|lia].
        f_equal. lia.
Qed.

Lemma flat_labels_fold (d : dict Z nat) : forall l : list (option nat), NoDup (dkeys d) -> (forall k, In k (dkeys d) -> (0 <= k < Z.of_nat (length l))%Z) ->
  exists r, fold_left (fun r il => let! l := r in py_set l (fst il) (Some (snd il))) d (Ok l) = Ok r /\ length r = length l /\
    forall j, j < length l -> nth_error r j = match dget d (Z.of_nat j) with Some v => Some (Some v) | None => nth_error l j end.
Proof.
  induction d as [|[k v] d IH]; intros l Hn Hk; simpl.
  - exists l. auto.
  - simpl in Hn. inversion Hn; subst. destruct (Hk k (or_introl eq_refl)) as [K1 K2].
    destruct (py_set_nat l (Z.to_nat k) (Some v)) as (r & Er & Hl & Hr); [lia|]. rewrite Z2Nat.id in Er by exact K1. rewrite Er.
    destruct (IH r H2) as (r' & Er' & Hl' & Hr'). { intros k' Hk'. rewrite Hl. apply Hk. right; exact Hk'. }
    exists r'. split; [exact Er'|]. split; [lia|]. intros j Hj. rewrite Hr' by lia. rewrite Hr.
    destruct (eq_dec (Z.of_nat j) k) as [E|E].
    + destruct (dget d (Z.of_nat j)) eqn:Eg.
      * exfalso. apply H1. rewrite <- E. apply dget_Some_In in Eg. apply (in_map fst) in Eg. exact Eg.
      * destruct (Nat.eqb_spec j (Z.to_nat k)); [reflexivity|lia].
    + destruct (dget d (Z.of_nat j)); [reflexivity|]. destruct (Nat.eqb_spec j (Z.to_nat k)); [lia|reflexivity].
Qed.

Lemma flat_labels_spec (d : dict Z nat) : NoDup (dkeys d) -> (forall k, In k (dkeys d) -> (0 <= k < Z.of_nat (length d))%Z) ->
  exists r, flat_labels d = Ok r /\ length r = length d /\ forall j, j < length d -> nth_error r j = Some (dget d (Z.of_nat j)).
Proof.
  intros Hn Hk. unfold flat_labels. destruct (flat_labels_fold d (repeat None (length d)) Hn) as (r & Er & Hl & Hr).
  { rewrite repeat_length. exact Hk. }
  rewrite repeat_length in *. exists r. split; [exact Er|]. split; [exact Hl|]. intros j Hj. rewrite (Hr j Hj).
  destruct (dget d (Z.of_nat j)) eqn:Eg; [reflexivity|].
  rewrite (nth_error_nth' _ None) by (rewrite repeat_length; exact Hj). rewrite nth_repeat. reflexivity.
Qed.

Lemma errors_iff {T} `{EqDec T} (truth predicted : list (list T)) allow :
  (valid truth predicted allow <-> exists s, best_matching_macro_average truth predicted allow = Ok s) /\
  (forall e, best_matching_macro_average truth predicted allow = Err e -> e = TypeError).
Proof.
  pose proof (valid_dec_errors truth predicted allow) as Hs.
  destruct (best_matching_macro_average truth predicted allow) as [[[p r] f]|e].
  - split; [split; [intros _; eauto|intros _; apply Hs]|]. discriminate.
  - destruct Hs as [-> Hn]. split; [split; [tauto|intros (s & E); discriminate]|]. congruence.
Qed.

Lemma value_spec {T} `{EqDec T} (truth predicted : list (list T)) allow p r f :
  best_matching_macro_average truth predicted allow = Ok (p, r, f) ->
  exists cs, Forall2 (best_match truth predicted) truth cs /\
    (p == average (map (fun tc => precision_of truth (fst tc) (snd tc)) (combine truth cs)))%Q /\
    (r == average (map (fun tc => recall_of (fst tc) (snd tc)) (combine truth cs)))%Q /\
    (f == average (map (fun tc => f1_of truth (fst tc) (snd tc)) (combine truth cs)))%Q.
Proof.
  intros E. pose proof (valid_dec_errors truth predicted allow) as Hs. rewrite E in Hs.
  destruct Hs as (_ & qs & cs & _ & Hcs & Hsc & Ep & Er & Ef). exists cs. split; [exact Hcs|].
  rewrite Ep, Er, Ef. clear - Hsc.
  repeat split; apply average_ext; induction Hsc as [|tc q l qs (E1 & E2 & E3) Hq IH]; simpl; constructor; assumption.
Qed.

Lemma identity_score {T} `{EqDec T} (truth : list (list T)) allow :
  truth <> [] -> Forall (fun c => c <> []) truth -> NoDup (concat truth) ->
  exists p r f, best_matching_macro_average truth truth allow = Ok (p, r, f) /\ (p == 1 /\ r == 1 /\ f == 1)%Q.
Proof.
  intros Hne Hf Hn.
  assert (Ha : forall c, incl c (concat truth) -> filter (fun x => memb x (concat truth)) c = c).
  { intros c Hc. apply filter_all. intros x Hx. rewrite memb_true. auto. }
  assert (Hv : valid truth truth allow).
  { repeat split; auto. rewrite Ha by apply incl_refl. exact Hn. }
  destruct (proj1 (proj1 (errors_iff truth truth allow)) Hv) as ([[p r] f] & E). exists p, r, f. split; [exact E|].
  assert (Hnd : Forall (@NoDup T) truth).
  { clear - Hn. induction truth as [|t l IH]; [constructor|]. simpl in Hn. rewrite NoDup_app_iff in Hn. constructor; [tauto|apply IH; tauto]. }
  apply (perfect_score truth truth allow p r f Hnd E). intros t Ht. exists t. split; [exact Ht|].
  rewrite Ha; [apply Permutation_refl|]. intros x Hx. apply in_concat. exists t. auto.
Qed.
