From Coq Require Import QArith Qround Lqa String Relations Sorted.
From Verif Require Import Base BaseFacts MetricsModel SortModel SortSpec SortFacts ClustersSpec GraphModel GraphSpec.
Notation length := List.length.
Notation concat := List.concat.
Open Scope list_scope.
Open Scope nat_scope.

Section Components.
Context {N W : Type} `{EqDec N}.
Variable g : graph N W.
Variable f : N -> N -> W -> bool.

Definition succs (n : N) : list N := map fst (filter (fun mw => f n (fst mw) (snd mw)) (adjacent g n)).

Lemma push_succs n l : forall stack,
  fold_left (fun stack mw => if negb (f n (fst mw) (snd mw)) then stack else fst mw :: stack) l stack =
  rev (map fst (filter (fun mw => f n (fst mw) (snd mw)) l)) ++ stack.
Proof.
  induction l as [|mw l IH]; intros stack; simpl; [reflexivity|]. rewrite IH.
  destruct (f n (fst mw) (snd mw)); simpl; [rewrite <- app_assoc; reflexivity|reflexivity].
Qed.

Lemma walk_spec fuel : forall seen stack c seen' c', walk fuel g f seen stack c = Ok (seen', c') ->
  exists new, seen' = seen ++ new /\ c' = c + length new /\ NoDup new /\ (forall x, In x new -> ~ In x seen) /\
    (forall x, In x stack -> In x seen') /\ (forall x y, In x new -> In y (succs x) -> In y seen') /\
    (forall x, In x new -> exists s, In s stack /\ reach (fun a b => In b (succs a)) s x).
Proof.
  induction fuel as [|fuel IH]; intros seen stack c seen' c'; cbn [walk]; [discriminate|].
  destruct stack as [|n1 stack].
  - intros E. injection E as <- <-. exists []. rewrite app_nil_r, Nat.add_0_r.
    repeat split; try constructor; try (intros x []); auto; try (intros x y []).
  - destruct (memb_In n1 seen) as [Hs|Hs].
    + intros E. apply IH in E. destruct E as (new & -> & -> & Hn & Hd & Hst & Hc & Hr). exists new.
      split; [reflexivity|]. split; [reflexivity|]. split; [exact Hn|]. split; [exact Hd|]. split; [|split; [exact Hc|]].
      * intros x [<-|Hx]; [apply in_or_app; left; exact Hs|auto].
      * intros x Hx. destruct (Hr x Hx) as (s & Hin & Hre). exists s. split; [right; exact Hin|exact Hre].
    + rewrite push_succs. fold (succs n1). intros E. apply IH in E.
      unfold sadd in E. destruct (in_dec eq_dec n1 seen) as [Hi|_]; [contradiction|].
      destruct E as (new & -> & -> & Hn & Hd & Hst & Hc & Hr). exists (n1 :: new). rewrite <- app_assoc.
      split; [reflexivity|]. split; [cbn [length]; lia|]. split; [|split; [|split; [|split]]].
      * constructor; [|exact Hn]. intros Hin. apply (Hd n1 Hin). apply in_or_app. right; left; reflexivity.
      * intros x [<-|Hx]; [exact Hs|]. intros Hin. apply (Hd x Hx). apply in_or_app. left; exact Hin.
      * intros x [<-|Hx]; [apply in_or_app; right; left; reflexivity|].
        specialize (Hst x). rewrite <- app_assoc in Hst. apply Hst. apply in_or_app. right; exact Hx.
      * intros x y [<-|Hx] Hy; [|specialize (Hc x y Hx Hy); rewrite <- app_assoc in Hc; exact Hc].
        specialize (Hst y). rewrite <- app_assoc in Hst. apply Hst. apply in_or_app. left. apply -> in_rev. exact Hy.
      * intros x [<-|Hx]; [exists n1; split; [left; reflexivity|apply rt_refl]|].
        destruct (Hr x Hx) as (s & Hin & Hre). apply in_app_or in Hin. destruct Hin as [Hin|Hin].
        -- exists n1. split; [left; reflexivity|]. apply rt_trans with s; [|exact Hre]. apply rt_step. apply in_rev. exact Hin.
        -- exists s. split; [right; exact Hin|exact Hre].
Qed.

(* ---- the fuel ---- *)
Definition deg (n : N) : nat := length (adjacent g n).
Definition cost (seen : list N) : nat := list_sum (map deg (filter (fun n => negb (memb n seen)) (dkeys g))).

Lemma cost_step_aux l seen n : ~ In n seen ->
  list_sum (map deg (filter (fun x => negb (memb x (seen ++ [n]))) l)) + (if in_dec eq_dec n l then deg n else 0) <=
  list_sum (map deg (filter (fun x => negb (memb x seen)) l)).
Proof.
  intros Hn. induction l as [|a l IH].
  - simpl. destruct (in_dec eq_dec n []) as [[]|_]; lia.
  - cbn [filter].
    assert (Ha : memb a (seen ++ [n]) = if eq_dec a n then true else memb a seen).
    { destruct (eq_dec a n) as [->|Hne].
      - rewrite memb_true. apply in_or_app. right; left; reflexivity.
      - destruct (memb_In a seen) as [Hi|Hi]; [rewrite memb_true; apply in_or_app; left; exact Hi|].
        rewrite memb_false. intros Hin. apply in_app_or in Hin. destruct Hin as [Hin|[->|[]]]; [contradiction|congruence]. }
    rewrite Ha. destruct (eq_dec a n) as [->|Hne].
    + replace (memb n seen) with false by (symmetry; rewrite memb_false; exact Hn). cbn [negb map list_sum fold_right].
      destruct (in_dec eq_dec n (n :: l)) as [_|Hx]; [|exfalso; apply Hx; left; reflexivity].
      destruct (in_dec eq_dec n l); unfold list_sum in *; lia.
    + assert (Hin : (if in_dec eq_dec n (a :: l) then deg n else 0) = if in_dec eq_dec n l then deg n else 0).
      { destruct (in_dec eq_dec n (a :: l)) as [[Hx|Hx]|Hx], (in_dec eq_dec n l) as [Hy|Hy]; try reflexivity; try congruence; try contradiction.
        exfalso. apply Hx. right; exact Hy. }
      rewrite Hin. destruct (memb a seen); cbn [negb map]; unfold list_sum in *; cbn [fold_right]; lia.
Qed.

Lemma adjacent_nil n : ~ In n (dkeys g) -> adjacent g n = [].
Proof. intros Hn. unfold adjacent. destruct (dget g n) eqn:E; [|reflexivity]. exfalso. apply Hn. apply dget_Some_In in E. apply (in_map fst) in E. exact E. Qed.

Lemma cost_step seen n : ~ In n seen -> cost (seen ++ [n]) + deg n <= cost seen.
Proof.
  intros Hn. pose proof (cost_step_aux (dkeys g) seen n Hn) as Hc. unfold cost. destruct (in_dec eq_dec n (dkeys g)) as [Hi|Hi]; [exact Hc|].
  unfold deg at 2. rewrite (adjacent_nil n Hi). simpl. lia.
Qed.

Lemma succs_length n : length (succs n) <= deg n.
Proof. unfold succs, deg. rewrite map_length. induction (adjacent g n) as [|a l IH]; simpl; [lia|]. destruct (f n (fst a) (snd a)); simpl; lia. Qed.

Lemma walk_total fuel : forall seen stack c, length stack + cost seen < fuel -> exists r, walk fuel g f seen stack c = Ok r.
Proof.
  induction fuel as [|fuel IH]; intros seen stack c Hf; [lia|]. cbn [walk]. destruct stack as [|n1 stack]; [eauto|].
  cbn [length] in Hf. destruct (memb_In n1 seen) as [Hs|Hs]; [apply IH; lia|].
  rewrite push_succs. fold (succs n1). apply IH. unfold sadd. destruct (in_dec eq_dec n1 seen); [contradiction|].
  rewrite app_length, rev_length. pose proof (succs_length n1). pose proof (cost_step seen n1 Hs). lia.
Qed.

Lemma cost_le seen : cost seen <= degrees g.
Proof.
  unfold cost, degrees. fold deg. induction (dkeys g) as [|a l IH]; simpl; [lia|].
  change (length (adjacent g a)) with (deg a). destruct (memb a seen); simpl; fold deg in IH; unfold deg in *; lia.
Qed.

Definition closed (s : list N) : Prop := forall x y, In x s -> In y (succs x) -> In y s.

Lemma walk_new fuel seen root seen' c' : closed seen -> ~ In root seen -> walk fuel g f seen [root] 0 = Ok (seen', c') ->
  exists new, seen' = seen ++ new /\ c' = length new /\ NoDup new /\ closed seen' /\
    (forall x, In x new <-> reach (fun a b => In b (succs a)) root x /\ ~ In x seen).
Proof.
  intros Hcl Hroot E. apply walk_spec in E. destruct E as (new & -> & -> & Hn & Hd & Hst & Hc & Hr).
  assert (Hcl' : closed (seen ++ new)).
  { intros x y Hx Hy. apply in_app_or in Hx. destruct Hx as [Hx|Hx]; [apply in_or_app; left; exact (Hcl x y Hx Hy)|exact (Hc x y Hx Hy)]. }
  exists new. split; [reflexivity|]. split; [reflexivity|]. split; [exact Hn|]. split; [exact Hcl'|].
  intros x. split.
  - intros Hx. split; [|auto]. destruct (Hr x Hx) as (s & [<-|[]] & Hre). exact Hre.
  - intros [Hre Hx]. assert (Hin : In x (seen ++ new)).
    { assert (Hs : In root (seen ++ new)) by (apply Hst; left; reflexivity). clear - Hre Hs Hcl'.
      induction Hre as [a b Hab|a|a b c H1 IH1 H2 IH2]; [exact (Hcl' _ _ Hs Hab)|exact Hs|auto]. }
    apply in_app_or in Hin. destruct Hin; [contradiction|assumption].
Qed.

Lemma sizes_spec fuel : degrees g + 1 < fuel -> forall nodes seen, closed seen ->
  exists out, sizes_from fuel g f nodes seen = Ok (map (@length N) out) /\
    explored (fun a b => In b (succs a)) seen out /\
    (forall x, In x nodes -> In x (seen ++ concat out)) /\
    (forall c, In c out -> exists x, In x c /\ In x nodes).
Proof.
  intros Hf. induction nodes as [|node nodes IH]; intros seen Hcl.
  - exists []. split; [reflexivity|]. split; [constructor|]. split; [intros x []|intros c []].
  - cbn [sizes_from]. destruct (memb_In node seen) as [Hs|Hs].
    + destruct (IH seen Hcl) as (out & E & Hex & Hcov & Hroot). exists out. split; [exact E|]. split; [exact Hex|]. split.
      * intros x [<-|Hx]; [apply in_or_app; left; exact Hs|auto].
      * intros c Hc. destruct (Hroot c Hc) as (x & Hx & Hxn). exists x. split; [exact Hx|right; exact Hxn].
    + destruct (walk_total fuel seen [node] 0) as ([seen' c'] & E). { pose proof (cost_le seen). cbn [length]. lia. }
      rewrite E. cbn [bind]. destruct (walk_new fuel seen node seen' c' Hcl Hs E) as (new & -> & -> & Hn & Hcl' & Hnew).
      destruct (IH (seen ++ new) Hcl') as (out & E' & Hex & Hcov & Hroot). rewrite E'. cbn [bind].
      exists (new :: out). split; [reflexivity|]. split; [|split].
      * apply explored_cons with node; assumption.
      * intros x [<-|Hx].
        -- apply in_or_app. right. simpl. apply in_or_app. left. apply Hnew. split; [apply rt_refl|exact Hs].
        -- specialize (Hcov x Hx). rewrite <- app_assoc in Hcov. exact Hcov.
      * intros c [<-|Hc].
        -- exists node. split; [apply Hnew; split; [apply rt_refl|exact Hs]|left; reflexivity].
        -- destruct (Hroot c Hc) as (x & Hx & Hxn). exists x. split; [exact Hx|right; exact Hxn].
Qed.

Lemma explored_disjoint step : forall before out, explored (N:=N) step before out -> NoDup (concat out) /\ forall x, In x (concat out) -> ~ In x before.
Proof.
  intros before out Hex. induction Hex as [before|before root c out Hr Hn Hc Hex [IHn IHd]]; simpl.
  - split; [constructor|intros x []].
  - split.
    + rewrite NoDup_app_iff. split; [exact Hn|]. split; [exact IHn|]. intros x Hx Hx'. apply (IHd x Hx'). apply in_or_app. right; exact Hx.
    + intros x Hx. apply in_app_or in Hx. destruct Hx as [Hx|Hx]; [apply Hc, Hx|]. intros Hin. apply (IHd x Hx). apply in_or_app. left; exact Hin.
Qed.

Lemma explored_ext (s1 s2 : N -> N -> Prop) : (forall a b, s1 a b <-> s2 a b) -> forall before out, explored s1 before out -> explored s2 before out.
Proof.
  intros Hs before out Hex. assert (Hr : forall a b, reach s1 a b <-> reach s2 a b).
  { intros a b. split; intros Hre; induction Hre; [apply rt_step, Hs; assumption|apply rt_refl|eapply rt_trans; eassumption|
      apply rt_step, Hs; assumption|apply rt_refl|eapply rt_trans; eassumption]. }
  induction Hex as [before|before root c out H1 H2 H3 Hex IH]; [constructor|]. apply explored_cons with root; try assumption.
  intros x. rewrite H3, Hr. reflexivity.
Qed.
End Components.

Section Undirected.
Context {N W : Type} `{EqDec N}.
Variable g : graph N W.
Hypothesis Hg : undirected g.

Lemma adjacent_edge a b w : edge g a b w <-> In (b, w) (adjacent g a).
Proof.
  unfold edge, adjacent. split.
  - intros (l & Hl & Hb). rewrite (In_dget g a l (nodes_once _ Hg) Hl). exact Hb.
  - intros Hb. destruct (dget g a) as [l|] eqn:E; [|contradiction]. apply dget_Some_In in E. exists l. auto.
Qed.

Lemma edge_node a b w : edge g a b w -> In a (dkeys g) /\ In b (dkeys g).
Proof.
  intros He. split; [|apply Hg in He]; destruct He as (l & Hl & _); apply (in_map fst) in Hl; exact Hl.
Qed.

Lemma succs_accepted f a b : In b (succs g f a) <-> accepted g f a b.
Proof.
  unfold succs, accepted. rewrite in_map_iff. split.
  - intros ([b' w] & E & Hin). simpl in E. subst b'. rewrite filter_In in Hin. destruct Hin as [Hin Hf]. exists w.
    split; [apply adjacent_edge; exact Hin|exact Hf].
  - intros (w & He & Hf). exists (b, w). split; [reflexivity|]. rewrite filter_In. split; [apply adjacent_edge; exact He|exact Hf].
Qed.

Lemma component_sizes_explored f : exists out, component_sizes g f = Ok (map (@length N) out) /\
  explored (accepted g f) [] out /\ Permutation (concat out) (dkeys g).
Proof.
  unfold component_sizes. destruct (sizes_spec g f (degrees g + length (dkeys g) + 2) ltac:(lia) (dkeys g) []) as (out & E & Hex & Hcov & Hroot).
  { intros x y []. }
  exists out. split; [exact E|]. split; [apply (explored_ext _ _ (succs_accepted f)); exact Hex|].
  destruct (explored_disjoint _ _ _ Hex) as [Hn _].
  apply NoDup_Permutation; [exact Hn|apply (nodes_once _ Hg)|]. intros x. split; [|apply Hcov].
  assert (G : forall before out, explored (fun a b => In b (succs g f a)) before out -> (forall c, In c out -> exists x, In x c /\ In x (dkeys g)) ->
    forall x, In x (concat out) -> In x (dkeys g)).
  { clear - Hg. intros before out Hex. induction Hex as [|before root c out H1 H2 H3 Hex IH]; intros Hroot x Hx; [contradiction|].
    simpl in Hx. apply in_app_or in Hx. destruct Hx as [Hx|Hx]; [|apply IH; [intros c' Hc'; apply Hroot; right; exact Hc'|exact Hx]].
    assert (Hfwd : forall a b, reach (fun a b => In b (succs g f a)) a b -> In b (dkeys g) \/ a = b).
    { intros a b Hre. induction Hre as [a b Hab|a|a b d H5 IH1 H6 IH2].
      - left. apply succs_accepted in Hab. destruct Hab as (w & He & _). apply (edge_node _ _ _ He).
      - right; reflexivity.
      - destruct IH2 as [IH2| ->]; [left; exact IH2|exact IH1]. }
    assert (Hbwd : forall a b, reach (fun a b => In b (succs g f a)) a b -> In a (dkeys g) \/ a = b).
    { intros a b Hre. induction Hre as [a b Hab|a|a b d H5 IH1 H6 IH2].
      - left. apply succs_accepted in Hab. destruct Hab as (w & He & _). apply (edge_node _ _ _ He).
      - right; reflexivity.
      - destruct IH1 as [IH1| ->]; [left; exact IH1|exact IH2]. }
    destruct (Hroot c (or_introl eq_refl)) as (y & Hy & Hyn). apply H3 in Hy. apply H3 in Hx.
    destruct Hy as [Hy _], Hx as [Hx _].
    assert (Hrt : In root (dkeys g)) by (destruct (Hbwd _ _ Hy) as [Hr| ->]; assumption).
    destruct (Hfwd _ _ Hx) as [Hr| <-]; assumption. }
  apply (G _ _ Hex Hroot).
Qed.

Lemma connected_reach (link : N -> N -> Prop) : (forall a b, link a b -> link b a) -> forall a b, connected link a b <-> reach link a b.
Proof.
  intros Hs a b. unfold connected, reach. split.
  - intros Hc. induction Hc as [a b Hab|a|a b Hc IH|a b c H1 IH1 H2 IH2].
    + apply rt_step. exact Hab.
    + apply rt_refl.
    + clear Hc. induction IH as [x y Hxy|x|x y z H1 IH1 H2 IH2]; [apply rt_step, Hs, Hxy|apply rt_refl|eapply rt_trans; eassumption].
    + eapply rt_trans; eassumption.
  - intros Hc. induction Hc; [apply rst_step; assumption|apply rst_refl|eapply rst_trans; eassumption].
Qed.

Lemma component_class (link : N -> N -> Prop) c x : component link c -> In x c -> forall y, In y c <-> connected link x y.
Proof.
  intros (Hn & r & Hr & Hc) Hx y. rewrite Hc. apply Hc in Hx. split; intros Hy.
  - apply rst_trans with r; [apply rst_sym; exact Hx|exact Hy].
  - apply rst_trans with x; [exact Hx|exact Hy].
Qed.

Lemma accepted_sym f : symmetric f -> forall a b, accepted g f a b -> accepted g f b a.
Proof. intros Hf a b (w & He & E). exists w. split; [apply Hg; exact He|]. rewrite <- Hf. exact E. Qed.

Lemma explored_components (link : N -> N -> Prop) : (forall a b, link a b -> link b a) -> forall before out, explored link before out ->
  (forall x y, In x before -> link x y -> In y before) -> forall c, In c out -> component link c.
Proof.
  intros Hs before out Hex. induction Hex as [|before root c out H1 H2 H3 Hex IH]; intros Hcl d [].
  - subst d. split; [exact H2|]. exists root. split; [apply H3; split; [apply rt_refl|exact H1]|].
    intros y. rewrite H3, connected_reach by exact Hs. split; [tauto|]. intros Hre. split; [exact Hre|]. intros Hb. apply H1.
    assert (Hback : forall a b, reach link a b -> In b before -> In a before).
    { intros a b Hab. induction Hab as [a b Hab|a|a b d G1 I1 G2 I2]; auto. intros Hb'. apply (Hcl b a Hb'). apply Hs, Hab. }
    exact (Hback root y Hre Hb).
  - apply IH; [|assumption]. intros x y Hx Hxy. apply in_app_or in Hx. apply in_or_app. destruct Hx as [Hx|Hx]; [left; exact (Hcl x y Hx Hxy)|].
    destruct (in_dec eq_dec y before) as [Hy|Hy]; [left; exact Hy|right]. apply H3. split; [|exact Hy]. apply H3 in Hx.
    apply rt_trans with x; [apply Hx|apply rt_step; exact Hxy].
Qed.

Lemma component_sizes_components f : symmetric f -> exists out, component_sizes g f = Ok (map (@length N) out) /\
  is_components (node g) (accepted g f) 0 None out /\ Permutation (concat out) (map fst g).
Proof.
  intros Hf. destruct (component_sizes_explored f) as (out & E & Hex & Hp). exists out. split; [exact E|]. split; [|exact Hp].
  pose proof (explored_components _ (accepted_sym f Hf) _ _ Hex ltac:(intros x y [])) as Hcomp.
  constructor.
  - intros c Hc. split; [exact (Hcomp c Hc)|]. split; [|split; [lia|exact Logic.I]].
    destruct (Hcomp c Hc) as (_ & x & Hx & _). exists x. split; [exact Hx|]. unfold node. apply (Permutation_in x Hp). apply in_concat. exists c; auto.
  - intros c Hc (x & Hx & Hxn) _. apply (Permutation_in x (Permutation_sym Hp)) in Hxn. apply in_concat in Hxn.
    destruct Hxn as (c' & Hc' & Hx'). exists c'. split; [exact Hc'|]. apply NoDup_Permutation; [apply Hc|apply (Hcomp c' Hc')|].
    intros y. rewrite (component_class _ c x Hc Hx), (component_class _ c' x (Hcomp c' Hc') Hx'). reflexivity.
  - apply (explored_disjoint _ _ _ Hex).
Qed.

Lemma length_concat (l : list (list N)) : length (concat l) = list_sum (map (@length N) l).
Proof. induction l as [|a l IH]; simpl; [reflexivity|]. rewrite app_length, IH. reflexivity. Qed.

Lemma component_sizes_sum f : exists sizes, component_sizes g f = Ok sizes /\ list_sum sizes = length g /\ Forall (fun n => 1 <= n) sizes.
Proof.
  destruct (component_sizes_explored f) as (out & E & Hex & Hp). exists (map (@length N) out). split; [exact E|]. split.
  - rewrite <- length_concat. apply Permutation_length in Hp. unfold dkeys in Hp. rewrite map_length in Hp. exact Hp.
  - clear - Hex. induction Hex as [|before root c out H1 H2 H3 Hex IH]; [constructor|]. simpl. constructor; [|exact IH].
    destruct c as [|x c]; [|simpl; lia]. exfalso. assert (In root []) by (apply H3; split; [apply rt_refl|exact H1]). contradiction.
Qed.

Lemma leb_rev_preorder : total_preorder (fun a b : nat => Nat.leb b a).
Proof. constructor; intros; rewrite ?Nat.leb_le in *; lia. Qed.

Lemma nlargest_second l : second_largest l (if Nat.ltb (length (nlargest 2 l)) 2 then None else nth_error (nlargest 2 l) 1).
Proof.
  unfold nlargest. pose proof (sort_by_perm (fun a b => Nat.leb b a) l) as Hp. pose proof (sort_by_sorted _ leb_rev_preorder l) as Hs.
  destruct (sort_by (fun a b => Nat.leb b a) l) as [|m [|s rest]]; simpl.
  - apply Permutation_length in Hp. simpl in *. lia.
  - apply Permutation_length in Hp. simpl in *. lia.
  - exists m, rest. split; [apply Permutation_sym; exact Hp|]. inversion Hs as [|? ? Hs' Hf]; subst. inversion Hf; subst.
    split; [apply Nat.leb_le; assumption|]. inversion Hs' as [|? ? _ Hf']; subst. rewrite Forall_forall in Hf'.
    intros x Hx. apply Nat.leb_le, Hf', Hx.
Qed.

Lemma second_largest_spec f : exists sizes s, component_sizes g f = Ok sizes /\ second_largest_component_size g f = Ok s /\ second_largest sizes s.
Proof.
  destruct (component_sizes_explored f) as (out & E & _). exists (map (@length N) out).
  unfold second_largest_component_size. rewrite E. cbn [bind]. eexists. split; [reflexivity|]. split; [reflexivity|]. apply nlargest_second.
Qed.
End Undirected.

(* ---- edges ---- *)
Section Edges.
Context {N W : Type} `{EqDec N}.

Lemma edges_from_In (items : graph N W) : forall seen a b w, In (a, b, w) (edges_from items seen) <->
  exists l1 l l2, items = l1 ++ (a, l) :: l2 /\ In (b, w) l /\ ~ In b seen /\ ~ In b (dkeys l1).
Proof.
  induction items as [|[n l] items IH]; intros seen a b w; simpl.
  - split; [contradiction|]. intros (l1 & l & l2 & E & _). destruct l1; discriminate.
  - rewrite in_app_iff, IH, in_map_iff. split.
    + intros [([b' w'] & E & Hin)|(l1 & l' & l2 & E & Hb & Hs & Hk)].
      * simpl in E. injection E as -> -> ->. rewrite filter_In in Hin. destruct Hin as [Hin Hs]. simpl in Hs.
        rewrite negb_true_iff, memb_false in Hs. exists [], l, items. split; [reflexivity|]. split; [exact Hin|]. split; [exact Hs|intros []].
      * exists ((n, l) :: l1), l', l2. rewrite E. split; [reflexivity|]. split; [exact Hb|]. split; [intros Hi; apply Hs; right; exact Hi|].
        simpl. intros [<-|Hi]; [apply Hs; left; reflexivity|contradiction].
    + intros (l1 & l' & l2 & E & Hb & Hs & Hk). destruct l1 as [|[n' l''] l1].
      * simpl in E. injection E as -> -> ->. left. exists (b, w). split; [reflexivity|]. rewrite filter_In. split; [exact Hb|].
        simpl. rewrite negb_true_iff, memb_false. exact Hs.
      * simpl in E. injection E as -> -> ->. right. exists l1, l', l2. split; [reflexivity|]. split; [exact Hb|]. simpl in Hk.
        split; [intros [<-|Hi]; [apply Hk; left; reflexivity|contradiction]|intros Hi; apply Hk; right; exact Hi].
Qed.

Lemma edges_sound (g : graph N W) a b w : In (a, b, w) (edges g) -> edge g a b w.
Proof. unfold edges. rewrite edges_from_In. intros (l1 & l & l2 & -> & Hb & _). exists l. split; [apply in_or_app; right; left; reflexivity|exact Hb]. Qed.

Lemma edges_complete (g : graph N W) a b w : undirected g -> edge g a b w -> In (a, b, w) (edges g) \/ In (b, a, w) (edges g).
Proof.
  intros Hg He. pose proof (both_ways _ Hg _ _ _ He) as He'. unfold edges. rewrite !edges_from_In.
  pose proof (nodes_once _ Hg) as Hn.
  destruct He as (l & Hl & Hb), He' as (l' & Hl' & Ha). apply in_split in Hl. destruct Hl as (l1 & l2 & E).
  destruct (in_dec eq_dec b (dkeys l1)) as [Hi|Hi]; [right|left; exists l1, l, l2; auto].
  assert (Hb1 : In (b, l') l1).
  { rewrite E in Hl'. apply in_app_or in Hl'. destruct Hl' as [Hl'|Hl']; [exact Hl'|]. exfalso.
    rewrite E, map_app in Hn. rewrite NoDup_app_iff in Hn. destruct Hn as (_ & _ & Hd). apply (Hd b Hi).
    apply (in_map fst) in Hl'. exact Hl'. }
  apply in_split in Hb1. destruct Hb1 as (m1 & m2 & E1). exists m1, l', (m2 ++ (a, l) :: l2).
  split; [rewrite E, E1, <- app_assoc; reflexivity|]. split; [exact Ha|]. split; [intros []|].
  intros Hi'. rewrite E, E1, !map_app in Hn. rewrite NoDup_app_iff in Hn. destruct Hn as (_ & _ & Hd).
  apply (Hd a); [apply in_or_app; left; exact Hi'|]. left; reflexivity.
Qed.

(* ---- removing edges ---- *)
Definition hit (uv : N * N) (n m : N) : bool := (eqb n (fst uv) && eqb m (snd uv)) || (eqb n (snd uv) && eqb m (fst uv)).

Lemma filter_filter {A} (p q : A -> bool) l : filter p (filter q l) = filter (fun x => q x && p x) l.
Proof. induction l as [|x l IH]; simpl; [reflexivity|]. destruct (q x); simpl; [destruct (p x); rewrite IH; reflexivity|exact IH]. Qed.

Lemma filter_true {A} (l : list A) : filter (fun _ => true) l = l.
Proof. induction l as [|x l IH]; simpl; [reflexivity|rewrite IH; reflexivity]. Qed.

Lemma drop_neighbor_eq (g : graph N W) u v :
  drop_neighbor g u v = map (fun nl => (fst nl, filter (fun mw => negb (eqb (fst nl) u && eqb (fst mw) v)) (snd nl))) g.
Proof.
  unfold drop_neighbor. apply map_ext. intros [n l]. simpl. destruct (eqb n u); simpl; [reflexivity|]. rewrite filter_true. reflexivity.
Qed.

Lemma remove_edge_eq (g : graph N W) uv :
  remove_edge g uv = map (fun nl => (fst nl, filter (fun mw => negb (hit uv (fst nl) (fst mw))) (snd nl))) g.
Proof.
  unfold remove_edge, hit. destruct uv as [u v]. simpl. destruct (eqb u v) eqn:E.
  - rewrite eqb_true in E. subst v. rewrite drop_neighbor_eq. apply map_ext. intros [n l]. simpl. f_equal. apply filter_ext.
    intros [m w]. simpl. rewrite orb_diag. reflexivity.
  - rewrite !drop_neighbor_eq, map_map. apply map_ext. intros [n l]. simpl. f_equal. rewrite filter_filter. apply filter_ext.
    intros [m w]. simpl. rewrite negb_orb. reflexivity.
Qed.

Lemma remove_all_eq (L : list (N * N)) : forall g : graph N W,
  fold_left remove_edge L g = map (fun nl => (fst nl, filter (fun mw => negb (existsb (fun uv => hit uv (fst nl) (fst mw)) L)) (snd nl))) g.
Proof.
  induction L as [|uv L IH]; intros g; simpl.
  - symmetry. rewrite <- (map_id g) at 2. apply map_ext. intros [n l]. simpl. rewrite filter_true. reflexivity.
  - rewrite IH, remove_edge_eq, map_map. apply map_ext. intros [n l]. simpl. f_equal. rewrite filter_filter. apply filter_ext.
    intros [m w]. simpl. rewrite negb_orb. reflexivity.
Qed.

Lemma edge_weight_unique (g : graph N W) a b w w' : undirected g -> edge g a b w -> edge g a b w' -> w = w'.
Proof.
  intros Hg (l & Hl & Hb) (l' & Hl' & Hb'). pose proof (In_dget g a l (nodes_once _ Hg) Hl) as E1. pose proof (In_dget g a l' (nodes_once _ Hg) Hl') as E2.
  assert (l = l') by congruence. subst l'. pose proof (neighbors_once _ Hg a l Hl) as Hn.
  pose proof (In_dget l b w Hn Hb). pose proof (In_dget l b w' Hn Hb'). congruence.
Qed.
End Edges.

Lemma remove_light_spec {N} `{EqDec N} (g : graph N Q) t : undirected g ->
  remove_light g t = map (fun nl => (fst nl, filter (fun mw => Qle_bool t (snd mw)) (snd nl))) g.
Proof.
  intros Hg. unfold remove_light. rewrite remove_all_eq. apply map_ext_in. intros [n l] Hnl. simpl. f_equal.
  apply filter_ext_in. intros [m w] Hmw. simpl.
  assert (He : edge g n m w) by (exists l; auto).
  assert (Hh : forall u v, hit (u, v) n m = true <-> (n = u /\ m = v) \/ (n = v /\ m = u)).
  { intros u v. unfold hit. simpl. rewrite orb_true_iff, !andb_true_iff, !eqb_true. reflexivity. }
  set (L := flat_map _ _).
  assert (HL : forall u v, In (u, v) L <-> exists w, In (u, v, w) (edges g) /\ Qle_bool t w = false).
  { intros u v. unfold L. rewrite in_flat_map. split.
    - intros ([[u' v'] w'] & Hin & Hx). destruct (Qle_bool t w') eqn:E; simpl in Hx; [contradiction|]. destruct Hx as [Hx|[]]. injection Hx as -> ->.
      exists w'. auto.
    - intros (w' & Hin & E). exists (u, v, w'). split; [exact Hin|]. rewrite E. left; reflexivity. }
  destruct (existsb (fun uv => hit uv n m) L) eqn:Ex; simpl.
  - apply existsb_exists in Ex. destruct Ex as ([u v] & Hin & Hhit). apply HL in Hin. destruct Hin as (w' & Hin & E). apply Hh in Hhit.
    apply edges_sound in Hin. destruct Hhit as [[-> ->]|[-> ->]]; [|apply Hg in Hin]; rewrite (edge_weight_unique g _ _ _ _ Hg He Hin); symmetry; exact E.
  - destruct (Qle_bool t w) eqn:E; [reflexivity|]. exfalso.
    assert (Hc : existsb (fun uv => hit uv n m) L = true); [|congruence]. apply existsb_exists.
    destruct (edges_complete g n m w Hg He) as [Hin|Hin]; [exists (n, m)|exists (m, n)]; (split; [apply HL; exists w; auto|apply Hh; auto]).
Qed.

(* ---- floatsam ---- *)
Section Floatsam.
Context {N : Type} `{EqDec N}.
Variable g : graph N Q.
Hypothesis Hg : undirected g.
Variable rate : Q.
Variable m : nat.

Definition at_least (t : Q) : N -> N -> Q -> bool := fun _ _ w => Qle_bool t w.

Lemma accepted_heavy t a b : accepted g (at_least t) a b <-> heavy g t a b.
Proof. unfold accepted, heavy, at_least. split; intros (w & He & Hw); exists w; (split; [exact He|apply Qle_bool_iff; exact Hw]). Qed.

Lemma connected_ext (l1 l2 : N -> N -> Prop) : (forall a b, l1 a b <-> l2 a b) -> forall a b, connected l1 a b <-> connected l2 a b.
Proof.
  clear Hg. intros Hl a b. unfold connected. split; intros Hc; induction Hc as [x y Hxy|x|x y Hc IH|x y z H1 IH1 H2 IH2];
    try (apply rst_step, Hl; exact Hxy); try apply rst_refl; try (apply rst_sym; exact IH); eapply rst_trans; eassumption.
Qed.

Lemma component_ext (l1 l2 : N -> N -> Prop) c : (forall a b, l1 a b <-> l2 a b) -> component l1 c <-> component l2 c.
Proof.
  clear Hg. intros Hl. pose proof (connected_ext l1 l2 Hl) as Hc. unfold component.
  split; intros (Hn & x & Hx & Hy); (split; [exact Hn|]); exists x; (split; [exact Hx|]); intros y; rewrite Hy; [|symmetry]; apply Hc.
Qed.

Lemma drifts_ext t t' : (t == t')%Q -> drifts g m t -> drifts g m t'.
Proof.
  intros Et (c & c' & Hc & Hc' & Hi & Hd & L1 & L2). exists c, c'.
  assert (Hh : forall a b, heavy g t a b <-> heavy g t' a b).
  { intros a b. unfold heavy. split; intros (w & He & Hw); exists w; (split; [exact He|]); [rewrite <- Et|rewrite Et]; exact Hw. }
  split; [apply (component_ext _ _ c Hh); exact Hc|]. split; [apply (component_ext _ _ c' Hh); exact Hc'|]. auto.
Qed.

Lemma filter_perm_length (p : nat -> bool) l l' : Permutation l l' -> length (filter p l) = length (filter p l').
Proof. induction 1; simpl; try lia; [destruct (p x); simpl; lia|destruct (p x), (p y); simpl; lia]. Qed.

Lemma second_two l s (a b : nat) rest : second_largest l s -> Permutation l (a :: b :: rest) -> m <= a -> m <= b ->
  exists s', s = Some s' /\ m <= s'.
Proof.
  clear Hg. intros Hs Hp Ha Hb. destruct s as [s|].
  - exists s. split; [reflexivity|]. destruct Hs as (mx & rest' & Hp' & Hle & Hr).
    destruct (Nat.le_gt_cases m s) as [Hm|Hm]; [exact Hm|]. exfalso.
    pose proof (filter_perm_length (fun x => Nat.leb m x) _ _ Hp) as E1. pose proof (filter_perm_length (fun x => Nat.leb m x) _ _ Hp') as E2.
    simpl in E1, E2. rewrite (proj2 (Nat.leb_le m a) Ha), (proj2 (Nat.leb_le m b) Hb) in E1. rewrite (proj2 (Nat.leb_gt m s) Hm) in E2.
    rewrite (filter_none _ rest') in E2 by (intros x Hx; apply Nat.leb_gt; specialize (Hr x Hx); lia).
    simpl in E1. destruct (Nat.leb m mx); simpl in E2; lia.
  - simpl in Hs. apply Permutation_length in Hp. simpl in Hp. lia.
Qed.

Lemma two_elements {A} (l : list A) x y : In x l -> In y l -> x <> y -> exists rest, Permutation l (x :: y :: rest).
Proof.
  clear Hg. intros Hx Hy Hn. apply in_split in Hx. destruct Hx as (l1 & l2 & ->).
  assert (Hy' : In y (l1 ++ l2)). { apply in_app_or in Hy. apply in_or_app. destruct Hy as [Hy|[E|Hy]]; [left|congruence|right]; assumption. }
  apply in_split in Hy'. destruct Hy' as (k1 & k2 & E). exists (k1 ++ k2).
  apply Permutation_trans with (x :: l1 ++ l2); [apply Permutation_sym, Permutation_middle|]. apply perm_skip. rewrite E.
  apply Permutation_sym, Permutation_middle.
Qed.

Lemma second_drifts t : exists s, second_largest_component_size g (at_least t) = Ok s /\
  ((exists n, s = Some n /\ m <= n) <-> drifts g m t).
Proof.
  destruct (component_sizes_components g Hg (at_least t)) as (out & E & Hcomp & Hperm). { intros a b w. reflexivity. }
  destruct (second_largest_spec g Hg (at_least t)) as (sizes & s & E' & Es & Hs). rewrite E in E'. injection E' as <-.
  exists s. split; [exact Es|]. split.
  - intros (n & -> & Hm). destruct Hs as (mx & rest & Hp & Hle & _).
    apply Permutation_sym, Permutation_map_inv in Hp. destruct Hp as (l3 & El & Hp).
    destruct l3 as [|c [|c' l3]]; try discriminate. simpl in El. injection El as -> -> _.
    assert (Hc : In c out) by (apply (Permutation_in _ (Permutation_sym Hp)); left; reflexivity).
    assert (Hc' : In c' out) by (apply (Permutation_in _ (Permutation_sym Hp)); right; left; reflexivity).
    exists c, c'. split; [apply (component_ext _ _ c (accepted_heavy t)); apply (each_is_component _ _ _ _ _ Hcomp); exact Hc|].
    split; [apply (component_ext _ _ c' (accepted_heavy t)); apply (each_is_component _ _ _ _ _ Hcomp); exact Hc'|].
    split. { intros x Hx. apply (Permutation_in x Hperm). apply in_concat. apply in_app_or in Hx. destruct Hx; [exists c|exists c']; auto. }
    split; [|lia]. pose proof (no_overlap _ _ _ _ _ Hcomp) as Hn.
    assert (Hn' : NoDup (concat (c :: c' :: l3))).
    { eapply Permutation_NoDup; [|exact Hn]. clear - Hp. induction Hp; simpl; [constructor|apply Permutation_app_head; assumption|
        rewrite !app_assoc; apply Permutation_app_tail, Permutation_app_comm|eapply Permutation_trans; eassumption]. }
    simpl in Hn'. rewrite NoDup_app_iff in Hn'. destruct Hn' as (_ & _ & Hd). intros x Hx Hx'. apply (Hd x Hx). apply in_or_app. left; exact Hx'.
  - intros (c & c' & Hc & Hc' & Hi & Hd & L1 & L2).
    assert (Hlist : forall c, component (heavy g t) c -> incl c (map fst g) -> exists d, In d out /\ Permutation c d).
    { intros d Hcd Hid. assert (Hcd' : component (accepted g (at_least t)) d) by (apply (component_ext _ _ d (accepted_heavy t)); exact Hcd).
      apply (each_component_listed _ _ _ _ _ Hcomp d Hcd'); [|split; [lia|exact Logic.I]].
      destruct Hcd as (_ & x & Hx & _). exists x. split; [exact Hx|]. apply Hid, Hx. }
    destruct (Hlist c Hc) as (d & Hdin & Hdp). { intros x Hx. apply Hi, in_or_app. left; exact Hx. }
    destruct (Hlist c' Hc') as (d' & Hdin' & Hdp'). { intros x Hx. apply Hi, in_or_app. right; exact Hx. }
    assert (Hne : d <> d').
    { intros ->. destruct Hc as (_ & x & Hx & _). apply (Hd x Hx). apply (Permutation_in x (Permutation_sym Hdp')), (Permutation_in x Hdp), Hx. }
    destruct (two_elements out d d' Hdin Hdin' Hne) as (rest & Hp).
    apply (second_two (map (@length N) out) s (length d) (length d') (map (@length N) rest) Hs).
    + apply (Permutation_map (@length N)) in Hp. exact Hp.
    + rewrite <- (Permutation_length Hdp). exact L1.
    + rewrite <- (Permutation_length Hdp'). exact L2.
Qed.

Lemma scaled_succ start k : (scaled (start + rate) rate k == scaled start rate (S k))%Q.
Proof. unfold scaled. rewrite Nat2Z.inj_succ. unfold Z.succ. rewrite inject_Z_plus. change (inject_Z 1) with 1%Q. lra. Qed.

Lemma scaled_1 start : (scaled start rate 1 == start + rate)%Q.
Proof. unfold scaled. change (inject_Z (Z.of_nat 1)) with 1%Q. lra. Qed.

Lemma floatsam_loop_spec fuel : forall start,
  match floatsam_loop fuel g rate m start with
  | Ok r => exists k, k < fuel /\ (r == scaled start rate k)%Q /\ drifts g m (scaled start rate (S k)) /\
      forall j, 1 <= j <= k -> ~ drifts g m (scaled start rate j)
  | Err e => e = OutOfFuel /\ forall j, 1 <= j <= fuel -> ~ drifts g m (scaled start rate j)
  end.
Proof.
  induction fuel as [|fuel IH]; intros start; cbn [floatsam_loop].
  - split; [reflexivity|]. intros j Hj. lia.
  - destruct (second_drifts (start + rate)) as (s & Es & Hs). unfold at_least in Es. rewrite Es. cbn [bind].
    assert (Hcont : ~ drifts g m (start + rate) ->
      match floatsam_loop fuel g rate m (start + rate) with
      | Ok r => exists k, k < S fuel /\ (r == scaled start rate k)%Q /\ drifts g m (scaled start rate (S k)) /\
          forall j, 1 <= j <= k -> ~ drifts g m (scaled start rate j)
      | Err e => e = OutOfFuel /\ forall j, 1 <= j <= S fuel -> ~ drifts g m (scaled start rate j)
      end).
    { intros Hno. specialize (IH (start + rate)%Q).
      assert (Hno1 : ~ drifts g m (scaled start rate 1)) by (intros Hd; apply Hno; apply (drifts_ext _ _ (scaled_1 start)); exact Hd).
      assert (Hshift : forall n, (forall j, 1 <= j <= n -> ~ drifts g m (scaled (start + rate) rate j)) -> forall j, 1 <= j <= S n -> ~ drifts g m (scaled start rate j)).
      { intros n Hn j Hj Hd. destruct (Nat.eq_dec j 1) as [->|]; [contradiction|]. apply (Hn (j - 1)); [lia|].
        apply (drifts_ext (scaled start rate j)); [|exact Hd]. rewrite scaled_succ. replace (S (j - 1)) with j by lia. reflexivity. }
      destruct (floatsam_loop fuel g rate m (start + rate)) as [r|e].
      - destruct IH as (k & Hk & Hr & Hd & Hj). exists (S k). split; [lia|]. split; [rewrite Hr; apply scaled_succ|].
        split; [apply (drifts_ext _ _ (scaled_succ start (S k))); exact Hd|]. apply Hshift. exact Hj.
      - destruct IH as [-> Hj]. split; [reflexivity|]. apply Hshift. exact Hj. }
    destruct s as [n|].
    + destruct (Nat.leb_spec m n) as [Hle|Hgt].
      * exists 0. split; [lia|]. split; [unfold scaled; change (inject_Z (Z.of_nat 0)) with 0%Q; lra|]. split; [|intros j Hj; lia].
        apply (drifts_ext (start + rate)); [symmetry; apply scaled_1|]. apply Hs. eauto.
      * apply Hcont. intros Hd. apply Hs in Hd. destruct Hd as (n' & E & Hn'). injection E as <-. lia.
    + apply Hcont. intros Hd. apply Hs in Hd. destruct Hd as (n' & E & _). discriminate.
Qed.

(* thresholds above every weight *)
Lemma above_all t : (forall a b w, edge g a b w -> (w < t)%Q) -> forall a b, ~ heavy g t a b.
Proof. intros Ht a b (w & He & Hw). specialize (Ht a b w He). lra. Qed.

Lemma isolated t c : (forall a b, ~ heavy g t a b) -> component (heavy g t) c <-> exists x, c = [x].
Proof.
  intros Hn. assert (Hcon : forall x y, connected (heavy g t) x y <-> x = y).
  { intros x y. split; [|intros ->; apply rst_refl]. intros Hc. induction Hc; [exfalso; eapply Hn; eassumption|reflexivity|congruence|congruence]. }
  split.
  - intros (Hnd & x & Hx & Hy). exists x. destruct c as [|a [|b c]].
    + contradiction.
    + destruct Hx as [->|[]]. reflexivity.
    + exfalso. assert (x = a) by (apply Hcon, Hy; left; reflexivity). assert (x = b) by (apply Hcon, Hy; right; left; reflexivity).
      inversion Hnd as [|? ? Hni ?]; subst. apply Hni. left; reflexivity.
  - intros (x & ->). split; [constructor; [intros []|constructor]|]. exists x. split; [left; reflexivity|]. intros y. rewrite Hcon. simpl. split; [intros [->|[]]; reflexivity|left; assumption].
Qed.

Lemma archimed q start : (0 < rate)%Q -> exists k, (q < scaled start rate k)%Q.
Proof.
  intros Hr. exists (Z.to_nat (Qceiling ((q - start) / rate)) + 1). unfold scaled.
  pose proof (Qle_ceiling ((q - start) / rate)) as Hc.
  assert (Hz : (Qceiling ((q - start) / rate) <= Z.of_nat (Z.to_nat (Qceiling ((q - start) / rate))))%Z) by lia.
  rewrite Zle_Qle in Hz. rewrite Nat2Z.inj_add. rewrite inject_Z_plus. change (inject_Z (Z.of_nat 1)) with 1%Q.
  set (c := inject_Z (Z.of_nat (Z.to_nat (Qceiling ((q - start) / rate))))) in *.
  assert (Hq : ((q - start) / rate <= c)%Q) by lra.
  assert (Hm : (q - start <= c * rate)%Q).
  { assert (E : (q - start == (q - start) / rate * rate)%Q) by (field; lra). rewrite E. apply Qmult_le_compat_r; [exact Hq|lra]. }
  lra.
Qed.

Lemma scaled_le start j k : (0 < rate)%Q -> j <= k -> (scaled start rate j <= scaled start rate k)%Q.
Proof.
  intros Hr Hjk. unfold scaled. assert (Hle : (inject_Z (Z.of_nat j) <= inject_Z (Z.of_nat k))%Q) by (rewrite <- Zle_Qle; lia).
  apply (Qmult_le_compat_r _ _ rate) in Hle; [lra|lra].
Qed.

Lemma bound_all start : (0 < rate)%Q -> exists k, forall a b w, edge g a b w -> (w < scaled start rate k)%Q.
Proof.
  intros Hr. assert (G : forall ws : list Q, exists k, forall w, In w ws -> (w < scaled start rate k)%Q).
  { induction ws as [|q ws (k & IH)]; [exists 0; intros w []|]. destruct (archimed q start Hr) as (k' & Hk'). exists (k + k').
    intros w [<-|Hw]; [apply Qlt_le_trans with (scaled start rate k'); [exact Hk'|apply scaled_le; [exact Hr|lia]]|].
    apply Qlt_le_trans with (scaled start rate k); [apply IH, Hw|apply scaled_le; [exact Hr|lia]]. }
  destruct (G (map snd (flat_map snd g))) as (k & Hk). exists k. intros a b w (l & Hl & Hb). apply Hk. apply in_map_iff. exists (b, w).
  split; [reflexivity|]. apply in_flat_map. exists (a, l). auto.
Qed.

Lemma isolated_drifts t : (forall a b, ~ heavy g t a b) -> (drifts g m t <-> m <= 1 /\ 2 <= length g).
Proof.
  intros Hn. split.
  - intros (c & c' & Hc & Hc' & Hi & Hd & L1 & L2). apply (isolated t _ Hn) in Hc, Hc'. destruct Hc as (x & ->), Hc' as (y & ->).
    simpl in L1. split; [lia|]. assert (Hxy : NoDup [x; y]).
    { constructor; [intros [E|[]]; subst; apply (Hd x); left; reflexivity|repeat constructor; intros []]. }
    apply (NoDup_incl_length Hxy) in Hi. rewrite map_length in Hi. exact Hi.
  - intros [Hm Hl]. pose proof (nodes_once _ Hg) as Hnd. rewrite <- (map_length fst) in Hl.
    assert (Hxy : exists x y, In x (map fst g) /\ In y (map fst g) /\ x <> y).
    { destruct (map fst g) as [|x [|y l]]; simpl in Hl; try lia. exists x, y. split; [left; reflexivity|]. split; [right; left; reflexivity|].
      inversion Hnd as [|? ? Hni ?]; subst. intros ->. apply Hni. left; reflexivity. }
    destruct Hxy as (x & y & Hx & Hy & Hne).
    exists [x], [y]. split; [apply isolated; [exact Hn|eauto]|]. split; [apply isolated; [exact Hn|eauto]|].
    split; [intros z [<-|[<-|[]]]; assumption|]. split; [|simpl; lia].
    intros z [<-|[]] [E|[]]. congruence.
Qed.

Lemma floatsam_loop_terminates start : (exists k, drifts g m (scaled start rate (S k))) <-> exists fuel r, floatsam_loop fuel g rate m start = Ok r.
Proof.
  split.
  - intros (k & Hk). exists (S k). pose proof (floatsam_loop_spec (S k) start) as Hs.
    destruct (floatsam_loop (S k) g rate m start) as [r|e]; [eauto|]. exfalso. destruct Hs as [_ Hs]. apply (Hs (S k)); [lia|exact Hk].
  - intros (fuel & r & E). pose proof (floatsam_loop_spec fuel start) as Hs. rewrite E in Hs. destruct Hs as (k & _ & _ & Hd & _). eauto.
Qed.
End Floatsam.

Section FloatsamSpec.
Context {N : Type} `{EqDec N}.
Variable g : graph N Q.
Hypothesis Hg : undirected g.

Lemma edges_nil : edges g = [] <-> forall a b w, ~ edge g a b w.
Proof.
  split.
  - intros E a b w He. destruct (edges_complete g a b w Hg He) as [Hin|Hin]; rewrite E in Hin; exact Hin.
  - intros Hn. destruct (edges g) as [|[[a b] w] l] eqn:E; [reflexivity|]. exfalso. apply (Hn a b w). apply edges_sound. rewrite E. left; reflexivity.
Qed.

Variable int_log : nat -> nat.

Definition drifter (m : option nat) : nat := match m with None => int_log (length g) | Some m => m end.

Lemma floatsam_run fuel start rate m remove : (exists a b w, edge g a b w) ->
  floatsam_sparsification int_log fuel g start rate m remove =
  let! best := floatsam_loop fuel g rate (drifter m) start in Ok (best, if remove then remove_light g best else g).
Proof.
  intros (a & b & w & He). unfold floatsam_sparsification. destruct (Nat.eqb_spec (length (edges g)) 0) as [E|_].
  - exfalso. apply length_zero_iff_nil in E. apply (proj1 edges_nil E a b w He).
  - unfold drifter, dkeys. rewrite map_length. reflexivity.
Qed.

Lemma floatsam_no_edge fuel start rate m remove : (forall a b w, ~ edge g a b w) ->
  floatsam_sparsification int_log fuel g start rate m remove = Ok (start, g).
Proof. intros Hn. apply edges_nil in Hn. unfold floatsam_sparsification. rewrite Hn. reflexivity. Qed.

Lemma floatsam_exact fuel start rate m remove best g' : (exists a b w, edge g a b w) ->
  floatsam_sparsification int_log fuel g start rate m remove = Ok (best, g') ->
  (exists k, (best == scaled start rate k)%Q /\ drifts g (drifter m) (scaled start rate (S k)) /\
    forall j, 1 <= j <= k -> ~ drifts g (drifter m) (scaled start rate j)) /\
  g' = if remove then map (fun nl => (fst nl, filter (fun mw => Qle_bool best (snd mw)) (snd nl))) g else g.
Proof.
  intros He E. rewrite (floatsam_run _ _ _ _ _ He) in E. pose proof (floatsam_loop_spec g Hg rate (drifter m) fuel start) as Hs.
  destruct (floatsam_loop fuel g rate (drifter m) start) as [r|e]; [|discriminate]. cbn [bind] in E. injection E as <- <-.
  destruct Hs as (k & _ & Hr & Hd & Hj). split; [exists k; auto|]. destruct remove; [apply remove_light_spec; exact Hg|reflexivity].
Qed.

Lemma floatsam_terminates start rate m remove : (exists a b w, edge g a b w) ->
  ((exists fuel r, floatsam_sparsification int_log fuel g start rate m remove = Ok r) <->
   exists k, drifts g (drifter m) (scaled start rate (S k))).
Proof.
  intros He. rewrite (floatsam_loop_terminates g Hg rate (drifter m) start). split.
  - intros (fuel & r & E). exists fuel. rewrite (floatsam_run _ _ _ _ _ He) in E. destruct (floatsam_loop fuel g rate (drifter m) start) as [b|]; [eauto|discriminate].
  - intros (fuel & r & E). exists fuel. rewrite (floatsam_run _ _ _ _ _ He), E. cbn [bind]. eauto.
Qed.

(** with drifters of one node, it ends *)
Lemma floatsam_small start rate m remove : (exists a b w, edge g a b w) -> (0 < rate)%Q -> drifter m <= 1 -> 2 <= length g ->
  exists fuel r, floatsam_sparsification int_log fuel g start rate m remove = Ok r.
Proof.
  intros He Hr Hm Hl. apply (floatsam_terminates start rate m remove He). destruct (bound_all g rate start Hr) as (k & Hk). exists k.
  apply (isolated_drifts g Hg (drifter m)); [|auto]. apply above_all. intros a b w Hab. eapply Qlt_le_trans; [apply (Hk a b w Hab)|].
  apply scaled_le; [exact Hr|lia].
Qed.

Lemma floatsam_endless start rate m remove : (exists a b w, edge g a b w) -> (forall t, ~ drifts g (drifter m) t) ->
  forall fuel, floatsam_sparsification int_log fuel g start rate m remove = Err OutOfFuel.
Proof.
  intros He Hn fuel. rewrite (floatsam_run _ _ _ _ _ He). pose proof (floatsam_loop_spec g Hg rate (drifter m) fuel start) as Hs.
  destruct (floatsam_loop fuel g rate (drifter m) start) as [r|e]; [|destruct Hs as [-> _]; reflexivity]. destruct Hs as (k & _ & _ & Hd & _). exfalso. apply (Hn _ Hd).
Qed.

Lemma drifts_nodes m t : drifts g m t -> 2 * m <= length g.
Proof.
  intros (c & c' & (Hn & _) & (Hn' & _) & Hi & Hd & L1 & L2). rewrite <- (map_length fst).
  apply Nat.le_trans with (length (c ++ c')); [rewrite app_length; lia|]. apply NoDup_incl_length; [|exact Hi].
  rewrite NoDup_app_iff. auto.
Qed.

Lemma connected_step {A} (R : A -> A -> Prop) x y : connected R x y -> x = y \/ ((exists z, R x z \/ R z x) /\ exists z, R y z \/ R z y).
Proof. intros Hc. induction Hc as [x y Hxy|x|x y Hc IH|x y z H1 IH1 H2 IH2]; [right; split; eauto|auto| |]; intuition (subst; auto). Qed.

(** when a node belongs to every edge, no two components have two nodes *)
Lemma star_no_drift center m t : (forall a b w, edge g a b w -> a = center \/ b = center) -> 2 <= m -> ~ drifts g m t.
Proof.
  intros Hs Hm (c & c' & Hc & Hc' & Hi & Hd & L1 & L2).
  assert (G : forall c, component (heavy g t) c -> 2 <= length c -> In center c).
  { intros d (Hn & x & Hx & Hxy) Hl.
    assert (Hy : exists y, In y d /\ x <> y).
    { destruct d as [|u [|v d]]; simpl in Hl; try lia. inversion Hn as [|? ? Hni ?]; subst. destruct (eq_dec x u) as [->|Hxu].
      - exists v. split; [right; left; reflexivity|]. intros ->. apply Hni. left; reflexivity.
      - exists u. split; [left; reflexivity|exact Hxu]. }
    destruct Hy as (y & Hy & Hne). apply Hxy in Hy. destruct (connected_step _ _ _ Hy) as [E|[(z & Hz) _]]; [contradiction|].
    apply Hxy. assert (Hxz : connected (heavy g t) x z) by (destruct Hz as [Hz|Hz]; [apply rst_step; exact Hz|apply rst_sym, rst_step; exact Hz]).
    destruct Hz as [(w & He & _)|(w & He & _)]; destruct (Hs _ _ _ He) as [E|E]; subst; first [exact Hxz | apply rst_refl]. }
  apply (Hd center); apply G; try assumption; lia.
Qed.
End FloatsamSpec.
