(** Which match is found *)
From Coq Require Import String Ascii Lia Sorted.
From Verif Require Import Base BaseFacts LevModel StringsModel RegexModel RegexSpec RegexProofs RegexEngineProofs RegexLoopProofs RegexChoiceSpec.
Open Scope nat_scope.
Open Scope list_scope.
Notation length := List.length.

(** ** the order of the choices *)
Lemma prefers_app p q x y : prefers p q -> prefers (p ++ x) (q ++ y).
Proof. intros (c & u & v & -> & ->). exists c, (u ++ x), (v ++ y). rewrite <- !app_assoc. split; reflexivity. Qed.
Lemma prefers_pre c p q : prefers p q -> prefers (c ++ p) (c ++ q).
Proof. intros (d & u & v & -> & ->). exists (c ++ d), u, v. rewrite <- !app_assoc. split; reflexivity. Qed.
Lemma prefers_asym p q : prefers p q -> prefers q p -> False.
Proof.
  intros (c & u & v & -> & ->) (d & u' & v' & E & F). revert d E F. induction c as [|b c IH]; intros [|b' d] E F; cbn in *; try congruence.
  injection E as -> E. injection F as F. eapply IH; eassumption.
Qed.
Lemma prefers_irrefl p : ~ prefers p p.
Proof. intros H. exact (prefers_asym p p H H). Qed.
Lemma prefers_trans p q r : prefers p q -> prefers q r -> prefers p r.
Proof.
  intros (c & u & v & -> & ->) (d & u' & v' & E & ->). revert d E. induction c as [|b c IH]; intros [|b' d] E; cbn in *; injection E as E1 E2; try congruence.
  - subst b'. exists [], u, (d ++ true :: v'). split; reflexivity.
  - subst b. exists [], (c ++ false :: u), v'. split; reflexivity.
  - subst b'. destruct (IH d E2) as (e & x & y & -> & ->). exists (b :: e), x, y. split; reflexivity.
Qed.

Notation way := (choices * state)%type.
Definition better (a b : way) : Prop := prefers (fst a) (fst b).
Notation sorted := (StronglySorted better).

Lemma sorted_app l1 l2 : sorted l1 -> sorted l2 -> (forall a b, In a l1 -> In b l2 -> better a b) -> sorted (l1 ++ l2).
Proof.
  intros H1 H2 H. induction H1 as [|a l1 S1 IH F]; [exact H2|]. cbn. constructor.
  - apply IH. intros x y Hx. apply H. right. exact Hx.
  - apply Forall_app. split; [exact F|]. apply Forall_forall. intros b Hb. apply H; [left; reflexivity|exact Hb].
Qed.
Lemma sorted_map (f : way -> way) l : (forall a b, better a b -> better (f a) (f b)) -> sorted l -> sorted (map f l).
Proof.
  intros Hf Hs. induction Hs as [|a l S IH F]; [constructor|]. cbn. constructor; [exact IH|]. apply Forall_forall. intros b Hb.
  apply in_map_iff in Hb as (c & <- & Hc). apply Hf. rewrite Forall_forall in F. apply F, Hc.
Qed.
Lemma sorted_fun l p s s' : sorted l -> In (p, s) l -> In (p, s') l -> s = s'.
Proof.
  intros Hs. induction Hs as [|a l S IH F]; [intros []|]. rewrite Forall_forall in F. intros [->|H1] [E|H2].
  - injection E. auto.
  - exfalso. apply (prefers_irrefl p). exact (F _ H2).
  - subst a. exfalso. apply (prefers_irrefl p). exact (F _ H1).
  - apply IH; assumption.
Qed.

(** what follows a way *)
Definition then_way (pre : choices) (g : state -> list way) (w : way) : list way := map (fun w' => (pre ++ fst w ++ fst w', snd w')) (g (snd w)).
Lemma sorted_then pre (g : state -> list way) l : (forall s, sorted (g s)) -> sorted l -> sorted (flat_map (then_way pre g) l).
Proof.
  intros Hg Hs. induction Hs as [|a l S IH F]; [constructor|]. cbn [flat_map]. apply sorted_app; [|exact IH|].
  - apply sorted_map; [|apply Hg]. intros x y Hxy. unfold better in *. cbn [fst]. rewrite !app_assoc. apply prefers_pre, Hxy.
  - intros x y Hx Hy. apply in_map_iff in Hx as (w & <- & _). apply in_flat_map in Hy as (b & Hb & Hy). apply in_map_iff in Hy as (w' & <- & _).
    rewrite Forall_forall in F. unfold better. cbn [fst]. apply prefers_pre. apply prefers_app. exact (F b Hb).
Qed.
Lemma In_then pre g l p s : In (p, s) (flat_map (then_way pre g) l) <-> exists p1 p2 m, p = pre ++ p1 ++ p2 /\ In (p1, m) l /\ In (p2, s) (g m).
Proof.
  rewrite in_flat_map. split.
  - intros ([p1 m] & Hl & Hm). apply in_map_iff in Hm as ([p2 s'] & E & Hg). cbn in E. injection E as <- <-. exists p1, p2, m. auto.
  - intros (p1 & p2 & m & -> & Hl & Hg). exists (p1, m). split; [exact Hl|]. apply in_map_iff. exists (p2, s). split; [reflexivity|exact Hg].
Qed.
Lemma snd_then pre g (f : state -> list state) l : (forall s, map snd (g s) = f s) -> map snd (flat_map (then_way pre g) l) = flat_map f (map snd l).
Proof.
  intros H. induction l as [|a l IH]; [reflexivity|]. cbn [flat_map map]. rewrite map_app, IH. f_equal. unfold then_way. rewrite map_map. cbn [snd].
  apply H.
Qed.

Section Engine.
Variables is_digit is_space is_word : N -> bool.
Variable same : N -> N -> bool.
Notation ways := (ways is_digit is_space is_word same).
Notation goes := (goes is_digit is_space is_word same).
Notation leads := (leads is_digit is_space is_word same).

(** the engine, keeping the choices *)
Fixpoint chosen_repeats (f : state -> list way) (lazy : bool) (fuel : nat) (last : option nat) (lo : nat) (hi : option nat) (st : state) : list way :=
  match fuel with
  | O => []
  | S fuel =>
    let here := length (before st) in
    let allowed := match hi with Some O => false | _ => true end && (Nat.ltb 0 lo || negb (eqb last (Some here))) in
    let more := if allowed then flat_map (then_way [lazy] (chosen_repeats f lazy fuel (if Nat.ltb 0 lo then last else Some here) (lo - 1) (option_map pred hi))) (f st) else [] in
    let stop := if Nat.eqb lo 0 then [([negb lazy], st)] else [] in
    if lazy then stop ++ more else more ++ stop
  end.
Definition alone (l : list state) : list way := map (fun s => ([], s)) l.
Fixpoint chosen (r : regex) (st : state) {struct r} : list way :=
  match r with
  | Seq a b => flat_map (then_way [] (chosen b)) (chosen a st)
  | Alt a b => map (fun w => (false :: fst w, snd w)) (chosen a st) ++ map (fun w => (true :: fst w, snd w)) (chosen b st)
  | Rep lazy lo hi a => chosen_repeats (chosen a) lazy (lo + length (after st) + 2) None lo hi st
  | Group n a => map (fun w => (fst w, (before (snd w), after (snd w), (n, firstn (length (after st) - length (after (snd w))) (after st)) :: groups (snd w)))) (chosen a st)
  | _ => alone (ways r st)
  end.

Lemma chosen_repeats_ways f g lazy : (forall s, map snd (g s) = f s) -> forall fuel last lo hi st,
  map snd (chosen_repeats g lazy fuel last lo hi st) = repeats f lazy fuel last lo hi st.
Proof.
  intros Hg. induction fuel as [|fuel IH]; intros last lo hi st; [reflexivity|]. cbn [chosen_repeats repeats].
  set (allowed := _ && _). destruct lazy, allowed, (Nat.eqb lo 0); cbn [app map snd]; rewrite ?map_app; cbn [map snd];
    repeat (rewrite (snd_then _ _ (repeats f _ fuel (if Nat.ltb 0 lo then last else Some (length (before st))) (lo - 1) (option_map pred hi))) by (intros; apply IH));
    rewrite ?Hg; try reflexivity.
Qed.
Lemma alone_ways l : map snd (alone l) = l.
Proof. unfold alone. rewrite map_map. cbn. apply map_id. Qed.
Lemma chosen_ways r : forall st, map snd (chosen r st) = ways r st.
Proof.
  induction r as [|c| |neg items| | |neg|a IHa b IHb|a IHa b IHb|lazy lo hi a IHa|n a IHa|n|neg a IHa]; intros st; cbn [chosen]; try apply alone_ways; cbn [RegexModel.ways].
  - rewrite (snd_then _ _ (ways b)) by exact IHb. rewrite IHa. reflexivity.
  - rewrite map_app, !map_map. cbn [snd]. rewrite IHa, IHb. reflexivity.
  - apply chosen_repeats_ways. exact IHa.
  - rewrite map_map. cbn [snd]. rewrite <- IHa, map_map. reflexivity.
Qed.

Lemma sorted_repeats g lazy : (forall s, sorted (g s)) -> forall fuel last lo hi st, sorted (chosen_repeats g lazy fuel last lo hi st).
Proof.
  intros Hg. induction fuel as [|fuel IH]; intros last lo hi st; [constructor|]. cbn [chosen_repeats]. set (allowed := _ && _).
  assert (Hm : sorted (if allowed then flat_map (then_way [lazy] (chosen_repeats g lazy fuel (if Nat.ltb 0 lo then last else Some (length (before st))) (lo - 1) (option_map pred hi))) (g st) else [])).
  { destruct allowed; [|constructor]. apply sorted_then; [intros s; apply IH|apply Hg]. }
  assert (Hs : sorted (if Nat.eqb lo 0 then [([negb lazy], st)] else [])) by (destruct (Nat.eqb lo 0); repeat constructor).
  assert (Hin : forall w, In w (if allowed then flat_map (then_way [lazy] (chosen_repeats g lazy fuel (if Nat.ltb 0 lo then last else Some (length (before st))) (lo - 1) (option_map pred hi))) (g st) else []) ->
    exists q, fst w = lazy :: q).
  { destruct allowed; [|intros w []]. intros [p s] Hw. apply In_then in Hw as (p1 & p2 & m & -> & _). exists (p1 ++ p2). reflexivity. }
  destruct lazy; apply sorted_app; try assumption; intros a b Ha Hb; unfold better.
  - destruct (Hin b Hb) as [q ->]. destruct (Nat.eqb lo 0); [|destruct Ha]. destruct Ha as [<-|[]]. exists [], [], q. split; reflexivity.
  - destruct (Hin a Ha) as [q ->]. destruct (Nat.eqb lo 0); [|destruct Hb]. destruct Hb as [<-|[]]. exists [], q, []. split; reflexivity.
Qed.

Lemma step_text_one w : forall st, step_text same w st = [] \/ exists s, step_text same w st = [s].
Proof.
  induction w as [|c w IH]; intros st; [right; exists st; reflexivity|]. cbn [step_text]. destruct st as [[b [|d a]] g]; cbn [step flat_map]; [left; reflexivity|].
  destruct (same c d); cbn [flat_map]; [rewrite app_nil_r; apply IH|left; reflexivity].
Qed.

(** an expression that makes no choice has one way at most *)
Lemma alone_sorted r st : match r with Seq _ _ | Alt _ _ | Rep _ _ _ _ | Group _ _ => False | _ => True end -> sorted (alone (ways r st)).
Proof.
  assert (H0 : sorted (alone [])) by constructor. assert (H1 : forall s, sorted (alone [s])) by (intros s; repeat constructor).
  assert (HS : forall p, sorted (alone (step p st))).
  { intros p. destruct st as [[b [|c a]] g]; cbn [step]; [exact H0|]. destruct (p c); auto. }
  destruct r; intros Hr; try contradiction; cbn [RegexModel.ways]; auto.
  - destruct (before st); auto.
  - destruct (after st) as [|c [|d a]]; auto. destruct (N.eqb c 10); auto.
  - destruct (before st), (after st); auto; destruct (xorb _ _); auto.
  - destruct (group n st) as [w|]; auto. destruct (step_text_one w st) as [->|[s ->]]; auto.
  - destruct (ways r st), negate; auto.
Qed.

Lemma chosen_sorted r : forall st, sorted (chosen r st).
Proof.
  induction r as [|c| |neg items| | |neg|a IHa b IHb|a IHa b IHb|lazy lo hi a IHa|n a IHa|n|neg a IHa]; intros st; cbn [chosen]; try (apply alone_sorted; exact I).
  - apply sorted_then; auto.
  - apply sorted_app.
    + apply sorted_map; [|apply IHa]. intros x y Hxy. apply (prefers_pre [false]). exact Hxy.
    + apply sorted_map; [|apply IHb]. intros x y Hxy. apply (prefers_pre [true]). exact Hxy.
    + intros x y Hx Hy. apply in_map_iff in Hx as (u & <- & _). apply in_map_iff in Hy as (v & <- & _). exists [], (fst u), (fst v). split; reflexivity.
  - apply sorted_repeats. exact IHa.
  - apply sorted_map; [|apply IHa]. intros x y Hxy. exact Hxy.
Qed.

(** ** the ways are those of the meaning *)
Lemma turns_onward (R : state -> choices -> state -> Prop) lazy : (forall s p s', R s p s' -> onward (where_ s) (where_ s')) -> forall n lo st p st',
  turns R lazy lo n st p st' -> onward (where_ st) (where_ st').
Proof.
  intros HR. induction n as [|n IH]; intros lo st p st' H; cbn [turns] in H; [destruct H as [_ ->]; apply onward_refl|].
  destruct H as (p1 & p2 & m & _ & H1 & H2 & _). eapply onward_trans; [eapply HR; exact H1|eapply IH; exact H2].
Qed.
Lemma leads_onward r : forall st p st', leads r st p st' -> onward (where_ st) (where_ st').
Proof.
  assert (AT : forall r st (p : choices) st', p = [] /\ goes r (before st, after st) (before st', after st') /\ groups st' = groups st -> onward (where_ st) (where_ st')).
  { intros r0 st p st' (_ & Hg & _). apply goes_onward in Hg. exact Hg. }
  induction r as [|c| |neg items| | |neg|a IHa b IHb|a IHa b IHb|lazy lo hi a IHa|n a IHa|n|neg a IHa]; intros st p st' H; cbn [RegexChoiceSpec.leads] in H; try (eapply AT; exact H).
  - destruct H as (p1 & p2 & m & _ & H1 & H2). eapply onward_trans; eauto.
  - destruct H as [(p' & _ & H)|(p' & _ & H)]; eauto.
  - destruct H as (n & _ & _ & H). eapply turns_onward; eauto.
  - destruct H as (m & w & H & _ & ->). apply IHa in H. exact H.
  - destruct H as (_ & w & x & _ & _ & E1 & E2 & _). split; cbn; rewrite E2; [rewrite E1, rev_app_distr, rev_involutive, <- app_assoc; reflexivity|rewrite app_length; lia].
  - destruct neg; [destruct H as (_ & -> & _)|destruct H as (_ & p' & m & _ & _ & ->)]; apply onward_refl.
Qed.

Lemma turns_bound (R : state -> choices -> state -> Prop) lazy : (forall s p s', R s p s' -> onward (where_ s) (where_ s')) -> forall n lo st p st',
  turns R lazy lo n st p st' -> n <= lo + length (after st) + 1.
Proof.
  intros HR. induction n as [|n IH]; intros lo st p st' H; [lia|]. cbn [turns] in H. destruct H as (p1 & p2 & m & _ & H1 & H2 & Hadv).
  apply HR in H1. pose proof (onward_length _ _ H1) as Hl. destruct H1 as [_ Hle]. cbn [fst snd where_] in *. apply IH in H2.
  destruct lo as [|lo]; [|lia]. destruct n as [|n]; [lia|]. specialize (Hadv eq_refl ltac:(lia)). lia.
Qed.

Lemma repeats_turns (R : state -> choices -> state -> Prop) g lazy : (forall s p s', In (p, s') (g s) <-> R s p s') ->
  (forall s p s', R s p s' -> onward (where_ s) (where_ s')) -> forall fuel last lo hi st p st', (0 < lo -> last = None) ->
  In (p, st') (chosen_repeats g lazy fuel last lo hi st) ->
  exists n, lo <= n /\ match hi with Some h => n <= h | None => True end /\ turns R lazy lo n st p st' /\ (lo = 0 -> last = Some (length (before st)) -> n = 0).
Proof.
  intros Hg HR. induction fuel as [|fuel IH]; intros last lo hi st p st' Hlast; [intros []|]. cbn [chosen_repeats].
  set (allowed := _ && _). intros Hin.
  assert (H : (lo = 0 /\ p = [negb lazy] /\ st' = st) \/ (allowed = true /\ exists p1 p2 m, p = lazy :: p1 ++ p2 /\ In (p1, m) (g st) /\
    In (p2, st') (chosen_repeats g lazy fuel (if Nat.ltb 0 lo then last else Some (length (before st))) (lo - 1) (option_map pred hi) m))).
  { assert (H' : In (p, st') (if Nat.eqb lo 0 then [([negb lazy], st)] else []) \/ In (p, st') (if allowed then flat_map (then_way [lazy] (chosen_repeats g lazy fuel (if Nat.ltb 0 lo then last else Some (length (before st))) (lo - 1) (option_map pred hi))) (g st) else [])).
    { destruct lazy; apply in_app_iff in Hin; tauto. }
    destruct H' as [H'|H'].
    - left. destruct (Nat.eqb_spec lo 0); [|destruct H']. destruct H' as [E|[]]. injection E as <- <-. auto.
    - right. destruct allowed; [|destruct H']. split; [reflexivity|]. apply In_then in H' as (p1 & p2 & m & -> & H1 & H2). exists p1, p2, m. auto. }
  destruct H as [(-> & -> & ->)|(Ha & p1 & p2 & m & -> & H1 & H2)].
  - exists 0. cbn. repeat split; auto. destruct hi; [lia|exact I].
  - apply Hg in H1. pose proof (HR _ _ _ H1) as Hon. unfold allowed in Ha. apply Bool.andb_true_iff in Ha as [Hh Hl].
    apply IH in H2; [|destruct (Nat.ltb_spec 0 lo); [intros _; apply Hlast; assumption|lia]].
    destruct H2 as (n & Hlo & Hhi & Ht & Hend). exists (S n). split; [lia|]. split; [destruct hi as [[|h]|]; cbn in Hhi; [discriminate|lia|exact I]|]. split.
    + cbn [turns]. exists p1, p2, m. split; [reflexivity|]. split; [exact H1|]. split; [exact Ht|]. intros -> Hn. cbn [Nat.ltb Nat.leb] in Hend.
      destruct Hon as [_ Hle]. cbn [fst where_] in Hle. destruct (Nat.eq_dec (length (before m)) (length (before st))) as [E|E]; [|lia].
      rewrite E in Hend. specialize (Hend eq_refl eq_refl). lia.
    + intros -> El. exfalso. rewrite El in Hl. cbn [Nat.ltb Nat.leb orb] in Hl. rewrite eqb_refl in Hl. discriminate.
Qed.

Lemma turns_repeats (R : state -> choices -> state -> Prop) g lazy : (forall s p s', In (p, s') (g s) <-> R s p s') ->
  (forall s p s', R s p s' -> onward (where_ s) (where_ s')) -> forall n fuel last lo hi st p st', (0 < lo -> last = None) ->
  n < fuel -> lo <= n -> match hi with Some h => n <= h | None => True end -> turns R lazy lo n st p st' -> (lo = 0 -> last = Some (length (before st)) -> n = 0) ->
  In (p, st') (chosen_repeats g lazy fuel last lo hi st).
Proof.
  intros Hg HR. induction n as [|n IH]; intros [|fuel] last lo hi st p st' Hlast Hf Hlo Hhi Ht Hend; try lia; cbn [chosen_repeats].
  - cbn [turns] in Ht. destruct Ht as [-> ->]. assert (lo = 0) by lia. subst lo. cbn [Nat.eqb]. destruct lazy; [left; reflexivity|].
    apply in_app_iff. right. left. reflexivity.
  - cbn [turns] in Ht. destruct Ht as (p1 & p2 & m & -> & H1 & H2 & Hadv). set (allowed := _ && _).
    assert (Ha : allowed = true).
    { unfold allowed. apply Bool.andb_true_iff. split; [destruct hi as [[|h]|]; [lia|reflexivity|reflexivity]|].
      destruct (Nat.ltb_spec 0 lo) as [Hl|Hl]; [reflexivity|]. cbn [orb]. apply Bool.negb_true_iff. destruct (eqb last (Some (length (before st)))) eqn:E; [|reflexivity].
      apply (proj1 (eqb_true _ _)) in E. specialize (Hend ltac:(lia) E). discriminate. }
    assert (Hin : In (lazy :: p1 ++ p2, st') (flat_map (then_way [lazy] (chosen_repeats g lazy fuel (if Nat.ltb 0 lo then last else Some (length (before st))) (lo - 1) (option_map pred hi))) (g st))).
    { apply In_then. exists p1, p2, m. split; [reflexivity|]. split; [apply Hg; exact H1|]. apply IH; try assumption; try lia.
      - intros Hl. destruct (Nat.ltb_spec 0 lo); [apply Hlast; assumption|lia].
      - destruct hi as [h|]; cbn; [lia|exact I].
      - intros E0 El. destruct (Nat.ltb_spec 0 lo) as [Hl|Hl]; [rewrite (Hlast Hl) in El; discriminate|]. injection El as El.
        destruct n as [|n]; [reflexivity|]. specialize (Hadv ltac:(lia) ltac:(lia)). lia. }
    rewrite Ha. destruct lazy; apply in_app_iff; [right|left]; exact Hin.
Qed.

Lemma In_alone p s l : In (p, s) (alone l) <-> p = [] /\ In s l.
Proof.
  unfold alone. rewrite in_map_iff. split; [intros (x & E & Hx); injection E as <- <-; auto|intros [-> Hs]; exists s; auto].
Qed.

Lemma step_leads p P st st' : (forall c, p c = true <-> P c) ->
  In st' (step p st) <-> advances P (before st, after st) (before st', after st') /\ groups st' = groups st.
Proof.
  intros E. destruct st as [[b [|c a]] g], st' as [[b' a'] g']; unfold before, after, groups; cbn.
  - split; [intros []|]. intros [(c & b0 & a0 & X & _) _]. congruence.
  - destruct (p c) eqn:C.
    + split.
      * intros [X|[]]. injection X as <- <- <-. split; [|reflexivity]. exists c, b, a. repeat split. apply E. exact C.
      * intros [(d & b0 & a0 & X & Y & K) ->]. injection X as <- <- <-. injection Y as -> ->. left. reflexivity.
    + split; [intros []|]. intros [(d & b0 & a0 & X & Y & K) _]. injection X as <- <- <-. apply E in K. congruence.
Qed.

Lemma stays_leads (b : bool) (P : Prop) (st st' : state) : (b = true <-> P) ->
  In st' (if b then [st] else []) <-> ((before st, after st) = (before st', after st') /\ P) /\ groups st' = groups st.
Proof.
  intros E. destruct st as [[x y] g], st' as [[x' y'] g']. unfold before, after, groups. cbn. destruct b.
  - split; [intros [X|[]]; injection X as <- <- <-; repeat split; apply E; reflexivity|]. intros [[X _] ->]. injection X as -> ->. left. reflexivity.
  - split; [intros []|]. intros [[_ K] _]. apply E in K. discriminate.
Qed.

Lemma group_last n st w : group n st = Some w <-> matched_last n (groups st) w.
Proof.
  unfold group, matched_last. generalize (groups st) as g. intros g. split.
  - induction g as [|[k x] g IH]; cbn; [discriminate|]. destruct (Nat.eqb_spec k n) as [->|Hne]; cbn.
    + intros E. injection E as <-. exists [], g. split; [reflexivity|]. intros x0 [].
    + intros E. destruct (IH E) as (g1 & g2 & -> & Hn). exists ((k, x) :: g1), g2. split; [reflexivity|]. intros y [Y|Y]; [congruence|exact (Hn y Y)].
  - intros (g1 & g2 & -> & Hn). induction g1 as [|[k x] g1 IH]; cbn; [rewrite Nat.eqb_refl; reflexivity|].
    destruct (Nat.eqb_spec k n) as [->|Hne]; [exfalso; apply (Hn x); left; reflexivity|]. apply IH. intros y Y. apply (Hn y). right. exact Y.
Qed.

Lemma step_text_leads w : forall st st', In st' (step_text same w st) <->
  exists x, Forall2 (fun c d => same c d = true) w x /\ after st = x ++ after st' /\ before st' = rev x ++ before st /\ groups st' = groups st.
Proof.
  induction w as [|c w IH]; intros st st'; cbn [step_text].
  - split.
    + intros [<-|[]]. exists []. repeat split. constructor.
    + intros (x & F & E1 & E2 & E3). inversion F; subst. left. destruct st as [[b a] g], st' as [[b' a'] g']. unfold before, after, groups in *. cbn in *. congruence.
  - destruct st as [[b [|d a]] g]; cbn [step flat_map].
    + split; [intros []|]. intros (x & F & E1 & _). inversion F; subst. discriminate.
    + destruct (same c d) eqn:Ec; cbn [flat_map].
      * rewrite app_nil_r, IH. unfold after at 1 2, before at 2 4, groups at 2 4. cbn [fst snd]. split.
        -- intros (x & F & E1 & E2 & E3). exists (d :: x). split; [constructor; assumption|]. cbn. rewrite E1, E2, <- app_assoc. auto.
        -- intros (x & F & E1 & E2 & E3). inversion F as [|? e ? x' Hs Hf]; subst. cbn in E1. injection E1 as -> E1. exists x'.
           cbn in E2. rewrite <- app_assoc in E2. auto.
      * split; [intros []|]. intros (x & F & E1 & _). inversion F as [|? e ? x' Hs Hf]; subst. cbn in E1. unfold after in E1. cbn in E1. injection E1 as -> _. congruence.
Qed.

Lemma first_way l p (s : state) : sorted ((p, s) :: l) -> forall q m, In (q, m) ((p, s) :: l) -> ~ prefers q p.
Proof.
  intros Hs q m [E|Hin] Hp; [injection E as <- <-; exact (prefers_irrefl _ Hp)|]. inversion Hs as [|? ? _ F]; subst. rewrite Forall_forall in F.
  exact (prefers_asym _ _ Hp (F _ Hin)).
Qed.

Lemma chosen_leads r : forall st p st', In (p, st') (chosen r st) <-> leads r st p st'.
Proof.
  assert (STEP : forall f P st p st', (forall c, f c = true <-> P c) ->
    In (p, st') (alone (step f st)) <-> p = [] /\ advances P (before st, after st) (before st', after st') /\ groups st' = groups st).
  { intros f P st p st' E. rewrite In_alone, (step_leads f P st st' E). tauto. }
  assert (STAY : forall (b : bool) (P : Prop) (st : state) (p : choices) (st' : state), (b = true <-> P) ->
    In (p, st') (alone (if b then [st] else [])) <-> p = [] /\ ((before st, after st) = (before st', after st') /\ P) /\ groups st' = groups st).
  { intros b P st p st' E. rewrite In_alone, (stays_leads b P st st' E). tauto. }
  induction r as [|c| |neg items| | |neg|a IHa b IHb|a IHa b IHb|lazy lo hi a IHa|n a IHa|n|neg a IHa]; intros st p st'; cbn [chosen RegexChoiceSpec.leads RegexModel.ways RegexSpec.goes].
  - rewrite (STAY true True st p st') by tauto. tauto.
  - apply STEP. reflexivity.
  - apply STEP. intros c. rewrite Bool.negb_true_iff. apply N.eqb_neq.
  - destruct neg; apply STEP; intros c; rewrite ?Bool.xorb_true_l, ?Bool.xorb_false_l.
    + rewrite Bool.negb_true_iff. rewrite <- Bool.not_true_iff_false, existsb_exists. split.
      * intros Hn i Hi Hd. apply Hn. exists i. split; [exact Hi|]. apply item_spec. exact Hd.
      * intros Hn (i & Hi & Hd). apply (Hn i Hi). apply item_spec. exact Hd.
    + rewrite existsb_exists. split; intros (i & Hi & Hd); exists i; (split; [exact Hi|]); apply item_spec; exact Hd.
  - replace (match before st with [] => [st] | _ => [] end) with (if match before st with [] => true | _ => false end then [st] else []) by (destruct (before st); reflexivity).
    apply STAY. destruct (before st) eqn:E; cbn [fst]; split; try reflexivity; discriminate.
  - replace (match after st with [] => [st] | [c] => if N.eqb c 10 then [st] else [] | _ => [] end)
      with (if match after st with [] => true | [c] => N.eqb c 10 | _ => false end then [st] else []) by (destruct (after st) as [|c [|d x]]; reflexivity).
    apply STAY. cbn [snd]. destruct (after st) as [|c [|d x]]; split; try tauto; try discriminate.
    + rewrite N.eqb_eq. intros ->. right. reflexivity.
    + intros [X|X]; [discriminate|]. injection X as ->. reflexivity.
    + intros [X|X]; discriminate.
  - pose proof (boundary_spec is_word (before st, after st)) as BS. cbn [fst snd] in BS.
    replace (match before st, after st with [], [] => [] | b, a => if xorb neg (xorb (word_at is_word b) (word_at is_word a)) then [st] else [] end)
      with (if match before st, after st with [], [] => false | b, a => xorb neg (xorb (word_at is_word b) (word_at is_word a)) end then [st] else [])
      by (destruct (before st), (after st); reflexivity).
    destruct neg; apply STAY.
    + destruct (before st) as [|x b] eqn:Eb, (after st) as [|y a] eqn:Ea.
      * split; [discriminate|]. intros [X _]. contradiction.
      * cbn [xorb]. rewrite <- BS. destruct (xorb _ _); cbn; intuition congruence.
      * cbn [xorb]. rewrite <- BS. destruct (xorb _ _); cbn; intuition congruence.
      * cbn [xorb]. rewrite <- BS. destruct (xorb _ _); cbn; intuition congruence.
    + destruct (before st) as [|x b] eqn:Eb, (after st) as [|y a] eqn:Ea; [exact BS| | |]; rewrite <- BS; (destruct (xorb (word_at is_word _) (word_at is_word _)); cbn; tauto).
  - rewrite In_then. cbn [app]. split; intros (p1 & p2 & m & -> & H1 & H2); exists p1, p2, m; (split; [reflexivity|]); (split; [apply IHa; exact H1|apply IHb; exact H2]).
  - rewrite in_app_iff, !in_map_iff. split.
    + intros [([q s] & E & H)|([q s] & E & H)]; cbn in E; injection E as <- <-; [left|right]; exists q; (split; [reflexivity|]); [apply IHa|apply IHb]; exact H.
    + intros [(q & -> & H)|(q & -> & H)]; [left|right]; exists (q, st'); (split; [reflexivity|]); [apply IHa|apply IHb]; exact H.
  - pose proof (leads_onward a) as HO. split.
    + intros Hin. apply (repeats_turns (leads a) (chosen a) lazy IHa HO) in Hin; [|discriminate || reflexivity]. destruct Hin as (n & H1 & H2 & H3 & _). exists n. auto.
    + intros (n & H1 & H2 & H3). apply (turns_repeats (leads a) (chosen a) lazy IHa HO n); auto; [|discriminate].
      pose proof (turns_bound (leads a) lazy HO n lo st p st' H3). lia.
  - rewrite in_map_iff. split.
    + intros ([q m] & E & H). cbn [fst snd] in E. injection E as <- <-. apply IHa in H. exists m, (firstn (length (after st) - length (after m)) (after st)).
      split; [exact H|]. split; [|reflexivity]. apply leads_onward in H. destruct H as [Eo Hl]. unfold where_ in *. cbn [fst snd] in *.
      assert (X : exists w, after st = w ++ after m).
      { assert (G : forall (u v x y : str), u ++ x = v ++ y -> length u <= length v -> exists w, x = w ++ y).
        { clear. induction u as [|c u IH]; intros [|d v] x y E L; cbn in *; [exists []; exact E|exists (d :: v); exact E|lia|].
          injection E as _ E. apply (IH v x y E). lia. }
        apply (G (rev (before st)) (rev (before m)) _ _ (eq_sym Eo)). rewrite !rev_length. exact Hl. }
      destruct X as [w Ew]. rewrite Ew, app_length, Nat.add_sub, firstn_app, Nat.sub_diag, firstn_all, app_nil_r. reflexivity.
    + intros (m & w & H & Ew & ->). exists (p, m). cbn [fst snd]. split; [|apply IHa; exact H]. rewrite Ew, app_length, Nat.add_sub, firstn_app, Nat.sub_diag, firstn_all, app_nil_r. reflexivity.
  - rewrite In_alone. destruct (group n st) as [w|] eqn:G.
    + rewrite step_text_leads. split.
      * intros (-> & x & F & E1 & E2 & E3). split; [reflexivity|]. exists w, x. split; [apply group_last; exact G|]. auto.
      * intros (-> & w' & x & M & F & E1 & E2 & E3). apply group_last in M. rewrite G in M. injection M as <-. split; [reflexivity|]. exists x. auto.
    + split; [intros (_ & [])|]. intros (_ & w & x & M & _). apply group_last in M. congruence.
  - rewrite In_alone. rewrite <- (chosen_ways a st). pose proof (chosen_sorted a st) as HS. destruct (chosen a st) as [|[q m] l] eqn:E; cbn [map snd]; destruct neg.
    + split.
      * intros (-> & [<-|[]]). split; [reflexivity|]. split; [reflexivity|]. intros q m H. apply IHa in H. rewrite E in H. exact H.
      * intros (-> & -> & _). split; [reflexivity|]. left. reflexivity.
    + split; [intros (_ & [])|]. intros (_ & q & m & H & _). apply IHa in H. rewrite E in H. destruct H.
    + split; [intros (_ & [])|]. intros (_ & _ & H). exfalso. apply (H q m). apply IHa. rewrite E. left. reflexivity.
    + split.
      * intros (-> & [<-|[]]). split; [reflexivity|]. exists q, m. split; [apply IHa; rewrite E; left; reflexivity|]. split; [|reflexivity].
        intros q' m' H. apply IHa in H. rewrite E in H. exact (first_way l q m HS q' m' H).
      * intros (-> & q' & m' & H & Hb & ->). split; [reflexivity|]. left. apply IHa in H. rewrite E in H.
        destruct H as [X|H]; [injection X as <- <-; reflexivity|]. exfalso. inversion HS as [|? ? _ F]; subst. rewrite Forall_forall in F.
        apply (Hb q m); [apply IHa; rewrite E; left; reflexivity|exact (F _ H)].
Qed.

Lemma ways_leads r st : exists ps, length ps = length (ways r st) /\ StronglySorted prefers ps /\
  (forall p st', In (p, st') (combine ps (ways r st)) <-> leads r st p st').
Proof.
  exists (map fst (chosen r st)). rewrite <- (chosen_ways r st). rewrite !map_length. split; [reflexivity|]. split.
  - pose proof (chosen_sorted r st) as HS. induction HS as [|a l S IH F]; [constructor|]. cbn [map]. constructor; [exact IH|].
    apply Forall_forall. intros q Hq. apply in_map_iff in Hq as (b & <- & Hb). rewrite Forall_forall in F. exact (F b Hb).
  - intros p st'. rewrite <- chosen_leads. generalize (chosen r st). intros l. induction l as [|[q m] l IH]; [reflexivity|]. cbn [map combine fst snd In]. rewrite IH. reflexivity.
Qed.

Lemma match_leads r adv b a :
  match match_at is_digit is_space is_word same r adv b a with
  | Some st => exists p, leads r (b, a, []) p st /\ (adv = true -> length (after st) < length a) /\
      forall q st', leads r (b, a, []) q st' -> (adv = true -> length (after st') < length a) -> (q = p /\ st' = st) \/ prefers p q
  | None => forall q st', leads r (b, a, []) q st' -> adv = true /\ ~ length (after st') < length a
  end.
Proof.
  unfold match_at. rewrite <- (chosen_ways r (b, a, [])). set (f := fun st : state => negb adv || Nat.ltb (length (after st)) (length a)).
  assert (Hf : forall st, f st = true <-> (adv = true -> length (after st) < length a)).
  { intros st. unfold f. destruct adv; cbn [negb orb]; [rewrite Nat.ltb_lt; intuition|]. split; [discriminate|reflexivity]. }
  assert (HL : forall q st', leads r (b, a, []) q st' -> In (q, st') (chosen r (b, a, []))) by (intros q st' HH; apply chosen_leads; exact HH).
  assert (HI : forall q st', In (q, st') (chosen r (b, a, [])) -> leads r (b, a, []) q st') by (intros q st' HH; apply chosen_leads; exact HH).
  pose proof (chosen_sorted r (b, a, [])) as HS. revert HL HI HS. generalize (chosen r (b, a, [])). intros l.
  assert (G : sorted l -> match find f (map snd l) with
    | Some st => exists p, In (p, st) l /\ f st = true /\ forall q st', In (q, st') l -> f st' = true -> (q = p /\ st' = st) \/ prefers p q
    | None => forall q st', In (q, st') l -> f st' = false end).
  { induction l as [|[p st] l IH]; intros HS; [cbn; intros q st' []|]. cbn [map find snd]. inversion HS as [|? ? S F]; subst. rewrite Forall_forall in F.
    destruct (f st) eqn:E.
    - exists p. split; [left; reflexivity|]. split; [exact E|]. intros q st' [X|X] _; [injection X as <- <-; left; auto|right; exact (F _ X)].
    - specialize (IH S). destruct (find f (map snd l)) as [s|].
      + destruct IH as (p' & H1 & H2 & H3). exists p'. split; [right; exact H1|]. split; [exact H2|]. intros q st' [X|X] Hq; [injection X as <- <-; congruence|apply H3; assumption].
      + intros q st' [X|X]; [injection X as <- <-; exact E|eapply IH; exact X]. }
  intros HL HI HS. specialize (G HS). destruct (find f (map snd l)) as [st|].
  - destruct G as (p & H1 & H2 & H3). exists p. split; [apply HI; exact H1|]. split; [apply Hf; exact H2|]. intros q st' Hq Ha. apply H3; [apply HL; exact Hq|apply Hf; exact Ha].
  - intros q st' Hq. specialize (G q st' (HL _ _ Hq)). destruct adv; [|specialize (proj2 (Hf st') ltac:(discriminate)); congruence].
    split; [reflexivity|]. intros Hlt. rewrite (proj2 (Hf st') (fun _ => Hlt)) in G. discriminate.
Qed.

Notation match_at := (match_at is_digit is_space is_word same).
Notation best := (best is_digit is_space is_word same).
Notation no_match := (no_match is_digit is_space is_word same).
Notation scanned := (scanned is_digit is_space is_word same).

Lemma match_best r adv b a : match match_at r adv b a with Some st => best r adv b a st | None => no_match r adv b a end.
Proof.
  pose proof (match_leads r adv b a) as M. destruct (match_at r adv b a) as [st|]; [exact M|]. intros q st' H C. destruct (M q st' H) as [-> N]. apply N. apply C. reflexivity.
Qed.
Lemma best_unique r adv b a st st' : best r adv b a st -> best r adv b a st' -> st = st'.
Proof.
  intros (p & H1 & H2 & H3) (p' & H1' & H2' & H3'). destruct (H3 _ _ H1' H2') as [[_ E]|P]; [symmetry; exact E|].
  destruct (H3' _ _ H1 H2) as [[_ E]|P']; [exact E|]. exfalso. exact (prefers_asym _ _ P P').
Qed.
Lemma best_no_match r adv b a st : best r adv b a st -> ~ no_match r adv b a.
Proof. intros (p & H1 & H2 & _) N. exact (N p st H1 H2). Qed.
Lemma best_match r adv b a st : best r adv b a st <-> match_at r adv b a = Some st.
Proof.
  pose proof (match_best r adv b a) as M. destruct (match_at r adv b a) as [s|].
  - split; [intros B; f_equal; eapply best_unique; eassumption|intros E; injection E as <-; exact M].
  - split; [intros B; exfalso; exact (best_no_match _ _ _ _ _ B M)|discriminate].
Qed.

Lemma scanned_unique r adv b a l : scanned r adv b a l -> forall l', scanned r adv b a l' -> l = l'.
Proof.
  intros H. induction H as [adv b N|adv b c a l N H IH|adv b a st e l B E H IH]; intros l' H'; inversion H'; subst; try reflexivity;
    try (exfalso; eapply best_no_match; eassumption).
  - f_equal. apply IH. assumption.
  - assert (X : st = st0) by (eapply best_unique; eassumption). subst st0. f_equal. apply IH.
    assert (X : e = empty); [|subst; assumption]. destruct e, empty; try reflexivity; [destruct E as [E _]|destruct E as [_ E]]; intuition congruence.
Qed.

Lemma after_same r adv b a st : match_at r adv b a = Some st -> (Nat.eqb (length (after st)) (length a) = true <-> after st = a).
Proof.
  intros M. destruct (match_moves is_digit is_space is_word same r adv b a st M) as (x & _ & E & _). rewrite Nat.eqb_eq. split; [|intros ->; reflexivity].
  intros L. rewrite E in L |- *. rewrite app_length in L. destruct x; [reflexivity|cbn in L; lia].
Qed.

Lemma sub_scanned r repl : forall fuel adv b a, room adv a <= fuel -> exists l, scanned r adv b a l /\
  sub_loop is_digit is_space is_word same r repl fuel adv b a = flat_map (fun x => match x with inl c => [c] | inr st => repl st end) l.
Proof.
  induction fuel as [|fuel IH]; intros adv b a L; [unfold room in L; destruct adv; lia|]. cbn [sub_loop].
  pose proof (match_best r adv b a) as B. destruct (match_at r adv b a) as [st|] eqn:M.
  - pose proof (room_match _ _ _ _ _ _ _ _ _ M) as RM. destruct (IH (Nat.eqb (length (after st)) (length a)) (before st) (after st) ltac:(lia)) as (l & S & ->).
    exists (inr st :: l). split; [|reflexivity]. eapply scan_match; [exact B|eapply after_same; exact M|exact S].
  - destruct a as [|c a]; [exists []; split; [constructor; exact B|reflexivity]|]. destruct (IH false (c :: b) a) as (l & S & ->); [unfold room in *; cbn in L; destruct adv; lia|].
    exists (inl c :: l). split; [constructor; assumption|reflexivity].
Qed.

Lemma split_scanned r n : forall fuel adv piece b a, room adv a <= fuel -> exists l, scanned r adv b a l /\
  split_loop is_digit is_space is_word same r n fuel adv piece b a = pieces n (rev piece) l.
Proof.
  induction fuel as [|fuel IH]; intros adv piece b a L; [unfold room in L; destruct adv; lia|]. cbn [split_loop].
  pose proof (match_best r adv b a) as B. destruct (match_at r adv b a) as [st|] eqn:M.
  - pose proof (room_match _ _ _ _ _ _ _ _ _ M) as RM. destruct (IH (Nat.eqb (length (after st)) (length a)) [] (before st) (after st) ltac:(lia)) as (l & S & ->).
    exists (inr st :: l). split; [|reflexivity]. eapply scan_match; [exact B|eapply after_same; exact M|exact S].
  - destruct a as [|c a]; [exists []; split; [constructor; exact B|reflexivity]|]. destruct (IH false (c :: piece) (c :: b) a) as (l & S & ->); [unfold room in *; cbn in L; destruct adv; lia|].
    exists (inl c :: l). split; [constructor; assumption|reflexivity].
Qed.

Lemma scan_sub_split r s : exists l, scanned r false [] s l /\ (forall l', scanned r false [] s l' -> l' = l) /\
  (forall repl, re_sub is_digit is_space is_word same r repl s = flat_map (fun x => match x with inl c => [c] | inr st => repl st end) l) /\
  (forall n, re_split is_digit is_space is_word same r n s = pieces n [] l).
Proof.
  destruct (sub_scanned r (fun _ => []) (2 * length s + 2) false [] s) as (l & S & _); [unfold room; lia|]. exists l.
  assert (U : forall l', scanned r false [] s l' -> l' = l) by (intros l' S'; symmetry; eapply scanned_unique; eassumption).
  split; [exact S|]. split; [exact U|]. split.
  - intros repl. destruct (sub_scanned r repl (2 * length s + 2) false [] s) as (l' & S' & E); [unfold room; lia|]. rewrite (U l' S') in E. exact E.
  - intros n. destruct (split_scanned r n (2 * length s + 2) false [] [] s) as (l' & S' & E); [unfold room; lia|]. rewrite (U l' S') in E. exact E.
Qed.

(** ** two ways from the same place *)
Lemma sorted_total (l : list (choices * state)) p s q s' : sorted l -> In (p, s) l -> In (q, s') l -> (p = q /\ s = s') \/ prefers p q \/ prefers q p.
Proof.
  intros HS. induction HS as [|a l S IH F]; [intros []|]. rewrite Forall_forall in F. intros [->|H1] [E|H2].
  - injection E as -> ->. left. auto.
  - right. left. exact (F _ H2).
  - subst a. right. right. exact (F _ H1).
  - apply IH; assumption.
Qed.
Lemma leads_total r st p s q s' : leads r st p s -> leads r st q s' -> (p = q /\ s = s') \/ prefers p q \/ prefers q p.
Proof. intros H1 H2. apply chosen_leads in H1, H2. exact (sorted_total _ _ _ _ _ (chosen_sorted r st) H1 H2). Qed.

Lemma leads_goes r st q : plain r = true -> ordered r = true ->
  (exists p st', leads r st p st' /\ (before st', after st') = q) <-> goes r (before st, after st) q.
Proof.
  intros HP HO. rewrite <- (ways_goes is_digit is_space is_word same r HP HO st q). rewrite <- chosen_ways. unfold reached. split.
  - intros (p & st' & H & E). exists st'. split; [|exact E]. apply in_map_iff. exists (p, st'). split; [reflexivity|apply chosen_leads; exact H].
  - intros (st' & H & E). apply in_map_iff in H as ([p s] & X & H). cbn in X. subst s. exists p, st'. split; [apply chosen_leads; exact H|exact E].
Qed.
End Engine.
