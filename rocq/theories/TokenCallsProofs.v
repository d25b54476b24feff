(** Proofs about TokenCallsModel.v. *)
From Coq Require Import QArith String ZArith.
From Verif Require Import Base BaseFacts LevModel PairwiseModel GraphModel SortModel SortFacts HashJoinModel PPJoinModel PPJoinAnyModel PPJoinAnyProofs
  CallsModel CallsSpec CallsProofs KeyCallsModel KeyCallsProofs TokenCallsModel.
Open Scope nat_scope.
Open Scope string_scope.
Open Scope list_scope.
Notation length := List.length.

(** * Programs that make no call *)
Section Gives.
Context {Q B C : Type}.

Definition gives {S} (p : prog Q B C S) (out : list C) (o : res S) : Prop := forall W (f : user W) (w : W), run f w p = (map Gave out, w, o).

Lemma gives_lift {S} (r : res S) : gives (lift r) [] r.
Proof. intros W f w. apply run_lift. Qed.
Lemma gives_bind {S S'} (p : prog Q B C S) (k : S -> prog Q B C S') c s c' o : gives p c (Ok s) -> gives (k s) c' o -> gives (pbind p k) (c ++ c') o.
Proof. intros H1 H2 W f w. rewrite run_bind, H1. cbn [then_]. rewrite H2, map_app. reflexivity. Qed.
Lemma gives_bind_err {S S'} (p : prog Q B C S) (k : S -> prog Q B C S') c e : gives p c (Err e) -> gives (pbind p k) c (Err e).
Proof. intros H1 W f w. rewrite run_bind, H1. reflexivity. Qed.
Lemma gives_yield {S} c (p : prog Q B C S) out o : gives p out o -> gives (Yield c p) (c :: out) o.
Proof. intros H1 W f w. cbn [run]. rewrite H1. reflexivity. Qed.

(** what such a program gives *)
Definition silently {S} (p : prog Q B C S) : list C * res S :=
  let '(t, _, o) := run (fun (w : unit) _ => (w, Err TypeError)) tt p in (given t, o).
Lemma gives_silently {S} (p : prog Q B C S) out o : gives p out o -> silently p = (out, o).
Proof.
  intros H1. unfold silently. rewrite H1. f_equal. clear H1. unfold given. induction out as [|c out IH]; [reflexivity|]. cbn in *. f_equal. exact IH.
Qed.

Lemma gives_for {X St} (P : St -> Prop) (body : St -> X -> prog Q B C St) (step : St -> X -> res (St * list C)) : forall l st,
  P st -> (forall st x, P st -> In x l -> match step st x with Ok (st', c) => P st' /\ gives (body st x) c (Ok st') | Err e => exists c, gives (body st x) c (Err e) end) ->
  forall out, match foldM (fun '(st, out) x => let! (st, c) := step st x in Ok (st, out ++ c)) l (st, out) with
  | Ok (st', out') => exists c, out' = out ++ c /\ gives (for_each l st body) c (Ok st')
  | Err e => exists c, gives (for_each l st body) c (Err e)
  end.
Proof.
  induction l as [|x l IH]; intros st Pst Hb out; cbn [foldM for_each].
  - exists []. rewrite app_nil_r. split; [reflexivity|]. intros W f w. reflexivity.
  - pose proof (Hb st x Pst (or_introl eq_refl)) as K. destruct (step st x) as [[st1 c1]|e]; cbn [bind].
    + destruct K as [P1 G1]. specialize (IH st1 P1 (fun st x Pst Hx => Hb st x Pst (or_intror Hx)) (out ++ c1)).
      destruct (foldM _ l (st1, out ++ c1)) as [[st' out']|e].
      * destruct IH as (c & -> & G). exists (c1 ++ c). split; [rewrite app_assoc; reflexivity|]. eapply gives_bind; eassumption.
      * destruct IH as (c & G). exists (c1 ++ c). eapply gives_bind; eassumption.
    + destruct K as (c & G). exists c. apply gives_bind_err. exact G.
Qed.
End Gives.

Lemma mapM_app' {X Y} (f : X -> res Y) l l' : mapM f (l ++ l') = let! a := mapM f l in let! b := mapM f l' in Ok (a ++ b).
Proof.
  induction l as [|x l IH]; cbn [mapM app bind]; [destruct (mapM f l'); reflexivity|]. destruct (f x); cbn [bind]; [|reflexivity].
  rewrite IH. destruct (mapM f l); cbn [bind]; [|reflexivity]. destruct (mapM f l'); reflexivity.
Qed.

Lemma foldM_inv {S X} (P : S -> Prop) (f : S -> X -> res S) l : (forall s x s', P s -> In x l -> f s x = Ok s' -> P s') ->
  forall s s', P s -> foldM f l s = Ok s' -> P s'.
Proof.
  induction l as [|x l IH]; intros Hf s s' Ps; cbn [foldM]; [intros [= <-]; exact Ps|].
  destruct (f s x) as [s1|e] eqn:E; cbn [bind]; [|discriminate]. apply IH; [|apply (Hf s x s1 Ps (or_introl eq_refl) E)].
  intros a b c Pa Hb. apply Hf; [exact Pa | right; exact Hb].
Qed.

Section Join.
Context {R A U : Type} `{EqDec U}.
Variable leb : U -> U -> bool.
Variable h : any_helper.
Variable threshold : Q.
Variable algo : algorithm.
Variable data : list R.
Variable records : list (list U).
Hypothesis same_length : length records = length data.
Notation n := (length records).

(** * Positions are right *)
Definition idx_ok (idx : @inverted U) : Prop := forall t pos ids, In (t, (pos, ids)) idx -> forall id, In id ids -> fst id < n.
Definition occ_ok (occ : occurrences) : Prop := forall e, In e occ -> fst e < n.

Lemma consider_ok requires record t occ id occ' : occ_ok occ -> fst id < n -> any_consider leb threshold algo records requires record t occ id = Ok occ' -> occ_ok occ'.
Proof.
  intros O L. unfold any_consider.
  assert (S : forall v, occ_ok (dset occ (fst id) v)).
  { intros v e He. apply dset_In in He. destruct He as [He|He]; [apply O; exact He | subst e; exact L]. }
  assert (F : any_filtered leb threshold algo records requires record t occ (fst id) (snd id) = Ok occ' -> occ_ok occ').
  { unfold any_filtered. destruct (zindex requires _) as [r|]; cbn [bind]; [|discriminate].
    destruct (dget occ (fst id)) as [[v|]|]; [| intros [= <-]; exact O |];
      (match goal with |- bind ?p _ = _ -> _ => destruct p as [[]|] end; cbn [bind]; try discriminate; [intros [= <-]; auto|];
       match goal with |- (if ?c then _ else _) = _ -> _ => destruct c end; intros [= <-]; auto). }
  destruct algo; [|exact F|exact F]. intros [= <-] e He. apply dmodify_In in He. destruct He as [He|He]; [apply O; exact He | rewrite He; exact L].
Qed.

Lemma probe_ok mn ix requires k record t idx occ idx' occ' : k < n -> idx_ok idx -> occ_ok occ ->
  any_probe leb threshold algo records mn ix requires k record (idx, occ) t = Ok (idx', occ') -> idx_ok idx' /\ occ_ok occ'.
Proof.
  intros Lk I O. unfold any_probe. destruct (index record t) as [token|]; cbn [bind]; [|discriminate].
  destruct (match dget idx token with Some item => item | None => (0, []) end) as [pos ids] eqn:Eg.
  assert (Hids : forall id, In id ids -> fst id < n).
  { destruct (dget idx token) as [item|] eqn:Ed; [subst item; apply dget_In in Ed; apply (I _ _ _ Ed) | injection Eg as <- <-; intros id []]. }
  destruct (foldM _ (skipn _ ids) occ) as [occ1|] eqn:Ef; cbn [bind]; [|discriminate]. intros [= <- <-]. split.
  - intros t' pos' ids' Hin. apply dset_In in Hin. destruct Hin as [Hin|[= -> -> ->]]; [apply (I _ _ _ Hin)|].
    intros id Hid. destruct (negb _); [|apply Hids; exact Hid]. apply in_app_or in Hid. destruct Hid as [Hid|[<-|[]]]; [apply Hids; exact Hid | exact Lk].
  - refine (foldM_inv occ_ok _ _ _ occ occ1 O Ef). intros s x s' Os Hx E. refine (consider_ok _ _ _ _ _ _ Os _ E). apply Hids.
    rewrite <- (firstn_skipn (pos + any_advance records mn (skipn pos ids)) ids). apply in_or_app. right. exact Hx.
Qed.

Lemma candidates_ok idx k idx' occ pl requires : k < n -> idx_ok idx -> candidates leb h threshold algo records idx k = Ok (idx', occ, pl, requires) -> idx_ok idx' /\ occ_ok occ.
Proof.
  intros Lk I. unfold candidates. destruct (any_min_length h _) as [mn|]; cbn [bind]; [|discriminate]. destruct (any_probe_length h _) as [p|]; cbn [bind]; [|discriminate].
  destruct (any_index_length h _) as [ix|]; cbn [bind]; [|discriminate]. destruct (require_overlaps h _ mn) as [L|]; cbn [bind]; [|discriminate].
  match goal with |- bind ?x _ = _ -> _ => destruct x as [[idx1 occ1]|] eqn:Ef end; cbn [bind]; [|discriminate]. intros [= <- <- _ _].
  refine (foldM_inv (fun s : inverted * occurrences => idx_ok (fst s) /\ occ_ok (snd s)) _ _ _ (idx, []) (idx1, occ1) (conj I _) Ef).
  - intros [i1 o1] x [i2 o2] [Ps Po] _ E. exact (probe_ok _ _ _ _ _ _ _ _ _ _ Lk Ps Po E).
  - intros e [].
Qed.

Lemma verify_shape pl requires k record entry found : any_verify leb h records pl requires k record entry = Ok found -> found = [] \/ found = [(k, fst entry)].
Proof.
  unfold any_verify. destruct entry as [c [count|]]; [|intros [= <-]; left; reflexivity].
  destruct (zindex requires _); cbn [bind]; [|discriminate]. destruct (any_index_length h _); cbn [bind]; [|discriminate].
  destruct (zindex (record_of records c) _); cbn [bind]; [|discriminate]. destruct (zindex record _); cbn [bind]; [|discriminate].
  destruct (if ltb leb _ _ then _ else _); [intros [= <-]; left; reflexivity|]. destruct (any_compute_overlap _ _ _ _); [|intros [= <-]; left; reflexivity].
  destruct (any_reaches h _ _ _) as [[]|]; cbn [bind]; [| |discriminate]; intros [= <-]; [right | left]; reflexivity.
Qed.

(** * The pairs are yielded when found *)
Definition read_pair : nat * nat -> res (R * R) := fun '(k, c) => let! a := index data k in let! b := index data c in Ok (a, b).

Lemma read_ok k c : k < n -> c < n -> exists a b, index data k = Ok a /\ index data c = Ok b.
Proof.
  intros Lk Lc. rewrite same_length in *. unfold index. destruct (nth_error data k) as [a|] eqn:Ea; [|apply nth_error_None in Ea; lia].
  destruct (nth_error data c) as [b|] eqn:Eb; [|apply nth_error_None in Eb; lia]. exists a, b. auto.
Qed.

Lemma verify_gives pl requires k record entry : k < n -> fst entry < n ->
  match any_verify leb h records pl requires k record entry with
  | Ok found => exists c, mapM read_pair found = Ok c /\ gives (verify_prog (A := A) leb h data records pl requires k record entry) c (Ok tt)
  | Err e => gives (verify_prog (A := A) leb h data records pl requires k record entry) [] (Err e)
  end.
Proof.
  intros Lk Lc. unfold verify_prog. destruct (any_verify leb h records pl requires k record entry) as [found|e] eqn:E.
  - destruct (verify_shape _ _ _ _ _ _ E) as [ ->| ->]; [exists []; split; [reflexivity | intros W f w; reflexivity]|].
    destruct (read_ok k (fst entry) Lk Lc) as (a & b & Ea & Eb). exists [(a, b)]. cbn [mapM read_pair]. rewrite Ea, Eb. split; [reflexivity|].
    intros W f w. cbn [lift pbind for_each]. rewrite Ea, Eb. reflexivity.
  - apply gives_bind_err. apply gives_lift.
Qed.

Lemma verifies_gives pl requires k record : k < n -> forall occ, occ_ok occ ->
  match mapM (any_verify leb h records pl requires k record) occ with
  | Ok found => exists c, mapM read_pair (concat found) = Ok c /\ gives (for_each occ tt (fun _ entry => verify_prog (A := A) leb h data records pl requires k record entry)) c (Ok tt)
  | Err e => exists c, gives (for_each occ tt (fun _ entry => verify_prog (A := A) leb h data records pl requires k record entry)) c (Err e)
  end.
Proof.
  intros Lk. induction occ as [|entry occ IH]; intros O; cbn [mapM for_each]; [exists []; split; [reflexivity | intros W f w; reflexivity]|].
  pose proof (verify_gives pl requires k record entry Lk (O entry (or_introl eq_refl))) as V.
  destruct (any_verify leb h records pl requires k record entry) as [found|e]; cbn [bind]; [|exists []; apply gives_bind_err; exact V].
  destruct V as (c & Ec & G). specialize (IH (fun e He => O e (or_intror He))). destruct (mapM _ occ) as [founds|e]; cbn [bind].
  - destruct IH as (c' & Ec' & G'). exists (c ++ c'). split; [cbn [concat]; rewrite mapM_app', Ec, Ec'; reflexivity|]. eapply gives_bind; eassumption.
  - destruct IH as (c' & G'). exists (c ++ c'). eapply gives_bind; eassumption.
Qed.

(** one turn of the join, in the items of the data *)
Definition join_step (idx : inverted) (k : nat) : res (inverted * list (R * R)) :=
  let! (idx, occ, pl, requires) := candidates leb h threshold algo records idx k in
  let! found := mapM (any_verify leb h records pl requires k (record_of records k)) occ in
  let! c := mapM read_pair (concat found) in
  Ok (idx, c).

Lemma join_step_gives idx k : k < n -> idx_ok idx ->
  match join_step idx k with
  | Ok (idx', c) => idx_ok idx' /\ gives (do (idx, occ, probe_length, requires) <- lift (candidates leb h threshold algo records idx k);
      do _ <- for_each occ tt (fun _ entry => verify_prog (A := A) leb h data records probe_length requires k (record_of records k) entry); Ret idx) c (Ok idx')
  | Err e => exists c, gives (do (idx, occ, probe_length, requires) <- lift (candidates leb h threshold algo records idx k);
      do _ <- for_each occ tt (fun _ entry => verify_prog (A := A) leb h data records probe_length requires k (record_of records k) entry); Ret idx) c (Err e)
  end.
Proof.
  intros Lk I. unfold join_step. destruct (candidates leb h threshold algo records idx k) as [[[[idx' occ] pl] requires]|e] eqn:Ec; cbn [bind].
  - destruct (candidates_ok _ _ _ _ _ _ Lk I Ec) as [I' O]. pose proof (verifies_gives pl requires k (record_of records k) Lk occ O) as V.
    destruct (mapM _ occ) as [found|e]; cbn [bind].
    + destruct V as (c & -> & G). cbn [bind]. split; [exact I'|]. cbn [lift pbind]. rewrite <- (app_nil_r c). eapply gives_bind; [exact G|]. intros W f w. reflexivity.
    + destruct V as (c & G). exists c. cbn [lift pbind]. apply gives_bind_err. exact G.
  - exists []. apply gives_bind_err. apply gives_lift.
Qed.

Lemma join_positions_items : forall l idx out cs, (forall k, In k l -> k < n) -> idx_ok idx -> mapM read_pair out = Ok cs ->
  match foldM (any_join_record leb h threshold algo records) l (idx, out) with
  | Ok (idx', out') => exists cs', foldM (fun '(st, out) x => let! (st, c) := join_step st x in Ok (st, out ++ c)) l (idx, cs) = Ok (idx', cs') /\ mapM read_pair out' = Ok cs'
  | Err e => foldM (fun '(st, out) x => let! (st, c) := join_step st x in Ok (st, out ++ c)) l (idx, cs) = Err e
  end.
Proof.
  induction l as [|k l IH]; intros idx out cs Hl I E; cbn [foldM]; [exists cs; auto|].
  assert (Lk : k < n) by (apply Hl; left; reflexivity).
  assert (R1 : any_join_record leb h threshold algo records (idx, out) k =
    let! (idx, occ, pl, requires) := candidates leb h threshold algo records idx k in
    let! found := mapM (any_verify leb h records pl requires k (record_of records k)) occ in Ok (idx, out ++ concat found)).
  { unfold any_join_record, candidates. destruct (any_min_length h _) as [mn|]; cbn [bind]; [|reflexivity]. destruct (any_probe_length h _) as [p|]; cbn [bind]; [|reflexivity].
    destruct (any_index_length h _) as [ix|]; cbn [bind]; [|reflexivity]. destruct (require_overlaps h _ mn) as [L|]; cbn [bind]; [|reflexivity].
    match goal with |- bind ?x _ = _ => destruct x as [[idx1 occ1]|] end; reflexivity. }
  rewrite R1. unfold join_step at 1 3. destruct (candidates leb h threshold algo records idx k) as [[[[idx' occ] pl] requires]|e] eqn:Ec; cbn [bind]; [|reflexivity].
  destruct (candidates_ok _ _ _ _ _ _ Lk I Ec) as [I' O]. pose proof (verifies_gives pl requires k (record_of records k) Lk occ O) as V.
  destruct (mapM (any_verify _ _ _ _ _ _ _) occ) as [found|e]; cbn [bind]; [|reflexivity]. destruct V as (c & Ev & _). rewrite Ev. cbn [bind].
  apply IH; [intros k' Hk; apply Hl; right; exact Hk | exact I' | rewrite mapM_app', E, Ev; reflexivity].
Qed.

Lemma argsort_lt k : In k (argsort records) -> k < n.
Proof. unfold argsort. intros Hk. apply (Permutation_in _ (sort_by_perm _ _)) in Hk. apply in_seq in Hk. lia. Qed.

Lemma join_gives : match (let! pairs := any_join leb h threshold algo records in mapM read_pair pairs) with
  | Ok out => gives (join_prog (A := A) leb h threshold algo data records) out (Ok tt)
  | Err e => exists out, gives (join_prog (A := A) leb h threshold algo data records) out (Err e)
  end.
Proof.
  unfold any_join, join_prog.
  pose proof (join_positions_items (argsort records) [] [] [] argsort_lt (fun t pos ids K => match K with end) eq_refl) as P.
  pose proof (gives_for idx_ok _ join_step (argsort records) [] (fun t pos ids K => match K with end)
    (fun st x Pst Hx => join_step_gives st x (argsort_lt x Hx) Pst) []) as G.
  match type of P with match ?x with _ => _ end => match goal with |- context [bind (bind ?y _) _] => change y with x end; destruct x as [[idx out]|e] end; cbn [bind].
  - destruct P as (cs & Ef & Em). rewrite Ef in G. rewrite Em. destruct G as (c & -> & G). cbn [app]. rewrite <- (app_nil_r c).
    eapply gives_bind; [exact G|]. intros W f w. reflexivity.
  - rewrite P in G. destruct G as (c & G). exists c. apply gives_bind_err. exact G.
Qed.
End Join.
