(** The join yields the pairs (k, c), c coming before k by length then position, that a test on the two records accepts. *)
From Coq Require Import QArith Sorted.
From Verif Require Import Base BaseFacts PairwiseModel GraphModel SortModel SortSpec SortFacts PPJoinModel PPJoinOrderProofs.
Open Scope nat_scope.
Open Scope list_scope.

Lemma foldM_seq {S} (f : S -> nat -> res S) (P : nat -> S -> Prop) n s :
  P 0 s -> (forall j s, j < n -> P j s -> exists s', f s j = Ok s' /\ P (Datatypes.S j) s') ->
  exists s', foldM f (seq 0 n) s = Ok s' /\ P n s'.
Proof.
  intros H0 Hstep.
  assert (G : forall m a s, a + m = n -> P a s -> exists s', foldM f (seq a m) s = Ok s' /\ P n s').
  { induction m as [|m IH]; intros a s0 Ha Hs; simpl.
    - exists s0. split; [reflexivity|]. replace n with a by lia. exact Hs.
    - destruct (Hstep a s0) as (s1 & -> & H1); [lia|auto|]. rewrite bind_Ok. apply IH; [lia|auto]. }
  apply (G n 0); auto.
Qed.

Lemma foldM_prefix {S A} (f : S -> A -> res S) (P : list A -> S -> Prop) l s :
  P [] s -> (forall d a r s, l = d ++ a :: r -> P d s -> exists s', f s a = Ok s' /\ P (d ++ [a]) s') ->
  exists s', foldM f l s = Ok s' /\ P l s'.
Proof.
  intros H0 Hstep.
  assert (G : forall r d s, l = d ++ r -> P d s -> exists s', foldM f r s = Ok s' /\ P l s').
  { induction r as [|a r IH]; intros d s0 E Hs; simpl.
    - rewrite app_nil_r in E. subst d. eauto.
    - destruct (Hstep d a r s0 E Hs) as (s1 & -> & H1). rewrite bind_Ok. apply (IH (d ++ [a])); auto.
      rewrite <- app_assoc. exact E. }
  apply (G l []); auto.
Qed.

Lemma dset_same {K V} `{EqDec K} (d : dict K V) k v : dget d k = Some v -> dset d k v = d.
Proof.
  unfold dset. induction d as [|[k' v'] d IH]; simpl; [discriminate|].
  destruct (eq_dec k k'); [congruence|]. intros E. f_equal. auto.
Qed.
Lemma dmodify_dset {K V} `{EqDec K} (d : dict K V) k dflt f :
  dmodify d k dflt f = dset d k (f (match dget d k with Some v => v | None => dflt end)).
Proof.
  unfold dset. induction d as [|[k' v'] d IH]; simpl; [reflexivity|].
  destruct (eq_dec k k'); [reflexivity|]. f_equal. auto.
Qed.
Lemma dget_dset_same {K V} `{EqDec K} (d : dict K V) k v : dget (dset d k v) k = Some v.
Proof. unfold dset. rewrite dget_dmodify_same. reflexivity. Qed.
Lemma dget_dset_other {K V} `{EqDec K} (d : dict K V) k k' v : k <> k' -> dget (dset d k v) k' = dget d k'.
Proof. intros. unfold dset. apply dget_dmodify_other; auto. Qed.
Lemma dset_NoDup {K V} `{EqDec K} (d : dict K V) k v : NoDup (dkeys d) -> NoDup (dkeys (dset d k v)).
Proof. intros. unfold dset. rewrite dkeys_dmodify. apply sadd_NoDup; auto. Qed.

(** the position of a token *)
Section PosOf.
Context {T : Type} `{EqDec T}.
Fixpoint pos_of (w : T) (l : list T) : option nat :=
  match l with
  | [] => None
  | a :: l => if eq_dec w a then Some 0 else option_map S (pos_of w l)
  end.
Lemma pos_of_Some w l p : pos_of w l = Some p -> nth_error l p = Some w.
Proof.
  revert p. induction l as [|a l IH]; simpl; intros p; [discriminate|].
  destruct (eq_dec w a) as [->|]; [intros [= <-]; reflexivity|].
  destruct (pos_of w l); simpl; [|discriminate]. intros [= <-]. simpl. auto.
Qed.
Lemma pos_of_None w l : pos_of w l = None <-> ~ In w l.
Proof.
  induction l as [|a l IH]; simpl; [tauto|].
  destruct (eq_dec w a) as [->|]; [split; [discriminate|tauto]|].
  destruct (pos_of w l); simpl; split; intros Hp; try discriminate.
  - destruct IH as [_ IH]. discriminate IH. tauto.
  - destruct IH as [IH _]. specialize (IH eq_refl). intros [?|?]; [congruence|tauto].
  - reflexivity.
Qed.
Lemma pos_of_snoc_new w l : ~ In w l -> pos_of w (l ++ [w]) = Some (length l).
Proof.
  induction l as [|a l IH]; simpl; intros Hn; [destruct (eq_dec w w); congruence|].
  destruct (eq_dec w a) as [->|]; [tauto|]. rewrite IH; [reflexivity|tauto].
Qed.
Lemma pos_of_snoc_other w v l : w <> v -> pos_of w (l ++ [v]) = pos_of w l.
Proof.
  intros Hn. induction l as [|a l IH]; simpl; [destruct (eq_dec w v); congruence|].
  destruct (eq_dec w a); [reflexivity|]. rewrite IH. reflexivity.
Qed.
Lemma pos_of_unique w l p : NoDup l -> nth_error l p = Some w -> pos_of w l = Some p.
Proof.
  intros Hl Hp. destruct (pos_of w l) as [q|] eqn:E.
  - apply pos_of_Some in E. f_equal. rewrite NoDup_nth_error in Hl. apply Hl; [apply nth_error_Some; congruence|congruence].
  - apply pos_of_None in E. destruct E. eapply nth_error_In; eauto.
Qed.
Lemma pos_of_lt w l p : pos_of w l = Some p -> p < length l.
Proof. intros E. apply pos_of_Some in E. apply nth_error_Some. congruence. Qed.
End PosOf.

Lemma firstn_snoc {A} (l : list A) j a : nth_error l j = Some a -> firstn (S j) l = firstn j l ++ [a].
Proof.
  revert j. induction l as [|x l IH]; intros j E; [destruct j; discriminate|].
  destruct j; simpl in *; [congruence|]. f_equal. auto.
Qed.
Lemma nth_error_firstn_lt {A} (l : list A) n i : i < n -> nth_error (firstn n l) i = nth_error l i.
Proof.
  revert n i. induction l as [|x l IH]; intros n i Hi; [rewrite firstn_nil; reflexivity|].
  destruct n; [lia|]. destruct i; simpl; [reflexivity|]. apply IH. lia.
Qed.
Lemma skipn_plus {A} (l : list A) a b : skipn (a + b) l = skipn b (skipn a l).
Proof.
  revert a. induction l as [|x l IH]; intros a; [rewrite !skipn_nil; reflexivity|].
  destruct a; simpl; [reflexivity|]. apply IH.
Qed.

(** what is asked of the helper and of the threshold *)
Record helper_bounds (h : helper) (threshold : Q) : Prop := {
  hb_index : forall l, 1 <= l -> 1 <= index_length h l;
  hb_probe : forall l, 1 <= l -> index_length h l <= probe_length h l;
  hb_length : forall l, 1 <= l -> probe_length h l <= l;
  hb_flag : forall l, 1 <= l -> Qle_bool (qn (index_length h l)) threshold = false;
  hb_mono : forall l l', l <= l' -> min_possible_length h l <= min_possible_length h l'
}.

Section Join.
Context {T : Type} `{EqDec T}.
Variable leb : T -> T -> bool.
Hypothesis order : total_preorder leb.
Hypothesis antisym : forall a b, leb a b = true -> leb b a = true -> a = b.
Variable h : helper.
Variable threshold : Q.
Hypothesis bounds : helper_bounds h threshold.
Variable algo : algorithm.
Variable records : list (list T).
Hypothesis Hinc : forall r, In r records -> increasing leb r.
Hypothesis Hne : forall r, In r records -> r <> [].
Notation rec := (record_of records).
Notation ltb := (ltb leb).

(** one candidate, as a function of the two records *)
Definition pruned_by_suffix (x y : list T) (t p : nat) (v : Z) (r : nat) : res bool :=
  match algo with
  | PPJoinPlus =>
    let hamming_distance := (Z.of_nat (length y) + Z.of_nat (length x) - 2 * Z.of_nat r + 2 * v - (Z.of_nat p + Z.of_nat t))%Z in
    if (0 <=? hamming_distance)%Z then
      let! sf := suffix_filter leb MAX_DEPTH y x (Z.of_nat p) (Z.of_nat (length y)) (Z.of_nat t) (Z.of_nat (length x)) hamming_distance in
      Ok (hamming_distance <? sf)%Z
    else Ok false
  | _ => Ok false
  end.
Definition step (x y : list T) (t p : nat) (value : option (option nat)) : res (option (option nat)) :=
  match algo with
  | AllPairs => Ok (Some (match value with Some v => option_map (fun n => n + 1) v | None => Some 1 end))
  | _ =>
    let r := required h (length x) (length y) in
    match value with
    | Some None => Ok (Some None)
    | Some (Some v) =>
      let! pruned := pruned_by_suffix x y t p (Z.of_nat v) r in
      Ok (Some (if pruned then None
        else if negb (Qle_bool (qn r) (qn v + (qn (length x) - threshold))) || Nat.ltb (v + (length y - p)) r then None
        else Some (v + 1)))
    | None =>
      let! pruned := pruned_by_suffix x y t p 0 r in
      Ok (if pruned then None
        else if negb (Qle_bool (qn r) (qn (length x) - threshold)) || Nat.ltb (length y - p) r then None
        else Some (Some 1))
    end
  end.

Lemma consider_step x t occ c p :
  consider leb h threshold algo records x t occ (c, p) =
  let! v := step x (rec c) t p (dget occ c) in
  Ok (match v with Some v => dset occ c v | None => occ end).
Proof.
  unfold consider, step, filtered, pruned_by_suffix. cbn [fst snd]. destruct algo.
  - rewrite bind_Ok, dmodify_dset. do 2 f_equal. destruct (dget occ c) as [[n|]|]; reflexivity.
  - destruct (dget occ c) as [[n|]|] eqn:E; rewrite ?bind_Ok.
    + match goal with |- context [if ?b then _ else _] => destruct b end; reflexivity.
    + rewrite dset_same; auto.
    + match goal with |- context [if ?b then _ else _] => destruct b end; reflexivity.
  - destruct (dget occ c) as [[n|]|] eqn:E.
    + match goal with |- context [bind ?u _] => destruct u as [[|]|] end; try reflexivity. rewrite !bind_Ok.
      match goal with |- context [if ?b then _ else _] => destruct b end; reflexivity.
    + rewrite bind_Ok, dset_same; auto.
    + match goal with |- context [bind ?u _] => destruct u as [[|]|] end; try reflexivity. rewrite !bind_Ok.
      match goal with |- context [if ?b then _ else _] => destruct b end; reflexivity.
Qed.

Lemma pruned_ok x y t p v r : increasing leb x -> increasing leb y -> t <= length x -> p <= length y ->
  exists b, pruned_by_suffix x y t p v r = Ok b.
Proof.
  intros Hx Hy Ht Hp. unfold pruned_by_suffix. destruct algo; eauto.
  match goal with |- context [(0 <=? ?u)%Z] => destruct (0 <=? u)%Z eqn:E; [|eauto]; set (hd := u) in * end.
  apply Z.leb_le in E.
  destruct (suffix_filter_spec leb order antisym MAX_DEPTH y x (Z.of_nat p) (Z.of_nat (length y)) (Z.of_nat t) (Z.of_nat (length x)) hd)
    as (n & -> & _); auto; try lia.
  - exists (Z.of_nat (length x) - Z.of_nat r + v - Z.of_nat t)%Z. unfold hd. lia.
  - rewrite bind_Ok. eauto.
Qed.
Lemma step_ok x y t p v : increasing leb x -> increasing leb y -> t <= length x -> p <= length y -> exists v', step x y t p v = Ok v'.
Proof.
  intros Hx Hy Ht Hp. unfold step. destruct algo; [eauto| |]; destruct v as [[n|]|]; eauto.
  all: edestruct pruned_ok as [b ->]; eauto; rewrite bind_Ok; eauto.
Qed.
Definition step_val x y t p v : option (option nat) := match step x y t p v with Ok v' => v' | Err _ => None end.
Lemma step_Some x y t p v v' : step x y t p (Some v) = Ok v' -> v' <> None.
Proof.
  unfold step. destruct algo; [intros [= <-]; discriminate| |]; destruct v as [n|]; try (intros [= <-]; discriminate).
  all: destruct (pruned_by_suffix _ _ _ _ _ _); simpl; intros [= <-]; discriminate.
Qed.

(** the candidates met by one token *)
Lemma foldM_consider x t L occ : increasing leb x -> t <= length x ->
  (forall c p, In (c, p) L -> increasing leb (rec c) /\ p <= length (rec c)) ->
  NoDup (map fst L) -> NoDup (dkeys occ) ->
  exists occ', foldM (consider leb h threshold algo records x t) L occ = Ok occ' /\ NoDup (dkeys occ') /\
    (forall c p, In (c, p) L -> dget occ' c = step_val x (rec c) t p (dget occ c)) /\
    (forall c, ~ In c (map fst L) -> dget occ' c = dget occ c).
Proof.
  intros Hx Ht. revert occ. induction L as [|[c p] L IH]; intros occ HL Hnd Hocc.
  - exists occ. simpl. split; [reflexivity|]. split; [auto|]. split; [tauto|auto].
  - cbn [foldM]. rewrite consider_step. simpl in Hnd. apply NoDup_cons_iff in Hnd as [Hc Hnd].
    destruct (HL c p (or_introl eq_refl)) as [Hy Hp].
    destruct (step_ok x (rec c) t p (dget occ c) Hx Hy Ht Hp) as [v Hv]. rewrite Hv, !bind_Ok.
    set (occ1 := match v with Some v => dset occ c v | None => occ end).
    assert (N1 : NoDup (dkeys occ1)) by (unfold occ1; destruct v; [apply dset_NoDup|]; exact Hocc).
    assert (G1 : dget occ1 c = v).
    { unfold occ1. destruct v as [v|]; [apply dget_dset_same|].
      destruct (dget occ c) as [u|] eqn:E; [|auto]. destruct (step_Some _ _ _ _ _ _ Hv). reflexivity. }
    assert (G2 : forall c', c <> c' -> dget occ1 c' = dget occ c').
    { intros c' Hcc. unfold occ1. destruct v; [apply dget_dset_other; auto|auto]. }
    destruct (IH occ1) as (occ' & E & N & A & B); auto; [intros; apply HL; right; auto|].
    exists occ'. split; [exact E|]. split; [exact N|]. split.
    + intros c' p' [[= -> ->]|Hin].
      * rewrite B by exact Hc. unfold step_val. rewrite Hv. exact G1.
      * rewrite (A c' p' Hin). f_equal. apply G2. intros ->. apply Hc. apply in_map_iff. exists (c', p'). auto.
    + intros c' Hn. simpl in Hn. rewrite B by tauto. apply G2. intros ->. tauto.
Qed.

(** the common tokens of two prefixes, with their positions *)
Definition events_upto (j : nat) (x y : list T) : list (nat * nat) :=
  flat_map (fun t => match nth_error x t with
    | Some w => match pos_of w (firstn (probe_length h (length y)) y) with Some p => [(t, p)] | None => [] end
    | None => []
    end) (seq 0 j).
Definition value_upto (j : nat) (x y : list T) : option (option nat) :=
  fold_left (fun v '(t, p) => step_val x y t p v) (events_upto j x y) None.
Lemma events_upto_S j x y : events_upto (S j) x y = events_upto j x y ++
  match nth_error x j with
  | Some w => match pos_of w (firstn (probe_length h (length y)) y) with Some p => [(j, p)] | None => [] end
  | None => []
  end.
Proof. unfold events_upto. rewrite seq_S, flat_map_app. simpl. rewrite app_nil_r. reflexivity. Qed.

(** the index *)
Definition entry (w : T) (k : nat) : list (nat * nat) :=
  match pos_of w (firstn (probe_length h (length (rec k))) (rec k)) with Some t => [(k, t)] | None => [] end.
Definition entries (done : list nat) (w : T) : list (nat * nat) := flat_map (entry w) done.
Definition own (k j : nat) (w : T) : list (nat * nat) :=
  match pos_of w (firstn j (rec k)) with Some t => [(k, t)] | None => [] end.

Lemma entries_In done w k t : In (k, t) (entries done w) <->
  In k done /\ pos_of w (firstn (probe_length h (length (rec k))) (rec k)) = Some t.
Proof.
  unfold entries. rewrite in_flat_map. unfold entry. split.
  - intros (k' & Hk & Hin). destruct (pos_of w _) eqn:E; [|destruct Hin]. destruct Hin as [[= -> ->]|[]]. auto.
  - intros [Hk E]. exists k. split; [auto|]. rewrite E. left. reflexivity.
Qed.
Lemma entries_fst done w k : In k (map fst (entries done w)) -> In k done.
Proof. rewrite in_map_iff. intros ([k' t] & <- & Hin). apply entries_In in Hin as [Hin _]. exact Hin. Qed.
Lemma entries_NoDup done w : NoDup done -> NoDup (map fst (entries done w)).
Proof.
  induction done as [|k d IH]; intros Hd; simpl; [constructor|]. apply NoDup_cons_iff in Hd as [Hk Hd].
  rewrite map_app. apply NoDup_app_iff. split; [|split; auto].
  - unfold entry. destruct (pos_of w _); simpl; repeat constructor. intros [].
  - intros a Ha Hb. apply entries_fst in Hb. unfold entry in Ha. destruct (pos_of w _); simpl in Ha; [|destruct Ha].
    destruct Ha as [<-|[]]. auto.
Qed.
Lemma entries_sorted done w : StronglySorted (fun a b => length (rec a) <= length (rec b)) done ->
  StronglySorted (fun a b => length (rec (fst a)) <= length (rec (fst b))) (entries done w).
Proof.
  induction 1 as [|k d Hd IH Hk]; simpl; [constructor|]. unfold entry at 1. destruct (pos_of w _); simpl; [|exact IH].
  constructor; [exact IH|]. apply Forall_forall. intros [k' t'] Hin. apply entries_In in Hin as [Hin _].
  rewrite Forall_forall in Hk. simpl. auto.
Qed.

Lemma advance_filter m L : StronglySorted (fun a b => length (rec (fst a)) <= length (rec (fst b))) L ->
  skipn (advance records m L) L = filter (fun id => Nat.leb m (length (rec (fst id)))) L.
Proof.
  induction 1 as [|a L HL IH Ha]; simpl; [reflexivity|].
  destruct (Nat.ltb (length (rec (fst a))) m) eqn:E.
  - replace (Nat.leb m (length (rec (fst a)))) with false by lia. exact IH.
  - replace (Nat.leb m (length (rec (fst a)))) with true by lia. simpl. f_equal. symmetry. apply filter_all.
    intros b Hb. rewrite Forall_forall in Ha. specialize (Ha b Hb). lia.
Qed.
Lemma advance_firstn m L : forall id, In id (firstn (advance records m L) L) -> length (rec (fst id)) < m.
Proof.
  induction L as [|a L IH]; simpl; [tauto|]. destruct (Nat.ltb (length (rec (fst a))) m) eqn:E; simpl; [|tauto].
  intros id [<-|Hin]; [lia|auto].
Qed.
Lemma firstn_plus {A} (l : list A) a b : firstn (a + b) l = firstn a l ++ firstn b (skipn a l).
Proof.
  revert a. induction l as [|x l IH]; intros a; [rewrite skipn_nil, !firstn_nil; reflexivity|].
  destruct a; simpl; [reflexivity|]. f_equal. apply IH.
Qed.
Lemma sorted_skipn {A} (R : A -> A -> Prop) n l : StronglySorted R l -> StronglySorted R (skipn n l).
Proof.
  intros Hl. revert n. induction Hl; intros n; [rewrite skipn_nil; constructor|].
  destruct n; simpl; [constructor; auto|auto].
Qed.
Lemma sorted_app_l {A} (R : A -> A -> Prop) l l' : StronglySorted R (l ++ l') -> StronglySorted R l.
Proof.
  induction l as [|x l IH]; simpl; intros Hs; [constructor|]. inversion Hs as [|? ? Hs' Hx]; subst.
  constructor; [auto|]. apply Forall_app in Hx. tauto.
Qed.
Lemma sorted_app_cross {A} (R : A -> A -> Prop) l l' a b : StronglySorted R (l ++ l') -> In a l -> In b l' -> R a b.
Proof.
  induction l as [|x l IH]; simpl; intros Hs Ha Hb; [destruct Ha|]. inversion Hs as [|? ? Hs' Hx]; subst.
  rewrite Forall_forall in Hx. destruct Ha as [<-|Ha]; [apply Hx; apply in_app_iff; auto|auto].
Qed.

Definition index_ok (done : list nat) (ownw : T -> list (nat * nat)) (m : nat) (idx : inverted) : Prop :=
  forall w : T, match dget idx w with
  | None => entries done w ++ ownw w = []
  | Some (pos, ids) => ids = entries done w ++ ownw w /\ pos <= length ids /\ forall id, In id (firstn pos ids) -> length (rec (fst id)) < m
  end.

Definition occ_ok (done : list nat) (x : list T) (j : nat) (occ : occurrences) : Prop :=
  NoDup (dkeys occ) /\ forall c, dget occ c =
    if memb c done && Nat.leb (min_possible_length h (length x)) (length (rec c)) then value_upto j x (rec c) else None.

Lemma probe_step done k j idx occ :
  NoDup done -> ~ In k done -> StronglySorted (fun a b => length (rec a) <= length (rec b)) (done ++ [k]) ->
  (forall c, In c (k :: done) -> In (rec c) records) ->
  j < probe_length h (length (rec k)) ->
  index_ok done (own k j) (min_possible_length h (length (rec k))) idx -> occ_ok done (rec k) j occ ->
  exists idx' occ', probe leb h threshold algo records k (rec k) (idx, occ) j = Ok (idx', occ') /\
    index_ok done (own k (S j)) (min_possible_length h (length (rec k))) idx' /\ occ_ok done (rec k) (S j) occ'.
Proof.
  intros Hnd Hk Hsort Hrec Hj Hidx [Hocc Hval]. set (x := rec k) in *.
  assert (Hx : increasing leb x) by (apply Hinc; apply Hrec; left; auto).
  assert (Hl : 1 <= length x).
  { assert (x <> []) by (apply Hne, Hrec; left; auto). destruct x; simpl; [congruence|lia]. }
  pose proof (hb_length h threshold bounds (length x) Hl) as Hpl.
  unfold probe. destruct (nth_error x j) as [w|] eqn:Ew; [|apply nth_error_None in Ew; lia].
  unfold index. rewrite Ew, bind_Ok.
  set (item := match dget idx w with Some i => i | None => (0, []) end).
  assert (Hown : own k j w = []).
  { unfold own. fold x. destruct (pos_of w (firstn j x)) as [t|] eqn:E; [exfalso|reflexivity].
    pose proof (pos_of_lt _ _ _ E) as Hlt. apply pos_of_Some in E. rewrite firstn_length in Hlt.
    rewrite nth_error_firstn_lt in E by lia. pose proof (increasing_eq leb order antisym _ _ _ _ Hx E Ew). lia. }
  assert (Hitem : snd item = entries done w /\ fst item <= length (snd item) /\ forall id, In id (firstn (fst item) (snd item)) -> length (rec (fst id)) < min_possible_length h (length x)).
  { unfold item. specialize (Hidx w). destruct (dget idx w) as [[pos ids]|]; simpl.
    - destruct Hidx as [-> Hf]. rewrite Hown, app_nil_r in *. auto.
    - apply app_eq_nil in Hidx as [-> _]. split; [reflexivity|]. split; [simpl; lia|]. intros id []. }
  destruct item as [pos ids]. simpl in Hitem. destruct Hitem as [-> [Hple Hpos]].
  set (m := min_possible_length h (length x)) in *.
  assert (Hes : StronglySorted (fun a b => length (rec (fst a)) <= length (rec (fst b))) (entries done w))
    by (apply entries_sorted; eapply sorted_app_l; exact Hsort).
  set (L := filter (fun id => Nat.leb m (length (rec (fst id)))) (entries done w)).
  assert (HL : skipn (pos + advance records m (skipn pos (entries done w))) (entries done w) = L).
  { rewrite skipn_plus, advance_filter by (apply sorted_skipn; exact Hes). unfold L.
    rewrite <- (firstn_skipn pos (entries done w)) at 2. rewrite filter_app, (filter_none _ (firstn pos (entries done w))); [reflexivity|].
    intros id Hid. specialize (Hpos id Hid). lia. }
  cbv zeta. rewrite HL.
  assert (HLin : forall c p, In (c, p) L <-> (In c done /\ pos_of w (firstn (probe_length h (length (rec c))) (rec c)) = Some p) /\ m <= length (rec c)).
  { intros c p. unfold L. rewrite filter_In, entries_In. simpl. rewrite Nat.leb_le. tauto. }
  destruct (foldM_consider x j L occ) as (occ' & -> & N & A & B); auto; [lia| | |].
  { intros c p Hin. apply HLin in Hin as [[Hin Hp] _]. split; [apply Hinc, Hrec; right; auto|].
    apply pos_of_lt in Hp. rewrite firstn_length in Hp. lia. }
  { unfold L. pose proof (entries_NoDup done w Hnd) as N. clear - N. induction (entries done w) as [|a l IH]; simpl; [constructor|].
    simpl in N. apply NoDup_cons_iff in N as [Na N]. destruct (Nat.leb _ _); simpl; auto. constructor; auto.
    intros Hin. apply Na. apply in_map_iff in Hin as (b & <- & Hb). apply filter_In in Hb as [Hb _]. apply in_map. exact Hb. }
  rewrite bind_Ok. rewrite (hb_flag h threshold bounds _ Hl). cbn [negb].
  assert (Hle : forall l : list (nat * nat), advance records m l <= length l).
  { clear. induction l as [|b l IH]; simpl; [lia|]. destruct (Nat.ltb _ _); lia. }
  eexists. eexists. split; [reflexivity|]. split.
  - intros v. destruct (eq_dec w v) as [<-|Hwv].
    + rewrite dget_dset_same. split.
      * f_equal. unfold own. fold x. rewrite (firstn_snoc _ _ _ Ew), pos_of_snoc_new.
        -- rewrite firstn_length. f_equal. f_equal. lia.
        -- unfold own in Hown. fold x in Hown. apply pos_of_None. destruct (pos_of w (firstn j x)); [discriminate|reflexivity].
      * specialize (Hle (skipn pos (entries done w))). rewrite skipn_length in Hle. split; [rewrite app_length; lia|].
        intros id Hid. rewrite firstn_app in Hid. apply in_app_iff in Hid as [Hid|Hid].
        -- rewrite firstn_plus in Hid. apply in_app_iff in Hid as [Hid|Hid]; [auto|]. eapply advance_firstn; exact Hid.
        -- replace (_ - _) with 0 in Hid by lia. destruct Hid.
    + rewrite dget_dset_other by auto. specialize (Hidx v). replace (own k (S j) v) with (own k j v); [exact Hidx|].
      unfold own. fold x. rewrite (firstn_snoc _ _ _ Ew), pos_of_snoc_other by congruence. reflexivity.
  - split; [exact N|]. intros c. unfold value_upto. rewrite events_upto_S, Ew, fold_left_app. fold (value_upto j x (rec c)).
    destruct (memb_In c done) as [Hc|Hc]; simpl.
    + fold m. destruct (Nat.leb m (length (rec c))) eqn:Em; simpl.
      * apply Nat.leb_le in Em. specialize (Hval c). destruct (memb_In c done) as [_|]; [|tauto]. simpl in Hval.
        fold m in Hval. replace (Nat.leb m (length (rec c))) with true in Hval by lia.
        destruct (pos_of w (firstn (probe_length h (length (rec c))) (rec c))) as [p|] eqn:E; simpl.
        -- rewrite (A c p) by (apply HLin; auto). rewrite Hval. reflexivity.
        -- rewrite B; [exact Hval|]. rewrite in_map_iff. intros ([c' p] & <- & Hin). apply HLin in Hin as [[_ Hin] _]. simpl in E. congruence.
      * rewrite B; [|rewrite in_map_iff; intros ([c' p] & <- & Hin); apply HLin in Hin as [_ Hin]; simpl in Em; lia].
        rewrite Hval. destruct (memb c done); simpl; [|reflexivity]. fold m. rewrite Em. reflexivity.
    + rewrite B; [|rewrite in_map_iff; intros ([c' p] & <- & Hin); apply HLin in Hin as [[Hin _] _]; simpl in Hc; tauto].
      rewrite Hval. destruct (memb_In c done); [tauto|reflexivity].
Qed.

(** what the whole join does with two records *)
Definition value (x y : list T) : option (option nat) := value_upto (probe_length h (length x)) x y.
Definition skipped (x y : list T) (count : nat) : bool :=
  let r := required h (length x) (length y) in
  let il := index_length h (length y) in
  let pl := probe_length h (length x) in
  match nth_error y (il - 1), nth_error x (pl - 1) with
  | Some b, Some a => if ltb b a then Nat.ltb (count + length y) (r + il) else Nat.ltb (count + length x) (r + pl)
  | _, _ => false
  end.
Definition kept (x y : list T) (count : nat) : bool :=
  negb (skipped x y count) &&
  match compute_overlap leb x y (required h (length x) (length y)) with
  | Some o => reaches h (length x) (length y) o
  | None => false
  end.
Definition accepted (x y : list T) : bool :=
  Nat.leb (min_possible_length h (length x)) (length y) &&
  match value x y with Some (Some count) => kept x y count | _ => false end.

Lemma verify_kept k c v : In (rec k) records -> In (rec c) records ->
  verify leb h records k (rec k) (c, v) =
  Ok (if match v with Some n => kept (rec k) (rec c) n | None => false end then [(k, c)] else []).
Proof.
  intros Hk Hc. unfold verify. destruct v as [n|]; [|reflexivity].
  assert (N : forall r, In r records -> 1 <= length r).
  { intros r Hr. specialize (Hne r Hr). destruct r; simpl; [congruence|lia]. }
  pose proof (N _ Hk) as Lk. pose proof (N _ Hc) as Lc.
  pose proof (hb_index h threshold bounds _ Lk). pose proof (hb_probe h threshold bounds _ Lk). pose proof (hb_length h threshold bounds _ Lk).
  pose proof (hb_index h threshold bounds _ Lc). pose proof (hb_probe h threshold bounds _ Lc). pose proof (hb_length h threshold bounds _ Lc).
  unfold kept, skipped, index.
  destruct (nth_error (rec c) (index_length h (length (rec c)) - 1)) as [b|] eqn:E1; [|apply nth_error_None in E1; lia].
  destruct (nth_error (rec k) (probe_length h (length (rec k)) - 1)) as [a|] eqn:E2; [|apply nth_error_None in E2; lia].
  rewrite !bind_Ok.
  match goal with |- context [if ?u then Ok [] else _] => destruct u end; [reflexivity|]. cbn [negb andb].
  destruct (compute_overlap leb (rec k) (rec c) _); [|reflexivity]. destruct (reaches h _ _ _); reflexivity.
Qed.

Lemma mapM_total {A B} (f : A -> res B) (g : A -> B) l : (forall a, In a l -> f a = Ok (g a)) -> mapM f l = Ok (map g l).
Proof.
  induction l as [|a l IH]; intros Hf; simpl; [reflexivity|].
  rewrite Hf by (left; auto). rewrite bind_Ok, IH by (intros; apply Hf; right; auto). reflexivity.
Qed.

(** the order in which the records are treated *)
Definition before (c k : nat) : Prop := length (rec c) < length (rec k) \/ (length (rec c) = length (rec k) /\ c < k).

Lemma argsort_sorted : StronglySorted before (argsort records).
Proof.
  unfold argsort. set (le := fun i j => Nat.leb (length (rec i)) (length (rec j))).
  assert (G : forall n a, StronglySorted before (sort_by le (seq a n)) /\ forall i, In i (sort_by le (seq a n)) -> a <= i).
  { induction n as [|n IH]; intros a; simpl; [split; [constructor|intros i []]|].
    destruct (IH (S a)) as [Hs Hi]. clear IH. set (L := sort_by le (seq (S a) n)) in *. clearbody L.
    split.
    - induction Hs as [|b L Hs IH Hb]; simpl; [repeat constructor|].
      destruct (le a b) eqn:E; unfold le in E.
      + apply Nat.leb_le in E. constructor; [constructor; auto|]. constructor.
        * specialize (Hi b (or_introl eq_refl)). unfold before. lia.
        * rewrite Forall_forall in *. intros c Hc. specialize (Hb c Hc). specialize (Hi c (or_intror Hc)). unfold before in *. lia.
      + apply Nat.leb_gt in E. constructor; [apply IH; intros; apply Hi; right; auto|].
        apply Forall_forall. intros c Hc. rewrite Forall_forall in Hb.
        apply (Permutation_in c (insert_by_perm le a L)) in Hc as [<-|Hc]; [unfold before; lia|auto].
    - intros i Hin. apply (Permutation_in i (insert_by_perm le a L)) in Hin as [<-|Hin]; [lia|]. specialize (Hi i Hin). lia. }
  apply G.
Qed.
Lemma argsort_In c : In c (argsort records) <-> c < length records.
Proof. unfold argsort. rewrite sort_by_In, in_seq. lia. Qed.
Lemma argsort_NoDup : NoDup (argsort records).
Proof. unfold argsort. eapply Permutation_NoDup; [symmetry; apply sort_by_perm|]. apply seq_NoDup. Qed.
Lemma argsort_before d k r c : argsort records = d ++ k :: r -> (In c d <-> c < length records /\ before c k).
Proof.
  intros E. pose proof argsort_sorted as Hs. pose proof (argsort_In c) as Hc. rewrite E in Hs, Hc.
  rewrite in_app_iff in Hc. simpl in Hc. split.
  - intros Hin. split; [tauto|]. eapply sorted_app_cross; [exact Hs|exact Hin|left; auto].
  - intros [Hlt Hb]. destruct (proj2 Hc Hlt) as [Hin|[->|Hin]]; [auto|unfold before in Hb; lia|].
    assert (before k c); [|unfold before in *; lia].
    assert (Hs' : StronglySorted before (k :: r)) by (clear - Hs; induction d; [auto|]; inversion Hs; subst; auto).
    inversion Hs' as [|? ? _ Hf]; subst. rewrite Forall_forall in Hf. auto.
Qed.
Lemma rec_In c : c < length records -> In (rec c) records.
Proof. intros Hc. unfold record_of. apply nth_In. exact Hc. Qed.

Definition state_ok (done : list nat) (rest : list nat) (s : inverted * list (nat * nat)) : Prop :=
  (exists l, (forall k, In k rest -> l <= length (rec k)) /\ index_ok done (fun _ => []) (min_possible_length h l) (fst s)) /\
  NoDup (snd s) /\
  forall k c, In (k, c) (snd s) <-> In k done /\ c < length records /\ before c k /\ accepted (rec k) (rec c) = true.

Lemma join_record_ok d k r s : argsort records = d ++ k :: r -> state_ok d (k :: r) s ->
  exists s', join_record leb h threshold algo records s k = Ok s' /\ state_ok (d ++ [k]) r s'.
Proof.
  destruct s as [idx out]. intros E ((l & Hl & Hidx) & Hnd & Hout). simpl in *.
  pose proof argsort_NoDup as Nd. pose proof argsort_sorted as Hs. rewrite E in Nd, Hs.
  assert (Hin : forall c, In c (d ++ k :: r) -> c < length records) by (intros c; rewrite <- E; apply argsort_In).
  apply NoDup_app_iff in Nd as (Nd & Nkr & Hdis). apply NoDup_cons_iff in Nkr as [Hkr Nr].
  assert (Hkd : ~ In k d) by (intros Hk; apply (Hdis k Hk); left; auto).
  assert (Hsort : StronglySorted (fun a b => length (rec a) <= length (rec b)) (d ++ [k])).
  { replace (d ++ k :: r) with ((d ++ [k]) ++ r) in Hs by (rewrite <- app_assoc; reflexivity). apply sorted_app_l in Hs.
    clear - Hs. induction Hs as [|a L HL IH Ha]; constructor; auto. eapply Forall_impl; [|exact Ha]. intros b. unfold before. lia. }
  assert (Hrec : forall c, In c (k :: d) -> In (rec c) records).
  { intros c [<-|Hc]; apply rec_In, Hin; apply in_app_iff; simpl; auto. }
  unfold join_record.
  destruct (foldM_seq (probe leb h threshold algo records k (rec k))
    (fun j st => index_ok d (own k j) (min_possible_length h (length (rec k))) (fst st) /\ occ_ok d (rec k) j (snd st))
    (probe_length h (length (rec k))) (idx, [])) as ([idx' occ] & -> & Hidx' & Hocc).
  { simpl. split.
    - intros w. specialize (Hidx w). destruct (dget idx w) as [[pos ids]|]; [|exact Hidx].
      destruct Hidx as (-> & H1 & H2). split; [reflexivity|]. split; [exact H1|]. intros id Hid. specialize (H2 id Hid).
      pose proof (hb_mono h threshold bounds l (length (rec k)) (Hl k (or_introl eq_refl))). unfold own in *. simpl in *. lia.
    - split; [constructor|]. intros c. simpl. destruct (_ && _); reflexivity. }
  { intros j [idx1 occ1] Hj [H1 H2]. destruct (probe_step d k j idx1 occ1) as (idx2 & occ2 & -> & H3); auto. exists (idx2, occ2). auto. }
  simpl in Hidx', Hocc. rewrite bind_Ok.
  set (g := fun cv : nat * option nat => if match snd cv with Some n => kept (rec k) (rec (fst cv)) n | None => false end then [(k, fst cv)] else []).
  destruct Hocc as [Nocc Hocc].
  assert (Hkeys : forall c v, In (c, v) occ -> In c d /\ min_possible_length h (length (rec k)) <= length (rec c) /\ value (rec k) (rec c) = Some v).
  { intros c v Hcv. apply (In_dget occ c v Nocc) in Hcv. rewrite Hocc in Hcv. destruct (memb_In c d) as [Hc|]; [|discriminate].
    simpl in Hcv. destruct (Nat.leb _ _) eqn:Em in Hcv; [|discriminate]. apply Nat.leb_le in Em. auto. }
  rewrite (mapM_total _ g).
  2:{ intros [c v] Hcv. apply verify_kept; apply Hrec; [left; auto|right]. apply Hkeys in Hcv. tauto. }
  rewrite bind_Ok. eexists. split; [reflexivity|].
  assert (Hnew : forall a b, In (a, b) (concat (map g occ)) <-> a = k /\ In b d /\ accepted (rec k) (rec b) = true).
  { intros a b. rewrite <- flat_map_concat_map, in_flat_map. split.
    - intros ([c v] & Hcv & Hg). unfold g in Hg. simpl in Hg. destruct v as [n|]; [|destruct Hg].
      destruct (kept (rec k) (rec c) n) eqn:Ek; [|destruct Hg]. destruct Hg as [[= <- <-]|[]].
      apply Hkeys in Hcv as (Hc & Hm & Hv). split; [auto|]. split; [auto|]. unfold accepted. rewrite Hv, Ek.
      rewrite (proj2 (Nat.leb_le _ _) Hm). reflexivity.
    - intros (-> & Hb & Ha). unfold accepted in Ha. apply andb_true_iff in Ha as [Hm Ha].
      destruct (value (rec k) (rec b)) as [[n|]|] eqn:Ev; try discriminate.
      exists (b, Some n). split.
      + apply dget_Some_In. rewrite Hocc. destruct (memb_In b d); [|tauto]. rewrite Hm. exact Ev.
      + unfold g. simpl. rewrite Ha. left. reflexivity. }
  split; [|split].
  - simpl. exists (length (rec k)). split.
    + intros k' Hk'. assert (before k k').
      { assert (Hs' : StronglySorted before (k :: r)) by (clear - Hs; induction d; [auto|]; inversion Hs; subst; auto).
        inversion Hs' as [|? ? _ Hf]; subst. rewrite Forall_forall in Hf. auto. }
      unfold before in *. lia.
    + intros w. specialize (Hidx' w). unfold entries. rewrite flat_map_app. fold (entries d w). simpl. rewrite !app_nil_r. exact Hidx'.
  - simpl. apply NoDup_app_iff. split; [auto|]. split.
    + assert (G : NoDup (map snd (concat (map g occ)))).
      { clear - Nocc. induction occ as [|[c v] o IH]; simpl; [constructor|]. simpl in Nocc. apply NoDup_cons_iff in Nocc as [Nc No].
        rewrite map_app. apply NoDup_app_iff. split; [|split; [auto|]].
        - unfold g. simpl. destruct (match v with Some n => _ | None => _ end); simpl; repeat constructor. intros [].
        - intros b Hb Hb'. assert (b = c) as ->.
          { unfold g in Hb. simpl in Hb. destruct (match v with Some n => _ | None => _ end); simpl in Hb; [|destruct Hb].
            destruct Hb as [<-|[]]. reflexivity. }
          apply Nc. apply in_map_iff in Hb' as ([k' c'] & <- & Hb'). rewrite <- flat_map_concat_map, in_flat_map in Hb'.
          destruct Hb' as ([c'' v'] & Hin & Hg). unfold g in Hg. simpl in Hg.
          destruct (match v' with Some n => _ | None => _ end); [|destruct Hg]. destruct Hg as [[= _ <-]|[]].
          apply in_map_iff. exists (c'', v'). auto. }
      eapply NoDup_map_inv. exact G.
    + intros [a b] Ha Hb. apply Hnew in Hb as (-> & _). apply Hout in Ha as (Ha & _). tauto.
  - simpl. intros a b. rewrite in_app_iff, Hnew, Hout, in_app_iff. simpl.
    rewrite (argsort_before d k r b E). split.
    + intros [(H1 & H2)|(-> & H1 & H2)]; [tauto|]. tauto.
    + intros ([H1|[<-|[]]] & H2); [tauto|right]. tauto.
Qed.

Theorem join_ok : exists out, join leb h threshold algo records = Ok out /\ NoDup out /\
  forall k c, In (k, c) out <-> k < length records /\ c < length records /\ before c k /\ accepted (rec k) (rec c) = true.
Proof.
  unfold join.
  destruct (foldM_prefix (join_record leb h threshold algo records)
    (fun d s => forall r, argsort records = d ++ r -> state_ok d r s) (argsort records) ([], []))
    as ([idx out] & -> & Hs).
  - intros r Hr. split; [exists 0; split; [lia|]; intros w; reflexivity|]. simpl. split; [constructor|]. intros k c. tauto.
  - intros d k r s E Hs. destruct (join_record_ok d k r s E (Hs _ E)) as (s' & -> & Hs'). exists s'. split; [reflexivity|].
    intros r' Hr'. rewrite E in Hr'. replace (d ++ k :: r) with ((d ++ [k]) ++ r) in Hr' by (rewrite <- app_assoc; reflexivity).
    apply app_inv_head in Hr'. subst r'. exact Hs'.
  - specialize (Hs []). rewrite app_nil_r in Hs. destruct (Hs eq_refl) as (_ & Hnd & Hout). simpl in *.
    exists out. split; [reflexivity|]. split; [exact Hnd|]. intros k c. rewrite Hout, argsort_In. tauto.
Qed.
End Join.
