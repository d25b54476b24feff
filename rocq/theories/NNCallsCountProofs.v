(** Proofs about the number of calls of the similarity by nn_descent. *)
From Coq Require Import QArith Qround String Permutation Lia.
From Verif Require Import Base BaseFacts ClustersModel PairwiseModel PairwiseProofs LevModel GraphModel NNDescentModel NNDescentSpec
  NNDescentLocalSpec NNDescentProofs NNDescentLocalProofs CallsModel CallsSpec CallsProofs BlockingSpec BlockingProofs
  NNCallsModel NNCallsSpec NNCallsProofs NNCallsEndProofs.
Open Scope nat_scope.
Open Scope list_scope.
Notation length := List.length.
Notation concat := List.concat.

Lemma list_sum_lower {X} (g : X -> nat) c l : (forall x, In x l -> c <= g x) -> length l * c <= list_sum (map g l).
Proof.
  intros H. induction l as [|x l IH]; [cbn; lia|]. cbn [map length]. rewrite sum_cons. specialize (IH ltac:(intros y Hy; apply H; right; exact Hy)).
  specialize (H x (or_introl eq_refl)). lia.
Qed.

Lemma list_sum_upper {X} (g : X -> nat) c l : (forall x, In x l -> g x <= c) -> list_sum (map g l) <= length l * c.
Proof.
  intros H. induction l as [|x l IH]; [cbn; lia|]. cbn [map length]. rewrite sum_cons. specialize (IH ltac:(intros y Hy; apply H; right; exact Hy)).
  specialize (H x (or_introl eq_refl)). lia.
Qed.

Section Count.
Context {A : Type}.
Variable V : list A.
Notation N := (length V).

Definition degree (B : list (list entry)) (m : nat) : nat := length (candidates (fun l => l) B m).

Lemma degree_card k B m : shaped N k B -> m < N -> card (related B m) (degree B m).
Proof.
  intros HS Hm. exists (candidates (fun l => l) B m). split; [apply candidates_NoDup; reflexivity|]. split; [|reflexivity].
  intros j. apply (candidates_related (fun l => l) (fun l => Permutation_refl l) V k); assumption.
Qed.

Lemma degree_others k B m : shaped N k B -> m < N -> degree B m <= N - 1.
Proof.
  intros HS Hm. unfold degree. assert (ND : NoDup (m :: candidates (fun l => l) B m)).
  { constructor; [|apply candidates_NoDup; reflexivity]. intros Hin.
    apply (candidates_related (fun l => l) (fun l => Permutation_refl l) V k) in Hin; [|assumption|assumption]. apply (related_shaped V k) in Hin; [tauto|assumption]. }
  assert (I : incl (m :: candidates (fun l => l) B m) (seq 0 N)).
  { intros j [<-|Hj]; [apply in_seq; lia|]. apply (candidates_related (fun l => l) (fun l => Permutation_refl l) V k) in Hj; [|assumption|assumption].
    apply (related_shaped V k) in Hj; [|assumption]. apply in_seq. lia. }
  pose proof (NoDup_incl_length ND I) as L. rewrite seq_length in L. cbn in L. lia.
Qed.

Lemma round_length k B cells : shaped N k B -> round_cells N B cells ->
  length (at_cells V cells) = list_sum (map (fun m => degree B m * (degree B m - 1)) (seq 0 N)).
Proof.
  intros HS R. rewrite at_cells_length.
  - apply (round_number _ _ _ R). intros m Hm. apply (degree_card k); assumption.
  - intros i j Hij. apply (round_in _ _ _ R) in Hij. destruct Hij as (_ & m & H1 & H2).
    apply (related_shaped V k) in H1; [|exact HS]. apply (related_shaped V k) in H2; [|exact HS]. lia.
Qed.

Lemma round_upper k B cells : shaped N k B -> round_cells N B cells -> length (at_cells V cells) <= N * ((N - 1) * (N - 2)).
Proof.
  intros HS R. rewrite (round_length k B cells HS R). etransitivity; [apply (list_sum_upper _ ((N - 1) * (N - 2)))|rewrite seq_length; lia].
  intros m Hm. apply in_seq in Hm. pose proof (degree_others k B m HS). apply Nat.mul_le_mono; lia.
Qed.

Lemma nn_lower k calls : nn_calls V k calls -> N * (k * k) <= length calls.
Proof.
  intros (first & B & Bs & rounds & F & HB & HS & HR & ->). inversion HS as [|? ? HSB _]; subst. inversion HR as [|? cells ? rounds' R _]; subst.
  rewrite at_cells_app, app_length. rewrite at_cells_length by (intros i j Hij; pose proof (first_bound _ _ _ F i j Hij); tauto).
  rewrite (first_number _ _ _ F). cbn [concat]. rewrite at_cells_app, app_length, (round_length k B cells HSB R).
  pose proof (list_sum_lower (fun m => degree B m * (degree B m - 1)) (k * (k - 1)) (seq 0 N)) as L. rewrite seq_length in L.
  enough (N * (k * (k - 1)) <= list_sum (map (fun m => degree B m * (degree B m - 1)) (seq 0 N))) by (destruct k; cbn [Nat.sub] in *; nia).
  apply L. intros m Hm. apply in_seq in Hm. assert (Hd : k <= degree B m).
  { destruct (first_each _ _ _ F m ltac:(lia)) as (l & N1 & Hl & El). unfold degree. rewrite <- El. apply NoDup_incl_length; [exact N1|].
    intros j Hj. apply (candidates_related (fun l => l) (fun l => Permutation_refl l) V k); [exact HSB|lia|]. apply Hl, HB in Hj. destruct Hj as [s Hs].
    exists s. left. exact Hs. }
  apply Nat.mul_le_mono; lia.
Qed.

Lemma nn_upper k calls : nn_calls V k calls -> exists rounds, 1 <= rounds /\ length calls <= N * k + rounds * (N * ((N - 1) * (N - 2))).
Proof.
  intros (first & B & Bs & rounds & F & HB & HS & HR & ->). exists (length rounds). pose proof (Forall2_len _ _ _ HR) as L. cbn [length] in L.
  split; [lia|]. rewrite at_cells_app, app_length. rewrite at_cells_length by (intros i j Hij; pose proof (first_bound _ _ _ F i j Hij); tauto).
  rewrite (first_number _ _ _ F). apply Nat.add_le_mono_l. clear F HB L. revert HS. induction HR as [|B' cells Bs' rounds R HR IH]; intros HS; [cbn; lia|].
  inversion HS; subst. cbn [concat length]. rewrite at_cells_app, app_length. pose proof (round_upper k _ _ ltac:(eassumption) R). specialize (IH ltac:(assumption)). lia.
Qed.
End Count.

(** ** Hubs *)
Lemma sample_given k i rest : forall l S, NoDup (S ++ l) -> ~ In i l -> length S + length l = k ->
  sample_loop (l ++ rest) k i S = Ok (S ++ l, rest).
Proof.
  induction l as [|x l IH]; intros S ND Hi L; cbn [app sample_loop length] in *.
  - rewrite app_nil_r. destruct rest; cbn [sample_loop]; destruct (Nat.leb_spec k (length S)); try lia; reflexivity.
  - destruct (Nat.leb_spec k (length S)); [lia|]. destruct (Nat.eqb_spec x i) as [->|Hx]; [exfalso; apply Hi; left; reflexivity|].
    assert (E : sadd S x = S ++ [x]).
    { unfold sadd. destruct (in_dec eq_dec x S) as [Hin|]; [|reflexivity]. apply NoDup_app_iff in ND. destruct ND as (_ & _ & ND). exfalso. apply (ND x Hin). left. reflexivity. }
    rewrite E, IH; [rewrite <- app_assoc; reflexivity| | |].
    + rewrite <- app_assoc. exact ND.
    + intros Hin. apply Hi. right. exact Hin.
    + rewrite app_length. cbn. lia.
Qed.

Section Hubs.
Context {A W : Type}.
Variable set_order : list nat -> list nat.
Hypothesis set_order_perm : forall l, Permutation (set_order l) l.
Variable neg : bool.
Variable V : list A.
Variable f : @user (A * A) Q W.
Variable heapify : list entry -> list entry.
Hypothesis heapify_perm : forall l, Permutation (heapify l) l.
Notation N := (length V).

Lemma plan_initial k : forall items samples, Forall2 (sample_of V k) items samples -> (forall i, In i items -> i < N) ->
  plan f (initial_prog set_order neg V heapify (concat samples) k items) (at_cells V (spread items (map set_order samples)))
    (Forall2 (fun S h => Permutation (map snd h) S) samples).
Proof.
  intros items samples F. induction F as [|i S items samples HS F IH]; intros Hi; cbn [initial_prog concat map]; [apply plan_ret; constructor|].
  destruct HS as (N1 & L1 & B1). rewrite (sample_given k i (concat samples) S []) by (try assumption; intros Hin; apply B1 in Hin; tauto). cbn [lift pbind app].
  unfold spread. cbn [combine flat_map fst snd]. rewrite at_cells_app. fold (spread items (map set_order samples)).
  eapply plan_bind with (post := fun nb : list entry => map snd nb = set_order S).
  - replace (at_cells V (map (pair i) (set_order S))) with (flat_map (fun j => at_cells V [(i, j)]) (set_order S)).
    + eapply plan_imp; [|apply (plan_pmap f (fun j (e : entry) => snd e = j))].
      * intros nb Hn. induction Hn as [|j e l l' E _ IHn]; [reflexivity|]. cbn. congruence.
      * intros j Hj. apply (Permutation_in _ (set_order_perm S)) in Hj. eapply plan_nobind; [apply plan_ask; [apply Hi; left; reflexivity|apply B1; exact Hj]|].
        intros s _. apply plan_ret. reflexivity.
    + clear. induction (set_order S) as [|x l IH]; [reflexivity|]. cbn [map flat_map]. rewrite IH. symmetry. apply (at_cells_app V [(i, x)]).
  - intros nb Hn. eapply plan_nobind; [apply IH; intros j Hj; apply Hi; right; exact Hj|]. intros B HB. apply plan_ret. constructor; [|exact HB].
    rewrite heapify_perm, Hn. apply set_order_perm.
Qed.
End Hubs.

(** the [k] first positions, or the [k + 1] first ones without [i] *)
Definition hubs (k i : nat) : list nat := firstn k (filter (fun j => negb (Nat.eqb j i)) (seq 0 (S k))).

Lemma filter_other i l : ~ In i l -> filter (fun j => negb (Nat.eqb j i)) l = l.
Proof.
  induction l as [|x l IH]; intros Hi; [reflexivity|]. cbn [filter]. destruct (Nat.eqb_spec x i) as [->|]; [exfalso; apply Hi; left; reflexivity|].
  cbn. f_equal. apply IH. intros Hin. apply Hi. right. exact Hin.
Qed.

Lemma hubs_cases k i : hubs k i = if Nat.leb k i then seq 0 k else filter (fun j => negb (Nat.eqb j i)) (seq 0 (S k)).
Proof.
  unfold hubs. destruct (Nat.leb_spec k i) as [H|H].
  - rewrite seq_S, filter_app, (filter_other i (seq 0 k)) by (rewrite in_seq; lia). rewrite firstn_app, firstn_all2 by (rewrite seq_length; lia).
    rewrite seq_length, Nat.sub_diag. cbn. apply app_nil_r.
  - apply firstn_all2. apply Nat.eq_le_incl. replace (S k) with (i + (1 + (k - i))) by lia. rewrite !seq_app, !filter_app, !app_length.
    rewrite (filter_other i (seq 0 i)), (filter_other i (seq _ (k - i))) by (rewrite in_seq; lia). cbn. rewrite Nat.eqb_refl. cbn. rewrite !seq_length. lia.
Qed.

Lemma hubs_length k i : length (hubs k i) = k.
Proof.
  rewrite hubs_cases. destruct (Nat.leb_spec k i) as [H|H]; [apply seq_length|].
  replace (S k) with (i + (1 + (k - i))) by lia. rewrite !seq_app, !filter_app, !app_length.
  rewrite (filter_other i (seq 0 i)), (filter_other i (seq _ (k - i))) by (rewrite in_seq; lia). cbn. rewrite Nat.eqb_refl. cbn. rewrite !seq_length. lia.
Qed.

Lemma hubs_sample {A} (V : list A) k i : k < length V -> sample_of V k i (hubs k i).
Proof.
  intros Hk. split; [|split; [apply hubs_length|]].
  - rewrite hubs_cases. destruct (Nat.leb k i); [apply seq_NoDup|apply NoDup_filter, seq_NoDup].
  - intros j. rewrite hubs_cases. destruct (Nat.leb_spec k i); [rewrite in_seq; lia|]. rewrite filter_In, in_seq, Bool.negb_true_iff, Nat.eqb_neq. lia.
Qed.

Lemma hubs_In k i j : j < k -> i <> j -> In j (hubs k i).
Proof.
  intros Hj Hij. rewrite hubs_cases. destruct (Nat.leb_spec k i); [apply in_seq; lia|]. rewrite filter_In, in_seq, Bool.negb_true_iff, Nat.eqb_neq. lia.
Qed.

Lemma hub_degree {A} (V : list A) k B : k < length V -> Forall2 (fun S (h : list entry) => Permutation (map snd h) S) (map (hubs k) (seq 0 (length V))) B ->
  shaped (length V) k B /\ forall m, m < k -> degree B m = length V - 1.
Proof.
  intros Hk F. assert (FS : Forall2 (sample_of V k) (seq 0 (length V)) (map (hubs k) (seq 0 (length V)))).
  { generalize (seq 0 (length V)). induction l as [|x l IH]; constructor; [apply hubs_sample; exact Hk|exact IH]. }
  destruct (samples_shaped V k _ B FS F) as [HS HB]. split; [exact HS|]. intros m Hm. apply Nat.le_antisymm; [apply (degree_others V k); [exact HS|lia]|].
  unfold degree. transitivity (length (filter (fun j => negb (Nat.eqb j m)) (seq 0 (length V)))).
  - replace (length V) with (m + (1 + (length V - 1 - m))) at 2 by lia. rewrite !seq_app, !filter_app, !app_length.
    rewrite (filter_other m (seq 0 m)), (filter_other m (seq _ (length V - 1 - m))) by (rewrite in_seq; lia). rewrite !seq_length. lia.
  - apply NoDup_incl_length; [apply NoDup_filter, seq_NoDup|]. intros i Hi. apply filter_In in Hi as [Hi Hne]. apply in_seq in Hi.
    apply Bool.negb_true_iff, Nat.eqb_neq in Hne. apply (candidates_related (fun l => l) (fun l => Permutation_refl l) V k); [exact HS|lia|].
    apply related_sym. assert (Hin : In (i, m) (spread (seq 0 (length V)) (map (hubs k) (seq 0 (length V))))).
    { apply spread_in. exists (hubs k i). split; [|apply hubs_In; [exact Hm|exact Hne]].
      assert (G : forall l, In i l -> In (i, hubs k i) (combine l (map (hubs k) l))).
      { induction l as [|x l IH]; [intros []|]. intros [->|Hx]; [left; reflexivity|right; apply IH; exact Hx]. }
      apply G, in_seq. lia. }
    apply HB in Hin. destruct Hin as [s Hs]. exists s. left. exact Hs.
Qed.

Lemma asked_silent {Q C} (calls : list Q) (out : list C) : asked (map Asked calls ++ map Gave out) = calls.
Proof. rewrite asked_app, asked_Asked, asked_Gave, app_nil_r. reflexivity. Qed.

(** whatever the similarity, such draws make a quadratic number of calls for each hub *)
Lemma hub_run {A} set_order heapify heapreplace is_heap (V : list A) neg (g : A * A -> Q) fuel radius lo hi :
  (forall l, Permutation (set_order l) l) -> heap_module is_heap heapify heapreplace ->
  let n := length V in let k := Nat.log2 n in
  V <> [] -> n * (k * n) < fuel ->
  exists t, run (pure g) tt (nn_prog set_order neg V heapify heapreplace fuel (concat (map (hubs k) (seq 0 n))) None radius lo hi "connected_components") = (t, tt, Ok tt) /\
    k * ((n - 1) * (n - 2)) <= length (asked t).
Proof.
  intros So Hm n k Hne Hf. subst n. assert (Hk : k < length V) by (apply Nat.log2_lt_lin; destruct V; [congruence|cbn; lia]).
  assert (Ek : choose_k V None = Ok k) by (unfold choose_k; destruct V; [congruence|reflexivity]).
  unfold nn_prog. rewrite run_bind, run_lift, Ek. cbn [then_ app]. rewrite run_bind.
  assert (FS : Forall2 (sample_of V k) (seq 0 (length V)) (map (hubs k) (seq 0 (length V)))).
  { generalize (seq 0 (length V)). induction l as [|x l IH]; constructor; [apply hubs_sample; exact Hk|exact IH]. }
  assert (D : forall r, In r (concat (map (hubs k) (seq 0 (length V)))) -> r < length V).
  { intros r Hr. apply in_concat in Hr as (S & HS & Hr). apply in_map_iff in HS as (i & <- & _). destruct (hubs_sample V k i Hk) as (_ & _ & H). apply H. exact Hr. }
  pose proof (plan_initial set_order So neg V (pure g) heapify (heapify_perm _ _ _ Hm) k _ _ FS ltac:(intros i Hi; apply in_seq in Hi; lia) tt) as P.
  unfold asks in P. rewrite feed_pure in P. destruct P as (B & E1 & HB).
  assert (E0 : initial_loop set_order heapify (sim neg g) V (concat (map (hubs k) (seq 0 (length V)))) k (seq 0 (length V)) = Ok B).
  { rewrite <- result_initial. unfold result. rewrite E1. reflexivity. }
  rewrite E1. cbn [then_]. destruct (hub_degree V k B Hk HB) as [HS Hd].
  assert (G0 : all_good is_heap (sim neg g) V k B).
  { unfold all_good. eapply initial_ok; eauto. intros i Hi. apply in_seq in Hi. lia. }
  destruct (descend_ends set_order So heapify heapreplace is_heap Hm (sim neg g) V k fuel B G0) as (B' & EB); [lia|].
  pose proof (descend_good set_order So heapify heapreplace is_heap Hm (sim neg g) V k fuel B B' G0 EB) as [G _].
  rewrite run_bind. destruct fuel as [|fuel]; [lia|].
  destruct (turn_any set_order So neg V (pure g) heapreplace (heapreplace_perm _ _ _ Hm) k B tt HS) as (cells & R & P).
  unfold asks in P. rewrite feed_pure in P. destruct P as ([B1 c] & E2 & HS1).
  assert (E3 : exists calls, run (pure g) tt (descend_prog set_order neg V heapreplace (S fuel) B) = (map Asked (at_cells V cells ++ calls), tt, Ok B')).
  { pose proof (result_descend set_order neg V g heapreplace (S fuel) B) as Er. rewrite EB in Er. cbn [descend_prog] in *. rewrite run_bind, E2. cbn [then_].
    rewrite result_bind in Er. unfold result in Er at 1. rewrite E2 in Er. cbn [snd bind] in Er. destruct (Nat.eqb c 0).
    - exists []. cbn in Er |- *. rewrite !app_nil_r. congruence.
    - destruct (run_silent g _ (silent_descend set_order neg V (pure g) heapreplace fuel B1)) as [calls ->]. exists calls. rewrite map_app, Er. reflexivity. }
  destruct E3 as [calls E3]. rewrite E3. cbn [then_]. rewrite run_clusters.
  destruct (BlockingProofs.positions_read set_order V (links (if neg then - radius else radius)%Q B') (fun i j => In (i, j) (links (if neg then - radius else radius)%Q B')) lo hi true)
    as (idx & out' & E' & Rd & X); auto.
  { tauto. }
  { intros i j Hin. destruct (links_In is_heap (sim neg g) V k _ _ _ _ G Hin) as (_ & x & y & Ex & Ey & _). split; apply nth_error_Some; congruence. }
  rewrite E'. eexists. split; [reflexivity|]. rewrite !asked_app, !asked_Asked, !app_length.
  rewrite (round_length V k B cells HS R).
  transitivity (list_sum (map (fun m => degree B m * (degree B m - 1)) (seq 0 (length V)))); [|lia].
  replace (length V) with (k + (length V - k)) at 3 by lia. rewrite seq_app, map_app, list_sum_app.
  rewrite (list_sum_const _ ((length V - 1) * (length V - 2)) (seq 0 k)); [rewrite seq_length; lia|].
  intros m Hmk. apply in_seq in Hmk. rewrite (Hd m) by lia. f_equal. lia.
Qed.
