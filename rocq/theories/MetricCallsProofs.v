(** Proofs about the calls of the distance in laesa and quickjoin *)
From Coq Require Import QArith Qabs String.
From Verif Require Import Base BaseFacts ClustersModel ClustersProofs PairwiseModel PairwiseProofs CallsModel CallsSpec CallsProofs CallsMoreProofs
  SpaceModel QuickJoinModel MetricCallsModel MetricCallsSpec.
From Verif Require SpaceProofs BlockingProofs.
Open Scope nat_scope.
Open Scope list_scope.
Notation length := List.length.
Notation concat := List.concat.

Section Laesa.
Context {A : Type} `{EqDec A}.
Variable distance : A -> A -> Q.
Notation ask := (pure (fun q => distance (fst q) (snd q))).
Notation qprog := (prog (A * A) Q (list A)).

Definition scan_calls (pivot : A) (p : list nat) (items : list (nat * (A * Q))) : list (A * A) :=
  map (fun x => (pivot, fst (snd x))) (filter (fun x => negb (memb (fst x) p)) items).

Lemma pivot_scan_run pivot p items : forall m b,
  run ask tt (pivot_scan_prog pivot p items m b) =
  (map Asked (scan_calls pivot p items), tt, Ok (pivot_scan distance pivot p items m b)).
Proof.
  unfold scan_calls. induction items as [|[j [item a]] items IH]; intros m b; [reflexivity|].
  cbn [pivot_scan_prog pivot_scan filter map fst snd]. destruct (memb j p) eqn:E; cbn [negb map].
  - rewrite run_bind, IH. destruct (pivot_scan distance pivot p items m b) as [acc b']. cbn [then_ run].
    rewrite app_nil_r. reflexivity.
  - cbn [run pure fst snd]. destruct (Qle_bool (a + distance pivot item) m).
    + rewrite run_bind, IH. destruct (pivot_scan distance pivot p items m b) as [acc b']. cbn [then_ run]. rewrite app_nil_r. reflexivity.
    + rewrite run_bind, IH. destruct (pivot_scan distance pivot p items (a + distance pivot item) j) as [acc b']. cbn [then_ run].
      rewrite app_nil_r. reflexivity.
Qed.

Lemma pivot_scan_length pivot p items : forall m b, length (fst (pivot_scan distance pivot p items m b)) = length items.
Proof.
  induction items as [|[j [item a]] items IH]; intros m b; [reflexivity|]. cbn [pivot_scan].
  destruct (memb j p).
  - specialize (IH m b). destruct (pivot_scan distance pivot p items m b) as [acc b']. cbn in *. lia.
  - destruct (Qle_bool (a + distance pivot item) m).
    + specialize (IH m b). destruct (pivot_scan distance pivot p items m b) as [acc b']. cbn in *. lia.
    + specialize (IH (a + distance pivot item)%Q j). destruct (pivot_scan distance pivot p items (a + distance pivot item) j) as [acc b']. cbn in *. lia.
Qed.

Lemma pivot_scan_bound pivot p items n : (forall x, In x items -> fst x < n) -> forall m b, b < n -> snd (pivot_scan distance pivot p items m b) < n.
Proof.
  induction items as [|[j [item a]] items IH]; intros Hi m b Hb; [exact Hb|]. cbn [pivot_scan].
  assert (Hi' : forall x, In x items -> fst x < n) by (intros x Hx; apply Hi; right; exact Hx).
  assert (Hj : j < n) by (apply (Hi (j, (item, a))); left; reflexivity).
  destruct (memb j p).
  - specialize (IH Hi' m b Hb). destruct (pivot_scan distance pivot p items m b) as [acc b']. exact IH.
  - destruct (Qle_bool (a + distance pivot item) m).
    + specialize (IH Hi' m b Hb). destruct (pivot_scan distance pivot p items m b) as [acc b']. exact IH.
    + specialize (IH Hi' (a + distance pivot item)%Q j Hj). destruct (pivot_scan distance pivot p items (a + distance pivot item) j) as [acc b']. exact IH.
Qed.

Lemma count_missing n (p : list nat) : NoDup p -> (forall j, In j p -> j < n) -> length (filter (fun j => negb (memb j p)) (seq 0 n)) + length p = n.
Proof.
  intros Hn Hb. assert (Hp : Permutation (filter (fun j => memb j p) (seq 0 n)) p).
  { apply NoDup_Permutation; [apply NoDup_filter, seq_NoDup|exact Hn|]. intros j. rewrite filter_In, in_seq, memb_true. split; [tauto|].
    intros Hj. specialize (Hb j Hj). split; [lia|exact Hj]. }
  apply Permutation_length in Hp. pose proof (BlockingProofs.filter_split_length (fun j => memb j p) (seq 0 n)) as Hl. rewrite seq_length in Hl. lia.
Qed.

Lemma scan_calls_length pivot p (l : list (A * Q)) : NoDup p -> (forall j, In j p -> j < length l) ->
  length (scan_calls pivot p (enumerate l)) + length p = length l.
Proof.
  intros Hn Hb. unfold scan_calls. rewrite map_length. pose proof (count_missing (length l) p Hn Hb) as Hc. rewrite <- Hc at 1. f_equal.
  assert (E : map fst (enumerate l) = seq 0 (length l)) by apply map_fst_enum. rewrite <- E.
  generalize (enumerate l). intros l0. induction l0 as [|x l0 IH]; [reflexivity|].
  cbn [map filter]. destruct (negb (memb (fst x) p)); cbn [length]; rewrite IH; reflexivity.
Qed.

Lemma pivot_loop_run data : forall n acc p b, NoDup p -> (forall j, In j p -> j < length data) -> length acc = length data -> b < length data ->
  exists qs s, run ask tt (pivot_loop_prog n data acc p b) = (map Asked qs, tt, Ok s) /\ pivot_loop distance n data acc p b = Ok s /\
    length s <= length p + n /\ NoDup s /\ (forall j, In j s -> j < length data) /\
    (length s = length p + n -> 2 * length qs + n * (n - 1) + 2 * n * length p = 2 * n * length data).
Proof.
  induction n as [|n IH]; intros acc p b Hn Hb Ha Hlt; cbn [pivot_loop_prog pivot_loop].
  { exists [], p. repeat split; try assumption; try lia. }
  destruct (nth_error data b) as [pivot|] eqn:Ep; [|apply nth_error_None in Ep; lia].
  unfold index. rewrite Ep. cbn [lift pbind bind]. rewrite run_bind, pivot_scan_run. cbn [then_].
  assert (Hlen : length (combine data acc) = length data) by (rewrite combine_length; lia).
  pose proof (pivot_scan_length pivot p (enumerate (combine data acc)) 0%Q b) as Hacc.
  pose proof (pivot_scan_bound pivot p (enumerate (combine data acc)) (length data)) as Hbnd.
  specialize (Hbnd ltac:(intros [j x] Hx; cbn; apply SpaceProofs.In_enumerate' in Hx; rewrite <- Hlen; apply nth_error_Some; congruence) 0%Q b Hlt).
  destruct (pivot_scan distance pivot p (enumerate (combine data acc)) 0 b) as [acc' b']. cbn [fst snd] in *.
  unfold enumerate in Hacc. rewrite combine_length, seq_length, Nat.min_id, Hlen in Hacc.
  destruct (IH acc' (sadd p b') b') as (qs & s & -> & -> & Hs1 & Hs2 & Hs3 & Hs4).
  { apply sadd_NoDup. exact Hn. } { intros j Hj. apply sadd_In in Hj as [Hj| ->]; auto. } { exact Hacc. } { exact Hbnd. }
  exists (scan_calls pivot p (enumerate (combine data acc)) ++ qs), s. rewrite map_app. split; [reflexivity|]. split; [reflexivity|].
  pose proof (scan_calls_length pivot p (combine data acc) Hn ltac:(rewrite Hlen; exact Hb)) as Hq. rewrite Hlen in Hq.
  assert (Hsl : length (sadd p b') <= S (length p)).
  { unfold sadd. destruct (in_dec eq_dec b' p); [lia|]. rewrite app_length. cbn. lia. }
  split; [lia|]. split; [exact Hs2|]. split; [exact Hs3|]. intros Hall. rewrite app_length.
  assert (E : length (sadd p b') = S (length p)) by lia. rewrite E in *. specialize (Hs4 ltac:(lia)).
  destruct n as [|n]; cbn [Nat.sub Nat.mul] in *; nia.
Qed.

Lemma table_run (data : list A) p : forall l D0,
  exists qs, run ask tt (for_each l D0 (fun D i =>
      do b <- lift (index p i);
      do pivot <- lift (index data b);
      do row <- for_each data [] (fun row item => Call (pivot, item) (fun d : Q => Ret (row ++ [d])));
      Ret (D ++ [row])) : qprog _) =
    (map Asked qs, tt,
     let! D := mapM (fun i => let! b := index p i in let! pivot := index data b in Ok (map (distance pivot) data)) l in Ok (D0 ++ D)) /\
    (forall bs ps, mapM (index p) l = Ok bs -> mapM (index data) bs = Ok ps -> qs = table_calls data ps).
Proof.
  induction l as [|i l IH]; intros D0; cbn [for_each mapM].
  { exists []. cbn. rewrite app_nil_r. split; [reflexivity|]. intros bs ps E1 E2. injection E1 as <-. injection E2 as <-. reflexivity. }
  rewrite run_bind. destruct (index p i) as [b|e]; cbn [lift pbind bind run then_].
  2:{ exists []. split; [reflexivity|]. discriminate. }
  destruct (index data b) as [pivot|e] eqn:Eb; cbn [lift pbind bind run then_].
  2:{ exists []. split; [reflexivity|]. intros bs ps E1 E2. destruct (mapM (index p) l); [|discriminate]. injection E1 as <-. cbn [mapM bind] in E2.
      rewrite Eb in E2. discriminate. }
  rewrite run_bind. rewrite (run_asks ask (fun item : A => (pivot, item)) (fun row item (d : Q) => row ++ [d])). rewrite feed_pure. cbn [then_ run].
  assert (Erow : forall l' acc, fold_left (fun st (xb : A * Q) => st ++ [snd xb]) (combine l' (map (fun q => distance (fst q) (snd q)) (map (fun item => (pivot, item)) l'))) acc
     = acc ++ map (distance pivot) l').
  { induction l' as [|x l' IHl]; intros acc; [cbn; rewrite app_nil_r; reflexivity|]. cbn [map combine fold_left fst snd]. rewrite IHl, <- app_assoc. reflexivity. }
  rewrite Erow. cbn [app]. destruct (IH (D0 ++ [map (distance pivot) data])) as (qs & -> & Hqs).
  exists (map (fun item => (pivot, item)) data ++ qs). rewrite map_app, app_nil_r. split.
  - f_equal. destruct (mapM _ l) as [D|e]; cbn [bind]; [|reflexivity]. rewrite <- app_assoc. reflexivity.
  - intros bs ps E1 E2. destruct (mapM (index p) l) as [bs'|] eqn:El; [|discriminate]. cbn in E1. injection E1 as <-.
    cbn [mapM] in E2. rewrite Eb in E2. cbn [bind] in E2. destruct (mapM (index data) bs') as [ps'|] eqn:Ep; [|discriminate]. injection E2 as <-.
    rewrite (Hqs bs' ps' eq_refl Ep). reflexivity.
Qed.

Lemma nearest_run pivots x : run ask tt (nearest_prog pivots x : qprog _) = (map Asked (map (fun y => (y, x)) pivots), tt, Ok (nearest distance pivots x None)).
Proof.
  unfold nearest_prog. rewrite (run_asks ask (fun y : A => (y, x)) (fun d_star y (d : Q) =>
    match d_star with Some e => if Qle_bool e d then d_star else Some d | None => Some d end)). rewrite feed_pure. repeat f_equal.
  generalize (@None Q) as d0. induction pivots as [|y pivots IH]; intros d0; [reflexivity|]. cbn [map combine fold_left fst snd nearest]. apply IH.
Qed.

Lemma laesa_pairs_run data pivots rows radius :
  run ask tt (laesa_pairs_prog data pivots rows radius : qprog _) =
  (map Asked (item_calls distance data pivots rows), tt,
   Ok (laesa_pairs distance data pivots rows radius, length (kept_pairs distance data pivots rows))).
Proof.
  unfold laesa_pairs_prog, laesa_pairs, item_calls, kept_pairs.
  assert (G : forall l pairs DD, run ask tt (for_each l (pairs, DD) (fun st '(i, x) =>
      do d_star <- nearest_prog pivots x;
      for_each (filter (fun ky => Nat.ltb i (fst ky)) (enumerate data)) st (fun '(pairs, DD) '(k, y) =>
        if eliminated d_star rows i k then Ret (pairs, DD)
        else Call (x, y) (fun d : Q => Ret (if Qle_bool d radius then pairs ++ [(x, y)] else pairs, DD + 1)))) : qprog _) =
    (map Asked (flat_map (fun '(i, x) => map (fun y => (y, x)) pivots ++ map (fun ky => (x, snd ky))
      (filter (fun ky => Nat.ltb i (fst ky) && negb (eliminated (nearest distance pivots x None) rows i (fst ky))) (enumerate data))) l), tt,
     Ok (pairs ++ flat_map (fun '(i, x) => flat_map (fun '(k, y) =>
      if Nat.ltb i k && negb (eliminated (nearest distance pivots x None) rows i k) && Qle_bool (distance x y) radius then [(x, y)] else [])
      (enumerate data)) l,
      DD + length (flat_map (fun '(i, x) => map (fun ky => (x, snd ky))
        (filter (fun ky => Nat.ltb i (fst ky) && negb (eliminated (nearest distance pivots x None) rows i (fst ky))) (enumerate data))) l)))).
  { induction l as [|[i x] l IH]; intros pairs DD; [cbn; rewrite app_nil_r, Nat.add_0_r; reflexivity|]. cbn [for_each flat_map].
    rewrite run_bind, run_bind, nearest_run. cbn [then_]. set (d_star := nearest distance pivots x None).
    assert (Hin : forall items pairs DD, run ask tt (for_each (filter (fun ky : nat * A => Nat.ltb i (fst ky)) items) (pairs, DD) (fun '(pairs, DD) '(k, y) =>
        if eliminated d_star rows i k then Ret (pairs, DD)
        else Call (x, y) (fun d : Q => Ret (if Qle_bool d radius then pairs ++ [(x, y)] else pairs, DD + 1))) : qprog _) =
      (map Asked (map (fun ky => (x, snd ky)) (filter (fun ky => Nat.ltb i (fst ky) && negb (eliminated d_star rows i (fst ky))) items)), tt,
       Ok (pairs ++ flat_map (fun '(k, y) => if Nat.ltb i k && negb (eliminated d_star rows i k) && Qle_bool (distance x y) radius then [(x, y)] else []) items,
         DD + length (filter (fun ky => Nat.ltb i (fst ky) && negb (eliminated d_star rows i (fst ky))) items)))).
    { induction items as [|[k y] items IHi]; intros pairs' DD'; [cbn; rewrite app_nil_r, Nat.add_0_r; reflexivity|]. cbn [filter fst flat_map].
      destruct (Nat.ltb i k); cbn [andb]; [|apply IHi]. cbn [for_each]. destruct (eliminated d_star rows i k); cbn [negb andb pbind].
      - apply IHi.
      - cbn [run pure fst snd map length]. rewrite IHi. rewrite <- Nat.add_assoc. cbn [Nat.add].
        destruct (Qle_bool (distance x y) radius); [rewrite <- app_assoc|]; reflexivity. }
    rewrite Hin. cbn [then_]. rewrite IH. rewrite !map_app, <- !app_assoc, app_length, map_length, <- Nat.add_assoc. reflexivity. }
  apply G.
Qed.

Lemma mapM_length {X Y} (f : X -> res Y) l : forall out, mapM f l = Ok out -> length out = length l.
Proof.
  induction l as [|x l IH]; intros out; cbn; [intros E; injection E as <-; reflexivity|]. destruct (f x) as [y|]; [|discriminate]. cbn.
  destruct (mapM f l) as [ys|]; [|discriminate]. cbn. intros E. injection E as <-. cbn. f_equal. apply IH. reflexivity.
Qed.

Lemma mapM_index_firstn {X} (l : list X) n bs : mapM (index l) (seq 0 n) = Ok bs -> bs = firstn n l /\ n <= length l.
Proof.
  assert (G : forall (l pre : list X) n bs, mapM (index (pre ++ l)) (seq (length pre) n) = Ok bs -> bs = firstn n l /\ n <= length l).
  { clear. induction l as [|x l IH]; intros pre [|n] bs; cbn [seq mapM firstn length].
    - intros E. injection E as <-. split; [reflexivity|lia].
    - rewrite app_nil_r. unfold index at 1. rewrite (proj2 (nth_error_None pre (length pre))) by lia. discriminate.
    - intros E. injection E as <-. split; [reflexivity|lia].
    - unfold index at 1. rewrite nth_error_app2, Nat.sub_diag by lia. cbn [nth_error bind].
      specialize (IH (pre ++ [x]) n). rewrite <- app_assoc, app_length in IH. cbn [length app] in IH. rewrite Nat.add_1_r in IH.
      destruct (mapM _ (seq (S (length pre)) n)) as [ys|]; [|discriminate]. cbn [bind]. intros E. injection E as <-.
      destruct (IH ys eq_refl) as [-> Hl]. split; [reflexivity|lia]. }
  intros E. apply (G l [] n bs E).
Qed.

Lemma mapM_bind_index (data : list A) p (g : A -> list Q) l out :
  mapM (fun i => let! b := index p i in let! pivot := index data b in Ok (g pivot)) l = Ok out ->
  exists bs ps, mapM (index p) l = Ok bs /\ mapM (index data) bs = Ok ps /\ out = map g ps.
Proof.
  revert out. induction l as [|i l IH]; intros out; cbn [mapM]; [intros E; injection E as <-; exists [], []; auto|].
  destruct (index p i) as [b|]; [|discriminate]. cbn [bind]. destruct (index data b) as [y|] eqn:Eb; [|discriminate]. cbn [bind].
  destruct (mapM _ l) as [ys|]; [|discriminate]. cbn [bind]. intros E. injection E as <-.
  destruct (IH ys eq_refl) as (bs & ps & -> & E2 & ->). exists (b :: bs), (y :: ps). cbn [mapM bind]. rewrite Eb, E2. auto.
Qed.

Lemma item_calls_length data pivots rows :
  length (item_calls distance data pivots rows) = length data * length pivots + length (kept_pairs distance data pivots rows).
Proof.
  unfold item_calls, kept_pairs. rewrite <- (SpaceProofs.enumerate_length data).
  assert (G : forall (row : nat -> A -> list (A * A)) E, length (flat_map (fun '(i, x) => map (fun y => (y, x)) pivots ++ row i x) E) =
    length E * length pivots + length (flat_map (fun '(i, x) => row i x) E)).
  { intros row E. induction E as [|[i x] E IH]; [reflexivity|]. cbn [flat_map length]. rewrite !app_length, map_length, IH. lia. }
  exact (G (fun i x => map (fun ky => (x, snd ky)) (filter (fun ky => Nat.ltb i (fst ky) &&
    negb (eliminated (nearest distance pivots x None) rows i (fst ky))) (enumerate data))) (enumerate data)).
Qed.

Lemma table_calls_length (data pivots : list A) : length (table_calls data pivots) = length pivots * length data.
Proof. unfold table_calls. induction pivots as [|y l IH]; [reflexivity|]. cbn [flat_map length]. rewrite app_length, map_length, IH. lia. Qed.

Variable set_order : list A -> list A.
Variable pivot_order : list nat -> list nat.
Hypothesis pivot_order_perm : forall l, Permutation (pivot_order l) l.

(** the whole of laesa, once it has its pivots *)
Lemma laesa_run draw data radius pivots lo hi mode n p D ps : draw < length data ->
  n = match pivots with Some n => n | None => Nat.log2_up (length data) end ->
  pivot_selection pivot_order distance draw data n = Ok (p, D) -> mapM (index data) (firstn n p) = Ok ps ->
  exists chosen out o, outcome (laesa set_order pivot_order distance draw data radius pivots lo hi mode) = (out, o) /\
    run ask tt (laesa_prog set_order pivot_order draw data radius pivots lo hi mode) =
      (map Asked (chosen ++ table_calls data ps ++ item_calls distance data ps D) ++ map Gave out, tt, o) /\
    length ps = n /\ D = map (fun y => map (distance y) data) ps /\
    2 * length chosen + n * (n - 1) = 2 * n * length data.
Proof.
  intros Hdraw En Hsel Hps. unfold laesa_prog, laesa.
  assert (Hn : match pivots with Some n => Ok n | None => match data with [] => Err ValueError | _ => Ok (Nat.log2_up (length data)) end end = Ok n).
  { subst n. destruct pivots; [reflexivity|]. destruct data; [cbn in Hdraw; lia|reflexivity]. }
  rewrite Hn. cbn [lift pbind bind]. rewrite Hsel. cbn [bind]. rewrite Hps. cbn [bind].
  unfold pivot_selection in Hsel. unfold pivot_selection_prog. destruct data as [|d0 data0] eqn:Ed; [cbn in Hdraw; lia|]. rewrite <- Ed in *. clear d0 data0 Ed.
  destruct (pivot_loop_run data n (map (fun _ => 0%Q) data) [] draw) as (qs & s & Hr & Hm & H1 & H2 & H3 & H4).
  { constructor. } { intros j []. } { apply map_length. } { exact Hdraw. }
  rewrite Hm in Hsel. cbn [bind] in Hsel.
  destruct (mapM _ (seq 0 n)) as [D'|e] eqn:ED; [|discriminate]. cbn [bind] in Hsel. injection Hsel as <- <-.
  destruct (mapM_bind_index data (pivot_order s) (fun pivot => map (distance pivot) data) _ _ ED) as (bs & ps' & E1 & E2 & E3).
  destruct (mapM_index_firstn _ _ _ E1) as [-> Hle]. rewrite Hps in E2. injection E2 as <-.
  rewrite (Permutation_length (pivot_order_perm s)) in Hle. cbn [length Nat.add] in *.
  assert (Hs : length s = n) by lia.
  rewrite run_bind, run_bind, Hr. cbn [then_]. rewrite run_bind.
  destruct (table_run data (pivot_order s) (seq 0 n) []) as (tq & Ht & Htq). rewrite Ht. rewrite ED. cbn [bind then_ run app].
  rewrite (Htq _ _ E1 Hps). rewrite Hps. cbn [lift pbind]. unfold clusters_prog. rewrite run_bind, run_bind, laesa_pairs_run. cbn [then_ run]. rewrite app_nil_r.
  rewrite run_bind, run_lift. cbn [then_].
  exists qs. destruct (clusters_from_pairs _ _ _ _ _ _) as [out|e].
  - exists out, (Ok tt). split; [reflexivity|]. rewrite run_yields. cbn [app]. rewrite !map_app, app_nil_r, <- !app_assoc. split; [reflexivity|].
    split; [rewrite (mapM_length _ _ _ Hps), firstn_length, (Permutation_length (pivot_order_perm s)); lia|].
    split; [exact E3|]. specialize (H4 Hs). lia.
  - exists [], (Err e). split; [reflexivity|]. cbn [map app]. rewrite !map_app, !app_nil_r, <- !app_assoc. split; [reflexivity|].
    split; [rewrite (mapM_length _ _ _ Hps), firstn_length, (Permutation_length (pivot_order_perm s)); lia|].
    split; [exact E3|]. specialize (H4 Hs). lia.
Qed.

(** agreement in all cases *)
Lemma laesa_agrees draw data radius pivots lo hi mode : (data <> [] -> draw < length data) ->
  exists t o, run ask tt (laesa_prog set_order pivot_order draw data radius pivots lo hi mode) = (t, tt, o) /\
    outcome (laesa set_order pivot_order distance draw data radius pivots lo hi mode) = (given t, o).
Proof.
  intros Hdraw. unfold laesa_prog, laesa.
  destruct (match pivots with Some n => Ok n | None => match data with [] => Err ValueError | _ => Ok (Nat.log2_up (length data)) end end) as [n|e];
    cbn [lift pbind bind]; [|exists [], (Err e); split; reflexivity].
  unfold pivot_selection, pivot_selection_prog. destruct data as [|d0 data0] eqn:Ed; [exists [], (Err ValueError); split; reflexivity|].
  rewrite <- Ed in *. specialize (Hdraw ltac:(rewrite Ed; discriminate)). clear d0 data0 Ed.
  destruct (pivot_loop_run data n (map (fun _ => 0%Q) data) [] draw) as (qs & s & Hr & Hm & _).
  { constructor. } { intros j []. } { apply map_length. } { exact Hdraw. }
  rewrite Hm. cbn [bind]. rewrite run_bind, run_bind, Hr. cbn [then_]. rewrite run_bind.
  destruct (table_run data (pivot_order s) (seq 0 n) []) as (tq & Ht & _). rewrite Ht.
  destruct (mapM _ (seq 0 n)) as [D|e]; cbn [bind then_ run app].
  2:{ eexists _, _. split; [reflexivity|]. rewrite given_app, !given_Asked. reflexivity. }
  destruct (mapM (index data) (firstn n (pivot_order s))) as [ps|e]; cbn [lift pbind run bind].
  2:{ eexists _, _. split; [reflexivity|]. rewrite !given_app, !given_Asked. reflexivity. }
  unfold clusters_prog. rewrite run_bind, run_bind, laesa_pairs_run. cbn [then_ run]. rewrite app_nil_r. rewrite run_bind, run_lift. cbn [then_].
  destruct (clusters_from_pairs _ _ _ _ _ _) as [out|e]; cbn [run].
  - rewrite run_yields. eexists _, _. split; [reflexivity|]. rewrite !given_app, !given_Asked, given_Gave. reflexivity.
  - eexists _, _. split; [reflexivity|]. rewrite !given_app, !given_Asked. reflexivity.
Qed.
End Laesa.

(** ** The arguments of the calls of a program *)
Fixpoint calls_in {Q B C R} (P : Q -> Prop) (p : prog Q B C R) : Prop :=
  match p with
  | Ret _ => True
  | Raise _ => True
  | Call q k => P q /\ forall b, calls_in P (k b)
  | Yield _ p => calls_in P p
  end.

Section CallsIn.
Context {Q B C : Type}.
Variable P : Q -> Prop.

Lemma calls_in_bind {R R'} (p : prog Q B C R) (k : R -> prog Q B C R') : calls_in P p -> (forall r, calls_in P (k r)) -> calls_in P (pbind p k).
Proof. intros Hp Hk. induction p; cbn in *; [apply Hk|exact I| |]; [split; [tauto|]; intros b; apply H, Hp|auto]. Qed.

Lemma calls_in_lift {R} (r : res R) : calls_in P (lift r : prog Q B C R).
Proof. destruct r; exact I. Qed.

Lemma calls_in_for {X St} (l : list X) (body : St -> X -> prog Q B C St) : (forall st x, In x l -> calls_in P (body st x)) ->
  forall st, calls_in P (for_each l st body).
Proof.
  induction l as [|x l IH]; intros Hb st; [exact I|]. cbn [for_each]. apply calls_in_bind; [apply Hb; left; reflexivity|].
  intros st'. apply IH. intros st'' y Hy. apply Hb. right. exact Hy.
Qed.

Lemma calls_in_yields (l : list C) : calls_in P (yield_from l : prog Q B C unit).
Proof. induction l; [exact I|assumption]. Qed.

Lemma run_calls_in {W R} (f : user W) (p : prog Q B C R) : calls_in P p -> forall w t w' o, run f w p = (t, w', o) -> forall q, In q (asked t) -> P q.
Proof.
  induction p as [r|e|q k IH|c p IH]; intros Hp w t w' o; cbn [run].
  - intros E. injection E as <- <- <-. intros q [].
  - intros E. injection E as <- <- <-. intros q [].
  - destruct Hp as [Hq Hk]. destruct (f w q) as [w1 [b|e]].
    + destruct (run f w1 (k b)) as [[t1 w2] o1] eqn:Er. intros E. injection E as <- <- <-. intros q' [<-|Hin]; [exact Hq|].
      eapply IH; [apply Hk|exact Er|exact Hin].
    + intros E. injection E as <- <- <-. intros q' [<-|[]]. exact Hq.
  - destruct (run f w p) as [[t1 w1] o1] eqn:Er. intros E. injection E as <- <- <-. intros q Hin. eapply IH; [exact Hp|exact Er|exact Hin].
Qed.
End CallsIn.

Section LaesaAny.
Context {A : Type} `{EqDec A}.
Variable data : list A.
Notation inside := (fun q : A * A => In (fst q) data /\ In (snd q) data).

Lemma scan_inside pivot p items : In pivot data -> (forall j x, In (j, x) items -> In (fst x) data) -> forall m b,
  calls_in inside (pivot_scan_prog pivot p items m b).
Proof.
  intros Hp. induction items as [|[j [item a]] items IH]; intros Hi m b; [exact I|]. cbn [pivot_scan_prog].
  assert (Hi' : forall j x, In (j, x) items -> In (fst x) data) by (intros j' x Hx; apply (Hi j'); right; exact Hx).
  destruct (memb j p); [apply calls_in_bind; [apply IH, Hi'|intros [acc b']; exact I]|].
  cbn [calls_in fst snd]. split; [split; [exact Hp|apply (Hi j (item, a)); left; reflexivity]|]. intros d.
  apply calls_in_bind; [|intros [acc b']; exact I]. destruct (Qle_bool (a + d) m); apply IH, Hi'.
Qed.

Lemma index_In {X} (l : list X) i x : index l i = Ok x -> In x l.
Proof. unfold index. destruct (nth_error l i) eqn:E; [|discriminate]. intros E'. injection E' as <-. eapply nth_error_In. exact E. Qed.

Lemma calls_in_index {R} i (k : A -> prog (A * A) Q (list A) R) : (forall x, In x data -> calls_in inside (k x)) ->
  calls_in inside (pbind (lift (index data i)) k).
Proof. intros Hk. destruct (index data i) as [x|e] eqn:E; [|exact I]. apply Hk. eapply index_In. exact E. Qed.

Lemma loop_inside n : forall acc p b, calls_in inside (pivot_loop_prog n data acc p b).
Proof.
  induction n as [|n IH]; intros acc p b; [exact I|]. cbn [pivot_loop_prog]. apply calls_in_index. intros pivot Hp.
  apply calls_in_bind; [|intros [acc' b']; apply IH]. apply scan_inside; [exact Hp|]. intros j [x a] Hin.
  apply SpaceProofs.In_enumerate' in Hin. apply nth_error_In in Hin. apply in_combine_l in Hin. exact Hin.
Qed.

Lemma mapM_index_incl l : forall ps, mapM (index data) l = Ok ps -> incl ps data.
Proof.
  induction l as [|i l IH]; intros ps; cbn; [intros E; injection E as <-; intros x []|]. destruct (index data i) as [y|] eqn:E; [|discriminate].
  cbn. destruct (mapM (index data) l) as [ys|]; [|discriminate]. cbn. intros E'. injection E' as <-.
  intros x [<-|Hx]; [eapply index_In; exact E|apply (IH ys eq_refl), Hx].
Qed.

Lemma enumerate_inside i x : In (i, x) (enumerate data) -> In x data.
Proof. intros Hin. apply SpaceProofs.In_enumerate' in Hin. eapply nth_error_In. exact Hin. Qed.

Lemma laesa_inside set_order pivot_order draw radius pivots lo hi mode : calls_in inside (laesa_prog set_order pivot_order draw data radius pivots lo hi mode).
Proof.
  unfold laesa_prog. apply calls_in_bind; [apply calls_in_lift|]. intros n. apply calls_in_bind.
  - unfold pivot_selection_prog. destruct data as [|d0 data0] eqn:Ed; [exact I|]. rewrite <- Ed in *.
    assert (Hd : forall x, In x data <-> In x (d0 :: data0)) by (intros x; rewrite Ed; tauto). rewrite <- Ed in *. clear Hd.
    apply calls_in_bind; [apply loop_inside|]. intros s. apply calls_in_bind; [|intros D; exact I].
    apply calls_in_for. intros D i _. apply calls_in_bind; [apply calls_in_lift|]. intros b. apply calls_in_index. intros pivot Hp.
    apply calls_in_bind; [|intros row; exact I]. apply calls_in_for. intros row x Hx. cbn [calls_in fst snd]. auto.
  - intros [p D]. destruct (mapM (index data) (firstn n p)) as [ps|e] eqn:Eps; [|exact I]. cbn [lift pbind]. apply mapM_index_incl in Eps.
    unfold clusters_prog. apply calls_in_bind; [|intros pairs; apply calls_in_bind; [apply calls_in_lift|intros out; apply calls_in_yields]].
    apply calls_in_bind; [|intros [pairs DD]; exact I]. apply calls_in_for. intros st [i x] Hx. apply enumerate_inside in Hx.
    apply calls_in_bind.
    + apply calls_in_for. intros d y Hy. cbn [calls_in fst snd]. auto.
    + intros d_star. apply calls_in_for. intros [pairs DD] [k y] Hy. apply filter_In in Hy as [Hy _]. apply enumerate_inside in Hy.
      destruct (eliminated d_star D i k); [exact I|]. cbn [calls_in fst snd]. auto.
Qed.
End LaesaAny.

(** ** QuickJoin *)
Section QuickJoin.
Context {A : Type} `{EqDec A}.
Variable sign : Q -> Q.
Variable radius : Q.
Notation qprog := (prog (A * A) Q (list A)).

Lemma run_close {W} (f : user W) (w : W) l acc :
  run f w (for_each l acc (keep_close sign radius) : qprog _) =
  match feed f w l with
  | (answers, w, None) => (map Asked l, w, Ok (acc ++ select l (map (fun q => Qle_bool (sign q) radius) answers)))
  | (answers, w, Some e) => (map Asked (firstn (S (length answers)) l), w, Err e)
  end.
Proof.
  unfold keep_close.
  rewrite (run_asks f (fun ab : A * A => ab) (fun pairs ab (q : Q) => if Qle_bool (sign q) radius then pairs ++ [ab] else pairs)).
  rewrite map_id. destruct (feed f w l) as [[answers w'] [e|]]; [reflexivity|]. repeat f_equal.
  revert acc answers. induction l as [|ab l IH]; intros acc answers; [cbn; rewrite app_nil_r; reflexivity|].
  destruct answers as [|q answers]; cbn [combine fold_left map]; [unfold select; cbn; rewrite app_nil_r; reflexivity|].
  rewrite IH. unfold select. cbn [combine filter snd fst]. destruct (Qle_bool (sign q) radius); cbn [map fst]; [rewrite <- app_assoc|]; reflexivity.
Qed.

Section Pure.
Variable measure : A -> A -> Q.
Notation ask := (pure (fun q => measure (fst q) (snd q))).
Notation distance := (fun x y => sign (measure x y)).

Lemma partition_run items p rho :
  run ask tt (partition_prog sign radius items p rho : qprog _) =
  (map Asked (map (fun x => (p, x)) items), tt, Ok (partition distance radius items p rho)).
Proof.
  induction items as [|x items IH]; [reflexivity|]. cbn [partition_prog run pure map fst snd partition]. rewrite run_bind, IH. cbn [then_].
  destruct (partition _ radius items p rho) as [[[L G] Lw] Gw]. cbn [run].
  rewrite app_nil_r. destruct (Qle_bool rho (sign (measure p x))); reflexivity.
Qed.

Lemma cross_filter S1 S2 :
  filter (fun q => Qle_bool (sign (measure (fst q) (snd q))) radius) (flat_map (fun a => map (fun b => (a, b)) S2) S1) =
  quickjoin_bruteforce distance radius S1 S2.
Proof.
  unfold quickjoin_bruteforce. induction S1 as [|a S1 IH]; [reflexivity|]. cbn [flat_map]. rewrite filter_app, IH. f_equal.
  clear IH. induction S2 as [|b S2 IH]; [reflexivity|]. cbn [map filter fst snd flat_map]. rewrite IH. destruct (Qle_bool _ radius); reflexivity.
Qed.

Lemma self_filter items :
  filter (fun q => Qle_bool (sign (measure (fst q) (snd q))) radius) (bucket_pairs items) = quickjoin_self_bruteforce distance radius items.
Proof.
  induction items as [|a items IH]; [reflexivity|]. cbn [bucket_pairs quickjoin_self_bruteforce]. rewrite filter_app, IH. f_equal.
  clear IH. induction items as [|b items IH]; [reflexivity|]. cbn [map filter fst snd flat_map]. rewrite IH. destruct (Qle_bool _ radius); reflexivity.
Qed.

(** the pairs of a block, by brute force *)
Definition pairs_of (b : block A) : list (A * A) :=
  match b with Self s => quickjoin_self_bruteforce distance radius s | Cross s1 s2 => quickjoin_bruteforce distance radius s1 s2 end.

Lemma solve_run b pairs : exists qs, run ask tt (solve_prog sign radius b pairs : qprog _) = (map Asked qs, tt, Ok (pairs ++ pairs_of b)).
Proof.
  unfold solve_prog. rewrite run_close, feed_pure. eexists. repeat f_equal. rewrite map_map, select_map.
  destruct b; [apply self_filter|apply cross_filter].
Qed.

Lemma quick_loop_run beta size : forall fuel stack draws pairs,
  exists qs, run ask tt (quick_loop_prog sign radius beta size fuel stack draws pairs : qprog _) =
    (map Asked qs, tt, let! (bs, _) := blocks distance radius beta size fuel stack draws in Ok (pairs ++ concat (map pairs_of bs))).
Proof.
  induction fuel as [|fuel IH]; intros [|[items|S1 S2] stack] draws pairs; cbn [quick_loop_prog blocks];
    try (exists []; cbn; rewrite ?app_nil_r; reflexivity).
  - destruct (Nat.leb (length items) size).
    + rewrite run_bind. destruct (solve_run (Self items) pairs) as (q1 & ->). cbn [then_].
      destruct (IH stack draws (pairs ++ pairs_of (Self items))) as (q2 & ->). exists (q1 ++ q2). rewrite map_app. f_equal.
      destruct (blocks _ radius beta size fuel stack draws) as [[bs dr]|e]; cbn [bind]; [|reflexivity]. cbn [map concat]. rewrite <- app_assoc. reflexivity.
    + rewrite run_bind, run_lift. destruct (randint (length items) draws) as [[i1 dr1]|e]; cbn [then_ bind app]; [|exists []; reflexivity].
      rewrite run_bind, run_lift. destruct (draw_other (length items) i1 dr1) as [[i2 dr2]|e]; cbn [then_ bind app]; [|exists []; reflexivity].
      rewrite run_bind, run_lift. destruct (index items i1) as [p1|e]; cbn [then_ bind app]; [|exists []; reflexivity].
      rewrite run_bind, run_lift. destruct (index items i2) as [p2|e]; cbn [then_ bind app]; [|exists []; reflexivity].
      cbn [run pure fst snd]. rewrite run_bind, partition_run. cbn [then_].
      destruct (partition _ radius items p1 (beta * sign (measure p1 p2))) as [[[L G] Lw] Gw].
      destruct (IH (Cross Lw Gw :: Self L :: Self G :: stack) dr2 pairs) as (q & ->).
      exists ((p1, p2) :: map (fun x => (p1, x)) items ++ q). cbn [map]. rewrite map_app. reflexivity.
  - destruct (Nat.leb (length S1 + length S2) size).
    + destruct (Nat.eqb (length S1) 0 || Nat.eqb (length S2) 0); [apply IH|].
      rewrite run_bind. destruct (solve_run (Cross S1 S2) pairs) as (q1 & ->). cbn [then_].
      destruct (IH stack draws (pairs ++ pairs_of (Cross S1 S2))) as (q2 & ->). exists (q1 ++ q2). rewrite map_app. f_equal.
      destruct (blocks _ radius beta size fuel stack draws) as [[bs dr]|e]; cbn [bind]; [|reflexivity]. cbn [map concat]. rewrite <- app_assoc. reflexivity.
    + rewrite run_bind, run_lift. destruct (randint (length S1 + length S2) draws) as [[i1 dr1]|e]; cbn [then_ bind app]; [|exists []; reflexivity].
      rewrite run_bind, run_lift. destruct (draw_other (length S1 + length S2) i1 dr1) as [[i2 dr2]|e]; cbn [then_ bind app]; [|exists []; reflexivity].
      rewrite run_bind, run_lift. destruct (if Nat.ltb i1 (length S1) then _ else _) as [p1|e]; cbn [then_ bind app]; [|exists []; reflexivity].
      rewrite run_bind, run_lift. destruct (if Nat.ltb i2 (length S1) then _ else _) as [p2|e]; cbn [then_ bind app]; [|exists []; reflexivity].
      cbn [run pure fst snd]. rewrite run_bind, partition_run. cbn [then_].
      destruct (partition _ radius S1 p1 (beta * sign (measure p1 p2))) as [[[L1 G1] Lw1] Gw1]. rewrite run_bind, partition_run. cbn [then_].
      destruct (partition _ radius S2 p1 (beta * sign (measure p1 p2))) as [[[L2 G2] Lw2] Gw2].
      destruct (IH (Cross Gw1 Lw2 :: Cross Lw1 Gw2 :: Cross G1 G2 :: Cross L1 L2 :: stack) dr2 pairs) as (q & ->).
      exists ((p1, p2) :: map (fun x => (p1, x)) S1 ++ map (fun x => (p1, x)) S2 ++ q). cbn [map]. rewrite !map_app. reflexivity.
Qed.
End Pure.

(** the calls are between items of the data *)
Definition of_block (b : block A) (x : A) : Prop := match b with Self s => In x s | Cross s1 s2 => In x s1 \/ In x s2 end.

Lemma partition_any {W} (f : user W) (p : A) rho items : forall w t w' o,
  run f w (partition_prog sign radius items p rho : qprog _) = (t, w', o) ->
  (forall a b, In (a, b) (asked t) -> a = p /\ In b items) /\
  match o with
  | Ok (L, G, Lw, Gw) => forall x, In x L \/ In x G \/ In x Lw \/ In x Gw -> In x items
  | Err _ => True
  end.
Proof.
  induction items as [|y items IH]; intros w t w' o; cbn [partition_prog run].
  { intros E. injection E as <- <- <-. split; [intros a b []|]. intros x Hx. tauto. }
  destruct (f w (p, y)) as [w1 [q|e]].
  2:{ intros E. injection E as <- <- <-. split; [|trivial]. intros a b [E|[]]. injection E as <- <-. split; [reflexivity|left; reflexivity]. }
  rewrite run_bind. destruct (run f w1 (partition_prog sign radius items p rho)) as [[t1 w2] o1] eqn:Er.
  destruct (IH _ _ _ _ Er) as [Hc Ho]. destruct o1 as [[[[L G] Lw] Gw]|e]; cbn [then_ run]; intros E; injection E as <- <- <-.
  - rewrite app_nil_r. split.
    + intros a b [E|Hin]; [injection E as <- <-; split; [reflexivity|left; reflexivity]|]. destruct (Hc a b Hin) as [-> Hb]. split; [reflexivity|right; exact Hb].
    + destruct (negb (Qle_bool rho (sign q))).
      * destruct (Qle_bool (rho - radius) (sign q)); intros x Hx; cbn [In] in *;
          (destruct (eq_dec y x) as [->|Hne]; [left; reflexivity|right; apply Ho; tauto]).
      * destruct (Qle_bool (sign q) (rho + radius)); intros x Hx; cbn [In] in *;
          (destruct (eq_dec y x) as [->|Hne]; [left; reflexivity|right; apply Ho; tauto]).
  - split; [|trivial]. intros a b [E|Hin]; [injection E as <- <-; split; [reflexivity|left; reflexivity]|].
    destruct (Hc a b Hin) as [-> Hb]. split; [reflexivity|right; exact Hb].
Qed.

Lemma solve_any {W} (f : user W) b pairs w t w' o : run f w (solve_prog sign radius b pairs : qprog _) = (t, w', o) ->
  forall x y, In (x, y) (asked t) -> of_block b x /\ of_block b y.
Proof.
  unfold solve_prog. rewrite run_close. set (l := match b with Self _ => _ | Cross _ _ => _ end).
  assert (Hl : forall x y, In (x, y) l -> of_block b x /\ of_block b y).
  { unfold l. destruct b as [s|s1 s2]; intros x y Hin; cbn [of_block].
    - apply In_bucket_pairs in Hin as (l1 & l2 & l3 & ->). split; apply in_app_iff; right; [left; reflexivity|right; apply in_app_iff; right; left; reflexivity].
    - apply in_flat_map in Hin as (a & Ha & Hb). apply in_map_iff in Hb as (b & E & Hb). injection E as <- <-. auto. }
  destruct (feed f w l) as [[answers w1] [e|]]; intros E; injection E as <- <- <-; rewrite asked_Asked; intros x y Hin; apply Hl; [|exact Hin].
  rewrite <- (firstn_skipn (S (length answers)) l). apply in_app_iff. left. exact Hin.
Qed.

Lemma asked_cons {Q C} (q : Q) (t : list (event Q C)) : asked (Asked q :: t) = q :: asked t.
Proof. reflexivity. Qed.

Lemma quick_loop_any {W} (f : user W) (data : list A) beta size : forall fuel stack draws pairs w t w' o,
  (forall b x, In b stack -> of_block b x -> In x data) ->
  run f w (quick_loop_prog sign radius beta size fuel stack draws pairs : qprog _) = (t, w', o) ->
  forall x y, In (x, y) (asked t) -> In x data /\ In y data.
Proof.
  induction fuel as [|fuel IH]; intros [|[items|S1 S2] stack] draws pairs w t w' o Hst; cbn [quick_loop_prog];
    try (intros E; injection E as <- <- <-; intros x y []).
  - assert (Hs : forall b x, In b stack -> of_block b x -> In x data) by (intros b x Hb; apply Hst; right; exact Hb).
    assert (Hi : forall x, In x items -> In x data) by (intros x Hx; apply (Hst (Self items) x); [left; reflexivity|exact Hx]).
    destruct (Nat.leb (length items) size).
    + rewrite run_bind. destruct (run f w (solve_prog sign radius (Self items) pairs)) as [[t1 w1] o1] eqn:E1.
      assert (H1 : forall x y, In (x, y) (asked t1) -> In x data /\ In y data).
      { intros x y Hin. destruct (solve_any f _ _ _ _ _ _ E1 x y Hin) as [Hx Hy]. cbn in Hx, Hy. auto. }
      destruct o1 as [p1|e]; cbn [then_]; [|intros E; injection E as <- <- <-; exact H1].
      destruct (run f w1 (quick_loop_prog sign radius beta size fuel stack draws p1)) as [[t2 w2] o2] eqn:E2. intros E. injection E as <- <- <-.
      intros x y. rewrite asked_app, in_app_iff. intros [Hin|Hin]; [apply H1; exact Hin|eapply IH; eassumption].
    + rewrite run_bind, run_lift. destruct (randint (length items) draws) as [[i1 dr1]|e]; cbn [then_]; [|intros E; injection E as <- <- <-; intros x y []].
      rewrite run_bind, run_lift. destruct (draw_other (length items) i1 dr1) as [[i2 dr2]|e]; cbn [then_]; [|intros E; injection E as <- <- <-; intros x y []].
      rewrite run_bind, run_lift. destruct (index items i1) as [p1|e] eqn:Ei1; cbn [then_]; [|intros E; injection E as <- <- <-; intros x y []].
      rewrite run_bind, run_lift. destruct (index items i2) as [p2|e] eqn:Ei2; cbn [then_ run]; [|intros E; injection E as <- <- <-; intros x y []].
      apply index_In in Ei1, Ei2.
      destruct (f w (p1, p2)) as [w1 [q|e]].
      2:{ cbn [app]. intros E. injection E as <- <- <-. intros x y [E|[]]. injection E as <- <-. auto. }
      rewrite run_bind. destruct (run f w1 (partition_prog sign radius items p1 (beta * sign q))) as [[t1 w2] o1] eqn:E1.
      destruct (partition_any f p1 _ items _ _ _ _ E1) as [Hc Ho]. destruct o1 as [[[[L G] Lw] Gw]|e]; cbn [then_ app].
      2:{ intros E. injection E as <- <- <-. intros x y [E|Hin]; [injection E as <- <-; auto|]. destruct (Hc x y Hin) as [-> Hy]. auto. }
      destruct (run f w2 (quick_loop_prog _ _ _ _ _ _ _ _)) as [[t2 w3] o2] eqn:E2. intros E. injection E as <- <- <-.
      intros x y Hin; rewrite asked_cons in Hin; destruct Hin as [E|Hin]; [injection E as <- <-; auto|]. rewrite asked_app in Hin. apply in_app_iff in Hin as [Hin|Hin].
      { destruct (Hc x y Hin) as [-> Hy]. auto. }
      eapply IH; [|exact E2|exact Hin]. intros b z [<-|[<-|[<-|Hb]]] Hz; [| | |eapply Hs; eassumption]; cbn in Hz; apply Hi, Ho; tauto.
  - assert (Hs : forall b x, In b stack -> of_block b x -> In x data) by (intros b x Hb; apply Hst; right; exact Hb).
    assert (Hi : forall x, In x S1 \/ In x S2 -> In x data) by (intros x Hx; apply (Hst (Cross S1 S2) x); [left; reflexivity|exact Hx]).
    destruct (Nat.leb (length S1 + length S2) size).
    + destruct (Nat.eqb (length S1) 0 || Nat.eqb (length S2) 0); [apply IH; exact Hs|].
      rewrite run_bind. destruct (run f w (solve_prog sign radius (Cross S1 S2) pairs)) as [[t1 w1] o1] eqn:E1.
      assert (H1 : forall x y, In (x, y) (asked t1) -> In x data /\ In y data).
      { intros x y Hin. destruct (solve_any f _ _ _ _ _ _ E1 x y Hin) as [Hx Hy]. cbn in Hx, Hy. auto. }
      destruct o1 as [p1|e]; cbn [then_]; [|intros E; injection E as <- <- <-; exact H1].
      destruct (run f w1 (quick_loop_prog sign radius beta size fuel stack draws p1)) as [[t2 w2] o2] eqn:E2. intros E. injection E as <- <- <-.
      intros x y. rewrite asked_app, in_app_iff. intros [Hin|Hin]; [apply H1; exact Hin|eapply IH; eassumption].
    + rewrite run_bind, run_lift. destruct (randint (length S1 + length S2) draws) as [[i1 dr1]|e]; cbn [then_]; [|intros E; injection E as <- <- <-; intros x y []].
      rewrite run_bind, run_lift. destruct (draw_other (length S1 + length S2) i1 dr1) as [[i2 dr2]|e]; cbn [then_]; [|intros E; injection E as <- <- <-; intros x y []].
      rewrite run_bind, run_lift. destruct (if Nat.ltb i1 (length S1) then _ else _) as [p1|e] eqn:Ei1; cbn [then_]; [|intros E; injection E as <- <- <-; intros x y []].
      rewrite run_bind, run_lift. destruct (if Nat.ltb i2 (length S1) then _ else _) as [p2|e] eqn:Ei2; cbn [then_ run]; [|intros E; injection E as <- <- <-; intros x y []].
      assert (Hp1 : In p1 data) by (apply Hi; destruct (Nat.ltb i1 (length S1)); apply index_In in Ei1; auto).
      assert (Hp2 : In p2 data) by (apply Hi; destruct (Nat.ltb i2 (length S1)); apply index_In in Ei2; auto).
      destruct (f w (p1, p2)) as [w1 [q|e]].
      2:{ cbn [app]. intros E. injection E as <- <- <-. intros x y [E|[]]. injection E as <- <-. auto. }
      rewrite run_bind. destruct (run f w1 (partition_prog sign radius S1 p1 (beta * sign q))) as [[t1 w2] o1] eqn:E1.
      destruct (partition_any f p1 _ S1 _ _ _ _ E1) as [Hc1 Ho1]. destruct o1 as [[[[L1 G1] Lw1] Gw1]|e]; cbn [then_ app].
      2:{ intros E. injection E as <- <- <-. intros x y [E|Hin]; [injection E as <- <-; auto|]. destruct (Hc1 x y Hin) as [-> Hy]. auto. }
      rewrite run_bind. destruct (run f w2 (partition_prog sign radius S2 p1 (beta * sign q))) as [[t2 w3] o2] eqn:E2.
      destruct (partition_any f p1 _ S2 _ _ _ _ E2) as [Hc2 Ho2]. destruct o2 as [[[[L2 G2] Lw2] Gw2]|e]; cbn [then_].
      2:{ intros E. injection E as <- <- <-. intros x y Hin; rewrite asked_cons in Hin; destruct Hin as [E|Hin]; [injection E as <- <-; auto|]. rewrite asked_app in Hin.
          apply in_app_iff in Hin as [Hin|Hin]; [destruct (Hc1 x y Hin) as [-> Hy]|destruct (Hc2 x y Hin) as [-> Hy]]; auto. }
      destruct (run f w3 (quick_loop_prog _ _ _ _ _ _ _ _)) as [[t3 w4] o3] eqn:E3. intros E. injection E as <- <- <-.
      intros x y Hin; rewrite asked_cons in Hin; destruct Hin as [E|Hin]; [injection E as <- <-; auto|]. rewrite !asked_app in Hin. apply in_app_iff in Hin as [Hin|Hin].
      { destruct (Hc1 x y Hin) as [-> Hy]. auto. }
      apply in_app_iff in Hin as [Hin|Hin]. { destruct (Hc2 x y Hin) as [-> Hy]. auto. }
      eapply IH; [|exact E3|exact Hin]. intros b z [<-|[<-|[<-|[<-|Hb]]]] Hz; [| | | |eapply Hs; eassumption]; cbn in Hz; apply Hi;
        (destruct Hz as [Hz|Hz]; [left; apply Ho1|right; apply Ho2]; tauto).
Qed.

Variable set_order : list A -> list A.

(** small data: brute force *)
Lemma quick_small {W} (f : user W) (w : W) fuel draws data size lo hi mode beta : length data <= size ->
  run f w (quick_prog set_order sign radius (S fuel) draws data size lo hi mode beta) =
  talks f w (at_cells data (cells (length data)))
    (fun answers => outcome (clusters_from_pairs set_order
       (select (at_cells data (cells (length data))) (map (fun q => Qle_bool (sign q) radius) answers)) lo hi mode true)).
Proof.
  intros Hs. unfold quick_prog.
  apply (clusters_talks set_order f w _ (at_cells data (cells (length data)))
    (fun answers => select (at_cells data (cells (length data))) (map (fun q => Qle_bool (sign q) radius) answers))).
  cbn [quick_loop_prog]. rewrite (proj2 (Nat.leb_le _ _) Hs). rewrite run_bind. unfold solve_prog. rewrite run_close.
  assert (E : bucket_pairs data = at_cells data (cells (length data))).
  { rewrite <- upper_pairs_values. unfold upper_pairs.
    assert (G : forall (l : list A) n, map (fun ab : (nat * A) * (nat * A) => (snd (fst ab), snd (snd ab))) (bucket_pairs (combine (seq n (length l)) l)) = bucket_pairs l).
    { induction l as [|x l IH]; intros n; [reflexivity|]. cbn [length seq combine bucket_pairs]. rewrite map_app, IH. f_equal.
      rewrite map_map. cbn [fst snd].
      generalize (S n) as m. clear. induction l as [|y l IHl]; intros m; [reflexivity|]. cbn [length seq combine map snd]. rewrite IHl. reflexivity. }
    symmetry. apply (G data 0). }
  rewrite E. destruct (feed f w _) as [[answers w1] [e|]]; cbn [then_]; [reflexivity|].
  cbn [app]. destruct fuel; cbn [quick_loop_prog run]; rewrite app_nil_r; reflexivity.
Qed.

(** without a function *)
Lemma missing_run {R} (p : qprog R) : exists t o, run missing tt p = (t, tt, o) /\
  ((asked t = [] /\ forall f : A * A -> Q, run (pure f) tt p = (t, tt, o)) \/ (length (asked t) = 1 /\ o = Err TypeError)).
Proof.
  induction p as [r|e|q k IH|c p IH]; cbn [run].
  - exists [], (Ok r). split; [reflexivity|]. left. split; reflexivity.
  - exists [], (Err e). split; [reflexivity|]. left. split; reflexivity.
  - unfold missing. exists [Asked q], (Err TypeError). split; [reflexivity|]. right. split; reflexivity.
  - destruct IH as (t & o & -> & Hc). exists (Gave c :: t), o. split; [reflexivity|]. destruct Hc as [[Ha Hf]|[Ha ->]].
    + left. split; [exact Ha|]. intros f. rewrite Hf. reflexivity.
    + right. split; [exact Ha|reflexivity].
Qed.
End QuickJoin.

Section QuickJoinWhole.
Context {A : Type} `{EqDec A}.
Variable set_order : list A -> list A.

Lemma quick_agrees sign radius (f : A -> A -> Q) neighbors identity unordered fuel draws data size lo hi mode beta :
  exists t o, run (pure (fun q => f (fst q) (snd q))) tt (quick_prog set_order sign radius fuel draws data size lo hi mode beta) = (t, tt, o) /\
    outcome (let! pairs := clustering (fun x y => sign (f x y)) radius neighbors identity unordered beta size 1 false fuel data draws in
             clusters_from_pairs set_order pairs lo hi mode true) = (given t, o).
Proof.
  unfold quick_prog, clusters_prog, clustering. rewrite run_bind.
  destruct (quick_loop_run sign radius f beta size fuel [Self data] draws []) as (qs & ->).
  destruct (blocks _ radius beta size fuel [Self data] draws) as [[bs dr]|e]; cbn [bind then_].
  2:{ eexists _, _. split; [reflexivity|]. rewrite given_Asked. reflexivity. }
  assert (E : mapM (solve (fun x y => sign (f x y)) radius neighbors identity false) bs = Ok (map (pairs_of sign radius f) bs)).
  { induction bs as [|b bs IH]; [reflexivity|]. cbn [mapM map]. rewrite IH. destruct b; reflexivity. }
  rewrite E. cbn [bind Nat.eqb app]. rewrite run_bind, run_lift. cbn [then_].
  destruct (clusters_from_pairs _ _ _ _ _ _) as [out|e]; cbn [run].
  - rewrite run_yields. eexists _, _. split; [reflexivity|]. rewrite given_app, given_Asked. cbn [app]. rewrite given_Gave. reflexivity.
  - eexists _, _. split; [reflexivity|]. rewrite given_app, given_Asked. reflexivity.
Qed.

Lemma quickjoin_agrees neighbors identity unordered (similar : bool) f fuel draws data radius size lo hi mode beta :
  exists t o, run (pure (fun q => f (fst q) (snd q))) tt (quickjoin_prog set_order similar fuel draws data radius size lo hi mode beta) = (t, tt, o) /\
    outcome (quickjoin set_order neighbors identity unordered fuel draws data radius (if similar then Similarity f else Distance f) size lo hi mode 1 beta false)
      = (given t, o).
Proof. unfold quickjoin, quickjoin_prog. destruct similar; apply quick_agrees. Qed.

Lemma quick_items {W} (f : user W) (w : W) sign radius fuel draws data size lo hi mode beta t w' o :
  run f w (quick_prog set_order sign radius fuel draws data size lo hi mode beta) = (t, w', o) ->
  forall x y, In (x, y) (asked t) -> In x data /\ In y data.
Proof.
  unfold quick_prog, clusters_prog. rewrite run_bind. destruct (run f w (quick_loop_prog _ _ _ _ _ _ _ _)) as [[t1 w1] o1] eqn:E1.
  assert (H1 : forall x y, In (x, y) (asked t1) -> In x data /\ In y data).
  { eapply (quick_loop_any sign radius f data); [|exact E1]. intros b x [<-|[]] Hx. exact Hx. }
  destruct o1 as [pairs|e]; cbn [then_]; [|intros E; injection E as <- <- <-; exact H1].
  rewrite run_bind, run_lift. destruct (clusters_from_pairs _ _ _ _ _ _) as [out|e]; cbn [then_].
  - rewrite run_yields. intros E. injection E as <- <- <-. intros x y. rewrite asked_app. cbn [app]. rewrite asked_Gave, app_nil_r. apply H1.
  - intros E. injection E as <- <- <-. intros x y. rewrite app_nil_r. apply H1.
Qed.

Lemma quickjoin_items {W} (f : user W) (w : W) (similar : bool) fuel draws data radius size lo hi mode beta t w' o :
  run f w (quickjoin_prog set_order similar fuel draws data radius size lo hi mode beta) = (t, w', o) ->
  forall x y, In (x, y) (asked t) -> In x data /\ In y data.
Proof. unfold quickjoin_prog. destruct similar; apply quick_items. Qed.

Lemma draw_other_lt n p1 draws i2 dr : n <> 0 -> draw_other n p1 draws = Ok (i2, dr) -> i2 < n.
Proof.
  intros Hn. induction draws as [|d draws IH]; [discriminate|]. cbn [draw_other]. destruct (Nat.eqb p1 (d mod n)); [exact IH|].
  intros E. injection E as <- _. apply Nat.mod_upper_bound. exact Hn.
Qed.

Lemma missing_pivots fuel draws data radius size lo hi mode beta i1 i2 draws1 draws2 : size < length data ->
  randint (length data) draws = Ok (i1, draws1) -> draw_other (length data) i1 draws1 = Ok (i2, draws2) ->
  exists p1 p2, nth_error data i1 = Some p1 /\ nth_error data i2 = Some p2 /\
    run missing tt (quickjoin_prog set_order false (S fuel) draws data radius size lo hi mode beta) = ([Asked (p1, p2)], tt, Err TypeError).
Proof.
  intros Hs E1 E2. assert (Hn : length data <> 0) by lia. pose proof (draw_other_lt _ _ _ _ _ Hn E2) as H2.
  assert (H1 : i1 < length data).
  { unfold randint in E1. destruct (length data) as [|n] eqn:El; [discriminate|]. destruct draws as [|d dr]; [discriminate|].
    apply (f_equal (fun r => match r with Ok (i, _) => i | Err _ => 0 end)) in E1. rewrite <- E1. apply Nat.mod_upper_bound. lia. }
  destruct (nth_error data i1) as [p1|] eqn:N1; [|apply nth_error_None in N1; lia].
  destruct (nth_error data i2) as [p2|] eqn:N2; [|apply nth_error_None in N2; lia].
  exists p1, p2. split; [reflexivity|]. split; [reflexivity|]. unfold quickjoin_prog, quick_prog, clusters_prog. cbn [quick_loop_prog].
  rewrite (proj2 (Nat.leb_gt _ _) Hs), E1. cbn [lift pbind]. rewrite E2. cbn [lift pbind]. unfold index. rewrite N1. cbn [lift pbind].
  rewrite N2. reflexivity.
Qed.
End QuickJoinWhole.

Lemma seq_above i n : filter (fun k => Nat.ltb i k) (seq 0 n) = seq (S i) (n - S i).
Proof.
  induction n as [|n IH]; [reflexivity|]. rewrite seq_S, filter_app, IH. cbn [filter Nat.add]. destruct (Nat.ltb_spec i n) as [Hlt|Hge].
  - replace (S n - S i) with (S (n - S i)) by lia. rewrite seq_S. do 2 f_equal. lia.
  - replace (S n - S i) with 0 by lia. replace (n - S i) with 0 by lia. reflexivity.
Qed.

Lemma flat_map_filter {X Y} (g : X -> list Y) (P : X -> bool) l : flat_map g (filter P l) = flat_map (fun x => if P x then g x else []) l.
Proof. induction l as [|x l IH]; [reflexivity|]. cbn [filter flat_map]. destruct (P x); cbn [flat_map app]; rewrite IH; reflexivity. Qed.

Lemma flat_map_flat {X Y Z} (g : Y -> list Z) (h : X -> list Y) l : flat_map g (flat_map h l) = flat_map (fun x => flat_map g (h x)) l.
Proof. induction l as [|x l IH]; [reflexivity|]. cbn [flat_map]. rewrite flat_map_app, IH. reflexivity. Qed.

Lemma flat_map_enumerate {X Y} (g : nat -> X -> list Y) (l : list X) :
  flat_map (fun '(i, x) => g i x) (enumerate l) = flat_map (fun i => match nth_error l i with Some x => g i x | None => [] end) (seq 0 (length l)).
Proof.
  unfold enumerate. assert (G : forall (l pre : list X), flat_map (fun '(i, x) => g i x) (combine (seq (length pre) (length l)) l) =
    flat_map (fun i => match nth_error (pre ++ l) i with Some x => g i x | None => [] end) (seq (length pre) (length l))); [|apply (G l [])].
  clear. induction l as [|x l IH]; intros pre; [reflexivity|]. cbn [length seq combine flat_map]. rewrite nth_error_app2, Nat.sub_diag by lia.
  cbn [nth_error]. f_equal. specialize (IH (pre ++ [x])). rewrite <- app_assoc, app_length in IH. cbn [length app] in IH. rewrite Nat.add_1_r in IH. exact IH.
Qed.

Lemma kept_cells {A} (distance : A -> A -> Q) data pivots rows :
  exists cs, subseq cs (cells (length data)) /\ kept_pairs distance data pivots rows = at_cells data cs.
Proof.
  exists (filter (fun ik => match nth_error data (fst ik) with
     Some x => negb (eliminated (nearest distance pivots x None) rows (fst ik) (snd ik)) | None => false end) (cells (length data))).
  split; [apply subseq_filter|]. unfold at_cells, kept_pairs, cells. rewrite flat_map_filter, flat_map_flat.
  rewrite (flat_map_enumerate (fun i x => map (fun ky => (x, snd ky)) (filter (fun ky => Nat.ltb i (fst ky) && negb (eliminated (nearest distance pivots x None) rows i (fst ky))) (enumerate data)))).
  apply flat_map_ext. intros i. rewrite <- seq_above.
  destruct (nth_error data i) as [x|] eqn:Ei.
  2:{ symmetry. induction (filter (fun k => Nat.ltb i k) (seq 0 (length data))) as [|k l IH]; [reflexivity|]. cbn [map flat_map fst snd]. rewrite Ei. exact IH. }
  set (d := nearest distance pivots x None).
  transitivity (flat_map (fun '(k, y) => if Nat.ltb i k && negb (eliminated d rows i k) then [(x, y)] else []) (enumerate data)).
  { generalize (enumerate data). intros l. induction l as [|[k y] l IH]; [reflexivity|]. cbn [filter flat_map fst].
    destruct (Nat.ltb i k && negb (eliminated d rows i k)); cbn [map snd app]; rewrite IH; reflexivity. }
  rewrite (flat_map_enumerate (fun k y => if Nat.ltb i k && negb (eliminated d rows i k) then [(x, y)] else [])).
  generalize (seq 0 (length data)). intros l. induction l as [|k l IH]; [reflexivity|]. cbn [flat_map filter].
  destruct (Nat.ltb i k); cbn [andb map flat_map fst snd].
  - rewrite Ei, IH. fold d. destruct (negb (eliminated d rows i k)); destruct (nth_error data k); reflexivity.
  - rewrite IH. destruct (nth_error data k); reflexivity.
Qed.
