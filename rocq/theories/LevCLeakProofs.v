From Coq Require Import Lia.
From Verif Require Import Base BaseFacts LevModel LevCModel LevCProofs LevCTopProofs LevCSpec.
Open Scope nat_scope.
Open Scope list_scope.

(** ** the last row *)
Lemma dp_row_last a codes : forall n j left current v, 0 < n -> j + n <= length v ->
  let '(current', v') := dp_row a codes n j left current v in nth (j + n - 1) v' 0 = current'.
Proof.
  induction n as [|n IH]; intros j left current v H L; [lia|]. cbn [dp_row]. set (c3 := if N.eqb a (nth j codes 0%N) then left else _). destruct n as [|n].
  - cbn [dp_row]. rewrite nth_upd. replace (j + 1 - 1) with j by lia. rewrite Nat.eqb_refl. destruct (Nat.ltb_spec j (length v)); [reflexivity|lia].
  - pose proof (IH (j + 1) (nth j v 0) c3 (upd v j c3) ltac:(lia) ltac:(rewrite upd_len; lia)) as H1. destruct (dp_row a codes (S n) (j + 1) (nth j v 0) c3 (upd v j c3)) as [current' v'].
    rewrite <- H1. f_equal. lia.
Qed.
Lemma dp_row_length a codes : forall n j left current v, length (snd (dp_row a codes n j left current v)) = length v.
Proof. induction n as [|n IH]; intros j left current v; [reflexivity|]. cbn [dp_row]. rewrite IH. apply upd_len. Qed.

Lemma banded_stops codes mx diff offset : forall rest i js je current v x, rest <> [] -> i + length rest + diff = length codes -> length codes <= je + length rest -> je <= length codes ->
  js <= pred i -> length v = length codes -> banded_rows rest codes mx diff offset true i js je current v = Some x -> x <= mx.
Proof.
  induction rest as [|a rest IH]; intros i js je current v x N L1 L2 L3 L4 L5 E; [congruence|]. cbn [banded_rows length] in *.
  set (js' := if Nat.ltb offset i then js + 1 else js) in *. set (je' := if Nat.ltb je (length codes) then je + 1 else je) in *.
  assert (J1 : js' <= i) by (unfold js'; destruct (Nat.ltb_spec offset i); lia).
  assert (J2 : je' <= length codes /\ length codes <= je' + length rest) by (unfold je'; destruct (Nat.ltb_spec je (length codes)); lia).
  clearbody js' je'. pose proof (dp_row_last a codes (je' - js') js' i (i + 1) v) as R. pose proof (dp_row_length a codes (je' - js') js' i (i + 1) v) as RL.
  destruct (dp_row a codes (je' - js') js' i (i + 1) v) as [current' v']. cbn [snd] in RL. cbn [andb] in E.
  destruct (Nat.ltb_spec mx (nth (i + diff) v' 0)) as [|Hm]; [discriminate|]. destruct rest as [|b rest].
  - cbn [banded_rows] in E. injection E as <-. cbn [length] in *. rewrite <- R by lia. replace (js' + (je' - js') - 1) with (i + diff) by lia. exact Hm.
  - eapply IH; [discriminate| | | | | |exact E]; cbn [length] in *; lia.
Qed.
Lemma banded_never codes mx diff offset : forall rest i js je current v, banded_rows rest codes mx diff offset false i js je current v <> None.
Proof.
  induction rest as [|a rest IH]; intros i js je current v; cbn [banded_rows]; [discriminate|]. destruct (dp_row a codes _ _ i (i + 1) v) as [current' v']. cbn [andb]. apply IH.
Qed.
Lemma banded_bound (a : str) codes mx diff offset have_max v x : length a + diff = length codes -> mx <= length codes -> diff <= mx -> small (length codes) ->
  length v = length codes -> (forall k, nth k v 0 <= S k) ->
  banded_rows (map u32 a) codes mx diff offset have_max 0 0 mx 0 v = Some x -> x <= length codes.
Proof.
  intros L1 L2 L3 HS L4 HV E. destruct (banded_sim a 0 (length a) codes mx diff offset have_max []) with (fuel := S (length a)) (i := 0) (js := 0) (je := mx) (current := 0) (v := v) as (v' & _ & _ & H);
    try lia; try assumption; [eapply small_le; [|exact HS]; lia|].
  apply H. rewrite Nat.sub_0_r. cbn [Nat.add skipn]. rewrite firstn_all. exact E.
Qed.

Lemma initial_bound mx ub LB : (mx < LB -> ub = mx + 1) -> forall k, nth k (map (fun i => if Nat.ltb i mx then i + 1 else ub) (seq 0 LB)) 0 <= S k.
Proof.
  intros M3 k. destruct (Nat.lt_ge_cases k LB) as [Hk|Hk]; [|rewrite nth_overflow by (rewrite map_length, seq_length; lia); lia].
  rewrite (nth_indep _ _ ((fun i => if Nat.ltb i mx then i + 1 else ub) 0)) by (rewrite map_length, seq_length; lia).
  rewrite (map_nth (fun i => if Nat.ltb i mx then i + 1 else ub)). rewrite seq_nth by lia. cbn [Nat.add]. destruct (Nat.ltb_spec k mx); [lia|]. rewrite M3 by lia. lia.
Qed.

Lemma limited_lost k (a b : str) : length a <= length b -> small (length b) ->
  snd (limited_of k (k + 1) a b) = true <-> length b - length a <= k /\ fst (limited_of k (k + 1) a b) = k + 1.
Proof.
  intros L HS. unfold limited_of. destruct a as [|a0 a]; [cbn [fst snd length]; destruct (Nat.ltb_spec k (length b)); split; [discriminate|lia|discriminate|lia]|].
  set (a' := a0 :: a) in *. assert (NA : a' <> []) by (unfold a'; discriminate). assert (LA : 0 < length a') by (cbn; lia). clearbody a'. clear a0 a.
  destruct (Nat.ltb_spec (length b) k) as [H1|H1]; cbn [negb andb].
  - rewrite Nat.ltb_irrefl. set (v := map (fun i => if Nat.ltb i (length b) then i + 1 else k + 1) (seq 0 (length b))).
    destruct (banded_rows (map u32 a') (map to_ushort b) (length b) (length b - length a') (length b - (length b - length a')) false 0 0 (length b) 0 v) as [x|] eqn:E; [|exfalso; exact (banded_never _ _ _ _ _ _ _ _ _ _ E)].
    cbn [fst snd]. split; [discriminate|]. intros [_ H]. exfalso. apply banded_bound in E; try (rewrite ?map_length; first [lia|exact HS]); [|unfold v; rewrite !map_length, seq_length; reflexivity|apply initial_bound; lia].
    rewrite map_length in E. destruct (Nat.leb_spec x (length b)); lia.
  - destruct (Nat.ltb_spec k (length b - length a')) as [H2|H2]; cbn [fst snd]; [split; [discriminate|lia]|].
    set (v := map (fun i => if Nat.ltb i k then i + 1 else k + 1) (seq 0 (length b))). destruct (Nat.ltb_spec k (length b)) as [H3|H3].
    + destruct (banded_rows (map u32 a') (map to_ushort b) k (length b - length a') (k - (length b - length a')) true 0 0 k 0 v) as [x|] eqn:E; cbn [fst snd]; [|split; auto].
      split; [discriminate|]. intros [_ H]. exfalso. apply banded_stops in E; try (rewrite ?map_length; lia); [|intros X; apply map_eq_nil in X; congruence|unfold v; rewrite !map_length, seq_length; reflexivity].
      destruct (Nat.leb_spec x k); lia.
    + assert (k = length b) by lia. destruct (banded_rows (map u32 a') (map to_ushort b) k (length b - length a') (k - (length b - length a')) false 0 0 k 0 v) as [x|] eqn:E; [|exfalso; exact (banded_never _ _ _ _ _ _ _ _ _ _ E)].
      cbn [fst snd]. split; [discriminate|]. intros [_ H4]. exfalso. apply banded_bound in E; try (rewrite ?map_length; first [lia|exact HS]); [|unfold v; rewrite !map_length, seq_length; reflexivity|apply initial_bound; lia].
      rewrite map_length in E. destruct (Nat.leb_spec x k); lia.
Qed.

(** the largest bound: it is never passed *)
Lemma limited_largest k ub (a b : str) : length a <= length b -> length b <= k -> small (length b) -> limited_of k ub a b = limited_of k (k + 1) a b.
Proof.
  intros L LK HS. unfold limited_of. destruct a as [|a0 a]; [destruct (Nat.ltb_spec k (length b)); [lia|reflexivity]|].
  set (a' := a0 :: a) in *. assert (LA : 0 < length a') by (cbn; lia). clearbody a'. clear a0 a.
  assert (T : (if Nat.ltb (length b) k then length b else k) = length b) by (destruct (Nat.ltb_spec (length b) k); lia). rewrite T.
  destruct (Nat.ltb_spec k (length b - length a')); [lia|]. rewrite Bool.andb_false_r. rewrite Nat.ltb_irrefl.
  assert (TV : map (fun i => if Nat.ltb i (length b) then i + 1 else ub) (seq 0 (length b)) = map (fun i => if Nat.ltb i (length b) then i + 1 else k + 1) (seq 0 (length b))).
  { apply map_ext_in. intros i Hi. apply in_seq in Hi. destruct (Nat.ltb_spec i (length b)); [reflexivity|lia]. }
  rewrite TV. set (v := map (fun i => if Nat.ltb i (length b) then i + 1 else k + 1) (seq 0 (length b))).
  destruct (banded_rows (map u32 a') (map to_ushort b) (length b) (length b - length a') (length b - (length b - length a')) false 0 0 (length b) 0 v) as [x|] eqn:E; [|exfalso; exact (banded_never _ _ _ _ _ _ _ _ _ _ E)].
  apply banded_bound in E; try (rewrite ?map_length; first [lia|exact HS]); [|unfold v; rewrite !map_length, seq_length; reflexivity|apply initial_bound; lia].
  rewrite map_length in E. destruct (Nat.leb_spec x (length b)); [reflexivity|lia].
Qed.

Lemma trim_lengths (A B : str) : length A <= length B -> small (length B) -> let '(a, b) := trim A B in
  length a <= length b /\ length b - length a = length B - length A /\ length b <= length B /\ (forall x, In x a -> In x A).
Proof.
  intros L HS. destruct (trim_sim A B (length A) (length B) [] (fun _ _ _ => ret tt) L (le_n _) (le_n _) HS) as (start & LA & LB & H1 & H2 & H3 & H4 & H5 & H6 & E & _).
  rewrite !firstn_all in E. rewrite E. rewrite !firstn_length, !skipn_length. repeat split; try lia. intros x Hx. rewrite <- (firstn_skipn start A). apply in_or_app. right.
  rewrite <- (firstn_skipn LA (skipn start A)). apply in_or_app. left. exact Hx.
Qed.
Lemma limited_model k (A B : str) : eqb A B = false -> limited_levenshtein_distance k A B = let '(A, B) := if Nat.ltb (length B) (length A) then (B, A) else (A, B) in
  let '(a, b) := trim A B in match a with [] => if Nat.ltb k (length b) then k + 1 else length b | _ =>
    if negb (Nat.ltb (length b) k) && Nat.ltb k (length b - length a) then k + 1 else let mx := if Nat.ltb (length b) k then length b else k in
    match banded_rows a (map to_ushort b) mx (length b - length a) (mx - (length b - length a)) (Nat.ltb mx (length b)) 0 0 mx 0 (map (fun i => if Nat.ltb i mx then i + 1 else k + 1) (seq 0 (length b))) with
    | None => k + 1 | Some current => if Nat.leb current mx then current else k + 1 end end.
Proof.
  intros E. unfold limited_levenshtein_distance. rewrite E. destruct (if Nat.ltb (length B) (length A) then (B, A) else (A, B)) as [A' B']. unfold trim.
  destruct A' as [|x A'].
  - cbn [length Nat.eqb]. unfold strip_suffix. cbn [rev strip_prefix]. rewrite rev_involutive. reflexivity.
  - cbn [length Nat.eqb]. destruct (strip_suffix (x :: A') B') as [a b]. destruct a as [|y a]; [reflexivity|]. cbn [length Nat.eqb]. destruct (strip_prefix (y :: a) b) as [a' b']. destruct a' as [|z a']; reflexivity.
Qed.
Lemma limited_fst k ub (a b : str) : (forall x, In x a -> (x < 4294967296)%N) -> fst (limited_of k ub a b) =
  match a with [] => if Nat.ltb k (length b) then ub else length b | _ =>
    if negb (Nat.ltb (length b) k) && Nat.ltb k (length b - length a) then ub else let mx := if Nat.ltb (length b) k then length b else k in
    match banded_rows a (map to_ushort b) mx (length b - length a) (mx - (length b - length a)) (Nat.ltb mx (length b)) 0 0 mx 0 (map (fun i => if Nat.ltb i mx then i + 1 else ub) (seq 0 (length b))) with
    | None => ub | Some current => if Nat.leb current mx then current else ub end end.
Proof.
  intros H. unfold limited_of. destruct a as [|a0 a]; [reflexivity|]. set (a' := a0 :: a) in *. assert (E : map u32 a' = a').
  { rewrite <- (map_id a') at 2. apply map_ext_in. intros x Hx. apply N.mod_small. apply H. exact Hx. }
  rewrite E. clearbody a'. destruct (negb _ && _); [reflexivity|]. cbv zeta. destruct (banded_rows _ _ _ _ _ _ _ _ _ _ _); reflexivity.
Qed.


Lemma limited_refines granted k (A B : str) h : (forall x, granted x = true) -> small k -> small (length A) -> small (length B) ->
  (forall x, In x A -> (x < 4294967296)%N) -> (forall x, In x B -> (x < 4294967296)%N) ->
  exists l, limited_c granted (Z.of_nat k) A B h = Done (of (limited_levenshtein_distance k A B)) (h ++ l) /\
    ((apart A B <= k /\ limited_levenshtein_distance k A B = k + 1 /\ exists n cs vs, 0 < n /\ n <= Nat.max (length A) (length B) /\ l = [Some (2%N, cs); Some (4%N, vs)] /\ length cs = n /\ length vs = n) \/
     (~ (apart A B <= k /\ limited_levenshtein_distance k A B = k + 1) /\ (l = [] \/ l = [None; None]))).
Proof.
  intros G HK HA HB VA VB. unfold limited_c. destruct (Z.leb_spec 0 (Z.of_nat k)) as [_|]; [|lia]. destruct (Z.ltb_spec (Z.of_nat k) 4294967296) as [_|]; [|unfold small in HK; lia]. cbn [negb andb].
  destruct (eqb A B) eqn:EE.
  { assert (X : limited_levenshtein_distance k A B = 0) by (unfold limited_levenshtein_distance; rewrite EE; reflexivity). rewrite X. exists []. rewrite app_nil_r. split; [reflexivity|]. right. split; [lia|left; reflexivity]. }
  rewrite !of_kept, !kept_all, ltb_of by assumption. replace (Z.to_N (Z.of_nat k)) with (of k) by lia.
  set (ub := N.to_nat (u32 (of k + 1))). replace (u32 (of k + 1)) with (of ub) by (unfold ub; rewrite Nnat.N2Nat.id; reflexivity).
  assert (SU : small ub) by (unfold small, ub; rewrite Nnat.N2Nat.id; apply N.mod_lt; discriminate).
  assert (KU : small (k + 1) -> ub = k + 1) by (intros Hs; unfold ub; rewrite u32_succ by exact Hs; apply Nnat.Nat2N.id).
  rewrite (limited_model k A B EE).
  assert (CORE : forall X Y : str, length X <= length Y -> small (length Y) -> (forall x, In x X -> (x < 4294967296)%N) ->
    exists l, limited_body granted (of k) (of ub) X Y (of (length X)) (of (length Y)) h = Done (of (fst (let '(a, b) := trim X Y in limited_of k (k + 1) a b))) (h ++ l) /\
      ((length Y - length X <= k /\ fst (let '(a, b) := trim X Y in limited_of k (k + 1) a b) = k + 1 /\ exists n cs vs, 0 < n /\ n <= length Y /\ l = [Some (2%N, cs); Some (4%N, vs)] /\ length cs = n /\ length vs = n) \/
       (~ (length Y - length X <= k /\ fst (let '(a, b) := trim X Y in limited_of k (k + 1) a b) = k + 1) /\ (l = [] \/ l = [None; None])))).
  { intros X Y L HS VX. destruct (limited_body_sim granted X Y (length X) (length Y) k ub h G L (le_n _) (le_n _) HS SU) as (l & H).
    { intros Hl. apply KU. eapply small_le; [|exact HS]. lia. }
    rewrite !firstn_all in H. pose proof (trim_lengths X Y L HS) as T. destruct (trim X Y) as [a b]. destruct T as (T1 & T2 & T3 & T4).
    assert (SB : small (length b)) by (eapply small_le; [|exact HS]; lia).
    assert (EU : limited_of k ub a b = limited_of k (k + 1) a b).
    { destruct (N.lt_ge_cases (of (k + 1)) 4294967296) as [S1|S1]; [rewrite (KU S1); reflexivity|]. apply limited_largest; auto. unfold small in *. lia. }
    rewrite EU in H. exists l. pose proof (limited_lost k a b T1 SB) as LL. destruct (limited_of k (k + 1) a b) as [x lost] eqn:EL. cbn [fst snd] in *. destruct H as [H1 H2]. split; [exact H1|].
    rewrite T2 in LL. destruct lost.
    - destruct LL as [LL _]. destruct (LL eq_refl) as [LL1 LL2]. destruct H2 as (cs & vs & E1 & E2 & E3). left. split; [exact LL1|]. split; [exact LL2|]. exists (length b), cs, vs. split; [|auto].
      destruct b as [|y b]; [|cbn; lia]. destruct a as [|? a]; [|cbn in T1; lia]. cbn in EL. destruct (Nat.ltb k 0); discriminate.
    - right. split; [intros X1; apply LL in X1; discriminate|exact H2]. }
  unfold apart. destruct (Nat.ltb_spec (length B) (length A)) as [Hl|Hl].
  - destruct (CORE B A ltac:(lia) HA VB) as (l & C1 & C2). pose proof (trim_lengths B A ltac:(lia) HA) as T. destruct (trim B A) as [a b]. destruct T as (_ & _ & _ & T4).
    rewrite limited_fst in C1, C2 by (intros x Hx; apply VB, T4, Hx). exists l. split; [exact C1|]. replace (length A - length B + (length B - length A)) with (length A - length B) by lia. rewrite Nat.max_l by lia. exact C2.
  - destruct (CORE A B ltac:(lia) HB VA) as (l & C1 & C2). pose proof (trim_lengths A B ltac:(lia) HB) as T. destruct (trim A B) as [a b]. destruct T as (_ & _ & _ & T4).
    rewrite limited_fst in C1, C2 by (intros x Hx; apply VA, T4, Hx). exists l. split; [exact C1|]. replace (length A - length B + (length B - length A)) with (length B - length A) by lia. rewrite Nat.max_r by lia. exact C2.
Qed.
