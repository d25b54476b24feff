From Coq Require Import Lia.
From Verif Require Import Base BaseFacts LevModel LevCModel LevCProofs StringsProofs.
Open Scope nat_scope.
Open Scope list_scope.

Definition trim (a b : str) : str * str := let '(a, b) := strip_suffix a b in strip_prefix a b.
Definition lev_of (B a b : str) : nat :=
  match a with
  | [] => length b
  | [x] => if memb x B then length b - 1 else length b
  | _ => dp_rows a (map to_ushort b) 0 0 (map (fun i => i + 1) (seq 0 (length b)))
  end.

Lemma firstn_skipn_swap {X} n m (l : list X) : skipn n (firstn m l) = firstn (m - n) (skipn n l).
Proof. revert m l. induction n as [|n IH]; intros m l; [rewrite Nat.sub_0_r; reflexivity|]. destruct m as [|m]; [reflexivity|]. destruct l as [|x l]; [cbn; rewrite firstn_nil; reflexivity|]. cbn. apply IH. Qed.
Lemma seq_map_cells n f g : (forall i, i < n -> f i = Some (of (g i))) -> map f (seq 0 n) = cells (map g (seq 0 n)).
Proof. intros H. rewrite map_map. apply map_ext_in. intros i Hi. apply in_seq in Hi. apply H. lia. Qed.

Lemma mallocs granted (h : heap) n {X} (k : pointer -> pointer -> c X) : (forall x, granted x = true) -> small n ->
  seq_c (malloc granted 2 (of n)) (fun codes => seq_c (malloc granted 4 (of n)) (fun vector => k codes vector)) h = k (P1 h) (P2 h) (both h (repeat None n) (repeat None n)).
Proof.
  intros G HS. unfold seq_c. rewrite malloc_sim by (auto; fail). rewrite malloc_sim by (auto; fail). rewrite app_length. cbn [length]. rewrite Nat.add_1_r. unfold both. rewrite <- app_assoc. reflexivity.
Qed.

(** ** what is left of the two strings *)
Lemma trim_sim (A B : str) la lb h {X} (k : N -> N -> N -> c X) : la <= lb -> la <= length A -> lb <= length B -> small lb ->
  exists start LA LB, start + LA <= length A /\ start + LB <= length B /\ LA <= LB /\ LB - LA = lb - la /\ start + LA <= la /\ start + LB <= lb /\
    trim (firstn la A) (firstn lb B) = (firstn LA (skipn start A), firstn LB (skipn start B)) /\
    seq_c (suffix_c (S (N.to_nat (of la))) A B (of la) (of lb)) (fun '(LA, LB) => seq_c (prefix_c (S (N.to_nat LA)) A B LA 0) (fun start => k start (sub32 LA start) (sub32 LB start))) h =
    k (of start) (of LA) (of LB) h.
Proof.
  intros L1 L2 L3 HS. destruct (suffix_sim A B h (S (N.to_nat (of la))) la lb) as (la' & lb' & E1 & L4 & L5 & L6 & L7 & E2); auto; [rewrite Nnat.Nat2N.id; lia|].
  destruct (prefix_sim A B la' lb' h) with (fuel := S (N.to_nat (of la'))) (start := 0) as (start & E3 & L8 & E4); try lia; try (eapply small_le; [|exact HS]; lia).
  exists start, (la' - start), (lb' - start). repeat split; try lia.
  - unfold trim. rewrite E2. cbn [skipn] in E4. rewrite E4, !firstn_skipn_swap. reflexivity.
  - unfold seq_c. rewrite E1. change (of 0) with 0%N in E3. rewrite E3. rewrite !sub32_of by (first [lia|eapply small_le; [|exact HS]; lia]). reflexivity.
Qed.

(** ** levenshtein_distance *)
Lemma lev_body_sim granted (A B : str) la lb h : (forall x, granted x = true) -> la <= lb -> la <= length A -> lb <= length B -> small lb ->
  exists freed, (freed = [] \/ freed = [None; None]) /\
    levenshtein_body granted A B (of la) (of lb) h = Done (of (let '(a, b) := trim (firstn la A) (firstn lb B) in lev_of B a b)) (h ++ freed).
Proof.
  intros G L1 L2 L3 HS. unfold levenshtein_body.
  set (k := fun start LA LB : N => if N.eqb LA 0 then ret LB else if N.eqb LA 1 then seq_c (char A start) (fun a => if memb a B then ret (sub32 LB 1) else ret LB)
    else seq_c (malloc granted 2 LB) (fun codes => seq_c (malloc granted 4 LB) (fun vector =>
      seq_c (fill_c (S (N.to_nat LB)) B start LB codes vector (fun i => u32 (i + 1)) 0) (fun _ =>
      seq_c (rows_c (S (N.to_nat LA)) A start LA LB codes vector 0 0) (fun current =>
      seq_c (seq_c (free codes) (fun _ => free vector)) (fun _ => ret current)))))).
  destruct (trim_sim A B la lb h k L1 L2 L3 HS) as (start & LA & LB & H1 & H2 & H3 & H4 & H5 & H6 & E1 & E2). rewrite E1.
  change (exists freed, (freed = [] \/ freed = [None; None]) /\ seq_c (suffix_c (S (N.to_nat (of la))) A B (of la) (of lb))
    (fun '(LA, LB) => seq_c (prefix_c (S (N.to_nat LA)) A B LA 0) (fun start => k start (sub32 LA start) (sub32 LB start))) h =
    Done (of (lev_of B (firstn LA (skipn start A)) (firstn LB (skipn start B)))) (h ++ freed)).
  rewrite E2. clear E2. unfold k. clear k.
  assert (LLA : length (firstn LA (skipn start A)) = LA) by (rewrite firstn_length, skipn_length; lia).
  assert (LLB : length (firstn LB (skipn start B)) = LB) by (rewrite firstn_length, skipn_length; lia).
  change 0%N with (of 0). change 1%N with (of 1). rewrite !eqb_of. destruct (Nat.eqb_spec LA 0) as [->|N0].
  { exists []. split; [left; reflexivity|]. rewrite app_nil_r. cbn [firstn lev_of]. rewrite LLB. reflexivity. }
  destruct (Nat.eqb_spec LA 1) as [->|N1].
  { exists []. split; [left; reflexivity|]. rewrite app_nil_r. unfold seq_c. rewrite char_at by lia. rewrite (skipn_next 0%N start A) by lia. cbn [firstn lev_of]. rewrite LLB.
    match goal with |- context [memb ?x B] => destruct (memb x B) end; [|reflexivity]. change 1%N with (of 1). rewrite sub32_of by (first [lia|eapply small_le; [|exact HS]; lia]). reflexivity. }
  exists [None; None]. split; [right; reflexivity|]. rewrite mallocs by (first [exact G|eapply small_le; [|exact HS]; lia]).
  rewrite !Nnat.Nat2N.id. unfold seq_c at 1. rewrite fill_sim; try (rewrite ?repeat_length; lia); try (eapply small_le; [|exact HS]; lia); [|intros x; apply N.mod_lt; discriminate].
  rewrite Nat.sub_0_r, Nat.add_0_r. cbn [firstn app]. rewrite !(skipn_all2 (repeat (@None N) LB)) by (rewrite repeat_length; lia). rewrite !app_nil_r.
  rewrite (seq_map_cells LB _ (fun i => i + 1)) by (intros i Hi; f_equal; apply (u32_succ i); eapply small_le; [|exact HS]; lia).
  assert (EM : map (fun x => Some (u16 x)) (firstn LB (skipn start B)) = map Some (map u16 (firstn LB (skipn start B)))) by (rewrite map_map; reflexivity). rewrite EM.
  set (codes := map u16 (firstn LB (skipn start B))). assert (LC : length codes = LB) by (unfold codes; rewrite map_length; exact LLB).
  destruct (rows_sim A start LA codes h) with (fuel := S LA) (i := 0) (current := 0) (v := map (fun i => i + 1) (seq 0 LB)) as (v' & E3); try lia;
    try (eapply small_le; [|exact HS]; lia); try (rewrite map_length, seq_length; lia).
  { intros k. destruct (Nat.lt_ge_cases k LB) as [Hk|Hk]; [|rewrite nth_overflow by (rewrite map_length, seq_length; lia); lia].
    rewrite (nth_indep _ _ ((fun i => i + 1) 0)) by (rewrite map_length, seq_length; lia). rewrite (map_nth (fun i => i + 1) (seq 0 LB) 0 k). rewrite seq_nth by lia. lia. }
  rewrite LC in E3. unfold seq_c at 1. rewrite E3. unfold seq_c at 1. rewrite free_both. unfold ret. f_equal. f_equal. rewrite Nat.sub_0_r, Nat.add_0_r.
  unfold lev_of. rewrite LLB. destruct (firstn LA (skipn start A)) as [|x [|y r]] eqn:E; cbn in LLA; [lia|lia|reflexivity].
Qed.

(** ** limited_levenshtein_distance *)
(** what is computed from what is left of the strings; whether the memory is lost *)
Definition limited_of (k ub : nat) (a b : str) : nat * bool :=
  let LA := length a in
  let LB := length b in
  match a with
  | [] => (if Nat.ltb k LB then ub else LB, false)
  | _ =>
    let diff := LB - LA in
    if negb (Nat.ltb LB k) && Nat.ltb k diff then (ub, false)
    else
      let mx := if Nat.ltb LB k then LB else k in
      match banded_rows (map u32 a) (map to_ushort b) mx diff (mx - diff) (Nat.ltb mx LB) 0 0 mx 0 (map (fun i => if Nat.ltb i mx then i + 1 else ub) (seq 0 LB)) with
      | None => (ub, true)
      | Some current => (if Nat.leb current mx then current else ub, false)
      end
  end.
Definition left_over (lost : bool) (n : nat) (l : heap) : Prop :=
  if lost then exists cs vs, l = [Some (2%N, cs); Some (4%N, vs)] /\ length cs = n /\ length vs = n else l = [] \/ l = [None; None].

Lemma limited_matrix_sim granted (A B : str) start LA LB k ub h : (forall x, granted x = true) -> start + LA <= length A -> start + LB <= length B -> 0 < LA -> LA <= LB -> small (start + LB) ->
  small ub -> (k < LB -> ub = k + 1) ->
  exists l, let '(x, lost) := limited_of k ub (firstn LA (skipn start A)) (firstn LB (skipn start B)) in
    limited_matrix granted (of k) (of ub) A B (of start) (of LA) (of LB) h = Done (of x) (h ++ l) /\ left_over lost LB l.
Proof.
  intros G L1 L2 L0 L3 HS HU HK. unfold limited_matrix, limited_of.
  assert (LLA : length (firstn LA (skipn start A)) = LA) by (rewrite firstn_length, skipn_length; lia).
  assert (LLB : length (firstn LB (skipn start B)) = LB) by (rewrite firstn_length, skipn_length; lia).
  rewrite LLA, LLB. destruct (firstn LA (skipn start A)) as [|x0 a0] eqn:EA; [cbn in LLA; lia|]. rewrite <- EA in LLA |- *. clear x0 a0 EA.
  rewrite sub32_of by (first [lia|eapply small_le; [|exact HS]; lia]). rewrite !ltb_of.
  destruct (negb (Nat.ltb LB k) && Nat.ltb k (LB - LA)) eqn:EC.
  { exists []. rewrite app_nil_r. split; [reflexivity|left; reflexivity]. }
  rewrite if_of. set (mx := if Nat.ltb LB k then LB else k) in *.
  assert (Hmx : mx <= LB /\ LB - LA <= mx /\ (mx < LB -> ub = mx + 1)).
  { unfold mx. destruct (Nat.ltb_spec LB k); [lia|]. cbn [negb andb] in EC. apply Nat.ltb_ge in EC. split; [lia|]. split; [lia|exact HK]. }
  clearbody mx. destruct Hmx as (M1 & M2 & M3). rewrite ltb_of.
  rewrite mallocs by (first [exact G|eapply small_le; [|exact HS]; lia]). rewrite !Nnat.Nat2N.id.
  unfold seq_c at 1. change 0%N with (of 0) at 1. rewrite fill_sim; try (rewrite ?repeat_length; lia); try (eapply small_le; [|exact HS]; lia); [|intros x; apply N.mod_lt; discriminate].
  rewrite Nat.sub_0_r, Nat.add_0_r. cbn [firstn app].
  set (f := fun x => Some (u16 x)). set (X := skipn start B).
  assert (LX : LB <= length X) by (unfold X; rewrite skipn_length; lia).
  assert (D1 : length (map f (firstn mx X)) = mx) by (rewrite map_length, firstn_length; lia).
  set (V1 := map (fun j => Some (u32 (of j + 1))) (seq 0 mx)).
  assert (D2 : length V1 = mx) by (unfold V1; rewrite map_length, seq_length; reflexivity).
  assert (D3 : length (skipn mx (repeat (@None N) LB)) = LB - mx) by (rewrite skipn_length, repeat_length; reflexivity).
  unfold seq_c at 1. rewrite fill_sim; try (rewrite ?app_length; lia); try (eapply small_le; [|exact HS]; lia); [|intros x; exact HU].
  assert (F1 : forall (l : list (option N)), length l = mx -> firstn mx (l ++ skipn mx (repeat None LB)) = l).
  { intros l Hl. rewrite firstn_app, Hl, Nat.sub_diag. cbn [firstn]. rewrite app_nil_r. apply firstn_all2. lia. }
  rewrite !F1 by assumption. rewrite (skipn_all2 (map f (firstn mx X) ++ _)), (skipn_all2 (V1 ++ _)) by (rewrite app_length; lia). rewrite !app_nil_r.
  assert (EB : map f (firstn mx X) ++ map f (firstn (LB - mx) (skipn (start + mx) B)) = map Some (map u16 (firstn LB X))).
  { rewrite <- map_app. rewrite map_map. f_equal. replace (start + mx) with (mx + start) by lia. rewrite <- skipn_skipn. fold X. rewrite <- (firstn_skipn mx (firstn LB X)). f_equal.
    - rewrite firstn_firstn. f_equal. lia.
    - rewrite firstn_skipn_swap. reflexivity. }
  change (fun x : N => Some (u16 x)) with f. rewrite EB. set (ini := map (fun i => if Nat.ltb i mx then i + 1 else ub) (seq 0 LB)).
  assert (EV : V1 ++ map (fun _ : nat => Some (of ub)) (seq mx (LB - mx)) = cells ini).
  { unfold ini, V1. rewrite map_map. replace LB with (mx + (LB - mx)) at 2 by lia. rewrite seq_app, map_app. f_equal.
    - apply map_ext_in. intros i Hi. apply in_seq in Hi. destruct (Nat.ltb_spec i mx); [|lia]. f_equal. apply u32_succ. eapply small_le; [|exact HS]. lia.
    - apply map_ext_in. intros i Hi. apply in_seq in Hi. destruct (Nat.ltb_spec i mx); [lia|reflexivity]. }
  rewrite EV. set (codes := map u16 (firstn LB X)). assert (LC : length codes = LB) by (unfold codes; rewrite map_length; exact LLB).
  rewrite sub32_of by (first [lia|eapply small_le; [|exact HS]; lia]).
  destruct (banded_sim A start LA codes mx (LB - LA) (mx - (LB - LA)) (Nat.ltb mx LB) h) with (fuel := S LA) (i := 0) (js := 0) (je := mx) (current := 0) (v := ini) as (v' & L' & E3 & B3);
    try lia; try (eapply small_le; [|exact HS]; lia); try (unfold ini; rewrite map_length, seq_length; lia).
  { intros k0. destruct (Nat.lt_ge_cases k0 LB) as [Hk|Hk]; [|rewrite nth_overflow by (unfold ini; rewrite map_length, seq_length; lia); lia].
    unfold ini. rewrite (nth_indep _ _ ((fun i => if Nat.ltb i mx then i + 1 else ub) 0)) by (rewrite map_length, seq_length; lia).
    rewrite (map_nth (fun i => if Nat.ltb i mx then i + 1 else ub)). rewrite seq_nth by lia. cbn [Nat.add]. destruct (Nat.ltb_spec k0 mx); [lia|]. rewrite M3 by lia. lia. }
  rewrite LC in E3. unfold seq_c at 1. change (of 0) with 0%N in E3. rewrite E3. rewrite Nat.sub_0_r, Nat.add_0_r in *. change (map to_ushort (firstn LB X)) with codes.
  destruct (banded_rows (map u32 (firstn LA (skipn start A))) codes mx (LB - LA) (mx - (LB - LA)) (Nat.ltb mx LB) 0 0 mx 0 ini) as [current|]; cbn [option_map].
  - exists [None; None]. unfold seq_c at 1. rewrite free_both. unfold ret. rewrite leb_of, if_of. split; [reflexivity|right; reflexivity].
  - exists [Some (2%N, map Some codes); Some (4%N, cells v')]. split; [reflexivity|]. exists (map Some codes), (cells v'). rewrite !map_length. split; [reflexivity|lia].
Qed.

Lemma limited_body_sim granted (A B : str) la lb k ub h : (forall x, granted x = true) -> la <= lb -> la <= length A -> lb <= length B -> small lb -> small ub -> (k < lb -> ub = k + 1) ->
  exists l, let '(a, b) := trim (firstn la A) (firstn lb B) in let '(x, lost) := limited_of k ub a b in
    limited_body granted (of k) (of ub) A B (of la) (of lb) h = Done (of x) (h ++ l) /\ left_over lost (length b) l.
Proof.
  intros G L1 L2 L3 HS HU HK. unfold limited_body. change 0%N with (of 0) at 1. rewrite eqb_of. destruct (Nat.eqb_spec la 0) as [->|N0].
  { exists []. cbn [firstn]. unfold trim, strip_suffix. cbn [rev strip_prefix]. rewrite rev_involutive. cbn [limited_of]. rewrite firstn_length, Nat.min_l by lia. rewrite ltb_of, if_of, app_nil_r.
    split; [reflexivity|left; reflexivity]. }
  destruct (suffix_sim A B h (S (N.to_nat (of la))) la lb) as (la' & lb' & E1 & L4 & L5 & L6 & L7 & E2); auto; [rewrite Nnat.Nat2N.id; lia|].
  unfold seq_c at 1. rewrite E1. unfold trim. rewrite E2. change 0%N with (of 0) at 1. rewrite eqb_of. destruct (Nat.eqb_spec la' 0) as [->|N1].
  { exists []. cbn [firstn strip_prefix limited_of]. rewrite firstn_length, Nat.min_l by lia. rewrite ltb_of, if_of, app_nil_r. split; [reflexivity|left; reflexivity]. }
  destruct (prefix_sim A B la' lb' h) with (fuel := S (N.to_nat (of la'))) (start := 0) as (start & E3 & L8 & E4); try lia; try (eapply small_le; [|exact HS]; lia).
  cbn [skipn] in E4. rewrite E4, !firstn_skipn_swap. unfold seq_c at 1. change (of 0) with 0%N in E3. rewrite E3. rewrite !sub32_of by (first [lia|eapply small_le; [|exact HS]; lia]).
  change 0%N with (of 0). rewrite eqb_of. destruct (Nat.eqb_spec (la' - start) 0) as [E0|N2].
  { rewrite E0. exists []. cbn [firstn limited_of]. rewrite firstn_length, skipn_length, Nat.min_l by lia. rewrite ltb_of, if_of, app_nil_r. split; [reflexivity|left; reflexivity]. }
  destruct (limited_matrix_sim granted A B start (la' - start) (lb' - start) k ub h) as (l & H); try lia; try assumption; [eapply small_le; [|exact HS]; lia|].
  exists l. rewrite (firstn_length (lb' - start)), skipn_length, Nat.min_l by lia. exact H.
Qed.

(** ** the strings, cut *)
Definition kept (s : str) : nat := N.to_nat (u32 (of (length s))).
Lemma kept_le s : kept s <= length s.
Proof. unfold kept, u32. pose proof (N.mod_le (of (length s)) 4294967296 ltac:(discriminate)). lia. Qed.
Lemma kept_small s : small (kept s).
Proof. unfold small, kept. rewrite Nnat.N2Nat.id. apply N.mod_lt. discriminate. Qed.
Lemma of_kept s : u32 (of (length s)) = of (kept s).
Proof. unfold kept. rewrite Nnat.N2Nat.id. reflexivity. Qed.
Lemma kept_all s : small (length s) -> kept s = length s.
Proof. intros H. unfold kept. rewrite u32_of by exact H. apply Nnat.Nat2N.id. Qed.

Lemma lev_safe granted (A B : str) h : (forall x, granted x = true) -> exists n l, (l = [] \/ l = [None; None]) /\ levenshtein_c granted A B h = Done n (h ++ l).
Proof.
  intros G. unfold levenshtein_c. destruct (eqb A B); [exists 0%N, []; rewrite app_nil_r; split; [left; reflexivity|reflexivity]|]. rewrite !of_kept, ltb_of.
  destruct (Nat.ltb_spec (kept B) (kept A)).
  - destruct (lev_body_sim granted B A (kept B) (kept A) h G) as (l & H1 & H2); auto using kept_le, kept_small; [lia|]. eexists. exists l. split; [exact H1|exact H2].
  - destruct (lev_body_sim granted A B (kept A) (kept B) h G) as (l & H1 & H2); auto using kept_le, kept_small. eexists. exists l. split; [exact H1|exact H2].
Qed.
Lemma lev_refines granted (A B : str) h : (forall x, granted x = true) -> small (length A) -> small (length B) ->
  exists l, (l = [] \/ l = [None; None]) /\ levenshtein_c granted A B h = Done (of (levenshtein_distance A B)) (h ++ l).
Proof.
  intros G HA HB. unfold levenshtein_c, levenshtein_distance. destruct (eqb A B); [exists []; rewrite app_nil_r; split; [left; reflexivity|reflexivity]|].
  rewrite !of_kept, !kept_all by assumption. rewrite ltb_of. destruct (Nat.ltb_spec (length B) (length A)).
  - destruct (lev_body_sim granted B A (length B) (length A) h G) as (l & H1 & H2); auto; [lia|]. exists l. split; [exact H1|]. rewrite H2, !firstn_all. unfold trim. destruct (strip_suffix B A) as [a b]. destruct (strip_prefix a b) as [a' b']. reflexivity.
  - destruct (lev_body_sim granted A B (length A) (length B) h G) as (l & H1 & H2); auto. exists l. split; [exact H1|]. rewrite H2, !firstn_all. unfold trim. destruct (strip_suffix A B) as [a b]. destruct (strip_prefix a b) as [a' b']. reflexivity.
Qed.

Lemma limited_safe granted k (A B : str) h : (forall x, granted x = true) -> match limited_c granted k A B h with Done _ _ => (0 <= k < 4294967296)%Z | Overflow => ~ (0 <= k < 4294967296)%Z | _ => False end.
Proof.
  intros G. unfold limited_c. destruct (Z.leb_spec 0 k) as [H1|]; [|cbn; lia]. destruct (Z.ltb_spec k 4294967296) as [H2|]; [|cbn; lia]. cbn [negb andb].
  destruct (eqb A B); [cbn; lia|]. rewrite !of_kept, ltb_of. set (n := Z.to_nat k). replace (Z.to_N k) with (of n) by (unfold n; lia).
  set (ub := N.to_nat (u32 (of n + 1))). replace (u32 (of n + 1)) with (of ub) by (unfold ub; rewrite Nnat.N2Nat.id; reflexivity).
  assert (SU : small ub) by (unfold small, ub; rewrite Nnat.N2Nat.id; apply N.mod_lt; discriminate).
  assert (KU : forall s, n < kept s -> ub = n + 1).
  { intros s Hs. unfold ub. rewrite u32_succ; [apply Nnat.Nat2N.id|]. eapply small_le; [|apply (kept_small s)]. lia. }
  destruct (Nat.ltb_spec (kept B) (kept A)).
  - destruct (limited_body_sim granted B A (kept B) (kept A) n ub h G) as (l & H4); auto using kept_le, kept_small; [lia|apply KU|]. destruct (trim _ _) as [a b]. destruct (limited_of n ub a b) as [x lost]. destruct H4 as [-> _]. lia.
  - destruct (limited_body_sim granted A B (kept A) (kept B) n ub h G) as (l & H4); auto using kept_le, kept_small; [apply KU|]. destruct (trim _ _) as [a b]. destruct (limited_of n ub a b) as [x lost]. destruct H4 as [-> _]. lia.
Qed.
