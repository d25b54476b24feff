From Coq Require Import Lia.
From Verif Require Import Base BaseFacts LevModel LevCModel.
Open Scope nat_scope.
Open Scope list_scope.
Notation of := N.of_nat.
Notation cells := (map (fun n => Some (N.of_nat n))).

Definition small (n : nat) : Prop := (N.of_nat n < 4294967296)%N.
Lemma u32_of n : small n -> u32 (of n) = of n.
Proof. intros H. apply N.mod_small. exact H. Qed.
Lemma u32_plus a b : small (a + b) -> u32 (of a + of b) = of (a + b).
Proof. intros H. rewrite <- Nnat.Nat2N.inj_add. apply u32_of. exact H. Qed.
Lemma u32_succ a : small (a + 1) -> u32 (of a + 1) = of (a + 1).
Proof. intros H. exact (u32_plus a 1 H). Qed.
Lemma sub32_of a b : b <= a -> small a -> sub32 (of a) (of b) = of (a - b).
Proof.
  intros L H. unfold sub32, u32. replace (of a + 4294967296 - of b)%N with (of (a - b) + 1 * 4294967296)%N by lia. rewrite N.mod_add by discriminate.
  apply N.mod_small. unfold small in *. lia.
Qed.
Lemma ltb_of a b : N.ltb (of a) (of b) = Nat.ltb a b.
Proof. destruct (N.ltb_spec (of a) (of b)), (Nat.ltb_spec a b); try reflexivity; lia. Qed.
Lemma eqb_of a b : N.eqb (of a) (of b) = Nat.eqb a b.
Proof. destruct (N.eqb_spec (of a) (of b)), (Nat.eqb_spec a b); try reflexivity; lia. Qed.
Lemma leb_of a b : N.leb (of a) (of b) = Nat.leb a b.
Proof. destruct (N.leb_spec (of a) (of b)), (Nat.leb_spec a b); try reflexivity; lia. Qed.
Lemma if_of (b : bool) x y : (if b then of x else of y) = of (if b then x else y).
Proof. destruct b; reflexivity. Qed.
Lemma if_lt a b : (if Nat.ltb a b then a else b) <= b.
Proof. destruct (Nat.ltb_spec a b); lia. Qed.
Lemma small_le a b : a <= b -> small b -> small a.
Proof. unfold small. lia. Qed.

(** ** lists *)
Lemma nth_firstn_lt {X} (d : X) : forall n i (l : list X), i < n -> nth i (firstn n l) d = nth i l d.
Proof. induction n as [|n IH]; intros i l H; [lia|]. destruct l as [|x l]; [destruct i; reflexivity|]. destruct i; [reflexivity|]. cbn. apply IH. lia. Qed.
Lemma firstn_snoc {X} (d : X) : forall n (l : list X), n < length l -> firstn (S n) l = firstn n l ++ [nth n l d].
Proof. induction n as [|n IH]; intros [|x l] H; cbn in *; try lia; [reflexivity|]. f_equal. apply IH. lia. Qed.
Lemma skipn_next {X} (d : X) : forall n (l : list X), n < length l -> skipn n l = nth n l d :: skipn (S n) l.
Proof. induction n as [|n IH]; intros [|x l] H; cbn in *; try lia; [reflexivity|]. rewrite IH by lia. reflexivity. Qed.
Lemma nth_error_plus {X} (h l : list X) k : nth_error (h ++ l) (length h + k) = nth_error l k.
Proof. rewrite nth_error_app2 by lia. f_equal. lia. Qed.
Lemma upd_plus {X} (h l : list X) k x : upd (h ++ l) (length h + k) x = h ++ upd l k x.
Proof. induction h as [|y h IH]; [reflexivity|]. cbn. rewrite IH. reflexivity. Qed.
Lemma upd_map {X Y} (f : X -> Y) : forall l k x, upd (map f l) k (f x) = map f (upd l k x).
Proof. induction l as [|y l IH]; intros [|k] x; cbn; try reflexivity. rewrite IH. reflexivity. Qed.
Lemma upd_len {X} : forall (l : list X) k x, length (upd l k x) = length l.
Proof. induction l as [|y l IH]; intros [|k] x; cbn; auto. Qed.
Lemma nth_upd {X} (d : X) : forall (l : list X) k x i, nth i (upd l k x) d = if Nat.eqb i k && Nat.ltb k (length l) then x else nth i l d.
Proof.
  induction l as [|y l IH]; intros [|k] x [|i]; cbn [upd nth length]; try reflexivity.
  - rewrite Bool.andb_false_r. reflexivity.
  - rewrite IH. change (Nat.eqb (S i) (S k)) with (Nat.eqb i k). change (Nat.ltb (S k) (S (length l))) with (Nat.ltb k (length l)). reflexivity.
Qed.
Lemma upd_here {X} : forall (l1 : list X) y l2 x, upd (l1 ++ y :: l2) (length l1) x = l1 ++ x :: l2.
Proof. induction l1 as [|z l1 IH]; intros y l2 x; [reflexivity|]. cbn. rewrite IH. reflexivity. Qed.
Lemma nth_error_cells v j : j < length v -> nth_error (cells v) j = Some (Some (of (nth j v 0))).
Proof. intros H. rewrite nth_error_map. rewrite (nth_error_nth' v 0 H). reflexivity. Qed.
Lemma nth_error_some (l : list N) j : j < length l -> nth_error (map Some l) j = Some (Some (nth j l 0%N)).
Proof. intros H. rewrite nth_error_map. rewrite (nth_error_nth' l 0%N H). reflexivity. Qed.

(** ** strings *)
Lemma char_at s i h : i < length s -> char s (of i) h = Done (nth i s 0%N) h.
Proof. intros H. unfold char. rewrite Nnat.Nat2N.id, (nth_error_nth' s 0%N H). reflexivity. Qed.

Lemma suffix_sim A B h : forall fuel la lb, la <= lb -> la <= length A -> lb <= length B -> small lb -> la < fuel ->
  exists la' lb', suffix_c fuel A B (of la) (of lb) h = Done (of la', of lb') h /\ la' <= la /\ lb' <= lb /\ lb - la = lb' - la' /\ la' <= lb' /\
    strip_suffix (firstn la A) (firstn lb B) = (firstn la' A, firstn lb' B).
Proof.
  induction fuel as [|fuel IH]; intros la lb L1 L2 L3 HS F; [lia|]. cbn [suffix_c]. destruct la as [|la].
  - exists 0, lb. cbn [N.of_nat N.ltb N.compare]. repeat split; try lia. unfold strip_suffix. cbn [firstn rev strip_prefix]. rewrite rev_involutive. reflexivity.
  - destruct lb as [|lb]; [lia|]. change 0%N with (of 0). rewrite ltb_of. cbn [Nat.ltb Nat.leb].
    change (sub32 (of (S la)) 1) with (sub32 (of (S la)) (of 1)). change (sub32 (of (S lb)) 1) with (sub32 (of (S lb)) (of 1)).
    rewrite !sub32_of by (first [lia|eapply small_le; [|exact HS]; lia]). cbn [Nat.sub]. rewrite !Nat.sub_0_r. unfold seq_c. rewrite !char_at by lia.
    unfold strip_suffix. rewrite (firstn_snoc 0%N la A) by lia. rewrite (firstn_snoc 0%N lb B) by lia. rewrite !rev_app_distr. cbn [rev app strip_prefix].
    destruct (N.eqb_spec (nth la A 0%N) (nth lb B 0%N)) as [E|E].
    + destruct (IH la lb) as (la' & lb' & E1 & L4 & L5 & L6 & L7 & E2); try lia; [eapply small_le; [|exact HS]; lia|].
      exists la', lb'. rewrite E1. repeat split; try lia. exact E2.
    + exists (S la), (S lb). repeat split; try lia. cbn [rev]. rewrite !rev_involutive, <- !firstn_snoc by lia. reflexivity.
Qed.

Lemma prefix_sim A B la lb h : la <= lb -> la <= length A -> lb <= length B -> small la -> forall fuel start, start <= la -> la - start < fuel ->
  exists start', prefix_c fuel A B (of la) (of start) h = Done (of start') h /\ start' <= la /\
    strip_prefix (skipn start (firstn la A)) (skipn start (firstn lb B)) = (skipn start' (firstn la A), skipn start' (firstn lb B)).
Proof.
  intros L1 L2 L3 HS. induction fuel as [|fuel IH]; intros start L F; [lia|]. cbn [prefix_c]. rewrite ltb_of. destruct (Nat.ltb_spec start la) as [Hl|Hl].
  - unfold seq_c. rewrite !char_at by lia. rewrite (skipn_next 0%N start (firstn la A)) by (rewrite firstn_length; lia). rewrite (skipn_next 0%N start (firstn lb B)) by (rewrite firstn_length; lia).
    rewrite !nth_firstn_lt by lia. cbn [strip_prefix]. destruct (N.eqb_spec (nth start A 0%N) (nth start B 0%N)) as [E|E].
    + rewrite u32_succ by (eapply small_le; [|exact HS]; lia). replace (start + 1) with (S start) by lia. apply IH; lia.
    + exists start. split; [reflexivity|]. split; [exact L|]. rewrite (skipn_next 0%N start (firstn la A)) by (rewrite firstn_length; lia). rewrite (skipn_next 0%N start (firstn lb B)) by (rewrite firstn_length; lia).
      rewrite !nth_firstn_lt by lia. reflexivity.
  - exists start. split; [reflexivity|]. split; [exact L|]. rewrite (skipn_all2 (firstn la A)) by (rewrite firstn_length; lia). reflexivity.
Qed.

(** ** memory *)
Definition both (h : heap) (cs vs : list (option N)) : heap := h ++ [Some (2%N, cs); Some (4%N, vs)].
Notation P1 h := (Some (length h)).
Notation P2 h := (Some (S (length h))).
Lemma block1 h cs vs : block_at (P1 h) (both h cs vs) = Some (2%N, cs).
Proof. unfold block_at, both. replace (length h) with (length h + 0) by lia. rewrite nth_error_plus. reflexivity. Qed.
Lemma block2 h cs vs : block_at (P2 h) (both h cs vs) = Some (4%N, vs).
Proof. unfold block_at, both. replace (S (length h)) with (length h + 1) by lia. rewrite nth_error_plus. reflexivity. Qed.
Lemma read1 h cs vs j x : nth_error cs j = Some (Some x) -> read (P1 h) (of j) (both h cs vs) = Done x (both h cs vs).
Proof. intros E. unfold read. rewrite block1, Nnat.Nat2N.id, E. reflexivity. Qed.
Lemma read2 h cs vs j x : nth_error vs j = Some (Some x) -> read (P2 h) (of j) (both h cs vs) = Done x (both h cs vs).
Proof. intros E. unfold read. rewrite block2, Nnat.Nat2N.id, E. reflexivity. Qed.
Lemma write1 h cs vs j x : j < length cs -> write (P1 h) (of j) x (both h cs vs) = Done tt (both h (upd cs j (Some (u16 x))) vs).
Proof.
  intros L. unfold write. rewrite block1, ltb_of. destruct (Nat.ltb_spec j (length cs)) as [_|]; [|lia]. rewrite Nnat.Nat2N.id. unfold both.
  replace (length h) with (length h + 0) by lia. rewrite upd_plus. reflexivity.
Qed.
Lemma write2 h cs vs j x : j < length vs -> write (P2 h) (of j) x (both h cs vs) = Done tt (both h cs (upd vs j (Some (u32 x)))).
Proof.
  intros L. unfold write. rewrite block2, ltb_of. destruct (Nat.ltb_spec j (length vs)) as [_|]; [|lia]. rewrite Nnat.Nat2N.id. unfold both.
  replace (S (length h)) with (length h + 1) by lia. rewrite upd_plus. reflexivity.
Qed.
Lemma free_both h cs vs : seq_c (free (P1 h)) (fun _ => free (P2 h)) (both h cs vs) = Done tt (h ++ [None; None]).
Proof.
  unfold seq_c, free. rewrite block1. unfold both. replace (length h) with (length h + 0) by lia. rewrite upd_plus. cbn [upd]. unfold block_at.
  replace (S (length h + 0)) with (length h + 1) by lia. rewrite nth_error_plus. cbn [nth_error]. rewrite upd_plus. reflexivity.
Qed.

Lemma malloc_sim granted (h : heap) w n : (forall x, granted x = true) -> small n -> w = 2%N \/ w = 4%N ->
  malloc granted w (of n) h = Done (Some (length h)) (h ++ [Some (w, repeat None n)]).
Proof.
  intros G HS HW. unfold malloc. rewrite G. unfold size_t. rewrite N.mod_small by (unfold small in HS; destruct HW as [ ->| ->]; lia).
  rewrite N.div_mul by (destruct HW as [ ->| ->]; discriminate). rewrite Nnat.Nat2N.id. reflexivity.
Qed.

Lemma fill_sim B start stop value h : start + stop <= length B -> small (start + stop) -> (forall x, value x < 4294967296)%N -> forall fuel i cs vs,
  i <= stop -> stop <= length cs -> length vs = length cs -> stop - i < fuel ->
  fill_c fuel B (of start) (of stop) (P1 h) (P2 h) value (of i) (both h cs vs) =
  Done (of stop) (both h (firstn i cs ++ map (fun x => Some (u16 x)) (firstn (stop - i) (skipn (start + i) B)) ++ skipn stop cs)
    (firstn i vs ++ map (fun j => Some (value (of j))) (seq i (stop - i)) ++ skipn stop vs)).
Proof.
  intros L1 HS HV. induction fuel as [|fuel IH]; intros i cs vs L2 L3 L4 F; [lia|]. cbn [fill_c]. rewrite ltb_of. destruct (Nat.ltb_spec i stop) as [Hl|Hl].
  - unfold seq_c. rewrite u32_plus by (eapply small_le; [|exact HS]; lia). rewrite char_at by lia. rewrite write1 by lia. rewrite write2 by lia.
    rewrite u32_succ by (eapply small_le; [|exact HS]; lia). rewrite IH by (rewrite ?upd_len; lia). f_equal. unfold both. f_equal.
    replace (i + 1) with (S i) by lia. rewrite (firstn_snoc None i (upd cs _ _)) by (rewrite upd_len; lia). rewrite (firstn_snoc None i (upd vs _ _)) by (rewrite upd_len; lia).
    rewrite !nth_upd, !Nat.eqb_refl. assert (X1 : Nat.ltb i (length cs) = true) by (apply Nat.ltb_lt; lia). assert (X2 : Nat.ltb i (length vs) = true) by (apply Nat.ltb_lt; lia). rewrite X1, X2. cbn [andb].
    assert (FU : forall (l : list (option N)) x, i < length l -> firstn i (upd l i x) = firstn i l).
    { clear. intros l x H. revert l H. induction i as [|i IH]; intros [|y l] H; cbn in *; try lia; [reflexivity|]. f_equal. apply IH. lia. }
    assert (SU : forall (l : list (option N)) x, i < stop -> skipn stop (upd l i x) = skipn stop l).
    { clear. intros l x H. revert l i H. induction stop as [|n IH]; intros l i H; [lia|]. destruct l as [|y l]; [reflexivity|]. destruct i as [|i]; [reflexivity|]. cbn. apply IH. lia. }
    rewrite !FU, !SU by lia. replace (stop - i) with (S (stop - S i)) by lia. cbn [seq map]. rewrite (skipn_next 0%N (start + i) B) by lia. cbn [firstn map].
    rewrite <- !app_assoc. cbn [app]. unfold u32 at 1. rewrite (N.mod_small _ _ (HV (of i))). replace (start + S i) with (S (start + i)) by lia. reflexivity.
  - assert (i = stop) by lia. subst i. unfold ret. f_equal. rewrite Nat.sub_diag. cbn [firstn seq map app]. rewrite !firstn_skipn. reflexivity.
Qed.

(** ** one row *)
Lemma row_sim a codes h i : small (length codes) -> small (S i) -> forall n fuel je j left current v,
  n = je - j -> n < fuel -> je <= length codes -> length v = length codes ->
  left <= Nat.max i j -> current <= Nat.max (S i) j ->
  (forall k, j <= k -> nth k v 0 <= Nat.max i (S k)) -> (forall k, nth k v 0 <= Nat.max (S i) (S k)) ->
  let '(current', v') := dp_row a codes n j left current v in
  row_c fuel a (P1 h) (P2 h) (of je) (of j) (of left) (of current) (both h (map Some codes) (cells v)) = Done (of current') (both h (map Some codes) (cells v')) /\
  length v' = length v /\ current' <= Nat.max (S i) (Nat.max j je) /\ (forall k, nth k v' 0 <= Nat.max (S i) (S k)).
Proof.
  intros HS HI. induction n as [|n IH]; intros fuel je j left current v En F Lj Lv Bl Bc B1 B2; (destruct fuel as [|fuel]; [lia|]); cbn [row_c dp_row]; rewrite ltb_of.
  - destruct (Nat.ltb_spec j je); [lia|]. repeat split; auto. lia.
  - destruct (Nat.ltb_spec j je) as [Hl|Hl]; [|lia]. unfold seq_c at 1. rewrite (read2 _ _ _ _ _ (nth_error_cells v j ltac:(lia))).
    unfold seq_c at 1. rewrite (read1 _ _ _ _ _ (nth_error_some codes j ltac:(lia))). rewrite !ltb_of.
    rewrite if_of, ltb_of. pose proof (if_lt (nth j v 0) left) as L1. set (c1 := if Nat.ltb (nth j v 0) left then nth j v 0 else left) in *. clearbody c1.
    rewrite if_of. pose proof (if_lt current c1) as L2. set (c2 := if Nat.ltb current c1 then current else c1) in *. clearbody c2.
    rewrite u32_succ by (unfold small in *; lia). rewrite if_of.
    assert (L3 : (if N.eqb a (nth j codes 0%N) then left else c2 + 1) <= Nat.max (S i) (S j)) by (destruct (N.eqb a (nth j codes 0%N)); lia).
    set (c3 := if N.eqb a (nth j codes 0%N) then left else c2 + 1) in *. clearbody c3.
    unfold seq_c. rewrite write2 by (rewrite map_length; lia). rewrite u32_of by (unfold small in *; lia). rewrite (upd_map (fun n => Some (of n)) v j c3).
    rewrite u32_succ by (unfold small in *; lia).
    assert (BN : forall k, nth k (upd v j c3) 0 <= Nat.max (S i) (S k)).
    { intros k. rewrite nth_upd. destruct (Nat.eqb_spec k j) as [->|]; [|cbn [andb]; apply B2]. destruct (Nat.ltb_spec j (length v)); [|lia]. cbn [andb]. exact L3. }
    pose proof (IH fuel je (j + 1) (nth j v 0) c3 (upd v j c3)) as H. destruct (dp_row a codes n (j + 1) (nth j v 0) c3 (upd v j c3)) as [current' v'].
    destruct H as (H1 & H2 & H3 & H4); try (rewrite ?upd_len; lia).
    + pose proof (B1 j (le_n j)). lia.
    + intros k Hk. rewrite nth_upd. destruct (Nat.eqb_spec k j); [lia|]. cbn [andb]. apply B1. lia.
    + exact BN.
    + repeat split; auto; [rewrite H2; apply upd_len|lia].
Qed.

(** ** the rows *)
Lemma rows_sim A start LA codes h : start + LA <= length A -> LA <= length codes -> small (length codes) -> small (start + LA) -> forall fuel i current v,
  i <= LA -> LA - i < fuel -> length v = length codes -> (forall k, nth k v 0 <= Nat.max i (S k)) ->
  exists v', rows_c fuel A (of start) (of LA) (of (length codes)) (P1 h) (P2 h) (of i) (of current) (both h (map Some codes) (cells v)) =
  Done (of (dp_rows (firstn (LA - i) (skipn (start + i) A)) codes i current v)) (both h (map Some codes) (cells v')).
Proof.
  intros L1 L2 HS HA. induction fuel as [|fuel IH]; intros i current v Li F Lv B; [lia|]. cbn [rows_c]. rewrite ltb_of. destruct (Nat.ltb_spec i LA) as [Hl|Hl].
  - unfold seq_c. rewrite u32_plus by (eapply small_le; [|exact HA]; lia). rewrite char_at by lia. rewrite Nnat.Nat2N.id.
    replace (LA - i) with (S (LA - (i + 1))) by lia. rewrite (skipn_next 0%N (start + i) A) by lia. cbn [firstn dp_rows].
    rewrite u32_succ by (eapply small_le; [|exact HS]; lia).
    pose proof (row_sim (u16 (nth (start + i) A 0%N)) codes h i HS ltac:(eapply small_le; [|exact HS]; lia) (length codes) (S (length codes)) (length codes) 0 i (i + 1) v) as R.
    change (to_ushort (nth (start + i) A 0%N)) with (u16 (nth (start + i) A 0%N)).
    destruct (dp_row (u16 (nth (start + i) A 0%N)) codes (length codes) 0 i (i + 1) v) as [current' v']. destruct R as (R1 & R2 & R3 & R4); try lia.
    + intros k _. apply B.
    + intros k. specialize (B k). lia.
    + change (of 0) with 0%N in R1. rewrite R1. replace (S (start + i)) with (start + (i + 1)) by lia. apply IH; try lia. intros k. specialize (R4 k). lia.
  - exists v. replace (LA - i) with 0 by lia. reflexivity.
Qed.

Lemma banded_sim A start LA codes mx diff offset have_max h : start + LA <= length A -> LA + diff = length codes -> mx <= length codes -> diff <= mx ->
  small (length codes) -> small (start + LA) -> forall fuel i js je current v,
  i <= LA -> LA - i < fuel -> js <= i -> je <= length codes -> length v = length codes -> (forall k, nth k v 0 <= Nat.max i (S k)) ->
  current <= length codes ->
  exists v', length v' = length codes /\
    banded_c fuel A (of start) (of LA) (of (length codes)) (of mx) (of diff) (of offset) have_max (P1 h) (P2 h) (of i) (of js) (of je) (of current) (both h (map Some codes) (cells v)) =
    Done (option_map of (banded_rows (map u32 (firstn (LA - i) (skipn (start + i) A))) codes mx diff offset have_max i js je current v)) (both h (map Some codes) (cells v')) /\
    (forall x, banded_rows (map u32 (firstn (LA - i) (skipn (start + i) A))) codes mx diff offset have_max i js je current v = Some x -> x <= length codes).
Proof.
  intros L1 L2 L3 L4 HS HA. induction fuel as [|fuel IH]; intros i js je current v Li F Ljs Lje Lv B Bc; [lia|]. cbn [banded_c]. rewrite ltb_of. destruct (Nat.ltb_spec i LA) as [Hl|Hl].
  - unfold seq_c at 1. rewrite u32_plus by (eapply small_le; [|exact HA]; lia). rewrite char_at by lia. rewrite Nnat.Nat2N.id. rewrite !ltb_of.
    replace (LA - i) with (S (LA - (i + 1))) by lia. rewrite (skipn_next 0%N (start + i) A) by lia. cbn [firstn map banded_rows].
    rewrite u32_succ by (eapply small_le; [|exact HS]; lia).
    set (js' := if Nat.ltb offset i then js + 1 else js). set (je' := if Nat.ltb je (length codes) then je + 1 else je).
    assert (Ljs' : js' <= i + 1) by (unfold js'; destruct (Nat.ltb offset i); lia).
    assert (Lje' : je' <= length codes) by (unfold je'; destruct (Nat.ltb_spec je (length codes)); lia).
    assert (E1 : u32 (of js + (if Nat.ltb offset i then 1 else 0)) = of js').
    { unfold js'. destruct (Nat.ltb offset i); [apply u32_succ|rewrite N.add_0_r; apply u32_of]; (eapply small_le; [|exact HS]; lia). }
    assert (E2 : u32 (of je + (if Nat.ltb je (length codes) then 1 else 0)) = of je').
    { unfold je'. destruct (Nat.ltb_spec je (length codes)); [apply u32_succ|rewrite N.add_0_r; apply u32_of]; (eapply small_le; [|exact HS]; lia). }
    rewrite E1, E2.
    pose proof (row_sim (u32 (nth (start + i) A 0%N)) codes h i HS ltac:(eapply small_le; [|exact HS]; lia) (je' - js') (S (length codes)) je' js' i (i + 1) v) as R.
    destruct (dp_row (u32 (nth (start + i) A 0%N)) codes (je' - js') js' i (i + 1) v) as [current' v'] eqn:ED. destruct R as (R1 & R2 & R3 & R4); try lia.
    + intros k _. apply B.
    + intros k. specialize (B k). lia.
    + unfold seq_c at 1. rewrite R1.
      assert (EM : (if have_max then seq_c (read (P2 h) (u32 (of i + of diff))) (fun x => ret (N.ltb (of mx) x)) else ret false) (both h (map Some codes) (cells v')) =
        Done (have_max && Nat.ltb mx (nth (i + diff) v' 0)) (both h (map Some codes) (cells v'))).
      { destruct have_max; [|reflexivity]. unfold seq_c. rewrite u32_plus by (eapply small_le; [|exact HS]; lia). rewrite (read2 _ _ _ _ _ (nth_error_cells v' (i + diff) ltac:(lia))). rewrite ltb_of. reflexivity. }
      unfold seq_c at 1. rewrite EM. destruct (have_max && Nat.ltb mx (nth (i + diff) v' 0)).
      * exists v'. split; [lia|]. split; [reflexivity|discriminate].
      * replace (S (start + i)) with (start + (i + 1)) by lia. apply IH; try lia. intros k. specialize (R4 k). lia.
  - exists v. replace (LA - i) with 0 by lia. cbn [firstn map banded_rows]. split; [exact Lv|]. split; [reflexivity|]. intros x E. injection E as <-. exact Bc.
Qed.
