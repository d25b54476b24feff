(** Proofs about the Levenshtein functions. *)
From Verif Require Import Base BaseFacts EditSpec EditFacts LevModel.

#[local] Opaque D lev.

(** ** Trimming *)
Lemma strip_prefix_spec (a b : str) :
  exists p a' b', strip_prefix a b = (a', b') /\ a = p ++ a' /\ b = p ++ b' /\
    (forall x y a'' b'', a' = x :: a'' -> b' = y :: b'' -> x <> y).
Proof.
  revert b. induction a as [|x a IH]; intros b.
  - exists [], [], b. repeat split; auto. intros; discriminate.
  - destruct b as [|y b].
    + exists [], (x :: a), []. repeat split; auto. intros; discriminate.
    + simpl. destruct (N.eqb_spec x y) as [->|Hn].
      * destruct (IH b) as (p & a' & b' & E & -> & -> & Hd). exists (y :: p), a', b'. auto.
      * exists [], (x :: a), (y :: b). repeat split; auto. intros ? ? ? ? E1 E2. congruence.
Qed.

Lemma strip_suffix_spec (a b : str) :
  exists s a' b', strip_suffix a b = (a', b') /\ a = a' ++ s /\ b = b' ++ s /\
    (forall x y a'' b'', a' = a'' ++ [x] -> b' = b'' ++ [y] -> x <> y).
Proof.
  unfold strip_suffix. destruct (strip_prefix_spec (rev a) (rev b)) as (p & a' & b' & E & Ea & Eb & Hd).
  rewrite E. exists (rev p), (rev a'), (rev b'). split; [reflexivity|].
  split; [rewrite <- rev_app_distr, <- Ea, rev_involutive; reflexivity|].
  split; [rewrite <- rev_app_distr, <- Eb, rev_involutive; reflexivity|].
  intros x y a'' b'' H1 H2. apply (f_equal (@rev N)) in H1, H2.
  rewrite rev_involutive, rev_app_distr in H1, H2. simpl in H1, H2. eapply Hd; eassumption.
Qed.

(** ** Arrays *)
Lemma upd_length {A} (v : list A) j x : length (upd v j x) = length v.
Proof. revert j. induction v; intros [|j]; simpl; auto. Qed.

Lemma nth_upd {A} (v : list A) j x k d :
  nth k (upd v j x) d = if Nat.eqb k j && Nat.ltb j (length v) then x else nth k v d.
Proof.
  revert j k. induction v as [|y v IH]; intros j k.
  - simpl. rewrite andb_false_r. destruct j; reflexivity.
  - destruct j as [|j]; destruct k as [|k]; simpl; auto.
    rewrite IH. reflexivity.
Qed.

(** ** The banded table *)
Section Table.
Variables a b : str.
Variable k : nat.
Variable codes : list N.
Hypothesis Hcodes : codes = b.
Notation m := (length a).
Notation n := (length b).
Notation T := (D a b).
Notation diff := (n - m).
Hypothesis Hmn : m <= n.
Hypothesis Hdk : diff <= k.

(** a cell on a path of cost at most k from the origin to the end *)
Definition useful (i j : nat) : Prop :=
  T i j + ((n - j) - (m - i)) + ((m - i) - (n - j)) <= k.

Definition approx (i j v : nat) : Prop :=
  Nat.min (T i j) (k + 1) <= v /\ (useful i j -> v = T i j).

Lemma dp_cell i j x y left0 above0 diag0 :
  nth_error a i = Some x -> nth_error b j = Some y ->
  approx i j diag0 -> approx i (S j) left0 -> approx (S i) j above0 ->
  approx (S i) (S j)
    (if N.eqb x y then diag0
     else
       let c := if Nat.ltb left0 diag0 then left0 else diag0 in
       let c := if Nat.ltb above0 c then above0 else c in
       c + 1).
Proof.
  intros Ea Eb [D1 D2] [L1 L2] [A1 A2].
  assert (Hi : i < m) by (apply nth_error_Some; congruence).
  assert (Hj : j < n) by (apply nth_error_Some; congruence).
  unfold approx, useful in *.
  destruct (N.eqb_spec x y) as [<-|Hn].
  - pose proof (D_match a b i j x Ea Eb) as E. unfold str in *.
    clear L1 L2 A1 A2. rewrite E in *. split; [exact D1|]. intros Hu. apply D2. clear - Hu Hi Hj. lia.
  - pose proof (D_mismatch a b i j x y Ea Eb Hn) as E. unfold str in *. cbv zeta.
    match goal with |- (_ <= ?v) /\ _ => assert (Hv : v = S (Nat.min left0 (Nat.min above0 diag0))) end.
    { clear. destruct (Nat.ltb_spec left0 diag0);
        match goal with |- context [Nat.ltb above0 ?z] => destruct (Nat.ltb_spec above0 z) end; lia. }
    rewrite Hv. clear Hv.
    generalize dependent (T i j). intros d. generalize dependent (T i (S j)). intros l.
    generalize dependent (T (S i) j). intros ab. generalize dependent (T (S i) (S j)). intros t.
    clear Ea Eb Hn. intros.
    assert (Hlow : Nat.min t (k + 1) <= S (Nat.min left0 (Nat.min above0 diag0)))
      by (clear D2 L2 A2 Hcodes Hmn Hdk Hi Hj; lia).
    split; [exact Hlow|]. intros Hu.
    assert (Hcase : t = S l \/ t = S ab \/ t = S d) by (clear - E; lia).
    assert (R1 : (n - S j - (m - i)) + (m - i - (n - S j)) <=
                 S ((n - S j - (m - S i)) + (m - S i - (n - S j)))) by (clear - Hi Hj; lia).
    assert (R2 : (n - j - (m - S i)) + (m - S i - (n - j)) <=
                 S ((n - S j - (m - S i)) + (m - S i - (n - S j)))) by (clear - Hi Hj; lia).
    assert (R3 : (n - j - (m - i)) + (m - i - (n - j)) <=
                 (n - S j - (m - S i)) + (m - S i - (n - S j))) by (clear - Hi Hj; lia).
    destruct Hcase as [Ht|[Ht|Ht]].
    + assert (left0 = l) by (apply L2; clear - Hu R1 Ht; lia). clear - H Hu Hlow E Ht; lia.
    + assert (above0 = ab) by (apply A2; clear - Hu R2 Ht; lia). clear - H Hu Hlow E Ht; lia.
    + assert (diag0 = d) by (apply D2; clear - Hu R3 Ht; lia). clear - H Hu Hlow E Ht; lia.
Qed.

(** inner loop *)
Lemma dp_row_spec i c : nth_error a i = Some c ->
  forall cnt j left0 cur vector,
  j + cnt <= n -> length vector = n ->
  approx i j left0 -> approx (S i) j cur ->
  (forall j', j <= j' -> j' < j + cnt -> approx i (S j') (nth j' vector 0)) ->
  forall cur' vector', dp_row c codes cnt j left0 cur vector = (cur', vector') ->
  length vector' = n /\
  approx (S i) (j + cnt) cur' /\
  (forall j', j <= j' -> j' < j + cnt -> approx (S i) (S j') (nth j' vector' 0)) /\
  (forall j', j' < j \/ j + cnt <= j' -> nth j' vector' 0 = nth j' vector 0).
Proof.
  intros Ea. induction cnt as [|cnt IH]; intros j left0 cur vector Hj Hlen Hl Hc Hv cur' vector' E.
  - cbn [dp_row] in E. inversion E; subst. rewrite Nat.add_0_r. repeat split; auto; lia || apply Hc.
  - cbn [dp_row] in E. cbv zeta in E.
    assert (exists y, nth_error b j = Some y) as [y Eb].
    { assert (Hjn : j < n) by lia. apply nth_error_Some in Hjn. destruct (nth_error b j); [eauto|contradiction]. }
    assert (Ey : nth j codes 0%N = y).
    { subst codes. apply nth_error_nth. exact Eb. }
    rewrite Ey in E.
    pose proof (dp_cell i j c y (nth j vector 0) cur left0 Ea Eb Hl (Hv j (le_n _) ltac:(lia)) Hc) as Hcell.
    cbv zeta in Hcell.
    match type of E with dp_row _ _ _ _ _ ?v (upd _ _ _) = _ => set (v0 := v) in * end.
    apply IH in E; clear IH.
    + destruct E as (E1 & E2 & E3 & E4). split; [exact E1|].
      replace (j + S cnt) with (j + 1 + cnt) by lia. split; [exact E2|]. split.
      * intros j' H1 H2. destruct (Nat.eq_dec j' j) as [->|Hne]; [|apply E3; lia].
        rewrite E4 by lia. rewrite nth_upd, Nat.eqb_refl. cbn [andb].
        destruct (Nat.ltb_spec j (length vector)); [exact Hcell|lia].
      * intros j' H1. rewrite E4 by lia. rewrite nth_upd.
        destruct (Nat.eqb_spec j' j); [lia|]. reflexivity.
    + lia.
    + rewrite upd_length. exact Hlen.
    + replace (j + 1) with (S j) by lia. apply Hv; lia.
    + replace (j + 1) with (S j) by lia. exact Hcell.
    + intros j' H1 H2. rewrite nth_upd. destruct (Nat.eqb_spec j' j); [lia|]. apply Hv; lia.
Qed.

Lemma useful_end : useful m n <-> T m n <= k.
Proof. unfold useful. lia. Qed.

Lemma diag_mono i : i <= m -> T i (i + diff) <= T m n.
Proof.
  intros Hi. remember (m - i) as r eqn:Er. revert i Hi Er. induction r as [|r IH]; intros i Hi Er.
  - assert (i = m) by lia. subst i. replace (m + diff) with n by lia. lia.
  - transitivity (T (S i) (S i + diff)); [|apply IH; lia].
    apply (D_diag a b i (i + diff)); lia.
Qed.
End Table.

(** ** The unbounded distance *)
Lemma approx_full a b i j v : length a <= length b -> i <= length a -> j <= length b ->
  approx a b (2 * length b) i j v -> v = D a b i j.
Proof.
  intros Hmn Hi Hj [_ Hu]. apply Hu. unfold useful.
  pose proof (D_bounds a b i j Hi Hj). unfold str in *. lia.
Qed.

Lemma full_approx a b i j k : approx a b k i j (D a b i j).
Proof. split; [lia|auto]. Qed.

Lemma eq_approx a b i j k v : v = D a b i j -> approx a b k i j v.
Proof. intros ->. apply full_approx. Qed.

Lemma dp_rows_spec (a b : str) codes : codes = b -> length a <= length b -> 1 <= length b ->
  Forall (fun c => to_ushort c = c) a ->
  forall rest i cur vector, a = firstn i a ++ rest -> i + length rest = length a ->
  length vector = length b ->
  (forall j, j < length b -> nth j vector 0 = D a b i (S j)) ->
  (rest = [] -> cur = D a b i (length b)) ->
  dp_rows rest codes i cur vector = D a b (length a) (length b).
Proof.
  intros Hcodes Hmn Hn Hsmall. induction rest as [|c rest IH]; intros i cur vector Ha Hi Hlen Hv Hcur.
  - simpl in *. rewrite Hcur by reflexivity. f_equal. lia.
  - cbn [length] in Hi. cbn [dp_rows].
    assert (Hic : nth_error a i = Some c).
    { rewrite Ha. rewrite nth_error_app2; rewrite firstn_length; [|lia].
      replace (i - Nat.min i (length a)) with 0 by lia. reflexivity. }
    assert (Hc : to_ushort c = c).
    { rewrite Forall_forall in Hsmall. apply Hsmall. eapply nth_error_In; eassumption. }
    rewrite Hc. assert (Hlc : length codes = length b) by (rewrite Hcodes; reflexivity). rewrite Hlc.
    destruct (dp_row c codes (length b) 0 i (i + 1) vector) as [cur' vector'] eqn:E.
    destruct (dp_row_spec a b (2 * length b) codes Hcodes Hmn ltac:(lia) i c Hic (length b) 0 i (i + 1) vector)
      with (6 := E) as (E1 & E2 & E3 & E4).
    + reflexivity.
    + exact Hlen.
    + apply eq_approx. rewrite D_0_r by lia. reflexivity.
    + apply eq_approx. rewrite D_0_r by lia. lia.
    + intros j' _ Hj'. apply eq_approx. apply Hv. exact Hj'.
    + simpl (0 + _) in *. apply IH.
      * rewrite Nat.add_1_r, (firstn_S_snoc a i c Hic), <- app_assoc. exact Ha.
      * lia.
      * exact E1.
      * intros j Hj. rewrite Nat.add_1_r. apply approx_full; [lia..|]. apply E3; lia.
      * intros _. rewrite Nat.add_1_r. apply approx_full; [lia..|exact E2].
Qed.

Lemma nth_map_seq (f : nat -> nat) n j : j < n -> nth j (map f (seq 0 n)) 0 = f j.
Proof.
  intros Hj. rewrite nth_indep with (d' := f 0) by (rewrite map_length, seq_length; exact Hj).
  rewrite map_nth, seq_nth by exact Hj. reflexivity.
Qed.

Lemma map_to_ushort (b : str) : Forall (fun c => to_ushort c = c) b -> map to_ushort b = b.
Proof. induction 1; simpl; congruence. Qed.

(** basic multilingual plane *)
Lemma to_ushort_small c : (c < 65536)%N -> to_ushort c = c.
Proof. intros. apply N.mod_small. assumption. Qed.

Definition bmp (s : str) : Prop := Forall (fun c => (c < 65536)%N) s.

Lemma bmp_ushort s : bmp s -> Forall (fun c => to_ushort c = c) s.
Proof. apply Forall_impl. intros c. apply to_ushort_small. Qed.

Lemma bmp_app s t : bmp (s ++ t) <-> bmp s /\ bmp t.
Proof. apply Forall_app. Qed.

(** the two strings differ by replacing one character, absent from the replacement but present
    in the common part: the case where the shortcut of levenshtein_distance is wrong *)
Definition shortcut_case (A B : str) : Prop :=
  exists p x r s, A = p ++ x :: s /\ B = p ++ r ++ s /\ r <> [] /\ ~ In x r /\ In x (p ++ s).

Lemma levenshtein_core (A B : str) : length A <= length B -> bmp A -> bmp B -> A <> B ->
  exists p a b s, A = p ++ a ++ s /\ B = p ++ b ++ s /\
    (forall x y a' b', a = x :: a' -> b = y :: b' -> x <> y) /\
    (forall x y a' b', a = a' ++ [x] -> b = b' ++ [y] -> x <> y) /\
    (let '(a0, b0) := strip_suffix A B in strip_prefix a0 b0) = (a, b).
Proof.
  intros Hl HA HB Hne.
  destruct (strip_suffix_spec A B) as (s & a1 & b1 & E1 & EA & EB & Hd1).
  destruct (strip_prefix_spec a1 b1) as (p & a & b & E2 & Ea & Eb & Hd2).
  exists p, a, b, s. rewrite E1, E2. subst. rewrite !app_assoc. repeat split; auto.
  intros x y a' b' -> ->. apply (Hd1 x y (p ++ a') (p ++ b')); rewrite app_assoc; reflexivity.
Qed.

Lemma levenshtein_ordered (A B : str) : length A <= length B -> bmp A -> bmp B -> A <> B ->
  let '(a0, b0) := strip_suffix A B in
  let '(a, b) := strip_prefix a0 b0 in
  let r := match a with
    | [] => length b
    | [x] => if memb x B then length b - 1 else length b
    | _ => dp_rows a (map to_ushort b) 0 0 (map (fun i => i + 1) (seq 0 (length b)))
    end in
  (shortcut_case A B -> r + 1 = lev A B) /\ (~ shortcut_case A B -> r = lev A B).
Proof.
  intros Hl HA HB Hne.
  destruct (levenshtein_core A B Hl HA HB Hne) as (p & a & b & s & EA & EB & Hd1 & Hd2 & E).
  destruct (strip_suffix A B) as [a0 b0]. rewrite E. clear E.
  assert (Elev : lev A B = lev a b).
  { rewrite EA, EB. rewrite lev_app_l, lev_app_r. reflexivity. }
  assert (Hlab : length a <= length b) by (rewrite EA, EB, !app_length in Hl; lia).
  assert (Hbmp : bmp a /\ bmp b).
  { rewrite EA, !bmp_app in HA. rewrite EB, !bmp_app in HB. tauto. }
  assert (Huniq : shortcut_case A B -> exists x, a = [x] /\ ~ In x b /\ In x (p ++ s) /\ b <> []).
  { intros (p' & x & r & s' & EA' & EB' & Hr & Hxr & Hin).
    (* the core of the decomposition is unique *)
    assert (Hp : forall (p p' : str) a b s a' b' s',
       p ++ a ++ s = p' ++ a' ++ s' -> p ++ b ++ s = p' ++ b' ++ s' ->
       (forall x y a0 b0, a = x :: a0 -> b = y :: b0 -> x <> y) ->
       a' <> [] -> b' <> [] ->
       (forall x y a0 b0, a' = x :: a0 -> b' = y :: b0 -> x <> y) ->
       a <> [] -> b <> [] -> p = p').
    { clear. intros p. induction p as [|z p IH]; intros p' a b s a' b' s' E1 E2 Hd Ha' Hb' Hd' Ha Hb.
      - destruct p' as [|z' p']; [reflexivity|]. exfalso.
        destruct a as [|x a]; [contradiction|]. destruct b as [|y b]; [contradiction|].
        simpl in E1, E2. inversion E1; inversion E2; subst. eapply Hd; reflexivity.
      - destruct p' as [|z' p'].
        + exfalso. destruct a' as [|x a']; [contradiction|]. destruct b' as [|y b']; [contradiction|].
          simpl in E1, E2. inversion E1; inversion E2; subst. eapply Hd'; reflexivity.
        + simpl in E1, E2. inversion E1; inversion E2; subst. f_equal.
          exact (IH p' a b s a' b' s' ltac:(assumption) ltac:(assumption) Hd Ha' Hb' Hd' Ha Hb). }
    assert (Hane : a <> []).
    { intros ->. (* then A is a prefix and suffix of B: lengths *)
      destruct r as [|y r]; [contradiction|].
      (* A = p ++ s, B = p ++ b ++ s and A = p' ++ x :: s', B = p' ++ r ++ s' *)
      assert (lev A B <= lev [] b) by (rewrite Elev; lia).
      assert (E2 : lev A B = lev [x] (y :: r)).
      { rewrite EA', EB'. change (x :: s') with ([x] ++ s'). rewrite lev_app_l, lev_app_r. reflexivity. }
      rewrite lev_single_notin in E2; [|exact Hxr|simpl; lia].
      rewrite Elev, lev_nil_l in E2.
      assert (length A = length p + length s) by (rewrite EA, !app_length; simpl; lia).
      assert (length B = length p + length b + length s) by (rewrite EB, !app_length; lia).
      assert (length A = length p' + 1 + length s') by (rewrite EA', !app_length; simpl; lia).
      assert (length B = length p' + S (length r) + length s') by (rewrite EB', !app_length; simpl; lia).
      simpl in E2. lia. }
    assert (Hbne : b <> []).
    { intros ->. destruct a; [contradiction|simpl in Hlab; lia]. }
    assert (Hhead' : forall x0 y a1 b1, [x] = x0 :: a1 -> r = y :: b1 -> x0 <> y).
    { intros x0 y a1 b1 Ex -> ->. inversion Ex; subst. apply Hxr. simpl; auto. }
    assert (p = p').
    { apply (Hp p p' a b s [x] r s'); auto.
      - rewrite <- EA, EA'. reflexivity.
      - rewrite <- EB, EB'. reflexivity.
      - discriminate. }
    assert (Hrs : rev s = rev s').
    { eapply (Hp (rev s) (rev s') (rev a) (rev b) (rev p) [x] (rev r) (rev p')).
      - assert (E0 : p ++ a ++ s = p' ++ [x] ++ s') by (rewrite <- EA, EA'; reflexivity).
        apply (f_equal (@rev N)) in E0. rewrite !rev_app_distr, <- !app_assoc in E0. exact E0.
      - assert (E0 : p ++ b ++ s = p' ++ r ++ s') by (rewrite <- EB, EB'; reflexivity).
        apply (f_equal (@rev N)) in E0. rewrite !rev_app_distr, <- !app_assoc in E0. exact E0.
      - intros x0 y a1 b1 Ex Ey. apply (f_equal (@rev N)) in Ex, Ey. rewrite rev_involutive in Ex, Ey.
        simpl in Ex, Ey. eapply Hd2; eassumption.
      - discriminate.
      - intros Hc. apply (f_equal (@rev N)) in Hc. rewrite rev_involutive in Hc. contradiction.
      - intros x0 y a1 b1 Ex Ey ->. inversion Ex; subst. apply Hxr. apply in_rev. rewrite Ey. simpl; auto.
      - intros Hc. apply (f_equal (@rev N)) in Hc. rewrite rev_involutive in Hc. contradiction.
      - intros Hc. apply (f_equal (@rev N)) in Hc. rewrite rev_involutive in Hc. contradiction. }
    apply (f_equal (@rev N)) in Hrs. rewrite !rev_involutive in Hrs. subst p' s'.
    exists x. rewrite EA' in EA. rewrite EB' in EB.
    apply app_inv_head in EA, EB. change (x :: s) with ([x] ++ s) in EA.
    apply app_inv_tail in EA, EB. subst. auto. }
  cbv zeta. rewrite Elev.
  assert (Hsc : forall x, a = [x] -> In x B -> ~ In x b -> shortcut_case A B).
  { intros x -> Hin Hnb. exists p, x, b, s. split; [exact EA|]. split; [exact EB|].
    split; [destruct b; [simpl in Hlab; lia|discriminate]|]. split; [exact Hnb|].
    rewrite EB, !in_app_iff in Hin. rewrite in_app_iff. tauto. }
  destruct a as [|x [|x' a]].
  - rewrite lev_nil_l. split; [|reflexivity].
    intros Hc. destruct (Huniq Hc) as (x & Hx & _). discriminate.
  - destruct (memb_In x B) as [HB'|HB'].
    + destruct (in_dec eq_dec x b) as [Hb|Hb].
      * rewrite lev_single_in by exact Hb. split; [|reflexivity].
        intros Hc. destruct (Huniq Hc) as (x0 & Hx & Hn & _). inversion Hx; subst. contradiction.
      * rewrite lev_single_notin; [|exact Hb|simpl in Hlab; exact Hlab]. split; [simpl in Hlab; lia|].
        intros Hc. exfalso. apply Hc. apply (Hsc x); auto.
    + assert (~ In x b). { intros Hi. apply HB'. rewrite EB, !in_app_iff. auto. }
      rewrite lev_single_notin; [|assumption|simpl in Hlab; exact Hlab]. split; [|reflexivity].
      intros Hc. destruct (Huniq Hc) as (x0 & Hx & Hn & Hi & _). injection Hx as <-.
      exfalso. apply HB'. rewrite EB, !in_app_iff. rewrite in_app_iff in Hi. tauto.
  - split.
    + intros Hc. destruct (Huniq Hc) as (x0 & Hx & _). discriminate.
    + intros _. set (aa := x :: x' :: a) in *.
      rewrite (dp_rows_spec aa b).
      * apply D_full.
      * apply map_to_ushort, bmp_ushort. tauto.
      * exact Hlab.
      * simpl in Hlab. lia.
      * apply bmp_ushort. tauto.
      * reflexivity.
      * reflexivity.
      * rewrite map_length, seq_length. reflexivity.
      * intros j Hj. rewrite nth_map_seq by exact Hj. rewrite D_0_l by lia. lia.
      * discriminate.
Qed.

Lemma levenshtein_distance_correct (A B : str) : bmp A -> bmp B ->
  let wrong := if Nat.ltb (length B) (length A) then shortcut_case B A else shortcut_case A B in
  (wrong -> levenshtein_distance A B + 1 = lev A B) /\
  (~ wrong -> levenshtein_distance A B = lev A B).
Proof.
  intros HA HB. cbv zeta. unfold levenshtein_distance.
  destruct (eqb A B) eqn:Eq.
  - rewrite eqb_true in Eq. subst B. rewrite lev_refl, Nat.ltb_irrefl. split; [|reflexivity].
    intros (p & x & r & s & E1 & E2 & Hr & Hx & _). exfalso. apply Hx.
    rewrite E1 in E2. apply app_inv_head in E2. change (x :: s) with ([x] ++ s) in E2.
    apply app_inv_tail in E2. subst. simpl; auto.
  - rewrite eqb_false in Eq. destruct (Nat.ltb_spec (length B) (length A)).
    + rewrite (lev_sym A B).
      pose proof (levenshtein_ordered B A ltac:(lia) HB HA ltac:(congruence)) as G.
      destruct (strip_suffix B A) as [a0 b0]. destruct (strip_prefix a0 b0) as [a b]. exact G.
    + pose proof (levenshtein_ordered A B ltac:(lia) HA HB Eq) as G.
      destruct (strip_suffix A B) as [a0 b0]. destruct (strip_prefix a0 b0) as [a b]. exact G.
Qed.

(** ** The limited distance *)
Lemma banded_rows_spec (a b : str) k codes ub :
  codes = b -> 1 <= length a -> length a <= length b -> length b - length a <= k -> k <= length b ->
  (k < length b -> ub = k + 1) ->
  (forall x y a' b', a = x :: a' -> b = y :: b' -> x <> y) ->
  let diff := length b - length a in
  let offset := k - diff in
  forall rest i cur vector,
  a = firstn i a ++ rest -> i + length rest = length a -> length vector = length b ->
  (forall j, i - 1 - offset <= j -> j < length b -> approx a b k i (S j) (nth j vector 0)) ->
  (forall j, j < length b -> k + i <= j -> nth j vector 0 = ub) ->
  (rest = [] -> approx a b k i (length b) cur) ->
  match banded_rows rest codes k diff offset (Nat.ltb k (length b)) i
          (i - 1 - offset) (Nat.min (length b) (k + i)) cur vector with
  | None => k < lev a b
  | Some cur' => approx a b k (length a) (length b) cur'
  end.
Proof.
  intros Hcodes Ha1 Hmn Hdk Hkn Hub Hdiffer diff offset.
  induction rest as [|c rest IH]; intros i cur vector Ha Hi Hlen Hv Hstale Hcur.
  - cbn [banded_rows]. replace (length a) with i by (simpl in Hi; lia). apply Hcur. reflexivity.
  - cbn [length] in Hi. cbn [banded_rows].
    assert (Hic : nth_error a i = Some c).
    { rewrite Ha. rewrite nth_error_app2; rewrite firstn_length; [|lia].
      replace (i - Nat.min i (length a)) with 0 by lia. reflexivity. }
    assert (Hlc : length codes = length b) by (rewrite Hcodes; reflexivity). rewrite Hlc.
    assert (Ejs : (if offset <? i then i - 1 - offset + 1 else i - 1 - offset) = i - offset).
    { clear. destruct (Nat.ltb_spec offset i); lia. }
    assert (Eje : (if Nat.min (length b) (k + i) <? length b
                   then Nat.min (length b) (k + i) + 1 else Nat.min (length b) (k + i))
                  = Nat.min (length b) (k + i + 1)).
    { clear. destruct (Nat.ltb_spec (Nat.min (length b) (k + i)) (length b)); lia. }
    rewrite Ejs, Eje. clear Ejs Eje.
    set (js := i - offset). set (je := Nat.min (length b) (k + i + 1)).
    assert (Hjs : js + (je - js) = je) by (unfold js, je, offset, diff; lia).
    assert (Hje : je <= length b) by (unfold je; lia).
    destruct (dp_row c codes (je - js) js i (i + 1) vector) as [cur' vector'] eqn:E.
    destruct (dp_row_spec a b k codes Hcodes Hmn Hdk i c Hic (je - js) js i (i + 1) vector)
      with (6 := E) as (E1 & E2 & E3 & E4).
    + rewrite Hjs. exact Hje.
    + exact Hlen.
    + (* left = i *)
      pose proof (D_bounds a b i js ltac:(lia) ltac:(unfold js; lia)) as (B1 & B2 & B3).
      destruct (Nat.eq_dec js 0) as [E0|E0].
      { rewrite E0. apply eq_approx. rewrite D_0_r by lia. reflexivity. }
      split; [unfold js in *; lia|]. intros Hu. exfalso. unfold useful in Hu.
      destruct (Nat.eq_dec offset 0) as [Eo|Eo].
      * assert (H : js = i) by (unfold js; clear - Eo; lia). rewrite H in *.
        assert (Hne : D a b i i <> 0).
        { destruct a as [|x a']; [simpl in Ha1; lia|]. destruct b as [|y b']; [simpl in Hmn; lia|].
          apply (D_first_differ (x :: a') (y :: b') i x y); try reflexivity; [|lia].
          eapply Hdiffer; reflexivity. }
        clear - Hu Hne Eo Hi Hmn Hdk. unfold offset, diff in *. lia.
      * clear - Hu B1 Eo E0 Hi Hmn Hdk. unfold js, offset, diff in *. lia.
    + pose proof (D_bounds a b (S i) js ltac:(lia) ltac:(unfold js; lia)) as (B1 & B2 & B3).
      destruct (Nat.eq_dec js 0) as [E0|E0].
      { rewrite E0. apply eq_approx. rewrite D_0_r by lia. lia. }
      split; [unfold js in *; lia|]. intros Hu. exfalso. unfold useful in Hu.
      clear - Hu B1 E0 Hi Hmn Hdk. unfold js, offset, diff in *. lia.
    + intros j' H1 H2. apply Hv; [unfold js in *; lia|lia].
    + rewrite Hjs in *.
      assert (Hdiag : js <= i + diff /\ i + diff < je) by (unfold js, je, offset, diff; lia).
      destruct (Nat.ltb k (length b) && Nat.ltb k (nth (i + diff) vector' 0)) eqn:Ex.
      * apply andb_true_iff in Ex as [_ Ex]. apply Nat.ltb_lt in Ex.
        destruct (Nat.lt_ge_cases k (lev a b)) as [Hlt|Hge]; [exact Hlt|exfalso].
        destruct (E3 (i + diff)) as [_ Hu]; [lia..|].
        pose proof (diag_mono a b k Hmn Hdk (S i) ltac:(lia)) as Hm.
        rewrite D_full in Hm. fold diff in Hm. replace (S i + diff) with (S (i + diff)) in Hm by lia.
        rewrite Hu in Ex; [lia|]. unfold useful. clear - Hm Hge Hi Hmn. unfold diff in *. lia.
      * specialize (IH (i + 1) cur' vector').
        replace (i + 1 - 1 - offset) with js in IH by (unfold js; clear; lia).
        replace (Nat.min (length b) (k + (i + 1))) with je in IH by (unfold je; clear; lia).
        apply IH; clear IH.
        -- rewrite Nat.add_1_r, (firstn_S_snoc a i c Hic), <- app_assoc. exact Ha.
        -- lia.
        -- exact E1.
        -- intros j H1 H2. rewrite Nat.add_1_r in *.
           destruct (Nat.lt_ge_cases j je) as [Hj|Hj]; [apply E3; unfold js; lia|].
           rewrite E4 by lia.
           assert (Hkn' : k < length b) by (unfold je in Hj; lia).
           rewrite Hstale by (unfold je in Hj; lia). rewrite (Hub Hkn').
           split; [lia|]. intros Hu. exfalso. unfold useful in Hu.
           pose proof (D_bounds a b (S i) (S j) ltac:(lia) ltac:(lia)) as (B1 & B2 & B3).
           unfold je in Hj. clear - Hu B2 Hj H2. lia.
        -- intros j H1 H2. rewrite E4 by (unfold je; lia). apply Hstale; lia.
        -- intros ->. rewrite Nat.add_1_r. replace (length b) with je at 1; [exact E2|].
           simpl in Hi. unfold je, diff in *. lia.
Qed.

Lemma limited_correct_ordered (k : nat) (a b : str) ub : bmp a -> bmp b ->
  1 <= length a -> length a <= length b -> ub = k + 1 ->
  (forall x y a' b', a = x :: a' -> b = y :: b' -> x <> y) ->
  (let LA := length a in
   let LB := length b in
   let diff := LB - LA in
   if negb (Nat.ltb LB k) && Nat.ltb k diff then ub
   else
     let md := if Nat.ltb LB k then LB else k in
     let vector := map (fun i => if Nat.ltb i md then i + 1 else ub) (seq 0 LB) in
     match banded_rows a (map to_ushort b) md diff (md - diff) (Nat.ltb md LB) 0 0 md 0 vector with
     | None => ub
     | Some current => if Nat.leb current md then current else ub
     end) = if Nat.leb (lev a b) k then lev a b else ub.
Proof.
  intros HA HB Ha1 Hmn Hub Hdiffer. cbv zeta.
  assert (Hlen := lev_length a b). assert (Hmax := lev_le_max a b).
  destruct (negb (Nat.ltb (length b) k) && Nat.ltb k (length b - length a)) eqn:E0.
  - apply andb_true_iff in E0 as [_ E0]. apply Nat.ltb_lt in E0.
    destruct (Nat.leb_spec (lev a b) k); [lia|reflexivity].
  - assert (Hdk : length b - length a <= k).
    { apply andb_false_iff in E0 as [E0|E0].
      - apply negb_false_iff, Nat.ltb_lt in E0. lia.
      - apply Nat.ltb_ge in E0. exact E0. }
    set (md := if Nat.ltb (length b) k then length b else k).
    assert (Hmd : md <= length b /\ md <= k /\ length b - length a <= md /\ (md < length b -> md = k) /\
                  (lev a b <= k <-> lev a b <= md)).
    { unfold md. destruct (Nat.ltb_spec (length b) k); lia. }
    destruct Hmd as (Hm1 & Hm2 & Hm3 & Hm4 & Hm5).
    pose proof (banded_rows_spec a b md (map to_ushort b) ub) as G. cbv zeta in G.
    specialize (G (map_to_ushort b (bmp_ushort b HB)) Ha1 Hmn Hm3 Hm1).
    specialize (G ltac:(intros Hlt; rewrite (Hm4 Hlt); exact Hub) Hdiffer a 0 0
      (map (fun i => if Nat.ltb i md then i + 1 else ub) (seq 0 (length b)))).
    replace (0 - 1 - (md - (length b - length a))) with 0 in G by lia.
    rewrite Nat.add_0_r in G. rewrite (Nat.min_r (length b) md Hm1) in G.
    match type of G with _ -> _ -> _ -> _ -> _ -> _ -> match ?m with _ => _ end =>
      assert (Gr : match m with None => md < lev a b
                   | Some cur' => approx a b md (length a) (length b) cur' end);
      [apply G; clear G | clear G; destruct m as [cur|] ] end.
    + reflexivity.
    + reflexivity.
    + rewrite map_length, seq_length. reflexivity.
    + intros j _ Hj. rewrite nth_map_seq by exact Hj. destruct (Nat.ltb_spec j md).
      * apply eq_approx. rewrite D_0_l by lia. lia.
      * assert (md < length b) by lia. rewrite Hub, <- (Hm4 H0). split; [lia|].
        unfold useful. rewrite D_0_l by lia. lia.
    + intros j Hj Hkj. rewrite nth_map_seq by exact Hj. destruct (Nat.ltb_spec j md); [lia|reflexivity].
    + intros ->. simpl in Ha1. lia.
    + destruct Gr as [G1 G2]. rewrite D_full in *. unfold useful in G2. rewrite D_full in G2.
      destruct (Nat.leb_spec (lev a b) k).
      * rewrite G2 by lia. destruct (Nat.leb_spec (lev a b) md); [reflexivity|lia].
      * destruct (Nat.leb_spec cur md); [|reflexivity]. lia.
    + destruct (Nat.leb_spec (lev a b) k); [lia|reflexivity].
Qed.

Lemma limited_correct (k : nat) (A B : str) : bmp A -> bmp B ->
  limited_levenshtein_distance k A B = if Nat.leb (lev A B) k then lev A B else k + 1.
Proof.
  intros HA HB. unfold limited_levenshtein_distance.
  destruct (eqb A B) eqn:Eq.
  - rewrite eqb_true in Eq. subst. rewrite lev_refl. reflexivity.
  - rewrite eqb_false in Eq.
    assert (Hcap : forall n, (if Nat.ltb k n then k + 1 else n) = if Nat.leb n k then n else k + 1).
    { intros n. destruct (Nat.ltb_spec k n), (Nat.leb_spec n k); lia. }
    assert (Hord : forall A B, length A <= length B -> bmp A -> bmp B -> A <> B ->
      (if length A =? 0 then if k <? length B then k + 1 else length B
       else let '(a, b) := strip_suffix A B in
         if length a =? 0 then if k <? length b then k + 1 else length b
         else let '(a0, b0) := strip_prefix a b in
           if length a0 =? 0 then if k <? length b0 then k + 1 else length b0
           else if negb (length b0 <? k) && (k <? length b0 - length a0) then k + 1
           else
            let md := if length b0 <? k then length b0 else k in
            match banded_rows a0 (map to_ushort b0) md (length b0 - length a0) (md - (length b0 - length a0))
              (md <? length b0) 0 0 md 0 (map (fun i => if i <? md then i + 1 else k + 1) (seq 0 (length b0))) with
            | Some current => if current <=? md then current else k + 1
            | None => k + 1
            end) = if lev A B <=? k then lev A B else k + 1).
    { clear - Hcap. intros A B Hl HA HB Eq.
      destruct (Nat.eqb_spec (length A) 0) as [E0|E0].
      - apply length_zero_iff_nil in E0. subst. rewrite lev_nil_l. apply Hcap.
      - destruct (strip_suffix_spec A B) as (s & a1 & b1 & E1 & EA & EB & Hd1). rewrite E1.
        assert (El1 : lev A B = lev a1 b1) by (rewrite EA, EB; apply lev_app_r).
        rewrite El1.
        assert (Hl1 : length a1 <= length b1) by (rewrite EA, EB, !app_length in Hl; lia).
        assert (HA1 : bmp a1) by (rewrite EA, bmp_app in HA; tauto).
        assert (HB1 : bmp b1) by (rewrite EB, bmp_app in HB; tauto).
        destruct (Nat.eqb_spec (length a1) 0) as [E2|E2].
        { apply length_zero_iff_nil in E2. subst a1. rewrite lev_nil_l. apply Hcap. }
        destruct (strip_prefix_spec a1 b1) as (p & a & b & E3 & Ea & Eb & Hd2). rewrite E3.
        assert (El2 : lev a1 b1 = lev a b) by (rewrite Ea, Eb; apply lev_app_l).
        rewrite El2.
        destruct (Nat.eqb_spec (length a) 0) as [E4|E4].
        { apply length_zero_iff_nil in E4. subst a. rewrite lev_nil_l. apply Hcap. }
        apply (limited_correct_ordered k a b (k + 1)).
        + rewrite Ea, bmp_app in HA1; tauto.
        + rewrite Eb, bmp_app in HB1; tauto.
        + lia.
        + rewrite Ea, Eb, !app_length in Hl1; lia.
        + reflexivity.
        + exact Hd2. }
    destruct (Nat.ltb_spec (length B) (length A)).
    + rewrite (lev_sym A B). apply Hord; auto; lia || congruence.
    + apply Hord; auto.
Qed.

(** ** At most one edit *)
Lemma substitution_loop_true (a b : str) : length a = length b ->
  (substitution_loop a b true = true <-> a = b).
Proof.
  revert b. induction a as [|x a IH]; intros [|y b] Hl; try discriminate; simpl.
  - tauto.
  - destruct (N.eqb_spec x y) as [->|Hn].
    + rewrite IH by (simpl in Hl; lia). split; congruence.
    + split; congruence.
Qed.

Lemma lev_same_length_1 (a b : str) : length a = length b -> lev a b <= 1 ->
  a = b \/ exists p x y s, a = p ++ x :: s /\ b = p ++ y :: s.
Proof.
  intros Hl H1.
  assert (Hal := lev_al a b).
  destruct (Nat.eq_dec (lev a b) 0) as [E|E]; [left; apply lev_0_eq; exact E|].
  assert (E1 : lev a b = 1) by lia. rewrite E1 in Hal. clear E1 H1 E. right.
  remember 1 as n. revert Hl Heqn. induction Hal as [|n x a b H IH|n x y a b H IH|n y a b H IH|n x a b H IH];
    intros Hl Heq; try discriminate.
  - destruct IH as (p & u & v & s & -> & ->); [simpl in Hl; lia|exact Heq|]. exists (x :: p), u, v, s. auto.
  - inversion Heq; subst. apply al_0_eq in H. subst. exists [], x, y, b. auto.
  - inversion Heq; subst. apply al_0_eq in H. subst. simpl in Hl. lia.
  - inversion Heq; subst. apply al_0_eq in H. subst. simpl in Hl. lia.
Qed.

Lemma lev_one_longer_1 (a b : str) : length b = S (length a) -> lev a b <= 1 ->
  exists p y s, a = p ++ s /\ b = p ++ y :: s.
Proof.
  intros Hl H1.
  assert (Hal := lev_al a b).
  assert (E1 : lev a b = 1) by (pose proof (lev_length a b); lia). rewrite E1 in Hal. clear E1 H1.
  remember 1 as n. revert Hl Heqn. induction Hal as [|n x a b H IH|n x y a b H IH|n y a b H IH|n x a b H IH];
    intros Hl Heq; try discriminate.
  - destruct IH as (p & v & s & -> & ->); [simpl in Hl; lia|exact Heq|]. exists (x :: p), v, s. auto.
  - inversion Heq; subst. apply al_0_eq in H. subst. simpl in Hl. lia.
  - inversion Heq; subst. apply al_0_eq in H. subst. exists [], y, b. auto.
  - inversion Heq; subst. apply al_0_eq in H. subst. simpl in Hl. lia.
Qed.

Lemma substitution_loop_false (a b : str) : length a = length b ->
  (substitution_loop a b false = true <-> lev a b <= 1).
Proof.
  revert b. induction a as [|x a IH]; intros [|y b] Hl; try discriminate.
  - simpl. rewrite lev_nil_l. simpl. split; [lia|reflexivity].
  - cbn [substitution_loop]. cbn [length] in Hl. destruct (N.eqb_spec x y) as [->|Hn].
    + rewrite lev_match. apply IH. lia.
    + rewrite substitution_loop_true by lia. split.
      * intros ->. apply lev_le_al. apply al_sub, al_refl.
      * intros H1. apply lev_same_length_1 in H1; [|simpl; lia].
        destruct H1 as [E|(p & u & v & s & E1 & E2)]; [congruence|].
        destruct p as [|z p]; simpl in E1, E2; congruence.
Qed.

Lemma addition_loop_true (a b : str) : length a = length b ->
  exists r, addition_loop a b true = Ok r /\ (r = true <-> a = b).
Proof.
  revert a. induction b as [|y b IH]; intros [|x a] Hl; try discriminate; cbn [addition_loop].
  - exists true. tauto.
  - cbn [length] in Hl. destruct (N.eqb_spec x y) as [->|Hn].
    + destruct (IH a ltac:(lia)) as (r & -> & Hr). exists r. split; [reflexivity|]. rewrite Hr.
      split; congruence.
    + exists false. split; [reflexivity|]. split; congruence.
Qed.

Lemma addition_loop_false (a b : str) : length b = S (length a) ->
  exists r, addition_loop a b false = Ok r /\ (r = true <-> lev a b <= 1).
Proof.
  revert a. induction b as [|y b IH]; intros a Hl; [discriminate|].
  destruct a as [|x a]; cbn [addition_loop].
  - exists true. split; [reflexivity|]. rewrite lev_nil_l. simpl in *. split; [lia|reflexivity].
  - cbn [length] in Hl. destruct (N.eqb_spec x y) as [->|Hn].
    + destruct (IH a ltac:(lia)) as (r & -> & Hr). exists r. split; [reflexivity|].
      rewrite lev_match. exact Hr.
    + destruct (addition_loop_true (x :: a) b) as (r & -> & Hr); [simpl; lia|].
      exists r. split; [reflexivity|]. rewrite Hr. split.
      * intros <-. apply lev_le_al, al_ins, al_refl.
      * intros H1. apply lev_one_longer_1 in H1; [|simpl; lia].
        destruct H1 as (p & v & s & E1 & E2). destruct p as [|z p]; simpl in E1, E2; congruence.
Qed.

Lemma lte1_correct (same : bool) (A B : str) :
  (same = true -> A = B) -> (A = [] -> B = [] -> same = true) ->
  exists r, levenshtein_distance_lte1 same A B = Ok r /\ (r = true <-> lev A B <= 1).
Proof.
  intros Hs He. unfold levenshtein_distance_lte1, lte1.
  destruct same.
  { exists true. rewrite Hs, lev_refl by reflexivity. split; [reflexivity|]. split; [lia|reflexivity]. }
  assert (Hord : forall A B : str, length A <= length B -> (A = [] -> B = [] -> False) ->
    exists r, (if length A =? 0 then Ok (length B =? 1)
     else if 1 <? length B - length A then Ok false
       else if length B - length A =? 1 then addition_loop A B false else Ok (substitution_loop A B false)) = Ok r /\
     (r = true <-> lev A B <= 1)).
  { clear. intros A B Hl He. destruct (Nat.eqb_spec (length A) 0) as [E|E].
    - apply length_zero_iff_nil in E. subst. rewrite lev_nil_l. eexists. split; [reflexivity|].
      destruct B as [|y B]; [exfalso; auto|]. rewrite Nat.eqb_eq. simpl. lia.
    - pose proof (lev_length A B) as [_ Hlen].
      destruct (Nat.ltb_spec 1 (length B - length A)).
      + exists false. split; [reflexivity|]. split; [discriminate|]. lia.
      + destruct (Nat.eqb_spec (length B - length A) 1).
        * apply addition_loop_false. lia.
        * eexists. split; [reflexivity|]. apply substitution_loop_false. lia. }
  destruct (Nat.ltb_spec (length B) (length A)).
  - rewrite (lev_sym A B). apply Hord; [lia|]. intros -> ->. simpl in H. lia.
  - apply Hord; [lia|]. intros. specialize (He H0 H1). discriminate.
Qed.

(** ** At most one edit or swap *)
Lemma damerau_le_1 {A} (a b : list A) : damerau_le 1 a b <-> lev_le 1 a b \/ swap1 a b.
Proof.
  split.
  - intros (m & Hm & Hs). inversion Hs as [|n ? b' ? Hstep Hrest]; subst.
    + left. exists 0. split; [lia|constructor].
    + assert (n = 0) by lia. subst. inversion Hrest; subst. destruct Hstep as [He|Hw]; [|right; exact Hw].
      left. exists 1. split; [lia|]. econstructor; [exact He|constructor].
  - intros [(m & Hm & Hs)|Hw].
    + exists m. split; [exact Hm|]. clear Hm. induction Hs; [constructor|]. econstructor; [left; eassumption|auto].
    + exists 1. split; [lia|]. econstructor; [right; exact Hw|constructor].
Qed.

Lemma transposition_loop_true (a b : str) : length a = length b ->
  (transposition_loop a b true = true <-> a = b).
Proof.
  revert b. induction a as [|x a IH]; intros [|y b] Hl; try discriminate; simpl.
  - tauto.
  - destruct (N.eqb_spec x y) as [->|Hn].
    + rewrite IH by (simpl in Hl; lia). split; congruence.
    + split; congruence.
Qed.

Lemma swap1_cons {A} (x : A) a b : swap1 a b -> swap1 (x :: a) (x :: b).
Proof. intros [l u v r]. exact (swap_adj (x :: l) u v r). Qed.

Lemma transposition_loop_false (a b : str) : length a = length b ->
  (transposition_loop a b false = true <-> lev a b <= 1 \/ swap1 a b).
Proof.
  revert b. induction a as [|x a IH]; intros [|y b] Hl; try discriminate.
  - simpl. rewrite lev_nil_l. simpl. split; [lia|reflexivity].
  - cbn [length] in Hl. cbn [transposition_loop]. destruct (N.eqb_spec x y) as [->|Hn].
    + rewrite lev_match, IH by lia. split.
      * intros [?|?]; [auto|right; apply swap1_cons; assumption].
      * intros [?|Hw]; [auto|]. inversion Hw as [l u v r E1 E2].
        destruct l as [|z l]; simpl in E1, E2; inversion E1; inversion E2; subst.
        -- left. rewrite lev_refl. lia.
        -- right. constructor.
    + assert (Hsub : lev (x :: a) (y :: b) <= 1 <-> a = b).
      { split.
        - intros H1. apply lev_same_length_1 in H1; [|simpl; lia].
          destruct H1 as [E|(p & u & v & s & E1 & E2)]; [congruence|].
          destruct p as [|z p]; simpl in E1, E2; congruence.
        - intros ->. apply lev_le_al. apply al_sub, al_refl. }
      assert (Hswap : swap1 (x :: a) (y :: b) <-> exists r, a = y :: r /\ b = x :: r).
      { split.
        - intros Hw. inversion Hw as [l u v r E1 E2].
          destruct l as [|z l]; simpl in E1, E2; inversion E1; inversion E2; subst; [eauto|congruence].
        - intros (r & -> & ->). exact (swap_adj [] x y r). }
      rewrite Hsub, Hswap. destruct a as [|x' a], b as [|y' b]; try discriminate.
      * simpl. split; auto.
      * cbn [length] in Hl. destruct (N.eqb_spec x' y) as [->|H1]; cbn [andb].
        -- destruct (N.eqb_spec y' x) as [->|H2].
           ++ rewrite transposition_loop_true by lia. split.
              ** intros ->. right. eauto.
              ** intros [E|(r & E1 & E2)]; congruence.
           ++ rewrite transposition_loop_true by (simpl; lia). split; [auto|].
              intros [E|(r & E1 & E2)]; congruence.
        -- rewrite transposition_loop_true by (simpl; lia). split; [auto|].
           intros [E|(r & E1 & E2)]; congruence.
Qed.

Lemma swap1_sym {A} (a b : list A) : swap1 a b -> swap1 b a.
Proof. intros [l u v r]. constructor. Qed.

Lemma swap1_length {A} (a b : list A) : swap1 a b -> length a = length b.
Proof. intros [l u v r]. rewrite !app_length. reflexivity. Qed.

Lemma damerau_lte1_correct (same : bool) (A B : str) :
  (same = true -> A = B) -> (A = [] -> B = [] -> same = true) ->
  exists r, damerau_levenshtein_distance_lte1 same A B = Ok r /\ (r = true <-> lev A B <= 1 \/ swap1 A B).
Proof.
  intros Hs He. unfold damerau_levenshtein_distance_lte1, lte1.
  destruct same.
  { exists true. rewrite Hs, lev_refl by reflexivity. split; [reflexivity|]. split; [lia|reflexivity]. }
  assert (Hord : forall A B : str, length A <= length B -> (A = [] -> B = [] -> False) ->
    exists r, (if length A =? 0 then Ok (length B =? 1)
     else if 1 <? length B - length A then Ok false
       else if length B - length A =? 1 then addition_loop A B false else Ok (transposition_loop A B false)) = Ok r /\
     (r = true <-> lev A B <= 1 \/ swap1 A B)).
  { clear. intros A B Hl He.
    assert (Hw : length A <> length B -> (lev A B <= 1 \/ swap1 A B <-> lev A B <= 1)).
    { intros Hne. split; [|auto]. intros [?|Hw]; [auto|]. apply swap1_length in Hw. contradiction. }
    destruct (Nat.eqb_spec (length A) 0) as [E|E].
    - apply length_zero_iff_nil in E. subst. eexists. split; [reflexivity|].
      destruct B as [|y B]; [exfalso; auto|]. rewrite Hw by discriminate.
      rewrite lev_nil_l, Nat.eqb_eq. simpl. lia.
    - pose proof (lev_length A B) as [_ Hlen].
      destruct (Nat.ltb_spec 1 (length B - length A)).
      + exists false. rewrite Hw by lia. split; [reflexivity|]. split; [discriminate|]. lia.
      + destruct (Nat.eqb_spec (length B - length A) 1).
        * destruct (addition_loop_false A B ltac:(lia)) as (r & E1 & Hr). exists r.
          split; [exact E1|]. rewrite Hr, Hw by lia. reflexivity.
        * eexists. split; [reflexivity|]. apply transposition_loop_false. lia. }
  destruct (Nat.ltb_spec (length B) (length A)).
  - destruct (Hord B A ltac:(lia)) as (r & E & Hr); [intros -> ->; simpl in H; lia|].
    exists r. split; [exact E|]. rewrite Hr, (lev_sym A B).
    split; (intros [?|Hw]; [auto|right; apply swap1_sym; exact Hw]).
  - apply Hord; [lia|]. intros. specialize (He H0 H1). discriminate.
Qed.

(** ** Statements of LevProps *)
Lemma levenshtein_shortcut_refuted :
  exists A B, bmp A /\ bmp B /\ ~ is_lev A B (levenshtein_distance A B).
Proof.
  exists [97; 97]%N, [97; 98]%N. split; [repeat constructor|]. split; [repeat constructor|].
  rewrite is_lev_lev. vm_compute. discriminate.
Qed.

Lemma levenshtein_astral_refuted : exists A B,
  ~ shortcut_case A B /\ ~ shortcut_case B A /\ ~ is_lev A B (levenshtein_distance A B).
Proof.
  exists [97; 98]%N, [65633; 65634]%N. split; [|split].
  - intros (p & x & r & s & E1 & E2 & Hr & Hx & Hi).
    destruct p as [|u [|v p]]; simpl in E1, E2; try discriminate.
    inversion E1; subst. apply (f_equal (@rev N)) in E2. rewrite rev_app_distr in E2. discriminate.
    inversion E2. congruence. destruct p; discriminate.
  - intros (p & x & r & s & E1 & E2 & Hr & Hx & Hi).
    destruct p as [|u [|v p]]; simpl in E1, E2; try discriminate.
    inversion E1; subst. apply (f_equal (@rev N)) in E2. rewrite rev_app_distr in E2. discriminate.
    inversion E2. congruence. destruct p; discriminate.
  - rewrite is_lev_lev. vm_compute. discriminate.
Qed.

Lemma levenshtein_distance_exact (A B : str) : bmp A -> bmp B ->
  let (A', B') := if Nat.ltb (length B) (length A) then (B, A) else (A, B) in
  (~ shortcut_case A' B' -> is_lev A B (levenshtein_distance A B)) /\
  (shortcut_case A' B' -> is_lev A B (levenshtein_distance A B + 1)).
Proof.
  intros HA HB. destruct (levenshtein_distance_correct A B HA HB) as [H1 H2].
  destruct (Nat.ltb (length B) (length A)); rewrite !is_lev_lev; auto.
Qed.

Lemma shortcut_nodup A B : NoDup A -> ~ shortcut_case A B.
Proof.
  intros Hn (p & x & r & s & E1 & E2 & Hr & Hx & Hi). subst A.
  apply NoDup_remove_2 in Hn. contradiction.
Qed.

Lemma levenshtein_distance_nodup (A B : str) : bmp A -> bmp B -> NoDup A -> NoDup B ->
  is_lev A B (levenshtein_distance A B).
Proof.
  intros HA HB NA NB. pose proof (levenshtein_distance_exact A B HA HB) as G.
  destruct (Nat.ltb (length B) (length A)); apply G, shortcut_nodup; assumption.
Qed.

Lemma shortcut_dec A B : shortcut_case A B \/ ~ shortcut_case A B.
Proof.
  destruct (Exists_dec (fun i => exists x, nth_error A i = Some x /\
     firstn i A = firstn i B /\
     let s := skipn (S i) A in
     let r := firstn (length B - length s - i) (skipn i B) in
     B = firstn i A ++ r ++ s /\ r <> [] /\ ~ In x r /\ In x (firstn i A ++ s)) (seq 0 (length A)))
    as [H|H].
  - intros i. destruct (nth_error A i) as [x|]; [|right; intros (x & E & _); discriminate].
    cbv zeta.
    destruct (list_eq_dec N.eq_dec (firstn i A) (firstn i B));
      [|right; intros (x' & E & Hn & _); contradiction].
    destruct (list_eq_dec N.eq_dec B (firstn i A ++ firstn (length B - length (skipn (S i) A) - i) (skipn i B)
        ++ skipn (S i) A)); [|right; intros (x' & E & _ & Hn & _); contradiction].
    destruct (list_eq_dec N.eq_dec (firstn (length B - length (skipn (S i) A) - i) (skipn i B)) []);
      [right; intros (x' & E & _ & _ & Hn & _); contradiction|].
    destruct (in_dec N.eq_dec x (firstn (length B - length (skipn (S i) A) - i) (skipn i B)));
      [right; intros (x' & E & _ & _ & _ & Hn & _); injection E as <-; contradiction|].
    destruct (in_dec N.eq_dec x (firstn i A ++ skipn (S i) A));
      [|right; intros (x' & E & _ & _ & _ & _ & Hn); injection E as <-; contradiction].
    left. exists x. repeat split; assumption.
  - left. apply Exists_exists in H as (i & _ & x & E & Hp & E2 & Hr & Hx & Hi).
    exists (firstn i A), x, (firstn (length B - length (skipn (S i) A) - i) (skipn i B)), (skipn (S i) A).
    split; [|auto]. clear - E. revert A E. induction i as [|i IH]; intros [|y A] E; try discriminate.
    + injection E as ->. reflexivity.
    + simpl. f_equal. apply IH. exact E.
  - right. intros (p & x & r & s & E1 & E2 & Hr & Hx & Hi). apply H. apply Exists_exists.
    exists (length p). subst A B. split; [apply in_seq; rewrite app_length; simpl; lia|].
    exists x. rewrite nth_error_app2, Nat.sub_diag by lia. split; [reflexivity|].
    rewrite !firstn_app, !Nat.sub_diag, !firstn_all, !app_nil_r. split; [reflexivity|].
    cbv zeta. replace (skipn (S (length p)) (p ++ x :: s)) with s.
    2:{ rewrite skipn_app, skipn_all2 by lia. replace (S (length p) - length p) with 1 by lia. reflexivity. }
    rewrite skipn_app, skipn_all2, Nat.sub_diag by lia. simpl.
    rewrite !app_length. replace (length p + (length r + length s) - length s - length p) with (length r) by lia.
    rewrite firstn_app, Nat.sub_diag, firstn_all, app_nil_r. auto.
Qed.

Lemma levenshtein_distance_bounds (A B : str) n : bmp A -> bmp B -> is_lev A B n ->
  levenshtein_distance A B <= n <= levenshtein_distance A B + 1.
Proof.
  intros HA HB Hn. apply is_lev_lev in Hn. subst n.
  destruct (levenshtein_distance_correct A B HA HB) as [H1 H2].
  destruct (Nat.ltb (length B) (length A)).
  - destruct (shortcut_dec B A) as [H|H]; [specialize (H1 H)|specialize (H2 H)]; lia.
  - destruct (shortcut_dec A B) as [H|H]; [specialize (H1 H)|specialize (H2 H)]; lia.
Qed.

Lemma levenshtein_distance_sym (A B : str) : length A <> length B ->
  levenshtein_distance A B = levenshtein_distance B A.
Proof.
  intros Hl. unfold levenshtein_distance.
  destruct (eqb A B) eqn:E1, (eqb B A) eqn:E2; try reflexivity.
  - rewrite eqb_true in E1. subst. contradiction.
  - rewrite eqb_true in E2. subst. contradiction.
  - destruct (Nat.ltb_spec (length B) (length A)), (Nat.ltb_spec (length A) (length B));
      reflexivity || lia.
Qed.

Lemma levenshtein_distance_sym_refuted :
  exists A B, levenshtein_distance A B <> levenshtein_distance B A.
Proof. exists [97; 97]%N, [97; 98]%N. vm_compute. discriminate. Qed.

Lemma limited_astral_refuted :
  exists k A B n, is_lev A B n /\ n <= k /\ limited_levenshtein_distance k A B <> n.
Proof.
  exists 3, [97; 65633; 98]%N, [99; 65633; 100]%N, 2. split; [apply is_lev_lev; reflexivity|].
  split; [lia|]. vm_compute. discriminate.
Qed.

Lemma limited_exact (k : nat) (A B : str) n : bmp A -> bmp B -> is_lev A B n ->
  limited_levenshtein_distance k A B = if Nat.leb n k then n else k + 1.
Proof. intros HA HB Hn. apply is_lev_lev in Hn. subst n. apply limited_correct; assumption. Qed.

Lemma lte1_exact (same : bool) (A B : str) :
  (same = true -> A = B) -> (A = [] -> B = [] -> same = true) ->
  exists r, levenshtein_distance_lte1 same A B = Ok r /\ (r = true <-> lev_le 1 A B).
Proof.
  intros Hs He. destruct (lte1_correct same A B Hs He) as (r & E & Hr). exists r.
  rewrite lev_le_lev. auto.
Qed.

Lemma lte1_symmetric (same : bool) (A B : str) :
  (same = true -> A = B) -> levenshtein_distance_lte1 same A B = levenshtein_distance_lte1 same B A.
Proof.
  intros Hs. destruct same; [reflexivity|].
  destruct A as [|x A], B as [|y B]; try reflexivity.
  destruct (lte1_correct false (x :: A) (y :: B)) as (r & E & Hr); try discriminate.
  destruct (lte1_correct false (y :: B) (x :: A)) as (r' & E' & Hr'); try discriminate.
  rewrite E, E'. f_equal. rewrite lev_sym in Hr. destruct r, r'; intuition.
Qed.

Lemma damerau_exact (same : bool) (A B : str) :
  (same = true -> A = B) -> (A = [] -> B = [] -> same = true) ->
  exists r, damerau_levenshtein_distance_lte1 same A B = Ok r /\ (r = true <-> damerau_le 1 A B).
Proof.
  intros Hs He. destruct (damerau_lte1_correct same A B Hs He) as (r & E & Hr). exists r.
  rewrite damerau_le_1, lev_le_lev. auto.
Qed.
