(** Lemmas behind C204 *)
From Coq Require Import String.
From Verif Require Import Base BaseFacts ClustersModel PairwiseModel SortModel NeighborhoodModel NeighborhoodAnyModel.
Open Scope Z_scope.
Open Scope list_scope.
Notation length := List.length.

Section Any.
Context {A : Type} `{EqDec A}.
Variable similarity : A -> A -> bool.
Implicit Types S : list A.

Lemma index_z_cases S i : index_z S i = Err IndexError \/ (- Z.of_nat (length S) <= i /\ exists x, index_z S i = Ok x).
Proof.
  unfold index_z. destruct (Z.ltb_spec i 0).
  - destruct (Z.ltb_spec (i + Z.of_nat (length S)) 0); [left; reflexivity|]. unfold index. destruct (nth_error S _); [right; split; [lia | eauto] | left; reflexivity].
  - destruct (Z.ltb_spec i 0); [lia|]. unfold index. destruct (nth_error S _); [right; split; [lia | eauto] | left; reflexivity].
Qed.
Lemma index_z_nat S (i : nat) : index_z S (Z.of_nat i) = index S i.
Proof. unfold index_z. destruct (Z.ltb_spec (Z.of_nat i) 0); [lia|]. destruct (Z.ltb_spec (Z.of_nat i) 0); [lia|]. rewrite Nat2Z.id. reflexivity. Qed.

(** ** windows below 1 *)
Lemma enlarge_down S f : forall fuel first last, last - f < 0 -> 1 <= Z.of_nat fuel -> last + Z.of_nat (length S) + 2 <= Z.of_nat fuel ->
  enlarge_z similarity fuel S f first last = Err IndexError \/ (- Z.of_nat (length S) <= first /\ exists last', enlarge_z similarity fuel S f first last = Ok last' /\ last' <= last).
Proof.
  induction fuel as [|fuel IH]; intros first last L L1 L2; [lia|]. cbn [enlarge_z].
  destruct (index_z_cases S first) as [->|[F (a & ->)]]; [left; reflexivity|]. cbn [bind].
  destruct (index_z_cases S last) as [->|[B (b & ->)]]; [left; reflexivity|]. cbn [bind].
  destruct (similarity a b); [|right; split; [exact F|]; exists last; split; [reflexivity | lia]].
  destruct (IH last (last + (last - f + 1) - 1)) as [K|(_ & l' & K & Kl)]; [lia | lia | lia | left; exact K|].
  right. split; [exact F|]. exists l'. split; [exact K | lia].
Qed.

Lemma aa_down S window : window < 0 -> forall fuel first, first <= 0 -> 1 <= Z.of_nat fuel -> first + Z.of_nat (length S) + 3 <= Z.of_nat fuel ->
  aa_z similarity fuel S window first = Err IndexError.
Proof.
  intros W. induction fuel as [|fuel IH]; intros first L L1 L2; [lia|]. cbn [aa_z].
  destruct (Z.ltb_spec (first + (window - 1)) (Z.of_nat (length S))); [|lia].
  destruct (enlarge_down S first (Datatypes.S fuel) first (first + (window - 1))) as [->|(F & l' & -> & Kl)]; [lia | lia | lia | reflexivity|]. cbn [bind].
  replace (Z.to_nat (l' - first + 1 - window)) with O by lia. cbn [retrench_z bind]. rewrite (IH (l' + 1)); [reflexivity | lia | lia | lia].
Qed.

Lemma enlarge_down_any S f : forall fuel first last, last - f < 0 ->
  (exists e, enlarge_z similarity fuel S f first last = Err e) \/ exists last', enlarge_z similarity fuel S f first last = Ok last' /\ last' <= last.
Proof.
  induction fuel as [|fuel IH]; intros first last L; [left; eexists; reflexivity|]. cbn [enlarge_z].
  destruct (index_z S first) as [a|]; [|left; eexists; reflexivity]. cbn [bind]. destruct (index_z S last) as [b|]; [|left; eexists; reflexivity]. cbn [bind].
  destruct (similarity a b); [|right; exists last; split; [reflexivity | lia]].
  destruct (IH last (last + (last - f + 1) - 1)) as [K|(l' & K & Kl)]; [lia | left; exact K | right; exists l'; split; [exact K | lia]].
Qed.

Lemma aa_zero S : forall fuel first, first <= 0 -> exists e, aa_z similarity fuel S 0 first = Err e.
Proof.
  induction fuel as [|fuel IH]; intros first L; [eexists; reflexivity|]. cbn [aa_z].
  destruct (Z.ltb_spec (first + (0 - 1)) (Z.of_nat (length S))); [|lia].
  destruct (enlarge_down_any S first (Datatypes.S fuel) first (first + (0 - 1))) as [(e & ->)|(l' & -> & Kl)]; [lia | eexists; reflexivity|]. cbn [bind].
  replace (Z.to_nat (l' - first + 1 - 0)) with O by lia. cbn [retrench_z bind]. destruct (IH (l' + 1)) as (e & ->); [lia|]. eexists. reflexivity.
Qed.

(** the first and the last one are not similar: the same window comes again and again *)
Lemma aa_zero_endless S a b : nth_error S 0 = Some a -> nth_error S (length S - 1) = Some b -> similarity a b = false ->
  forall fuel, aa_z similarity fuel S 0 0 = Err OutOfFuel.
Proof.
  intros Ea Eb Es. assert (L : (0 < length S)%nat) by (apply nth_error_Some; congruence).
  induction fuel as [|fuel IH]; [reflexivity|]. cbn [aa_z]. destruct (Z.ltb_spec (0 + (0 - 1)) (Z.of_nat (length S))); [|lia]. cbn [enlarge_z].
  assert (E0 : index_z S 0 = Ok a) by (change 0 with (Z.of_nat 0); rewrite (index_z_nat S 0); unfold index; rewrite Ea; reflexivity).
  assert (E1 : index_z S (0 + (0 - 1)) = Ok b).
  { unfold index_z. change (0 + (0 - 1)) with (-1). destruct (Z.ltb_spec (-1) 0); [|lia]. destruct (Z.ltb_spec (-1 + Z.of_nat (length S)) 0); [lia|].
    assert (Ez : Z.to_nat (-1 + Z.of_nat (length S)) = (length S - 1)%nat) by lia. rewrite Ez. unfold index. rewrite Eb. reflexivity. }
  rewrite E0, E1. cbn [bind]. rewrite Es. cbn [bind]. change (Z.to_nat (0 + (0 - 1) - 0 + 1 - 0)) with O. cbn [retrench_z bind]. change (0 + (0 - 1) + 1) with 0. rewrite IH. reflexivity.
Qed.

(** ** windows from 1 on *)
Lemma enlarge_z_nat S f : forall fuel first last, (f <= last)%nat ->
  enlarge_z similarity fuel S (Z.of_nat f) (Z.of_nat first) (Z.of_nat last) = match enlarge similarity fuel S f first last with Ok l => Ok (Z.of_nat l) | Err e => Err e end /\
  forall l, enlarge similarity fuel S f first last = Ok l -> (last <= l)%nat.
Proof.
  induction fuel as [|fuel IH]; intros first last L; [split; [reflexivity | discriminate]|]. cbn [enlarge_z enlarge]. rewrite !index_z_nat.
  destruct (index S first) as [a|]; [|split; [reflexivity | discriminate]]. cbn [bind]. destruct (index S last) as [b|]; [|split; [reflexivity | discriminate]]. cbn [bind].
  destruct (similarity a b); [|split; [reflexivity | intros l E; injection E as <-; lia]].
  replace (Z.of_nat last + (Z.of_nat last - Z.of_nat f + 1) - 1) with (Z.of_nat (last + (last - f))) by lia.
  destruct (IH last (last + (last - f))%nat ltac:(lia)) as [K1 K2]. split; [exact K1|]. intros l E. specialize (K2 l E). lia.
Qed.

Lemma retrench_z_nat S : forall k last, (k <= last)%nat ->
  retrench_z similarity k S (Z.of_nat last) = match retrench similarity k S last with Ok l => Ok (Z.of_nat l) | Err e => Err e end.
Proof.
  induction k as [|k IH]; intros last L; [reflexivity|]. cbn [retrench_z retrench]. replace (Z.of_nat last - 1) with (Z.of_nat (last - 1)) by lia. rewrite !index_z_nat.
  destruct (index S (last - 1)) as [a|]; [|reflexivity]. cbn [bind]. destruct (index S last) as [b|]; [|reflexivity]. cbn [bind].
  destruct (similarity a b); [reflexivity|]. apply IH. lia.
Qed.

Definition both (ij : nat * nat) : Z * Z := (Z.of_nat (fst ij), Z.of_nat (snd ij)).

Lemma aa_z_nat S step : forall fuel first,
  aa_z similarity fuel S (Z.of_nat step + 1) (Z.of_nat first) = match aa_loop similarity fuel S step first with Ok l => Ok (map both l) | Err e => Err e end.
Proof.
  induction fuel as [|fuel IH]; intros first; [reflexivity|]. cbn [aa_z aa_loop].
  replace (Z.of_nat first + (Z.of_nat step + 1 - 1)) with (Z.of_nat (first + step)) by lia.
  destruct (Z.ltb_spec (Z.of_nat (first + step)) (Z.of_nat (length S))) as [L|L], (Nat.ltb_spec (first + step) (length S)) as [L'|L']; try lia.
  - destruct (enlarge_z_nat S first (Datatypes.S fuel) first (first + step)%nat ltac:(lia)) as [-> K].
    destruct (enlarge similarity (Datatypes.S fuel) S first first (first + step)) as [l|]; [|reflexivity]. specialize (K l eq_refl). cbn [bind].
    replace (Z.to_nat (Z.of_nat l - Z.of_nat first + 1 - (Z.of_nat step + 1))) with (l - first - step)%nat by lia.
    rewrite retrench_z_nat by lia. destruct (retrench similarity (l - first - step) S l) as [l'|]; [|reflexivity]. cbn [bind].
    replace (Z.of_nat l' + 1) with (Z.of_nat (l' + 1)) by lia. rewrite IH. destruct (aa_loop similarity fuel S step (l' + 1)); reflexivity.
  - destruct (Z.ltb_spec (Z.of_nat first) (Z.of_nat (length S))), (Nat.ltb_spec first (length S)); try lia; [|reflexivity].
    cbn [map both fst snd]. unfold both. cbn [fst snd]. do 3 f_equal. lia.
Qed.

(** ** windows of 1 *)
Lemma aa_one S : (forall x, In x S -> similarity x x = false) -> forall fuel first, (length S < fuel + first)%nat -> (first <= length S)%nat ->
  aa_loop similarity fuel S 0 first = Ok (map (fun i => (i, i)) (seq first (length S - first))).
Proof.
  intros Hs. induction fuel as [|fuel IH]; intros first L L1; [lia|]. cbn [aa_loop]. rewrite Nat.add_0_r.
  destruct (Nat.ltb_spec first (length S)) as [K|K].
  - cbn [enlarge]. unfold index. destruct (nth_error S first) as [x|] eqn:E; [|apply nth_error_None in E; lia]. cbn [bind].
    rewrite (Hs x (nth_error_In _ _ E)). cbn [bind]. replace (first - first - 0)%nat with O by lia. cbn [retrench bind].
    rewrite IH by lia. cbn [bind]. replace (length S - first)%nat with (Datatypes.S (length S - (first + 1))) by lia. cbn [seq map]. rewrite Nat.add_1_r. reflexivity.
  - replace (length S - first)%nat with O by lia. reflexivity.
Qed.

Lemma enlarge_same S i x : nth_error S i = Some x -> similarity x x = true -> forall fuel, enlarge similarity fuel S i i i = Err OutOfFuel.
Proof.
  intros E Hx. induction fuel as [|fuel IH]; [reflexivity|]. cbn [enlarge]. unfold index. rewrite E. cbn [bind]. rewrite Hx. replace (i + (i - i))%nat with i by lia. exact IH.
Qed.

Lemma aa_one_endless S i x : nth_error S i = Some x -> similarity x x = true -> forall fuel first, (first <= i)%nat -> aa_loop similarity fuel S 0 first = Err OutOfFuel.
Proof.
  intros E Hx. assert (L : (i < length S)%nat) by (apply nth_error_Some; congruence).
  induction fuel as [|fuel IH]; intros first Lf; [reflexivity|]. cbn [aa_loop]. rewrite Nat.add_0_r. destruct (Nat.ltb_spec first (length S)); [|lia].
  destruct (nth_error S first) as [y|] eqn:Ey; [|apply nth_error_None in Ey; lia].
  destruct (similarity y y) eqn:Hy; [rewrite (enlarge_same S first y Ey Hy); reflexivity|].
  cbn [enlarge]. unfold index. rewrite Ey. cbn [bind]. rewrite Hy. cbn [bind]. replace (first - first - 0)%nat with O by lia. cbn [retrench bind].
  rewrite IH; [reflexivity|]. assert (first <> i); [intros ->; congruence | lia].
Qed.

(** the windows are within the records *)
Lemma enlarge_within S f : forall fuel first last l, enlarge similarity fuel S f first last = Ok l -> (l < length S)%nat.
Proof.
  induction fuel as [|fuel IH]; intros first last l; cbn [enlarge]; [discriminate|]. destruct (index S first); [|discriminate]. cbn [bind].
  unfold index. destruct (nth_error S last) as [b|] eqn:E; [|discriminate]. cbn [bind]. destruct (similarity _ _); [apply IH|].
  intros K. injection K as <-. apply nth_error_Some. congruence.
Qed.
Lemma retrench_within S : forall k last l, retrench similarity k S last = Ok l -> (last - k <= l <= last)%nat.
Proof.
  induction k as [|k IH]; intros last l; cbn [retrench]; [intros K; injection K as <-; lia|]. destruct (index S (last - 1)); [|discriminate]. cbn [bind].
  destruct (index S last); [|discriminate]. cbn [bind]. destruct (similarity _ _); [intros K; injection K as <-; lia|]. intros K. apply IH in K. lia.
Qed.
Lemma aa_within S step : forall fuel first l, aa_loop similarity fuel S step first = Ok l -> forall i j, In (i, j) l -> (i <= j < length S)%nat.
Proof.
  induction fuel as [|fuel IH]; intros first l; cbn [aa_loop]; [discriminate|]. destruct (Nat.ltb_spec (first + step) (length S)).
  - destruct (enlarge_z_nat S first (Datatypes.S fuel) first (first + step)%nat ltac:(lia)) as [_ K].
    destruct (enlarge similarity (Datatypes.S fuel) S first first (first + step)) as [l1|] eqn:E1; [|discriminate]. specialize (K l1 eq_refl). apply enlarge_within in E1. cbn [bind].
    destruct (retrench similarity (l1 - first - step) S l1) as [l2|] eqn:E2; [|discriminate]. apply retrench_within in E2. cbn [bind].
    destruct (aa_loop similarity fuel S step (l2 + 1)) as [out|] eqn:E3; [|discriminate]. cbn [bind]. intros F. injection F as <-.
    intros i j [F|F]; [injection F as <- <-; lia | exact (IH _ _ E3 i j F)].
  - destruct (Nat.ltb_spec first (length S)); intros F; injection F as <-; intros i j F; [destruct F as [F|[]]; injection F as <- <-; lia | destruct F].
Qed.

Lemma range_z_nat i j : range_z (Z.of_nat i) (Z.of_nat j) = map Z.of_nat (range i j).
Proof.
  unfold range_z, range. replace (Z.to_nat (Z.of_nat j - Z.of_nat i)) with (j - i)%nat by lia.
  assert (G : forall m k, map (fun x => Z.of_nat i + Z.of_nat x) (seq k m) = map Z.of_nat (seq (i + k) m)).
  { induction m as [|m IH]; intros k; [reflexivity|]. cbn [seq map]. rewrite IH. f_equal; [lia|]. f_equal. f_equal. lia. }
  rewrite G, Nat.add_0_r. reflexivity.
Qed.
Lemma compare_z_nat S i j : (i < length S)%nat -> (j < length S)%nat -> compare_z similarity S (Z.of_nat i) (Z.of_nat j) = Ok (compare similarity S i j).
Proof.
  intros Li Lj. unfold compare_z, compare. rewrite !index_z_nat. unfold index.
  destruct (nth_error S i) eqn:Ei; [|apply nth_error_None in Ei; lia]. destruct (nth_error S j) eqn:Ej; [|apply nth_error_None in Ej; lia]. reflexivity.
Qed.
Lemma interval_z_nat S i j : (i <= j < length S)%nat -> interval_z similarity S (Z.of_nat i, Z.of_nat j) = Ok (interval_pairs similarity S (i, j)).
Proof.
  intros L. unfold interval_z, interval_pairs.
  destruct (Z.eqb_spec (Z.of_nat j - Z.of_nat i + 1) 1), (Nat.eqb_spec (j - i + 1) 1); try lia; [reflexivity|].
  destruct (Z.eqb_spec (Z.of_nat j - Z.of_nat i + 1) 2), (Nat.eqb_spec (j - i + 1) 2); try lia; [apply compare_z_nat; lia|].
  replace (Z.of_nat j + 1) with (Z.of_nat (j + 1)) by lia. rewrite range_z_nat.
  assert (E : flat_map (fun i0 => map (fun j0 => (i0, j0)) (range_z (i0 + 1) (Z.of_nat (j + 1)))) (map Z.of_nat (range i (j + 1))) =
              map both (flat_map (fun i0 => map (fun j0 => (i0, j0)) (range (i0 + 1) (j + 1))) (range i (j + 1)))).
  { generalize (range i (j + 1)) as l. induction l as [|x l IH]; [reflexivity|]. cbn [map flat_map]. rewrite map_app, <- IH. f_equal.
    replace (Z.of_nat x + 1) with (Z.of_nat (x + 1)) by lia. rewrite range_z_nat, !map_map. reflexivity. }
  rewrite E. clear E. set (ps := flat_map (fun i0 => map (fun j0 => (i0, j0)) (range (i0 + 1) (j + 1))) (range i (j + 1))).
  assert (P : forall p, In p ps -> (fst p < length S)%nat /\ (snd p < length S)%nat).
  { intros p Hp. apply in_flat_map in Hp. destruct Hp as (x & Hx & Hp). apply in_map_iff in Hp. destruct Hp as (y & <- & Hy). unfold range in *. rewrite in_seq in *. cbn. lia. }
  assert (M : mapM (fun ij => compare_z similarity S (fst ij) (snd ij)) (map both ps) = Ok (map (fun p => compare similarity S (fst p) (snd p)) ps)).
  { clearbody ps. induction ps as [|p ps IH]; [reflexivity|]. cbn [map mapM both fst snd]. destruct (P p (or_introl eq_refl)). rewrite (compare_z_nat S (fst p) (snd p)) by assumption.
    cbn [bind]. rewrite IH; [reflexivity|]. intros q Hq. apply P. right. exact Hq. }
  rewrite M. cbn [bind]. f_equal. unfold ps. clear. generalize (range i (j + 1)) as l. induction l as [|x l IH]; [reflexivity|].
  cbn [flat_map]. rewrite map_app, concat_app, IH, map_map. f_equal. cbn [fst snd]. rewrite flat_map_concat_map. reflexivity.
Qed.
Lemma adaptive_pairs_z_nat fuel step S : adaptive_pairs_z similarity fuel (Z.of_nat step + 1) S = adaptive_pairs similarity fuel step S.
Proof.
  unfold adaptive_pairs_z, adaptive_pairs, full_AA_SNM. pose proof (aa_z_nat S step fuel 0) as E. change (Z.of_nat 0) with 0 in E. rewrite E. clear E.
  destruct (aa_loop similarity fuel S step 0) as [l|] eqn:El; [|reflexivity]. cbn [bind]. pose proof (aa_within S step fuel 0 l El) as W. clear El.
  assert (M : mapM (interval_z similarity S) (map both l) = Ok (map (interval_pairs similarity S) l)).
  { induction l as [|[i j] l IH]; [reflexivity|]. cbn [map mapM]. unfold both at 1. cbn [fst snd]. rewrite interval_z_nat by (apply W; left; reflexivity). cbn [bind].
    rewrite IH; [reflexivity|]. intros a b K. apply W. right. exact K. }
  rewrite M. cbn [bind]. rewrite flat_map_concat_map. reflexivity.
Qed.
End Any.
