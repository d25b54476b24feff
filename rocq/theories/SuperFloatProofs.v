From Coq Require Import QArith Qabs Qround ZArith NArith Lia Lqa List Permutation.
From Verif Require Import Base BaseFacts LevModel LevProofs PairwiseModel MetricsModel ClustersModel StringsModel BitsModel MinHashModel MinHashSpec MinHashProofs
  SuperMinHashProofs FloatModel FloatSpec FloatProofs FloatMetricsProofs RandomModel SeededModel SuperFloatModel SuperFloatSpec.
Import ListNotations.
Open Scope list_scope.
Notation length := List.length.

(** ** Rounding stays below an integer *)
Lemma fl_below q n : (0 <= q)%Q -> (0 < n)%Q -> (q <= n * (1 - pow2 (-53)))%Q -> (0 <= fl q /\ fl q < n)%Q.
Proof.
  intros Q0 N0 H. destruct (fl_bounds q Q0) as [_ B]. split; [apply fl_nonneg; exact Q0|].
  assert (E : (pow2 (-53) == 1 # 9007199254740992)%Q) by reflexivity. rewrite E in *. lra.
Qed.
Lemma floor_between q z : (inject_Z z <= q)%Q -> (q < inject_Z (z + 1))%Q -> Qfloor q = z.
Proof.
  intros L U. apply Qfloor_resp_le in L. rewrite Qfloor_Z in L. pose proof (Qfloor_le q) as F.
  assert (Qfloor q < z + 1)%Z; [|lia]. rewrite Zlt_Qlt. lra.
Qed.
Lemma floor_range q n : (0 <= q)%Q -> (q < inject_Z n)%Q -> (0 <= Qfloor q < n)%Z.
Proof.
  intros L U. apply Qfloor_resp_le in L. change (Qfloor 0) with 0%Z in L. split; [exact L|]. rewrite Zlt_Qlt. pose proof (Qfloor_le q). lra.
Qed.

Lemma fold_left_ext_in {A B} (f g : A -> B -> A) l : (forall a b, In b l -> f a b = g a b) -> forall a, fold_left f l a = fold_left g l a.
Proof. induction l as [|b l IH]; intros E a; [reflexivity|]. cbn [fold_left]. rewrite E by (left; reflexivity). apply IH. intros a' b' Hb. apply E. right. exact Hb. Qed.

Section Super.
Variable random : N -> nat -> Q.
Hypothesis draws : float_draws random.

Lemma product_range t j n : (0 < n)%nat -> (0 <= Qfloor (fl (random t j * Qnat n)) < Z.of_nat n)%Z.
Proof.
  intros N0. destruct (draws t j) as [R0 R1]. change ((2 # 1) ^ (-53))%Q with (pow2 (-53)) in R1. pose proof (Qnat_1 n N0) as N1.
  assert (P0 : (0 <= random t j * Qnat n)%Q) by nra. assert (P1 : (random t j * Qnat n <= Qnat n * (1 - pow2 (-53)))%Q) by (rewrite (Qmult_comm (Qnat n)); apply Qmult_le_compat_r; lra).
  destruct (fl_below _ (Qnat n) P0 ltac:(lra) P1) as [F0 F1]. apply floor_range; assumption.
Qed.
Lemma rounded_value m t j : (j < m)%nat -> Qfloor (rounded random m t j * Qnat (m - j)) = Qfloor (fl (random t j * Qnat (m - j))).
Proof.
  intros J. unfold rounded. fold (Qnat (m - j)). pose proof (Qnat_1 (m - j) ltac:(lia)) as N1.
  assert (E : (inject_Z (Qfloor (fl (random t j * Qnat (m - j)))) / Qnat (m - j) * Qnat (m - j) == inject_Z (Qfloor (fl (random t j * Qnat (m - j)))))%Q) by (field; lra).
  rewrite (Qfloor_comp _ _ E). apply Qfloor_Z.
Qed.
Lemma rounded_unit m t : unit_draws (rounded random m t).
Proof.
  intros j. destruct (Nat.ltb_spec j m) as [J|J].
  - unfold rounded. fold (Qnat (m - j)). pose proof (Qnat_1 (m - j) ltac:(lia)) as N1. pose proof (product_range t j (m - j) ltac:(lia)) as [F0 F1].
    rewrite Zle_Qle in F0. rewrite Zlt_Qlt in F1. fold (Qnat (m - j)) in F1. split.
    + apply Qle_shift_div_l; [lra|]. rewrite Qmult_0_l. exact F0.
    + apply Qlt_shift_div_r; lra.
  - unfold rounded. replace (m - j)%nat with 0%nat by lia. change (Z.of_nat 0) with 0%Z. unfold Qdiv. change (/ inject_Z 0)%Q with 0%Q.
    rewrite Qmult_0_r. lra.
Qed.
(** rounding moves the integer part by one at most, and only when the product is close to the next integer *)
Lemma rounded_near m t j : (Z.of_nat m <= 2 ^ 52)%Z -> (j < m)%nat -> let p := (random t j * Qnat (m - j))%Q in
  Qfloor (fl p) = Qfloor p \/ (Qfloor (fl p) = (Qfloor p + 1)%Z /\ (inject_Z (Qfloor p + 1) - p <= Qnat (m - j) * pow2 (-53))%Q).
Proof.
  intros M J p. destruct (draws t j) as [R0 R1]. change ((2 # 1) ^ (-53))%Q with (pow2 (-53)) in R1. pose proof (Qnat_1 (m - j) ltac:(lia)) as N1.
  assert (C : (pow2 (-53) == 1 # 9007199254740992)%Q) by reflexivity.
  assert (P0 : (0 <= p)%Q) by (unfold p; nra). assert (P1 : (p < Qnat (m - j))%Q) by (unfold p; rewrite C in R1; nra).
  pose proof (floor_range p (Z.of_nat (m - j)) P0 P1) as Z. destruct (fl_bounds p P0) as [B1 B2]. pose proof (Qfloor_le p) as L. pose proof (Qlt_floor p) as U.
  assert (G1 : (inject_Z (Qfloor p) <= fl p)%Q) by (apply fl_ge; [apply float53_Z; lia|exact L]).
  assert (G2 : (fl p <= inject_Z (Qfloor p + 1))%Q) by (apply fl_le; [apply float53_Z; lia|lra]).
  destruct (Qlt_le_dec (fl p) (inject_Z (Qfloor p + 1))) as [D|D].
  - left. apply floor_between; assumption.
  - right. split.
    + apply floor_between; [exact D|]. eapply Qle_lt_trans; [exact G2|]. rewrite <- Zlt_Qlt. lia.
    + assert (pow2 (-53) * p <= Qnat (m - j) * pow2 (-53))%Q by (rewrite (Qmult_comm (Qnat (m - j))); rewrite C; lra). lra.
Qed.

(** ** The loop in floats follows the exact one *)
Definition same_floor (a b : Q) : Prop := Qfloor a = Qfloor b.
Definition alike (s t : super) : Prop := sp s = sp t /\ sq s = sq t /\ sb s = sb t /\ sa s = sa t /\ Forall2 same_floor (sh s) (sh t).
Lemma alike_nth a b : Forall2 same_floor a b -> forall x, Qfloor (nth x a 0%Q) = Qfloor (nth x b 0%Q).
Proof. induction 1 as [|y z a b E F IH]; intros [|x]; cbn [nth]; try reflexivity; [exact E|apply IH]. Qed.
Lemma alike_upd a b : Forall2 same_floor a b -> forall x y z, same_floor y z -> Forall2 same_floor (upd a x y) (upd b x z).
Proof. induction 1 as [|p q a b E F IH]; intros [|x] y z S; cbn; constructor; auto. Qed.
Lemma alike_upd_left a b : Forall2 same_floor a b -> forall x y, Qfloor y = Qfloor (nth x b 0%Q) -> Forall2 same_floor (upd a x y) b.
Proof. induction 1 as [|p q a b E F IH]; intros [|x] y S; cbn in *; constructor; auto. Qed.
Lemma alike_upd_right a b : Forall2 same_floor a b -> forall x y, Qfloor y = Qfloor (nth x a 0%Q) -> Forall2 same_floor a (upd b x y).
Proof. induction 1 as [|p q a b E F IH]; intros [|x] y S; cbn in *; constructor; auto; unfold same_floor in *; congruence. Qed.

Variable m : nat.
Hypothesis small : (Z.of_nat m <= 2 ^ 52)%Z.

Lemma place_floor t j : (j < m)%nat -> far_from_one random m t -> Qfloor (fadd (random t j) (Qnat j)) = Z.of_nat j.
Proof.
  intros J F. specialize (F j J). destruct (draws t j) as [R0 _]. change ((2 # 1) ^ (-53))%Q with (pow2 (-53)) in F. fold (Qnat (S j)) in F.
  assert (E : (Qnat (S j) == Qnat j + 1)%Q) by (replace (S j) with (j + 1)%nat by lia; rewrite Qnat_plus; reflexivity). pose proof (Qnat_0 j) as J0.
  unfold fadd. destruct (fl_below (random t j + Qnat j) (Qnat (S j))) as [B0 B1]; [lra|rewrite E; lra|rewrite E in *; lra|].
  apply floor_between; [|replace (Z.of_nat j + 1)%Z with (Z.of_nat (S j)) by lia; exact B1]. fold (Qnat j).
  apply fl_ge; [apply Qnat_float53; lia|lra].
Qed.
Lemma exact_floor r j : (0 <= r < 1)%Q -> Qfloor (r + Qnat j) = Z.of_nat j.
Proof.
  intros [R0 R1]. apply floor_between; fold (Qnat j); [lra|]. replace (Z.of_nat j + 1)%Z with (Z.of_nat (j + 1)) by lia. fold (Qnat (j + 1)). rewrite Qnat_plus. change (Qnat 1) with 1%Q. lra.
Qed.
Lemma floor_lt a b : (Qfloor a < Qfloor b)%Z -> negb (Qle_bool b a) = true.
Proof.
  intros H. apply negb_true_iff. destruct (Qle_bool b a) eqn:E; [|reflexivity]. apply Qle_bool_iff in E. apply Qfloor_resp_le in E. lia.
Qed.
Lemma floor_gt a b : (Qfloor b < Qfloor a)%Z -> negb (Qle_bool b a) = false.
Proof.
  intros H. apply negb_false_iff. apply Qle_bool_iff. destruct (Qlt_le_dec a b) as [C|C]; [|exact C]. apply Qlt_le_weak, Qfloor_resp_le in C. lia.
Qed.
Lemma step_alike i t j s s' : (j < m)%nat -> far_from_one random m t -> alike s s' ->
  match super_step_float random m i t j s, super_step (rounded random m) m i t j s' with
  | Ok a, Ok b => alike a b
  | Err e, Err f => e = f
  | _, _ => False
  end.
Proof.
  intros J F (Ep & Eq & Eb & Ea & Eh). unfold super_step_float, super_step. rewrite rounded_value by exact J. unfold fmul.
  pose proof (product_range t j (m - j) ltac:(lia)) as K. set (k := (j + Z.to_nat (Qfloor (fl (random t j * Qnat (m - j)))))%nat).
  destruct (Nat.leb_spec m k) as [C|_]; [unfold k in C; lia|]. rewrite Ep, Eq.
  destruct (if Z.eqb (nth j (sq s') 0%Z) (Z.of_nat i) then (sq s', sp s') else (upd (sq s') j (Z.of_nat i), upd (sp s') j j)) as [q p].
  destruct (if Z.eqb (nth k q 0%Z) (Z.of_nat i) then (q, p) else (upd q k (Z.of_nat i), upd p k k)) as [q2 p2]. cbn zeta.
  set (p3 := upd (upd p2 j (nth k p2 0%nat)) k (nth j p2 0%nat)). set (x := nth j p3 0%nat).
  pose proof (alike_nth _ _ Eh x) as Hx. set (hx := nth x (sh s) 0%Q) in *. set (hx' := nth x (sh s') 0%Q) in *.
  pose proof (place_floor t j J F) as Vf. pose proof (exact_floor (rounded random m t j) j (rounded_unit m t j)) as Ve.
  set (v := fadd (random t j) (Qnat j)) in *. set (v' := (rounded random m t j + Qnat j)%Q) in *. rewrite <- Hx, Eb, Ea.
  destruct (Z.lt_trichotomy (Qfloor hx) (Z.of_nat j)) as [G|[G|G]].
  - rewrite floor_gt, floor_gt by lia. repeat split; assumption.
  - rewrite G, Nat2Z.id. replace (Nat.min j (m - 1)) with j by lia. rewrite Nat.ltb_irrefl.
    destruct (negb (Qle_bool hx v)), (negb (Qle_bool hx' v')); repeat split; try assumption; cbn [sh].
    + apply alike_upd; [exact Eh|]. unfold same_floor. congruence.
    + apply alike_upd_left; [exact Eh|]. fold hx'. lia.
    + apply alike_upd_right; [exact Eh|]. fold hx. lia.
  - rewrite floor_lt, floor_lt by lia. destruct (Nat.ltb j (Nat.min (Z.to_nat (Qfloor hx)) (m - 1))).
    + destruct (lower (sa s') _) as [a|e]; cbn [bind]; [|reflexivity]. repeat split; cbn [sh]. apply alike_upd; [exact Eh|]. unfold same_floor. congruence.
    + repeat split; try assumption; cbn [sh]. apply alike_upd; [exact Eh|]. unfold same_floor. congruence.
Qed.
Lemma lower_le a b c : lower a b = Ok c -> (c <= a)%nat.
Proof.
  revert c. induction a as [|a IH]; intros c; cbn [lower]; destruct (Z.eqb _ 0); try discriminate.
  - intros [= <-]. lia.
  - intros H. apply IH in H. lia.
  - intros [= <-]. lia.
Qed.
Lemma step_top r i t j s s' : super_step r m i t j s = Ok s' -> (sa s' <= sa s)%nat.
Proof.
  unfold super_step. destruct (if Z.eqb (nth j (sq s) 0%Z) (Z.of_nat i) then _ else _) as [q p]. set (k := (_ + _)%nat).
  destruct (if Z.eqb (nth k q 0%Z) (Z.of_nat i) then _ else _) as [q2 p2]. cbn zeta. destruct (negb _); [destruct (Nat.ltb _ _)|].
  - destruct (lower _ _) as [a|e] eqn:L; cbn [bind]; [|discriminate]. intros [= <-]. apply lower_le in L. exact L.
  - intros [= <-]. apply Nat.le_refl.
  - intros [= <-]. apply Nat.le_refl.
Qed.
Definition same_result (a b : res super) : Prop :=
  match a, b with Ok a, Ok b => alike a b /\ (sa b < m)%nat | Err e, Err f => e = f | _, _ => False end.
Lemma loop_alike i t : far_from_one random m t -> forall fuel j s s', (sa s' < m)%nat -> alike s s' ->
  same_result (super_loop_float random fuel m i t j s) (super_loop (rounded random m) fuel m i t j s').
Proof.
  intros F. induction fuel as [|fuel IH]; intros j s s' T A; cbn [super_loop_float super_loop];
    assert (Ea : sa s = sa s') by apply A; rewrite Ea; destruct (Nat.leb_spec j (sa s')) as [L|L]; try (split; assumption); try reflexivity.
  pose proof (step_alike i t j s s' ltac:(lia) F A) as St. pose proof (step_top (rounded random m) i t j s') as Tp.
  destruct (super_step_float random m i t j s) as [a|e], (super_step (rounded random m) m i t j s') as [b|f]; try contradiction; cbn [bind].
  - apply IH; [|exact St]. specialize (Tp b eq_refl). lia.
  - exact St.
Qed.
Lemma tokens_alike tokens : (forall t, In t tokens -> far_from_one random m t) -> forall i s s', (sa s' < m)%nat -> alike s s' ->
  same_result (super_tokens_float random m i tokens s) (super_tokens (rounded random m) m i tokens s').
Proof.
  induction tokens as [|t tokens IH]; intros F i s s' T A; cbn [super_tokens_float super_tokens]; [split; assumption|].
  pose proof (loop_alike i t (F t (or_introl eq_refl)) m 0 s s' T A) as L.
  destruct (super_loop_float random m m i t 0 s) as [a|e], (super_loop (rounded random m) m m i t 0 s') as [b|f]; try contradiction; cbn [bind].
  - destruct L as [L1 L2]. apply IH; [intros u Hu; apply F; right; exact Hu|exact L2|exact L1].
  - exact L.
Qed.
Lemma super_float_rounded {T} (crc32 : T -> N) set_order x : (forall t, In t (token_set crc32 set_order x) -> far_from_one random m t) ->
  super_float crc32 set_order random m x = super_signature crc32 set_order (rounded random m) m x.
Proof.
  intros F. unfold super_float, super_signature. assert (Em : exists n, n = m) by eauto. destruct Em as [n Em]. destruct m as [|last] eqn:E; [reflexivity|].
  rewrite <- E in *. set (st := {| sh := _ |}).
  pose proof (tokens_alike _ F 0 st st) as R. unfold same_result in R.
  assert (A : alike st st). { repeat split. clear. generalize (sh st). intros l. induction l; constructor; [reflexivity|assumption]. }
  specialize (R ltac:(change (sa st) with last; lia) A). destruct (super_tokens_float random m 0 _ st) as [a|e], (super_tokens (rounded random m) m 0 _ st) as [b|f]; try contradiction; cbn [bind].
  - destruct R as [(_ & _ & _ & _ & H) _]. f_equal. revert H. generalize (sh a), (sh b). induction 1; cbn [map]; [reflexivity|]. f_equal; assumption.
  - f_equal. exact R.
Qed.
End Super.
