(** Lemmas behind C207 *)
From Coq Require Import QArith Lia Lqa.
From Verif Require Import Base ClustersSpec ClustersProofs GraphModel GraphSpec GraphProofs.
Notation length := List.length.
Open Scope list_scope.
Open Scope nat_scope.

Section Bound.
Context {N : Type} `{EqDec N}.
Variable g : graph N Q.
Hypothesis Hg : undirected g.
Variable int_log : nat -> nat.
Hypothesis Hedge : exists a b w, edge g a b w.

Lemma drifts_same m t t' : (forall a b w, edge g a b w -> ((t <= w)%Q <-> (t' <= w)%Q)) -> drifts g m t -> drifts g m t'.
Proof.
  intros E (c & c' & C & C' & I & D & L). exists c, c'.
  assert (G : forall d, component (heavy g t) d -> component (heavy g t') d).
  { intros d. apply component_ext. intros a b. split; intros (w & Hw & K); exists w; (split; [exact Hw|]); apply (E a b w Hw); exact K. }
  split; [apply G; exact C|]. split; [apply G; exact C'|]. auto.
Qed.

Lemma loop_more rate m k : forall fuel start r, floatsam_loop fuel g rate m start = Ok r -> floatsam_loop (fuel + k) g rate m start = Ok r.
Proof.
  induction fuel as [|fuel IH]; intros start r E; [discriminate|]. cbn [floatsam_loop Nat.add] in *.
  destruct (second_largest_component_size g _) as [c|e]; [|discriminate]. cbn [bind] in *.
  destruct c as [c|]; [destruct (Nat.leb m c); [exact E|]|]; apply IH; exact E.
Qed.

(** from the K-th threshold on they keep the same edges *)
Lemma settled start rate m remove K fuel : 1 <= K -> K <= fuel ->
  (forall k, K <= k -> forall a b w, edge g a b w -> ((scaled start rate k <= w)%Q <-> (scaled start rate K <= w)%Q)) ->
  floatsam_sparsification int_log fuel g start rate m remove = floatsam_sparsification int_log K g start rate m remove.
Proof.
  intros L1 L E. rewrite !(floatsam_run g Hg int_log _ start rate m remove Hedge). set (d := drifter g int_log m).
  pose proof (floatsam_loop_spec g Hg rate d K start) as SK.
  destruct (floatsam_loop K g rate d start) as [r|e] eqn:EK.
  - replace fuel with (K + (fuel - K)) by lia. rewrite (loop_more rate d (fuel - K) K start r EK). reflexivity.
  - destruct SK as [-> SK]. pose proof (floatsam_loop_spec g Hg rate d fuel start) as SF.
    destruct (floatsam_loop fuel g rate d start) as [r|e]; [|destruct SF as [-> _]; reflexivity].
    exfalso. destruct SF as (k & Lk & _ & D & _). destruct (Nat.le_gt_cases (S k) K) as [Lk'|Lk'].
    + apply (SK (S k)); [lia | exact D].
    + apply (SK K); [lia|]. apply (drifts_same d (scaled start rate (S k))); [|exact D]. intros a b w Hw. apply (E (S k) ltac:(lia) a b w Hw).
Qed.
End Bound.

Lemma scaled_up start rate i j : (0 <= rate)%Q -> i <= j -> (scaled start rate i <= scaled start rate j)%Q.
Proof.
  intros R L. unfold scaled. assert (Z : (inject_Z (Z.of_nat i) <= inject_Z (Z.of_nat j))%Q) by (rewrite <- Zle_Qle; lia). nra.
Qed.

Lemma scaled_down start rate i j : (rate <= 0)%Q -> i <= j -> (scaled start rate j <= scaled start rate i)%Q.
Proof.
  intros R L. unfold scaled. assert (Z : (inject_Z (Z.of_nat i) <= inject_Z (Z.of_nat j))%Q) by (rewrite <- Zle_Qle; lia). nra.
Qed.
