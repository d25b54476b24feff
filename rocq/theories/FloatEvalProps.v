(** C146, C147: the scores of the evaluation of clusterings, as computed in binary64 *)
From Coq Require Import List ZArith QArith Qabs Permutation.
From Verif Require Import Base FloatModel EvaluationModel EvaluationSpec EvaluationProofs FloatEvalModel FloatEvalProofs.
Import ListNotations.
Open Scope Q_scope.

(** C146: rounding breaks a tie between two predicted clusters of the same F1 (1/3): not only are precision and recall not those of the
    exact computation up to rounding, another predicted cluster has been chosen *)
Theorem C146_same_match_refuted : exists (truth predicted : list (list nat)) p r f p' r' f',
  best_matching_float truth predicted false = Ok (p, r, f) /\ best_matching_macro_average truth predicted false = Ok (p', r', f') /\
  1 # 4 <= p - p' /\ (1 # 20) <= r' - r.
Proof.
  exists [[1; 2; 3; 4; 5]; [6; 7; 8; 9; 10; 11; 12; 13; 14; 15; 16]]%nat, [[1; 2; 6; 7; 8; 9; 10]; [3]; [4; 5; 11; 12; 13; 14; 15; 16]]%nat.
  eexists _, _, _, _, _, _. split; [vm_compute; reflexivity|]. split; [vm_compute; reflexivity|]. split; vm_compute; discriminate.
Qed.
Print Assumptions C146_same_match_refuted.

(** C146: the order of the truth clusters changes the F-score *)
Theorem C146_truth_order_refuted : exists (truth truth' predicted : list (list nat)) p r f p' r' f',
  Permutation truth truth' /\ best_matching_float truth predicted false = Ok (p, r, f) /\ best_matching_float truth' predicted false = Ok (p', r', f') /\
  ~ f == f'.
Proof.
  exists [[1; 2]; [3; 4; 5]; [6; 7; 8]]%nat, [[1; 2]; [6; 7; 8]; [3; 4; 5]]%nat, [[2]; [1; 3]; [6]; [4; 7]; [5; 8]]%nat.
  eexists _, _, _, _, _, _. split; [apply perm_skip, perm_swap|].
  split; [vm_compute; reflexivity|]. split; [vm_compute; reflexivity|]. vm_compute. discriminate.
Qed.
Print Assumptions C146_truth_order_refuted.

Section Scores.
Context {T : Type} `{EqDec T}.
Implicit Types truth predicted : list (list T).

(** C147: rounding does not change what is refused, nor how *)
Theorem C147_errors truth predicted allow :
  (valid truth predicted allow <-> exists s, best_matching_float truth predicted allow = Ok s) /\
  (forall e, best_matching_float truth predicted allow = Err e <-> best_matching_macro_average truth predicted allow = Err e).
Proof.
  pose proof (float_spec truth predicted allow) as S1. pose proof (valid_dec_errors truth predicted allow) as S2.
  destruct (best_matching_float truth predicted allow) as [[[p r] f]|e1], (best_matching_macro_average truth predicted allow) as [[[p' r'] f']|e2].
  - split; [split; [intros _; eexists; reflexivity|intros _; apply S1]|]. intros e. split; discriminate.
  - tauto.
  - tauto.
  - destruct S1 as [-> V1], S2 as [-> V2]. split; [split; [intros V; contradiction|intros [s E]; discriminate]|]. intros e. split; exact (fun E => E).
Qed.

(** C147: each truth cluster is matched with a predicted cluster whose exact F1 is maximal, and the scores are the averages of those of
    the matches up to (N + 9) 2^-53, where N is the number of truth clusters *)
Theorem C147_value truth predicted allow p r f : Forall (@NoDup T) truth ->
  Forall (fun c => (Z.of_nat (length c) <= 2 ^ 20)%Z) truth -> Forall (fun c => (Z.of_nat (length c) <= 2 ^ 20)%Z) predicted -> (Z.of_nat (length truth) <= 2 ^ 53)%Z ->
  best_matching_float truth predicted allow = Ok (p, r, f) ->
  let near x y := Qabs (x - y) <= (inject_Z (Z.of_nat (length truth)) + 9) * (1 # 2 ^ 53) in
  exists cs, Forall2 (best_match truth predicted) truth cs /\
    near p (average (map (fun tc => precision_of truth (fst tc) (snd tc)) (combine truth cs))) /\
    near r (average (map (fun tc => recall_of (fst tc) (snd tc)) (combine truth cs))) /\
    near f (average (map (fun tc => f1_of truth (fst tc) (snd tc)) (combine truth cs))).
Proof. intros Hn Bt Bp BN E near. exact (float_value truth predicted allow p r f Hn Bt Bp BN E). Qed.

(** C147: in particular the F-score is the exact one up to that much *)
Theorem C147_f_score truth predicted allow p r f p' r' f' : Forall (@NoDup T) truth ->
  Forall (fun c => (Z.of_nat (length c) <= 2 ^ 20)%Z) truth -> Forall (fun c => (Z.of_nat (length c) <= 2 ^ 20)%Z) predicted -> (Z.of_nat (length truth) <= 2 ^ 53)%Z ->
  best_matching_float truth predicted allow = Ok (p, r, f) -> best_matching_macro_average truth predicted allow = Ok (p', r', f') ->
  Qabs (f - f') <= (inject_Z (Z.of_nat (length truth)) + 9) * (1 # 2 ^ 53).
Proof. exact (float_f1 truth predicted allow p r f p' r' f'). Qed.

(** C147: no score leaves [0, 1] *)
Theorem C147_range truth predicted allow p r f : Forall (@NoDup T) truth -> (Z.of_nat (length truth) <= 2 ^ 53)%Z ->
  best_matching_float truth predicted allow = Ok (p, r, f) -> 0 <= p <= 1 /\ 0 <= r <= 1 /\ 0 <= f <= 1.
Proof. exact (float_range truth predicted allow p r f). Qed.

(** C147: the F-score is 1.0 exactly when all the truth clusters have been found, and then so are the other two *)
Theorem C147_perfect truth predicted allow p r f : Forall (@NoDup T) truth ->
  Forall (fun c => (Z.of_nat (length c) <= 2 ^ 20)%Z) truth -> Forall (fun c => (Z.of_nat (length c) <= 2 ^ 20)%Z) predicted -> (Z.of_nat (length truth) <= 2 ^ 30)%Z ->
  best_matching_float truth predicted allow = Ok (p, r, f) ->
  ((forall t, In t truth -> exists c, In c predicted /\ Permutation t (filter (fun x => memb x (concat truth)) c)) -> p == 1 /\ r == 1 /\ f == 1) /\
  (f == 1 -> forall t, In t truth -> exists c, In c predicted /\ Permutation t (filter (fun x => memb x (concat truth)) c)).
Proof. exact (float_perfect truth predicted allow p r f). Qed.

(** C147: the order of the predicted clusters, and that of the items inside them, do not change a bit *)
Theorem C147_clusters_order truth predicted predicted' allow : Permutation predicted predicted' ->
  best_matching_float truth predicted' allow = best_matching_float truth predicted allow.
Proof. exact (float_clusters_order truth predicted predicted' allow). Qed.
Theorem C147_items_order truth predicted predicted' allow : Forall2 (@Permutation T) predicted predicted' ->
  best_matching_float truth predicted' allow = best_matching_float truth predicted allow.
Proof. exact (float_items_order truth predicted predicted' allow). Qed.
End Scores.
Print Assumptions C147_errors.
Print Assumptions C147_value.
Print Assumptions C147_f_score.
Print Assumptions C147_range.
Print Assumptions C147_perfect.
Print Assumptions C147_clusters_order.
Print Assumptions C147_items_order.

(** the scores of the test of the repository, as python prints them *)
Definition dec (m : Z) (d : positive) : Q := fl (m # d).
Example float_scores_repository_tests :
  let truth := [[11; 12; 13]; [21; 22]; [31]; [41; 42; 43; 44]]%nat in
  let clusters := [[11; 21; 12; 13]; [22; 31]; [41; 42; 43; 44]]%nat in
  match best_matching_float truth clusters false with
  | Ok (p, r, f) => p == 11 # 16 /\ r == 7 # 8 /\ f == dec 7559523809523809 10000000000000000
  | Err _ => False end.
Proof. vm_compute. repeat split; reflexivity. Qed.
(** three truth clusters of the same scores *)
Example float_scores_thirds :
  best_matching_float [[1; 2]; [3; 4]; [5; 6]]%nat [[1]; [2]; [3]; [4]; [5]; [6]]%nat false =
  match best_matching_float [[1; 2]]%nat [[1]; [2]]%nat false with Ok (p, r, f) => Ok (1, r, f) | Err e => Err e end.
Proof. vm_compute. reflexivity. Qed.
