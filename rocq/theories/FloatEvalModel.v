(** Model of fog/evaluation/best_matching.py:21-135 with the scores computed in binary64 (FloatModel).  The counts, which are integers, are
    those of EvaluationModel. *)
From Coq Require Import List ZArith QArith.
From Verif Require Import Base FloatModel EvaluationModel.
Import ListNotations.

Definition qdiv_float (a b : Q) : res Q := if Qeq_bool b 0 then Err ZeroDivisionError else Ok (fdiv a b).

(** best_matching.py:114-119 *)
Definition score_float (true_positives matching_cluster_size cluster_size : nat) : res (Q * Q * Q) :=
  let tp := Z.of_nat true_positives in
  let false_positives := (Z.of_nat matching_cluster_size - tp)%Z in
  let false_negatives := (Z.of_nat cluster_size - tp)%Z in
  let! precision := qdiv_float (inject_Z tp) (inject_Z (tp + false_positives)) in
  let! recall := qdiv_float (inject_Z tp) (inject_Z (tp + false_negatives)) in
  let! f1 := qdiv_float (fmul (fmul 2 precision) recall) (fadd precision recall) in
  Ok (precision, recall, f1).

(** best_matching.py:111-123 *)
Fixpoint find_best_float (sizes : dict nat nat) (cluster_size : nat) (candidates : dict nat nat) (best_f1 : Q)
    (best : option (Q * Q * Q)) : res (option (Q * Q * Q)) :=
  match candidates with
  | [] => Ok best
  | (matching, true_positives) :: candidates' =>
    match dget sizes matching with
    | None => Err KeyError
    | Some matching_cluster_size =>
      let! (precision, recall, f1) := score_float true_positives matching_cluster_size cluster_size in
      if Qltb best_f1 f1 then find_best_float sizes cluster_size candidates' f1 (Some (precision, recall, f1))
      else find_best_float sizes cluster_size candidates' best_f1 best
    end
  end.

Section BestMatching.
Context {T : Type} `{EqDec T}.

(** best_matching.py:91-125: scores of one truth cluster *)
Definition match_cluster_float (index : dict T nat) (sizes : dict nat nat) (cluster : list T) : res (Q * Q * Q) :=
  if Nat.eqb (length cluster) 0 then Err TypeError
  else
    let! (candidates, cluster_size) := count_candidates index cluster [] 0 in
    let! best := find_best_float sizes cluster_size candidates (-1)%Q None in
    match best with None => Err AssertionError | Some s => Ok s end.

(** best_matching.py:90-129 *)
Fixpoint match_truth_float (index : dict T nat) (sizes : dict nat nat) (truth : list (list T)) (means : (Q * nat) * (Q * nat) * (Q * nat))
  : res ((Q * nat) * (Q * nat) * (Q * nat)) :=
  match truth with
  | [] => Ok means
  | cluster :: truth' =>
    let! (p, r, f) := match_cluster_float index sizes cluster in
    let '(P, R, F) := means in
    match_truth_float index sizes truth' (mean_add_float P p, mean_add_float R r, mean_add_float F f)
  end.

(** best_matching.py:21-135 best_matching_macro_average *)
Definition best_matching_float (truth predicted : list (list T)) (allow : bool) : res (Q * Q * Q) :=
  if Nat.eqb (length truth) 0 then Err TypeError
  else if Nat.eqb (length predicted) 0 then Err TypeError
  else
    let truth_items := set_of (concat truth) in
    let! (index, sizes) := index_predicted allow truth_items 0 predicted [] [] in
    let new := (0%Q, 0%nat) in
    let! (P, R, F) := match_truth_float index sizes truth (new, new, new) in
    let! p := mean_peek_float P in
    let! r := mean_peek_float R in
    let! f := mean_peek_float F in
    Ok (p, r, f).
End BestMatching.
