(** Model of fog/evaluation/best_matching.py and fog/evaluation/utils.py.  Floats are exact rationals. *)
From Coq Require Import QArith.
From Verif Require Import Base MetricsModel.
Open Scope nat_scope.

(** python's [/] *)
Definition qdiv (a b : Q) : res Q := if Qeq_bool b 0 then Err ZeroDivisionError else Ok (a / b)%Q.

Section BestMatching.
Context {T : Type} `{EqDec T}.

(** best_matching.py:69-80: one predicted cluster; gives the index and the number of items kept *)
Fixpoint index_items (allow : bool) (truth_items : list T) (i : nat) (cluster : list T) (index : dict T nat) (l : nat)
  : res (dict T nat * nat) :=
  match cluster with
  | [] => Ok (index, l)
  | item :: cluster' =>
    if negb (memb item truth_items) then
      if negb allow then Err TypeError
      else index_items allow truth_items i cluster' index l
    else if memb item (dkeys index) then Err TypeError
    else index_items allow truth_items i cluster' (dset index item i) (l + 1)
  end.

(** best_matching.py:63-82 *)
Fixpoint index_predicted (allow : bool) (truth_items : list T) (i : nat) (predicted : list (list T))
    (index : dict T nat) (sizes : dict nat nat) : res (dict T nat * dict nat nat) :=
  match predicted with
  | [] => Ok (index, sizes)
  | cluster :: predicted' =>
    if Nat.eqb (length cluster) 0 then Err TypeError
    else
      let! (index, l) := index_items allow truth_items i cluster index 0 in
      index_predicted allow truth_items (i + 1) predicted' index (dset sizes i l)
  end.

(** best_matching.py:98-105: the counter of candidates and the size of the cluster *)
Fixpoint count_candidates (index : dict T nat) (cluster : list T) (candidates : dict nat nat) (cluster_size : nat)
  : res (dict nat nat * nat) :=
  match cluster with
  | [] => Ok (candidates, cluster_size)
  | item :: cluster' =>
    match dget index item with
    | None => Err TypeError
    | Some c => count_candidates index cluster' (dmodify candidates c 0 (fun n => n + 1)) (cluster_size + 1)
    end
  end.

(** best_matching.py:114-119 *)
Definition score (true_positives matching_cluster_size cluster_size : nat) : res (Q * Q * Q) :=
  let tp := inject_Z (Z.of_nat true_positives) in
  let false_positives := inject_Z (Z.of_nat matching_cluster_size - Z.of_nat true_positives) in
  let false_negatives := inject_Z (Z.of_nat cluster_size - Z.of_nat true_positives) in
  let! precision := qdiv tp (tp + false_positives) in
  let! recall := qdiv tp (tp + false_negatives) in
  let! f1 := qdiv (2 * precision * recall) (precision + recall) in
  Ok (precision, recall, f1).

Definition Qltb (a b : Q) : bool := negb (Qle_bool b a).

(** best_matching.py:111-123 *)
Fixpoint find_best (sizes : dict nat nat) (cluster_size : nat) (candidates : dict nat nat) (best_f1 : Q)
    (best : option (Q * Q * Q)) : res (option (Q * Q * Q)) :=
  match candidates with
  | [] => Ok best
  | (matching, true_positives) :: candidates' =>
    match dget sizes matching with
    | None => Err KeyError
    | Some matching_cluster_size =>
      let! (precision, recall, f1) := score true_positives matching_cluster_size cluster_size in
      if Qltb best_f1 f1 then find_best sizes cluster_size candidates' f1 (Some (precision, recall, f1))
      else find_best sizes cluster_size candidates' best_f1 best
    end
  end.

(** best_matching.py:91-125: scores of one truth cluster *)
Definition match_cluster (index : dict T nat) (sizes : dict nat nat) (cluster : list T) : res (Q * Q * Q) :=
  if Nat.eqb (length cluster) 0 then Err TypeError
  else
    let! (candidates, cluster_size) := count_candidates index cluster [] 0 in
    let! best := find_best sizes cluster_size candidates (-1)%Q None in
    match best with None => Err AssertionError | Some s => Ok s end.

(** best_matching.py:90-129 *)
Fixpoint match_truth (index : dict T nat) (sizes : dict nat nat) (truth : list (list T)) (means : mean * mean * mean)
  : res (mean * mean * mean) :=
  match truth with
  | [] => Ok means
  | cluster :: truth' =>
    let! (p, r, f) := match_cluster index sizes cluster in
    let '(P, R, F) := means in
    match_truth index sizes truth' (mean_add P p, mean_add R r, mean_add F f)
  end.

(** best_matching.py:21-135 best_matching_macro_average *)
Definition best_matching_macro_average (truth predicted : list (list T)) (allow : bool) : res (Q * Q * Q) :=
  if Nat.eqb (length truth) 0 then Err TypeError
  else if Nat.eqb (length predicted) 0 then Err TypeError
  else
    let truth_items := set_of (concat truth) in
    let! (index, sizes) := index_predicted allow truth_items 0 predicted [] [] in
    let! (P, R, F) := match_truth index sizes truth (mean_new, mean_new, mean_new) in
    let! p := mean_peek P in
    let! r := mean_peek R in
    let! f := mean_peek F in
    Ok (p, r, f).
End BestMatching.

Section Labels.
Context {I L K : Type} `{EqDec L} `{EqDec K}.

(** utils.py:15-34 labels_to_clusters, given the pairs (item, label): the items of a mapping, the enumeration of a
    sequence, or the iterable itself *)
Definition labels_to_clusters (labels : list (I * L)) : list (list I) :=
  dvalues (fold_left (fun clusters il => dmodify clusters (snd il) [] (fun c => c ++ [fst il])) labels []).

Definition enumerate (labels : list L) : list (nat * L) := combine (seq 0 (length labels)) labels.

(** utils.py:37-47 clusters_to_labels without [flat]; [key] is the identity by default *)
Definition clusters_to_labels (key : I -> K) (clusters : list (list I)) : dict K nat :=
  fold_left (fun labels ic => fold_left (fun labels item => dset labels (key item) (fst ic)) (snd ic) labels)
    (combine (seq 0 (length clusters)) clusters) [].
End Labels.

(** l[i] = v, for an integer i of any sign *)
Definition py_set {V} (l : list V) (i : Z) (v : V) : res (list V) :=
  let n := Z.of_nat (length l) in
  let j := (if i <? 0 then i + n else i)%Z in
  if ((j <? 0) || (n <=? j))%Z then Err IndexError
  else Ok (firstn (Z.to_nat j) l ++ [v] ++ skipn (S (Z.to_nat j)) l).

(** utils.py:49-55: [flat]; -1 is None here *)
Definition flat_labels (labels : dict Z nat) : res (list (option nat)) :=
  fold_left (fun r il => let! l := r in py_set l (fst il) (Some (snd il))) labels (Ok (repeat None (length labels))).
