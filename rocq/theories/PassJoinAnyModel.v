(** Model of fog/clustering/passjoin.py for thresholds k that are any integers. *)
From Coq Require Import String ZArith.
From Verif Require Import Base LevModel ClustersModel PassJoinModel.
Notation length := List.length.
Open Scope Z_scope.
Open Scope list_scope.

(** how [partition] may fail: ZeroDivisionError, or UnboundLocalError because the first loop has not bound [i] *)
Inductive failure := Division | Unbound.

(** range(i, j) *)
Definition range_of (i j : Z) : list Z := map (fun t => i + Z.of_nat t) (seq 0 (Z.to_nat (j - i))).

(** passjoin.py:78-104; [//] is [Z.div] (rounding down) *)
Definition partition_z (k l : Z) : list (Z * Z * Z) + failure :=
  let m := k + 1 in
  if m =? 0 then inr Division
  else
    let a := l / m in
    let b := a + 1 in
    let large_segments := l - a * m in
    let small_segments := m - large_segments in
    let small := map (fun i => (i, i * a, a)) (range_of 0 small_segments) in
    match List.rev (range_of 0 small_segments) with
    | [] => inr Unbound
    | i :: _ =>
      let offset := i * a + a in
      inl (small ++ map (fun j => (i + 1 + j, offset + j * b, b)) (range_of 0 large_segments))
    end.

Section PassJoin.
Variable distance : str -> str -> nat.

(** passjoin.py:246: the lengths looked up for a string of length s *)
Definition lengths_z (sort : bool) (k s : Z) : list Z := range_of (if sort then s else Z.max 0 (s - k)) (s + k + 1).

(** passjoin.py:238-276.  There is a length to look up only if k >= 0 (C208_lengths), and a partition without failure only in this case
    (C208_partition): the rest of the loop is then that of PassJoinModel *)
Fixpoint passjoin_pairs_z (sort : bool) (k : Z) (data : list str) (L : index_t) : list (str * str) + failure :=
  match data with
  | [] => inl []
  | A :: rest =>
    let s := Z.of_nat (length A) in
    let found := match lengths_z sort k s with [] => [] | _ => match_string (Z.to_nat k) distance sort L A end in
    match partition_z k s with
    | inr e => inr e
    | inl _ =>
      match passjoin_pairs_z sort k rest (index_string (Z.to_nat k) L A) with
      | inr e => inr e
      | inl out => inl (found ++ out)
      end
    end
  end.

(** passjoin.py:193-283; clusters_from_pairs reads all the pairs before anything else *)
Definition passjoin_z (set_order : list str -> list str) (k : Z) (data : list str) (sort : bool) (lo : nat) (hi : option nat) (mode : string)
    : res (list (list str)) + failure :=
  let data := if sort then sorted data else data in
  match passjoin_pairs_z sort k data [] with
  | inr e => inr e
  | inl pairs => inl (clusters_from_pairs set_order pairs lo hi mode false)
  end.
End PassJoin.
