(** Model of minhash (fog/clustering/minhash.py) for sizes and numbers of bands that are any integers. *)
From Coq Require Import ZArith QArith String.
From Verif Require Import Base LevModel MetricsModel ClustersModel PairwiseModel BitsModel MinHashModel ChunksAnyModel.
Open Scope Z_scope.
Open Scope list_scope.
Notation length := List.length.

(** lines 66-91: the loop runs from 1 to h *)
Definition guess_bands_z (h : Z) (threshold : Q) : Z := Z.of_nat (guess_bands (Z.to_nat h) threshold).

(** range(0, upper, step), for a step which is not null *)
Definition range_step (upper step : Z) : list Z := map (fun i => Z.of_nat i * step) (seq 0 (Z.to_nat (ceil_z upper step))).

Section Clustering.
Context {A T : Type} `{EqDec A} `{EqDec T}.
Variable crc32 : T -> N.
Variable letter : N -> T.
Variable token_order : list N -> list N.
Variable set_order : list A -> list A.
Variable key : A -> sequence T.
Variable same : A -> A -> bool.

(** lines 137-138 *)
Definition band_key_z (signature : list N) (rows band : Z) : Z * str :=
  (band, percent_join (map decimal (slice_z band (band + rows) signature))).

(** lines 127-139; [0] * h is empty for a negative h, as is range(h) *)
Fixpoint fill_z (params : list (N * N)) (h upper rows : Z) (data : list A) (buckets : dict (Z * str) (list A)) : res (dict (Z * str) (list A)) :=
  match data with
  | [] => Ok buckets
  | item :: data =>
    let! signature := create_signature crc32 token_order params (Z.to_nat h) (key item) in
    if rows =? 0 then Err ValueError
    else fill_z params h upper rows data
           (fold_left (fun buckets band => dmodify buckets (band_key_z signature rows band) [] (fun l => l ++ [item])) (range_step upper rows) buckets)
  end.

(** lines 94-151 *)
Definition minhash_z (params : list (N * N)) (data : list A) (h : Z) (radius : Q) (bands : option Z) : res (list (list A)) :=
  let bands := match bands with Some b => b | None => guess_bands_z h radius end in
  if bands =? 0 then Err ZeroDivisionError
  else
    let rows := h / bands in
    let h_upper_bound := bands * rows in
    let! buckets := fill_z params h h_upper_bound rows data [] in
    clusters_from_buckets set_order (dvalues buckets) 2 None "connected_components" (Some (double_check letter key same radius)) false.
End Clustering.
