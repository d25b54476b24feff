(** fog/clustering/ppjoin.py once more, with its numbers as floats: only what computes with the threshold differs from PPJoinModel. *)
From Coq Require Import QArith Qround String ZArith.
From Verif Require Import Base PairwiseModel GraphModel SortModel PPJoinModel FloatModel.
Open Scope nat_scope.
Open Scope list_scope.
Notation length := List.length.

(** ppjoin.py:24, the float 1e-6 *)
Definition EPSILON_float : Q := fl (1 # 1000000).

(** ppjoin.py:38-55 *)
Definition jaccard_helper_float (t : Q) : helper := {|
  index_length l := int (fadd (fadd (fmul (fsub 1 (fdiv (fmul 2 t) (fadd 1 t))) (qn l)) 1) EPSILON_float);
  probe_length l := int (fadd (fadd (fmul (fsub 1 t) (qn l)) 1) EPSILON_float);
  require_overlap l1 l2 := ceil (fsub (fmul (fdiv t (fadd 1 t)) (qn (l1 + l2))) EPSILON_float);
  reaches l1 l2 overlap := Qle_bool t (fadd (fdiv (qn overlap) (qn (l1 + l2 - overlap))) EPSILON_float);
  min_possible_length l := ceil (fsub (fmul (qn l) t) EPSILON_float)
|}%Q.

(** ppjoin.py:58-75 *)
Definition dice_helper_float (t : Q) : helper := {|
  index_length l := int (fadd (fadd (fmul (fsub 1 t) (qn l)) 1) EPSILON_float);
  probe_length l := int (fadd (fadd (fmul (fsub 1 (fdiv t (fsub 2 t))) (qn l)) 1) EPSILON_float);
  require_overlap l1 l2 := ceil (fsub (fdiv (fmul (qn (l1 + l2)) t) 2) EPSILON_float);
  reaches l1 l2 overlap := Qle_bool t (fadd (fdiv (2 * qn overlap) (qn (l1 + l2))) EPSILON_float);
  min_possible_length l := ceil (fsub (fdiv (fmul (qn l) t) (fsub 2 t)) EPSILON_float)
|}%Q.

(** ppjoin.py:78-95 *)
Definition binary_cosine_helper_float (t : Q) : helper := {|
  index_length l := int (fadd (fadd (fmul (fsub 1 t) (qn l)) 1) EPSILON_float);
  probe_length l := int (fadd (fadd (fmul (fsub 1 (fmul t t)) (qn l)) 1) EPSILON_float);
  require_overlap l1 l2 := ceil (fsub (fmul t (fsqrt (qn (l1 * l2)))) EPSILON_float);
  reaches l1 l2 overlap := Qle_bool t (fadd (fdiv (qn overlap) (fsqrt (qn (l1 * l2)))) EPSILON_float);
  min_possible_length l := ceil (fsub (fmul (fmul (qn l) t) t) EPSILON_float)
|}%Q.

(** ppjoin.py:289-296 *)
Definition make_helper_float (metric : string) (threshold : Q) : res helper :=
  if string_dec metric "jaccard" then Ok (jaccard_helper_float threshold)
  else if string_dec metric "dice" then Ok (dice_helper_float threshold)
  else if string_dec metric "binary_cosine" then Ok (binary_cosine_helper_float threshold)
  else Err TypeError.

Section Join.
Context {T : Type} `{EqDec T}.
Variable leb : T -> T -> bool.

Section Records.
Variable h : helper.
Variable threshold : Q.
Variable algo : algorithm.
Variable records : list (list T).

(** ppjoin.py:343-397, one candidate without all_pairs *)
Definition filtered_float (record : list T) (t : nat) (occ : occurrences) (candidate_id candidate_pos : nat) : res occurrences :=
  let record_length := length record in
  let candidate_length := length (record_of records candidate_id) in
  let r := required h record_length candidate_length in
  let value := dget occ candidate_id in
  match value with
  | Some None => Ok occ
  | _ =>
    let! pruned :=
      match algo with
      | PPJoinPlus =>
        let v := match value with Some (Some v) => Z.of_nat v | _ => 0%Z end in
        let hamming_distance :=
          (Z.of_nat candidate_length + Z.of_nat record_length - 2 * Z.of_nat r + 2 * v - (Z.of_nat candidate_pos + Z.of_nat t))%Z in
        if (0 <=? hamming_distance)%Z then
          let! sf := suffix_filter leb MAX_DEPTH (record_of records candidate_id) record (Z.of_nat candidate_pos) (Z.of_nat candidate_length)
            (Z.of_nat t) (Z.of_nat record_length) hamming_distance in
          Ok (hamming_distance <? sf)%Z
        else Ok false
      | _ => Ok false
      end in
    match value with
    | Some (Some v) =>
      if pruned then Ok (dset occ candidate_id None)
      else if negb (Qle_bool (qn r) (fadd (qn v) (fsub (qn record_length) threshold))) || Nat.ltb (v + (candidate_length - candidate_pos)) r
      then Ok (dset occ candidate_id None)
      else Ok (dset occ candidate_id (Some (v + 1)))
    | _ =>
      if pruned then Ok occ
      else if negb (Qle_bool (qn r) (fsub (qn record_length) threshold)) || Nat.ltb (candidate_length - candidate_pos) r
      then Ok occ
      else Ok (dset occ candidate_id (Some 1))
    end
  end.

(** ppjoin.py:332-397 *)
Definition consider_float (record : list T) (t : nat) (occ : occurrences) (id : nat * nat) : res occurrences :=
  match algo with
  | AllPairs =>
    Ok (dmodify occ (fst id) (Some 0) (option_map (fun n => n + 1)))
  | _ => filtered_float record t occ (fst id) (snd id)
  end.

(** ppjoin.py:325-400, one token of the record k; comparing an int with a float is exact in python *)
Definition probe_float (k : nat) (record : list T) (state : inverted * occurrences) (t : nat) : res (inverted * occurrences) :=
  let '(idx, occ) := state in
  let! token := index record t in
  let '(pos, ids) := match dget idx token with Some item => item | None => (0, []) end in
  let pos := pos + advance records (min_possible_length h (length record)) (skipn pos ids) in
  let! occ := foldM (consider_float record t) (skipn pos ids) occ in
  let ids := if negb (Qle_bool (qn (index_length h (length record))) threshold) then ids ++ [(k, t)] else ids in
  Ok (dset idx token (pos, ids), occ).

(** ppjoin.py:308-426, one record *)
Definition join_record_float (state : inverted * list (nat * nat)) (k : nat) : res (inverted * list (nat * nat)) :=
  let '(idx, out) := state in
  let record := record_of records k in
  let! (idx, occ) := foldM (probe_float k record) (seq 0 (probe_length h (length record))) (idx, []) in
  let! found := mapM (verify leb h records k record) occ in
  Ok (idx, out ++ concat found).

(** ppjoin.py:304-426 *)
Definition join_float : res (list (nat * nat)) :=
  let! (_, out) := foldM join_record_float (argsort records) ([], []) in
  Ok out.
End Records.
End Join.

(** ppjoin.py:251-426 *)
Definition ppjoin_float {R T : Type} `{EqDec T} (leb : T -> T -> bool) (crc32 : T -> N) (items : R -> list T)
    (records : list R) (threshold : Q) (metric : string) (tokenizer : option (R -> list T)) (algo : algorithm)
    (token_ordering : option string) : res (list (R * R)) :=
  let unknown := match token_ordering with None => false | Some o => if string_dec o "freq" then false else if string_dec o "crc32" then false else true end in
  if unknown then Err TypeError
  else
    let! h := make_helper_float metric threshold in
    let tokenized := map (match tokenizer with Some f => f | None => items end) records in
    let! pairs :=
      match token_ordering with
      | None => join_float leb h threshold algo (map (sorted_uniq leb) tokenized)
      | Some o =>
        if string_dec o "freq" then
          let! rs := preprocess_freq leb (match tokenizer with Some _ => true | None => false end) tokenized in
          join_float Nat.leb h threshold algo rs
        else join_float N.leb h threshold algo (preprocess_crc32 leb crc32 tokenized)
      end in
    mapM (fun '(k, c) => let! a := index records k in let! b := index records c in Ok (a, b)) pairs.
