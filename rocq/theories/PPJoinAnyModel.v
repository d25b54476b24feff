(** fog/clustering/ppjoin.py again, for any threshold: the lengths are integers that may be negative, the divisions may fail, and
    [require_overlaps] is a list that is written and read with python's indices.  [PPJoinModel] is the same for thresholds between 0
    and 1. *)
From Coq Require Import QArith Qround String ZArith.
From Verif Require Import Base LevModel PairwiseModel GraphModel SortModel PPJoinModel.
Open Scope nat_scope.
Open Scope list_scope.
Notation length := List.length.

(** int(x), towards 0; a / b *)
Definition truncate (x : Q) : Z := if Qle_bool 0 x then Qfloor x else Qceiling x.
Definition divide (a b : Q) : res Q := if Qeq_bool b 0 then Err ZeroDivisionError else Ok (a / b)%Q.

(** ppjoin.py:31-95; [any_reaches]: compute_similarity(l1, l2, overlap) >= threshold *)
Record any_helper := {
  any_index_length : nat -> res Z;
  any_probe_length : nat -> res Z;
  any_require_overlap : nat -> Z -> res Z;
  any_reaches : nat -> nat -> nat -> res bool;
  any_min_length : nat -> res Z
}.

(** ppjoin.py:38-55 *)
Definition any_jaccard (t : Q) : any_helper := {|
  any_index_length l := let! x := divide (2 * t) (1 + t) in Ok (truncate ((1 - x) * qn l + 1 + EPSILON));
  any_probe_length l := Ok (truncate ((1 - t) * qn l + 1 + EPSILON));
  any_require_overlap l1 l2 := let! x := divide t (1 + t) in Ok (Qceiling (x * inject_Z (Z.of_nat l1 + l2) - EPSILON));
  any_reaches l1 l2 overlap := let! x := divide (qn overlap) (qn l1 + qn l2 - qn overlap) in Ok (Qle_bool t (x + EPSILON));
  any_min_length l := Ok (Qceiling (qn l * t - EPSILON))
|}%Q.

(** ppjoin.py:58-75 *)
Definition any_dice (t : Q) : any_helper := {|
  any_index_length l := Ok (truncate ((1 - t) * qn l + 1 + EPSILON));
  any_probe_length l := let! x := divide t (2 - t) in Ok (truncate ((1 - x) * qn l + 1 + EPSILON));
  any_require_overlap l1 l2 := Ok (Qceiling (inject_Z (Z.of_nat l1 + l2) * t / 2 - EPSILON));
  any_reaches l1 l2 overlap := let! x := divide (2 * qn overlap) (qn l1 + qn l2) in Ok (Qle_bool t (x + EPSILON));
  any_min_length l := let! x := divide (qn l * t) (2 - t) in Ok (Qceiling (x - EPSILON))
|}%Q.

(** the greatest n such that n <= - t * sqrt(p) + epsilon, for a negative t, from n on *)
Fixpoint greatest_below (fuel : nat) (t : Q) (p n : nat) : nat :=
  match fuel with
  | 0 => n
  | S fuel => if Qle_bool ((qn (S n) - EPSILON) * (qn (S n) - EPSILON)) (t * t * qn p) then greatest_below fuel t p (S n) else n
  end.
(** math.ceil(t * math.sqrt(p) - EPSILON), comparisons with a square root being done on the squares; the fuel is a bound of the result *)
Definition ceil_sqrt (t : Q) (p : nat) : Z :=
  if Qle_bool 0 t then Z.of_nat (least_above (Nat.max p (ceil (t * qn p))) t p 0)
  else (- Z.of_nat (greatest_below (ceil (- t * qn p)) t p 0))%Z.

(** ppjoin.py:78-95; math.sqrt raises ValueError below 0 *)
Definition any_binary_cosine (t : Q) : any_helper := {|
  any_index_length l := Ok (truncate ((1 - t) * qn l + 1 + EPSILON)%Q);
  any_probe_length l := Ok (truncate ((1 - t * t) * qn l + 1 + EPSILON)%Q);
  any_require_overlap l1 l2 :=
    if (Z.of_nat l1 * l2 <? 0)%Z then Err ValueError else Ok (ceil_sqrt t (Z.to_nat (Z.of_nat l1 * l2)));
  any_reaches l1 l2 overlap :=
    if Nat.eqb (l1 * l2) 0 then Err ZeroDivisionError
    else Ok (Qle_bool t EPSILON || Qle_bool ((t - EPSILON) * (t - EPSILON) * qn (l1 * l2)) (qn overlap * qn overlap))%Q;
  any_min_length l := Ok (Qceiling (qn l * t * t - EPSILON)%Q)
|}.

(** l[i] = x, counted from the end when i is negative *)
Definition zset {A} (l : list A) (i : Z) (x : A) : res (list A) :=
  let i := if (i <? 0)%Z then (i + Z.of_nat (length l))%Z else i in
  if (i <? 0)%Z || (Z.of_nat (length l) <=? i)%Z then Err IndexError else Ok (upd l (Z.to_nat i) x).
(** range(lo, hi) *)
Definition zrange (lo hi : Z) : list Z := map (fun i => (lo + Z.of_nat i)%Z) (seq 0 (Z.to_nat (hi - lo))).

Section Join.
Context {T : Type} `{EqDec T}.
Variable leb : T -> T -> bool.

(** ppjoin.py:110-134; None: -1 *)
Fixpoint any_overlap_loop (fuel : nat) (x y : list T) (current : nat) (require : Z) : option nat :=
  match fuel with
  | 0 => Some current
  | S fuel =>
    match x, y with
    | a :: x', b :: y' =>
      if (Z.of_nat (length x + current) <? require)%Z || (Z.of_nat (length y + current) <? require)%Z then None
      else if eq_dec a b then any_overlap_loop fuel x' y' (current + 1) require
      else if ltb leb a b then any_overlap_loop fuel x' y current require
      else any_overlap_loop fuel x y' current require
    | _, _ => Some current
    end
  end.
Definition any_compute_overlap (x y : list T) (require : Z) : option nat :=
  any_overlap_loop (length x + length y) x y 0 require.

Section Records.
Variable h : any_helper.
Variable threshold : Q.
Variable algo : algorithm.
Variable records : list (list T).

(** ppjoin.py:317-320 *)
Definition require_overlaps (record_length : nat) (min_length : Z) : res (list Z) :=
  foldM (fun l i => let! r := any_require_overlap h record_length i in zset l i r)
    (zrange min_length (Z.of_nat record_length + 1)) (repeat 0%Z (record_length + 1)).

(** ppjoin.py:343-397, one candidate without all_pairs *)
Definition any_filtered (requires : list Z) (record : list T) (t : nat) (occ : occurrences) (candidate_id candidate_pos : nat)
    : res occurrences :=
  let record_length := length record in
  let candidate_length := length (record_of records candidate_id) in
  let! r := zindex requires (Z.of_nat candidate_length) in
  let value := dget occ candidate_id in
  match value with
  | Some None => Ok occ
  | _ =>
    let! pruned :=
      match algo with
      | PPJoinPlus =>
        let v := match value with Some (Some v) => Z.of_nat v | _ => 0%Z end in
        let hamming_distance :=
          (Z.of_nat candidate_length + Z.of_nat record_length - 2 * r + 2 * v - (Z.of_nat candidate_pos + Z.of_nat t))%Z in
        if (0 <=? hamming_distance)%Z then
          let! sf := suffix_filter leb MAX_DEPTH (record_of records candidate_id) record (Z.of_nat candidate_pos)
            (Z.of_nat candidate_length) (Z.of_nat t) (Z.of_nat record_length) hamming_distance in
          Ok (hamming_distance <? sf)%Z
        else Ok false
      | _ => Ok false
      end in
    match value with
    | Some (Some v) =>
      if pruned then Ok (dset occ candidate_id None)
      else if negb (Qle_bool (inject_Z r) (qn v + (qn record_length - threshold)))
              || (Z.of_nat v + (Z.of_nat candidate_length - Z.of_nat candidate_pos) <? r)%Z
      then Ok (dset occ candidate_id None)
      else Ok (dset occ candidate_id (Some (v + 1)))
    | _ =>
      if pruned then Ok occ
      else if negb (Qle_bool (inject_Z r) (qn record_length - threshold))
              || (Z.of_nat candidate_length - Z.of_nat candidate_pos <? r)%Z
      then Ok occ
      else Ok (dset occ candidate_id (Some 1))
    end
  end.

(** ppjoin.py:332-397 *)
Definition any_consider (requires : list Z) (record : list T) (t : nat) (occ : occurrences) (id : nat * nat) : res occurrences :=
  match algo with
  | AllPairs => Ok (dmodify occ (fst id) (Some 0) (option_map (fun n => n + 1)))
  | _ => any_filtered requires record t occ (fst id) (snd id)
  end.

(** ppjoin.py:329-330 *)
Fixpoint any_advance (min_length : Z) (ids : list (nat * nat)) : nat :=
  match ids with
  | [] => 0
  | id :: ids => if (Z.of_nat (length (record_of records (fst id))) <? min_length)%Z then S (any_advance min_length ids) else 0
  end.

(** ppjoin.py:325-400, one token of the record k *)
Definition any_probe (min_length index_length : Z) (requires : list Z) (k : nat) (record : list T) (state : inverted * occurrences)
    (t : nat) : res (inverted * occurrences) :=
  let '(idx, occ) := state in
  let! token := index record t in
  let '(pos, ids) := match dget idx token with Some item => item | None => (0, []) end in
  let pos := pos + any_advance min_length (skipn pos ids) in
  let! occ := foldM (any_consider requires record t) (skipn pos ids) occ in
  let ids := if negb (Qle_bool (inject_Z index_length) threshold) then ids ++ [(k, t)] else ids in
  Ok (dset idx token (pos, ids), occ).

(** ppjoin.py:402-426 *)
Definition any_verify (probe_length : Z) (requires : list Z) (k : nat) (record : list T) (entry : nat * option nat)
    : res (list (nat * nat)) :=
  let record_length := length record in
  match entry with
  | (_, None) => Ok []
  | (candidate, Some count) =>
    let candidate_record := record_of records candidate in
    let candidate_size := length candidate_record in
    let! r := zindex requires (Z.of_nat candidate_size) in
    let! index_length := any_index_length h candidate_size in
    let! c := zindex candidate_record (index_length - 1) in
    let! x := zindex record (probe_length - 1) in
    let skip :=
      if ltb leb c x then (Z.of_nat (count + candidate_size) - index_length <? r)%Z
      else (Z.of_nat (count + record_length) - probe_length <? r)%Z in
    if skip then Ok []
    else
      match any_compute_overlap record candidate_record r with
      | None => Ok []
      | Some real_overlap =>
        let! similar := any_reaches h record_length candidate_size real_overlap in
        Ok (if similar then [(k, candidate)] else [])
      end
  end.

(** ppjoin.py:308-426, one record *)
Definition any_join_record (state : inverted * list (nat * nat)) (k : nat) : res (inverted * list (nat * nat)) :=
  let '(idx, out) := state in
  let record := record_of records k in
  let! min_length := any_min_length h (length record) in
  let! probe_length := any_probe_length h (length record) in
  let! index_length := any_index_length h (length record) in
  let! requires := require_overlaps (length record) min_length in
  let! (idx, occ) := foldM (any_probe min_length index_length requires k record) (seq 0 (Z.to_nat probe_length)) (idx, []) in
  let! found := mapM (any_verify probe_length requires k record) occ in
  Ok (idx, out ++ concat found).

(** ppjoin.py:304-426 *)
Definition any_join : res (list (nat * nat)) :=
  let! (_, out) := foldM any_join_record (argsort records) ([], []) in
  Ok out.
End Records.
End Join.

(** ppjoin.py:289-296 *)
Definition make_any_helper (metric : string) (threshold : Q) : res any_helper :=
  if string_dec metric "jaccard" then Ok (any_jaccard threshold)
  else if string_dec metric "dice" then Ok (any_dice threshold)
  else if string_dec metric "binary_cosine" then Ok (any_binary_cosine threshold)
  else Err TypeError.

(** ppjoin.py:251-426 *)
Definition ppjoin_any {R T : Type} `{EqDec T} (leb : T -> T -> bool) (crc32 : T -> N) (items : R -> list T)
    (records : list R) (threshold : Q) (metric : string) (tokenizer : option (R -> list T)) (algo : algorithm)
    (token_ordering : option string) : res (list (R * R)) :=
  let unknown := match token_ordering with None => false | Some o => if string_dec o "freq" then false else if string_dec o "crc32" then false else true end in
  if unknown then Err TypeError
  else
    let! h := make_any_helper metric threshold in
    let tokenized := map (match tokenizer with Some f => f | None => items end) records in
    let! pairs :=
      match token_ordering with
      | None => any_join leb h threshold algo (map (sorted_uniq leb) tokenized)
      | Some o =>
        if string_dec o "freq" then
          let! rs := preprocess_freq leb (match tokenizer with Some _ => true | None => false end) tokenized in
          any_join Nat.leb h threshold algo rs
        else any_join N.leb h threshold algo (preprocess_crc32 leb crc32 tokenized)
      end in
    mapM (fun '(k, c) => let! a := index records k in let! b := index records c in Ok (a, b)) pairs.
