(** Model of fog/clustering/ppjoin.py.  Thresholds and epsilon are rationals ([Q]); thresholds above 1 are left out
    (for them a python index may be -1). *)
From Coq Require Import QArith Qround String ZArith.
From Verif Require Import Base PairwiseModel GraphModel SortModel.
Open Scope nat_scope.
Open Scope list_scope.
Notation length := List.length.

(** ppjoin.py:24, 26 *)
Definition EPSILON : Q := 1 # 1000000.
Definition MAX_DEPTH : nat := 2.

Definition qn (n : nat) : Q := inject_Z (Z.of_nat n).
(** int(x) and math.ceil(x); both are at least 0 here *)
Definition int (x : Q) : nat := Z.to_nat (Qfloor x).
Definition ceil (x : Q) : nat := Z.to_nat (Qceiling x).

(** ppjoin.py:31-95; max_possible_length is never used.  [reaches l1 l2 overlap]: compute_similarity(l1, l2, overlap) >= threshold *)
Record helper := {
  index_length : nat -> nat;
  probe_length : nat -> nat;
  require_overlap : nat -> nat -> nat;
  reaches : nat -> nat -> nat -> bool;
  min_possible_length : nat -> nat
}.

(** ppjoin.py:38-55 *)
Definition jaccard_helper (t : Q) : helper := {|
  index_length l := int ((1 - 2 * t / (1 + t)) * qn l + 1 + EPSILON);
  probe_length l := int ((1 - t) * qn l + 1 + EPSILON);
  require_overlap l1 l2 := ceil (t / (1 + t) * qn (l1 + l2) - EPSILON);
  reaches l1 l2 overlap := Qle_bool t (qn overlap / qn (l1 + l2 - overlap) + EPSILON);
  min_possible_length l := ceil (qn l * t - EPSILON)
|}%Q.

(** ppjoin.py:58-75 *)
Definition dice_helper (t : Q) : helper := {|
  index_length l := int ((1 - t) * qn l + 1 + EPSILON);
  probe_length l := int ((1 - t / (2 - t)) * qn l + 1 + EPSILON);
  require_overlap l1 l2 := ceil (qn (l1 + l2) * t / 2 - EPSILON);
  reaches l1 l2 overlap := Qle_bool t (2 * qn overlap / qn (l1 + l2) + EPSILON);
  min_possible_length l := ceil (qn l * t / (2 - t) - EPSILON)
|}%Q.

(** the least n such that t * sqrt(p) - epsilon <= n, from n on *)
Fixpoint least_above (fuel : nat) (t : Q) (p n : nat) : nat :=
  match fuel with
  | 0 => n
  | S fuel => if Qle_bool (t * t * qn p) ((qn n + EPSILON) * (qn n + EPSILON)) then n else least_above fuel t p (S n)
  end.

(** ppjoin.py:78-95, comparisons with a square root being done on the squares *)
Definition binary_cosine_helper (t : Q) : helper := {|
  index_length l := int ((1 - t) * qn l + 1 + EPSILON)%Q;
  probe_length l := int ((1 - t * t) * qn l + 1 + EPSILON)%Q;
  require_overlap l1 l2 := least_above (l1 * l2) t (l1 * l2) 0;
  reaches l1 l2 overlap := (Qle_bool t EPSILON || Qle_bool ((t - EPSILON) * (t - EPSILON) * qn (l1 * l2)) (qn overlap * qn overlap))%Q;
  min_possible_length l := ceil (qn l * t * t - EPSILON)%Q
|}.

(** l[i], counted from the end when i is negative *)
Definition zindex {A} (l : list A) (i : Z) : res A :=
  if (i <? 0)%Z then (if (i + Z.of_nat (length l) <? 0)%Z then Err IndexError else index l (Z.to_nat (i + Z.of_nat (length l))))
  else index l (Z.to_nat i).

Section Join.
Context {T : Type} `{EqDec T}.
(** the order of the tokens *)
Variable leb : T -> T -> bool.
Definition ltb (a b : T) : bool := negb (leb b a).

(** ppjoin.py:110-134; None: -1.  [x] and [y]: what remains of the two records *)
Fixpoint overlap_loop (fuel : nat) (x y : list T) (current require : nat) : option nat :=
  match fuel with
  | 0 => Some current
  | S fuel =>
    match x, y with
    | a :: x', b :: y' =>
      if Nat.ltb (length x + current) require || Nat.ltb (length y + current) require then None
      else if eq_dec a b then overlap_loop fuel x' y' (current + 1) require
      else if ltb a b then overlap_loop fuel x' y current require
      else overlap_loop fuel x y' current require
    | _, _ => Some current
    end
  end.
Definition compute_overlap (x y : list T) (require : nat) : option nat :=
  overlap_loop (length x + length y) x y 0 require.

(** bisect.bisect_left(y, token, lo, hi) *)
Fixpoint bisect_loop (fuel : nat) (y : list T) (token : T) (lo hi : Z) : res Z :=
  if (lo <? hi)%Z then
    match fuel with
    | 0 => Err OutOfFuel
    | S fuel =>
      let mid := ((lo + hi) / 2)%Z in
      let! v := zindex y mid in
      if ltb v token then bisect_loop fuel y token (mid + 1) hi else bisect_loop fuel y token lo mid
    end
  else Ok lo.
Definition bisect_left (y : list T) (token : T) (lo hi : Z) : res Z :=
  if (lo <? 0)%Z then Err ValueError else bisect_loop (Z.to_nat (hi - lo)) y token lo hi.

(** ppjoin.py:137-213; [levels]: MAX_DEPTH - depth *)
Fixpoint suffix_filter (levels : nat) (x y : list T) (x_start x_end y_start y_end hd : Z) : res Z :=
  let x_len := (x_end - x_start)%Z in
  let y_len := (y_end - y_start)%Z in
  if (x_end <=? x_start)%Z || (y_end <=? y_start)%Z then Ok (Z.abs (x_len - y_len))
  else
    let mid := (x_start + x_len / 2)%Z in
    let! token := zindex x mid in
    let '(lft, rgt) :=
      (if y_len <=? x_len then
         let delta := x_len - y_len in
         (y_start + x_len / 2 - ((hd - delta) / 2 + delta), y_start + x_len / 2 + (hd - delta) / 2)
       else
         let delta := y_len - x_len in
         (y_start + x_len / 2 - (hd - delta) / 2, y_start + x_len / 2 + ((hd - delta) / 2 + delta)))%Z in
    let! too_far_left := (if (y_start <=? lft)%Z then let! v := zindex y lft in Ok (ltb token v) else Ok false) in
    let! too_far_right :=
      (if too_far_left then Ok true else if (rgt <? y_end)%Z then let! v := zindex y rgt in Ok (ltb v token) else Ok false) in
    if too_far_right then Ok (hd + 1)%Z
    else
      let search_left := (if (y_start <=? lft) then lft else y_start)%Z in
      let search_right := (if (rgt + 1 <? y_end) then rgt + 1 else y_end)%Z in
      let! pos := bisect_left y token search_left search_right in
      let! found := (if (pos <? y_end)%Z then let! v := zindex y pos in Ok (if eq_dec v token then true else false) else Ok false) in
      if found then
        let left_bound := Z.abs ((mid - x_start) - (pos - y_start)) in
        let right_bound := Z.abs ((x_end - mid - 1) - (y_end - pos - 1)) in
        if (hd <? left_bound + right_bound)%Z then Ok (left_bound + right_bound)%Z
        else
          match levels with
          | S levels =>
            let! hd_left := suffix_filter levels x y x_start mid y_start pos (hd - right_bound) in
            if (hd <? hd_left + right_bound)%Z then Ok (hd_left + right_bound)%Z
            else
              let! hd_right := suffix_filter levels x y (mid + 1) x_end (pos + 1) y_end (hd - hd_left) in
              Ok (hd_left + hd_right)%Z
          | 0 => Ok (left_bound + right_bound)%Z
          end
      else
        let left_bound := Z.abs ((mid - x_start) - (pos - y_start)) in
        let right_bound := Z.abs ((x_end - mid - 1) - (y_end - pos)) in
        if (hd <? left_bound + right_bound + 1)%Z then Ok (left_bound + right_bound + 1)%Z
        else
          match levels with
          | S levels =>
            let! hd_left := suffix_filter levels x y x_start mid y_start pos (hd - right_bound - 1) in
            if (hd <? hd_left + right_bound + 1)%Z then Ok (hd_left + right_bound + 1)%Z
            else
              let! hd_right := suffix_filter levels x y (mid + 1) x_end pos y_end (hd - hd_left - 1) in
              Ok (hd_left + hd_right + 1)%Z
          | 0 => Ok (left_bound + right_bound + 1)%Z
          end.

(** the three algorithms: all_pairs=True, the default, plus=True (all_pairs prevails) *)
Inductive algorithm := AllPairs | PPJoin | PPJoinPlus.

Section Records.
Variable h : helper.
Variable threshold : Q.
Variable algo : algorithm.
(** tokenized_records *)
Variable records : list (list T).
(** tokenized_records[id], for the ids of the index, which are positions *)
Definition record_of (id : nat) : list T := nth id records [].

(** occurances: the count of a candidate, or None for PRUNE_FLAG *)
Definition occurrences := dict nat (option nat).
(** the inverted index: for a token, the pos and the ids of its item *)
Definition inverted := dict T (nat * list (nat * nat)).

(** ppjoin.py:317-320, require_overlaps[l]; records being sorted by length, l is at most the length of the record *)
Definition required (record_length l : nat) : nat :=
  if Nat.leb (min_possible_length h record_length) l then require_overlap h record_length l else 0.

(** ppjoin.py:343-397, one candidate without all_pairs *)
Definition filtered (record : list T) (t : nat) (occ : occurrences) (candidate_id candidate_pos : nat) : res occurrences :=
  let record_length := length record in
  let candidate_length := length (record_of candidate_id) in
  let r := required record_length candidate_length in
  let value := dget occ candidate_id in
  match value with
  | Some None => Ok occ
  | _ =>
    let! pruned :=
      match algo with
      | PPJoinPlus =>
        let v := match value with Some (Some v) => Z.of_nat v | _ => 0%Z end in
        let hamming_distance :=
          (Z.of_nat candidate_length + Z.of_nat record_length - 2 * Z.of_nat r + 2 * v - (Z.of_nat candidate_pos + Z.of_nat t))%Z in
        if (0 <=? hamming_distance)%Z then
          let! sf := suffix_filter MAX_DEPTH (record_of candidate_id) record (Z.of_nat candidate_pos) (Z.of_nat candidate_length)
            (Z.of_nat t) (Z.of_nat record_length) hamming_distance in
          Ok (hamming_distance <? sf)%Z
        else Ok false
      | _ => Ok false
      end in
    match value with
    | Some (Some v) =>
      if pruned then Ok (dset occ candidate_id None)
      else if negb (Qle_bool (qn r) (qn v + (qn record_length - threshold))) || Nat.ltb (v + (candidate_length - candidate_pos)) r
      then Ok (dset occ candidate_id None)
      else Ok (dset occ candidate_id (Some (v + 1)))
    | _ =>
      if pruned then Ok occ
      else if negb (Qle_bool (qn r) (qn record_length - threshold)) || Nat.ltb (candidate_length - candidate_pos) r
      then Ok occ
      else Ok (dset occ candidate_id (Some 1))
    end
  end.

(** ppjoin.py:332-397 *)
Definition consider (record : list T) (t : nat) (occ : occurrences) (id : nat * nat) : res occurrences :=
  match algo with
  | AllPairs =>
    Ok (dmodify occ (fst id) (Some 0) (option_map (fun n => n + 1)))
  | _ => filtered record t occ (fst id) (snd id)
  end.

(** ppjoin.py:329-330 *)
Fixpoint advance (min_length : nat) (ids : list (nat * nat)) : nat :=
  match ids with
  | [] => 0
  | id :: ids => if Nat.ltb (length (record_of (fst id))) min_length then S (advance min_length ids) else 0
  end.

(** ppjoin.py:325-400, one token of the record k *)
Definition probe (k : nat) (record : list T) (state : inverted * occurrences) (t : nat) : res (inverted * occurrences) :=
  let '(idx, occ) := state in
  let! token := index record t in
  let '(pos, ids) := match dget idx token with Some item => item | None => (0, []) end in
  let pos := pos + advance (min_possible_length h (length record)) (skipn pos ids) in
  let! occ := foldM (consider record t) (skipn pos ids) occ in
  let ids := if negb (Qle_bool (qn (index_length h (length record))) threshold) then ids ++ [(k, t)] else ids in
  Ok (dset idx token (pos, ids), occ).

(** ppjoin.py:402-426 *)
Definition verify (k : nat) (record : list T) (entry : nat * option nat) : res (list (nat * nat)) :=
  let record_length := length record in
  match entry with
  | (_, None) => Ok []
  | (candidate, Some count) =>
    let candidate_record := record_of candidate in
    let candidate_size := length candidate_record in
    let r := required record_length candidate_size in
    let il := index_length h candidate_size in
    let pl := probe_length h record_length in
    let! c := index candidate_record (il - 1) in
    let! x := index record (pl - 1) in
    let skip :=
      if ltb c x then Nat.ltb (count + candidate_size) (r + il)
      else Nat.ltb (count + record_length) (r + pl) in
    if skip then Ok []
    else
      match compute_overlap record candidate_record r with
      | None => Ok []
      | Some real_overlap => Ok (if reaches h record_length candidate_size real_overlap then [(k, candidate)] else [])
      end
  end.

(** ppjoin.py:308-426, one record; the pairs are given as positions *)
Definition join_record (state : inverted * list (nat * nat)) (k : nat) : res (inverted * list (nat * nat)) :=
  let '(idx, out) := state in
  let record := record_of k in
  let! (idx, occ) := foldM (probe k record) (seq 0 (probe_length h (length record))) (idx, []) in
  let! found := mapM (verify k record) occ in
  Ok (idx, out ++ concat found).

(** ppjoin.py:246 *)
Definition argsort : list nat :=
  sort_by (fun i j => Nat.leb (length (record_of i)) (length (record_of j))) (seq 0 (length records)).

(** ppjoin.py:304-426 *)
Definition join : res (list (nat * nat)) :=
  let! (_, out) := foldM join_record argsort ([], []) in
  Ok out.
End Records.

(** ebbe's sorted_uniq: external; sorts, then drops an item equal to the one before *)
Fixpoint uniq (l : list T) : list T :=
  match l with
  | a :: (b :: _) as l' => if eq_dec a b then uniq l' else a :: uniq l'
  | _ => l
  end.
Definition sorted_uniq (l : list T) : list T := uniq (sort_by leb l).

(** Counter *)
Definition frequencies (tokens : list T) : dict T nat := fold_left (fun d x => dmodify d x 0 (fun n => n + 1)) tokens [].

(** ppjoin.py:239 *)
Definition labels (freqs : dict T nat) : dict T nat :=
  fold_left (fun d '(i, (token, _)) => dset d token i)
    (enumerate (sort_by (fun a b => Nat.ltb (snd a) (snd b) || (Nat.eqb (snd a) (snd b) && leb (fst a) (fst b))) freqs)) [].

(** ppjoin.py:216-244, token_ordering='freq' *)
Definition preprocess_freq (tokenized : bool) (records : list (list T)) : res (list (list nat)) :=
  let lab := labels (if tokenized then frequencies (concat records) else []) in
  mapM (fun record =>
    let! ls := mapM (fun token => match dget lab token with Some i => Ok i | None => Err KeyError end) (sorted_uniq record) in
    Ok (sort_by Nat.leb ls)) records.

(** ppjoin.py:233-234, token_ordering='crc32'; [crc32] is external *)
Definition preprocess_crc32 (crc32 : T -> N) (records : list (list T)) : list (list N) :=
  map (fun record => sort_by N.leb (map crc32 (sorted_uniq record))) records.
End Join.

(** ppjoin.py:289-296 *)
Definition make_helper (metric : string) (threshold : Q) : res helper :=
  if string_dec metric "jaccard" then Ok (jaccard_helper threshold)
  else if string_dec metric "dice" then Ok (dice_helper threshold)
  else if string_dec metric "binary_cosine" then Ok (binary_cosine_helper threshold)
  else Err TypeError.

(** ppjoin.py:251-426, all_pairs and ppjoin_plus (429-450).  [items]: iterating over a record when there is no tokenizer;
    the elements of a record and the tokens have a same type.  A tokenizer is callable. *)
Definition ppjoin {R T : Type} `{EqDec T} (leb : T -> T -> bool) (crc32 : T -> N) (items : R -> list T)
    (records : list R) (threshold : Q) (metric : string) (tokenizer : option (R -> list T)) (algo : algorithm)
    (token_ordering : option string) : res (list (R * R)) :=
  let unknown := match token_ordering with None => false | Some o => if string_dec o "freq" then false else if string_dec o "crc32" then false else true end in
  if unknown then Err TypeError
  else
    let! h := make_helper metric threshold in
    let tokenized := map (match tokenizer with Some f => f | None => items end) records in
    let! pairs :=
      match token_ordering with
      | None => join leb h threshold algo (map (sorted_uniq leb) tokenized)
      | Some o =>
        if string_dec o "freq" then
          let! rs := preprocess_freq leb (match tokenizer with Some _ => true | None => false end) tokenized in
          join Nat.leb h threshold algo rs
        else join N.leb h threshold algo (preprocess_crc32 leb crc32 tokenized)
      end in
    mapM (fun '(k, c) => let! a := index records k in let! b := index records c in Ok (a, b)) pairs.
