(** fog/clustering/ppjoin.py as a program that calls the tokenizer, and yields the pairs when they are found.  The tokenizer may keep
    a state, answer differently each time, with any iterable, and raise. *)
From Coq Require Import QArith String ZArith.
From Verif Require Import Base LevModel PairwiseModel GraphModel SortModel HashJoinModel PPJoinModel PPJoinAnyModel CallsModel KeyCallsModel.
Open Scope nat_scope.
Open Scope string_scope.
Open Scope list_scope.
Notation length := List.length.

Section Join.
Context {R A U : Type} `{EqDec U}.
Variable leb : U -> U -> bool.
Variable h : any_helper.
Variable threshold : Q.
Variable algo : algorithm.
Variable data : list R.
Variable records : list (list U).

(** lines 402-426 *)
Definition verify_prog (probe_length : Z) (requires : list Z) (k : nat) (record : list U) (entry : nat * option nat) : prog R A (R * R) unit :=
  do found <- lift (any_verify leb h records probe_length requires k record entry);
  for_each found tt (fun _ '(k, candidate) =>
    do a <- lift (index data k); do b <- lift (index data candidate); Yield (a, b) (Ret tt)).

(** lines 308-400 *)
Definition candidates (idx : inverted) (k : nat) : res (inverted * occurrences * Z * list Z) :=
  let record := record_of records k in
  let! min_length := any_min_length h (length record) in
  let! probe_length := any_probe_length h (length record) in
  let! index_length := any_index_length h (length record) in
  let! requires := require_overlaps h (length record) min_length in
  let! (idx, occ) := foldM (any_probe leb threshold algo records min_length index_length requires k record) (seq 0 (Z.to_nat probe_length)) (idx, []) in
  Ok (idx, occ, probe_length, requires).

(** lines 304-426 *)
Definition join_prog : prog R A (R * R) unit :=
  do _ <- for_each (argsort records) ([] : inverted) (fun idx k =>
    do (idx, occ, probe_length, requires) <- lift (candidates idx k);
    do _ <- for_each occ tt (fun _ entry => verify_prog probe_length requires k (record_of records k) entry);
    Ret idx);
  Ret tt.
End Join.

(** lines 251-426 with a tokenizer; 221-234: the records are made of what its answers give *)
Definition ppjoin_prog {R T} `{EqDec T} (leb : T -> T -> bool) (crc32 : T -> N) (records : list R) (threshold : Q) (metric : string)
    (algo : algorithm) (token_ordering : option string) : prog R (iterable T) (R * R) unit :=
  let unknown := match token_ordering with None => false | Some o => if string_dec o "freq" then false else if string_dec o "crc32" then false else true end in
  if unknown then Raise TypeError
  else
    do h <- lift (make_any_helper metric threshold);
    do answers <- ask_each records;
    let tokenized := map (fun ra => fst (consume (snd ra))) answers in
    match token_ordering with
    | None => join_prog leb h threshold algo records (map (sorted_uniq leb) tokenized)
    | Some o =>
      if string_dec o "freq" then
        do rs <- lift (preprocess_freq leb true tokenized);
        join_prog Nat.leb h threshold algo records rs
      else join_prog N.leb h threshold algo records (preprocess_crc32 leb crc32 tokenized)
    end.
