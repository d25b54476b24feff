(** Model of fog/clustering/fagin.py with the similarity it calls, sparse_cosine_similarity of fog/metrics/cosine.py.  Weights are
    rationals and the cosines real numbers.  A generator gives what it yields, then maybe an exception. *)
From Coq Require Import QArith Reals Qreals.
From Verif Require Import Base PairwiseModel SortModel MetricsModel FaginModel.
Open Scope nat_scope.

Definition outcome (X : Type) : Type := list X * option exn.

(** for x in l: yield from f(x) *)
Fixpoint each {X Y} (f : X -> res (list Y)) (l : list X) : outcome Y :=
  match l with
  | [] => ([], None)
  | x :: l =>
    match f x with
    | Err e => ([], Some e)
    | Ok ys => let '(rest, e) := each f l in (ys ++ rest, e)
    end
  end.

Section Fagin.
Context {D : Type} `{EqDec D}.

Definition real (v : vector D) : dict D R := map (fun dw => (fst dw, Q2R (snd dw))) v.
Definition cosine (same : bool) (u v : vector D) : res R := sparse_cosine_similarity same (real u) (real v).

(** whether the vectors at two positions are the same object *)
Variable same : nat -> nat -> bool.

(** ** threshold_algorithm_k1, fagin.py:68-129 *)
Record search := { seen : list nat; top : option (R * nat); bound : vector D }.

(** fagin.py:91-118 *)
Fixpoint search_turn (vectors : list (vector D)) (lists : dict D (list (Q * nat))) (i : nat) (vec : vector D) (dims : list D) (offset : nat)
    (stop : bool) (st : search) : res (search * bool) :=
  match dims with
  | [] => Ok (st, stop)
  | d :: dims =>
    let l := list_of lists d in
    match nth_error l offset with
    | None => search_turn vectors lists i vec dims offset stop st
    | Some (w0, j0) =>
      match (if Nat.eqb i j0 then nth_error l (offset + 1) else Some (w0, j0)) with
      | None => search_turn vectors lists i vec dims offset false st
      | Some (w, j) =>
        let tv := dset (bound st) d w in
        if memb j (seen st) then search_turn vectors lists i vec dims offset false {| seen := seen st; top := top st; bound := tv |}
        else
          let! cs := cosine (same i j) vec (nth j vectors []) in
          let better := match top st with None => true | Some (b, _) => if Rlt_dec b cs then true else false end in
          search_turn vectors lists i vec dims offset false
            {| seen := sadd (seen st) j; top := if better then Some (cs, j) else top st; bound := tv |}
      end
    end
  end.

(** fagin.py:88-129 *)
Fixpoint search_while (fuel : nat) (vectors : list (vector D)) (lists : dict D (list (Q * nat))) (i : nat) (vec : vector D) (offset : nat)
    (st : search) : res (nat * nat) :=
  match fuel with
  | 0 => Err OutOfFuel
  | S fuel =>
    let! (st, stop) := search_turn vectors lists i vec (dkeys vec) offset true st in
    if stop then Ok (i, match top st with Some (_, j) => j | None => i end)
    else
      let! t := cosine false vec (bound st) in
      match top st with
      | Some (b, j) => if Rle_dec t b then Ok (i, j) else search_while fuel vectors lists i vec (S offset) st
      | None => search_while fuel vectors lists i vec (S offset) st
      end
  end.

Definition threshold_cosine (vectors : list (vector D)) : outcome (nat * nat) :=
  let lists := sorted_lists vectors in
  each (fun iv => let! p := search_while (while_fuel vectors) vectors lists (fst iv) (snd iv) 0 {| seen := []; top := None; bound := [] |} in Ok [p])
    (enumerate vectors).

(** ** sqrt_indexation_pairs, fagin.py:153-174 *)

(** min(leaders, key=...): the first minimum; the keys are computed from left to right *)
Fixpoint min_cosine (vectors : list (vector D)) (i : nat) (v : vector D) (m : nat) (km : R) (l : list nat) : res nat :=
  match l with
  | [] => Ok m
  | x :: l =>
    let! c := cosine (same i x) v (nth x vectors []) in
    if Rlt_dec (1 - c) km then min_cosine vectors i v x (1 - c) l else min_cosine vectors i v m km l
  end.

Definition leader_cosine (vectors : list (vector D)) (leaders : list nat) (i : nat) (v : vector D) : res nat :=
  match leaders with
  | [] => Err ValueError
  | m :: leaders => let! c := cosine (same i m) v (nth m vectors []) in min_cosine vectors i v m (1 - c) leaders
  end.

Fixpoint sqrt_cosine_loop (vectors : list (vector D)) (leaders : list nat) (items : list (nat * vector D)) (proximities : dict nat (list nat))
  : outcome (nat * nat) :=
  match items with
  | [] => ([], None)
  | (i, v) :: items =>
    match leader_cosine vectors leaders i v with
    | Err e => ([], Some e)
    | Ok leader =>
      let l := match dget proximities leader with Some l => l | None => [] end in
      let '(rest, e) := sqrt_cosine_loop vectors leaders items (dmodify proximities leader [] (fun l => l ++ [i])) in
      ((i, leader) :: map (fun j => (i, j)) l ++ rest, e)
    end
  end.

(** [indices]: the shuffled positions *)
Definition sqrt_cosine (indices : list nat) (vectors : list (vector D)) : outcome (nat * nat) :=
  sqrt_cosine_loop vectors (firstn (Nat.sqrt (length vectors)) indices) (enumerate vectors) [].
End Fagin.
