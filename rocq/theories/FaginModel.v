(** Model of fog/clustering/fagin.py.  Weights are rationals; the cosine similarity is a parameter. *)
From Coq Require Import QArith.
From Verif Require Import Base PairwiseModel SortModel.
Open Scope nat_scope.

Section Fagin.
Context {D : Type} `{EqDec D}.
Definition vector := dict D Q.

(** ** naive_cosine_pairs, fagin.py:132-150 *)

(** for j in l: if j in visited: continue; visited.add(j); yield i, j *)
Fixpoint naive_list (i : nat) (l visited : list nat) : list (nat * nat) * list nat :=
  match l with
  | [] => ([], visited)
  | j :: l =>
    if memb j visited then naive_list i l visited
    else let '(out, visited) := naive_list i l (sadd visited j) in ((i, j) :: out, visited)
  end.

Fixpoint naive_dims (i : nat) (dims : list D) (lists : dict D (list nat)) (visited : list nat) : list (nat * nat) * dict D (list nat) :=
  match dims with
  | [] => ([], lists)
  | d :: dims =>
    let l := match dget lists d with Some l => l | None => [] end in
    let '(out1, visited) := naive_list i l visited in
    let '(out2, lists) := naive_dims i dims (dmodify lists d [] (fun l => l ++ [i])) visited in
    (out1 ++ out2, lists)
  end.

Fixpoint naive_loop (vectors : list (nat * vector)) (lists : dict D (list nat)) : list (nat * nat) :=
  match vectors with
  | [] => []
  | (i, v) :: vectors =>
    let '(out, lists) := naive_dims i (dkeys v) lists [] in
    out ++ naive_loop vectors lists
  end.
Definition naive_cosine_pairs (vectors : list vector) : list (nat * nat) := naive_loop (enumerate vectors) [].

(** ** inverted lists sorted by weight, then position: fagin.py:34-41, 71-78 *)
Definition entry_le (a b : Q * nat) : bool :=
  if Qle_bool (fst a) (fst b) then (if Qle_bool (fst b) (fst a) then Nat.leb (snd a) (snd b) else true) else false.

Definition invert (vectors : list vector) : dict D (list (Q * nat)) :=
  fold_left (fun lists iv => fold_left (fun lists dw => dmodify lists (fst dw) [] (fun l => l ++ [(snd dw, fst iv)])) (snd iv) lists) (enumerate vectors) [].

Definition sorted_lists (vectors : list vector) : dict D (list (Q * nat)) :=
  map (fun dl => (fst dl, sort_by entry_le (snd dl))) (invert vectors).

Definition list_of (lists : dict D (list (Q * nat))) (d : D) : list (Q * nat) :=
  match dget lists d with Some l => l | None => [] end.

(** ** fagin_k1, fagin.py:33-65 *)

(** one turn of the loop over the dimensions: the counts, and whether all the lists are exhausted *)
Fixpoint fagin_turn (lists : dict D (list (Q * nat))) (dims : list D) (offset : nat) (counts : dict nat nat) : dict nat nat * bool :=
  match dims with
  | [] => (counts, true)
  | d :: dims =>
    match nth_error (list_of lists d) offset with
    | Some (w, j) => (fst (fagin_turn lists dims offset (dmodify counts j 0 (fun c => c + 1))), false)
    | None => fagin_turn lists dims offset counts
    end
  end.

Fixpoint fagin_while (fuel : nat) (lists : dict D (list (Q * nat))) (i : nat) (dims : list D) (offset : nat) (counts : dict nat nat)
  : res (list (nat * list nat)) :=
  match fuel with
  | 0 => Err OutOfFuel
  | S fuel =>
    let '(counts, stop) := fagin_turn lists dims offset counts in
    if stop then Ok []
    else if Nat.leb 2 (length (filter (fun c => Nat.leb (length dims) c) (dvalues counts)))
    then Ok [(i, filter (fun j => negb (Nat.eqb j i)) (dkeys counts))]
    else fagin_while fuel lists i dims (S offset) counts
  end.

Definition while_fuel (vectors : list vector) : nat := S (S (length vectors)).

Definition fagin_k1 (vectors : list vector) : res (list (nat * list nat)) :=
  let lists := sorted_lists vectors in
  let! outs := mapM (fun iv => fagin_while (while_fuel vectors) lists (fst iv) (dkeys (snd iv)) 0 []) (enumerate vectors) in
  Ok (concat outs).

(** ** threshold_algorithm_k1, fagin.py:68-129 *)
Variable similarity : vector -> vector -> Q.

Record threshold_state := { visited : list nat; best : option (Q * nat); t_vector : vector }.

(** one turn of the loop over the dimensions, with [stop] *)
Fixpoint threshold_turn (vectors : list vector) (lists : dict D (list (Q * nat))) (i : nat) (vec : vector) (dims : list D) (offset : nat)
    (stop : bool) (st : threshold_state) : threshold_state * bool :=
  match dims with
  | [] => (st, stop)
  | d :: dims =>
    let l := list_of lists d in
    match nth_error l offset with
    | None => threshold_turn vectors lists i vec dims offset stop st
    | Some (w0, j0) =>
      match (if Nat.eqb i j0 then nth_error l (offset + 1) else Some (w0, j0)) with
      | None => threshold_turn vectors lists i vec dims offset false st
      | Some (w, j) =>
        let tv := dset (t_vector st) d w in
        if memb j (visited st)
        then threshold_turn vectors lists i vec dims offset false {| visited := visited st; best := best st; t_vector := tv |}
        else
          let cs := similarity vec (nth j vectors []) in
          let better := match best st with None => true | Some (b, _) => negb (Qle_bool cs b) end in
          threshold_turn vectors lists i vec dims offset false
            {| visited := sadd (visited st) j; best := if better then Some (cs, j) else best st; t_vector := tv |}
      end
    end
  end.

Fixpoint threshold_while (fuel : nat) (vectors : list vector) (lists : dict D (list (Q * nat))) (i : nat) (vec : vector) (offset : nat)
    (st : threshold_state) : res (nat * nat) :=
  match fuel with
  | 0 => Err OutOfFuel
  | S fuel =>
    let '(st, stop) := threshold_turn vectors lists i vec (dkeys vec) offset true st in
    if stop then Ok (i, match best st with Some (_, j) => j | None => i end)
    else
      let t := similarity vec (t_vector st) in
      match best st with
      | Some (b, j) => if Qle_bool t b then Ok (i, j) else threshold_while fuel vectors lists i vec (S offset) st
      | None => threshold_while fuel vectors lists i vec (S offset) st
      end
  end.

Definition threshold_algorithm_k1 (vectors : list vector) : res (list (nat * nat)) :=
  let lists := sorted_lists vectors in
  mapM (fun iv => threshold_while (while_fuel vectors) vectors lists (fst iv) (snd iv) 0 {| visited := []; best := None; t_vector := [] |})
    (enumerate vectors).

(** ** sqrt_indexation_pairs, fagin.py:153-174 *)

(** min(leaders, key=...): the first minimum *)
Fixpoint min_by (key : nat -> Q) (m : nat) (l : list nat) : nat :=
  match l with [] => m | x :: l => min_by key (if Qle_bool (key m) (key x) then m else x) l end.

Definition leader_of (vectors : list vector) (leaders : list nat) (v : vector) : res nat :=
  match leaders with
  | [] => Err ValueError
  | m :: leaders => Ok (min_by (fun x => (1 - similarity v (nth x vectors []))%Q) m leaders)
  end.

Fixpoint sqrt_loop (vectors : list vector) (leaders : list nat) (items : list (nat * vector)) (proximities : dict nat (list nat))
  : res (list (nat * nat)) :=
  match items with
  | [] => Ok []
  | (i, v) :: items =>
    let! leader := leader_of vectors leaders v in
    let l := match dget proximities leader with Some l => l | None => [] end in
    let! rest := sqrt_loop vectors leaders items (dmodify proximities leader [] (fun l => l ++ [i])) in
    Ok ((i, leader) :: map (fun j => (i, j)) l ++ rest)
  end.

(** [indices]: the shuffled positions *)
Definition sqrt_indexation_pairs (indices : list nat) (vectors : list vector) : res (list (nat * nat)) :=
  sqrt_loop vectors (firstn (Nat.sqrt (length vectors)) indices) (enumerate vectors) [].
End Fagin.
Arguments vector : clear implicits.
