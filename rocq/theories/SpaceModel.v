(** Model of fog/clustering/vp_tree.py and fog/clustering/laesa.py.  Distances are rationals ([Q]). *)
From Coq Require Import QArith Qabs String.
From Verif Require Import Base ClustersModel PairwiseModel.
Open Scope nat_scope.
Open Scope list_scope.
Notation length := List.length.

Section VpTree.
Context {A : Type} `{EqDec A}.
(** phylactery's tree.neighbors_in_radius(item, radius), for the tree of the data and the given radius: external *)
Variable neighbors_in_radius : A -> list A.

(** vp_tree.py:44-63; [visited]: the set of visited items *)
Fixpoint vp_loop (lo : nat) (hi : option nat) (data visited : list A) : list (list A) :=
  match data with
  | [] => []
  | item :: data =>
    if memb item visited then vp_loop lo hi data visited
    else
      let cluster := neighbors_in_radius item in
      if Nat.ltb (length cluster) lo || negb (le_max (length cluster) hi) then vp_loop lo hi data visited
      else cluster :: vp_loop lo hi data (fold_left sadd cluster visited)
  end.
Definition vp_tree (data : list A) (lo : nat) (hi : option nat) : list (list A) := vp_loop lo hi data [].
End VpTree.

Section Laesa.
Context {A : Type} `{EqDec A}.
Variable set_order : list A -> list A.
(** iteration order of the set of pivots *)
Variable pivot_order : list nat -> list nat.
Variable distance : A -> A -> Q.

(** laesa.py:49-58, the loop over the data for one pivot: the accumulated distances [acc], [maximum] and [b_prime] *)
Fixpoint pivot_scan (pivot : A) (p : list nat) (items : list (nat * (A * Q))) (maximum : Q) (b_prime : nat) : list Q * nat :=
  match items with
  | [] => ([], b_prime)
  | (j, (item, a)) :: items =>
    if memb j p then let '(acc, b) := pivot_scan pivot p items maximum b_prime in (a :: acc, b)
    else
      let a := (a + distance pivot item)%Q in
      let '(acc, b) :=
        if Qle_bool a maximum then pivot_scan pivot p items maximum b_prime else pivot_scan pivot p items a j in
      (a :: acc, b)
  end.

(** laesa.py:43-60 *)
Fixpoint pivot_loop (n : nat) (data : list A) (acc : list Q) (p : list nat) (b_prime : nat) : res (list nat) :=
  match n with
  | 0 => Ok p
  | S n =>
    let! pivot := index data b_prime in
    let '(acc, b_prime) := pivot_scan pivot p (enumerate (combine data acc)) 0%Q b_prime in
    pivot_loop n data acc (sadd p b_prime) b_prime
  end.

(** laesa.py:31-71; [draw]: what rng.randint(0, len(data) - 1) returns *)
Definition pivot_selection (draw : nat) (data : list A) (pivots : nat) : res (list nat * list (list Q)) :=
  match data with
  | [] => Err ValueError
  | _ =>
    let! s := pivot_loop pivots data (map (fun _ => 0%Q) data) [] draw in
    let p := pivot_order s in
    let! D := mapM (fun i => let! b := index p i in let! pivot := index data b in Ok (map (distance pivot) data)) (seq 0 pivots) in
    Ok (p, D)
  end.

(** laesa.py:118-127, None: infinity *)
Fixpoint nearest (pivots : list A) (x : A) (d_star : option Q) : option Q :=
  match pivots with
  | [] => d_star
  | y :: pivots =>
    let d := distance y x in
    nearest pivots x (match d_star with Some e => if Qle_bool e d then d_star else Some d | None => Some d end)
  end.

(** laesa.py:131-138 *)
Definition eliminated (d_star : option Q) (rows : list (list Q)) (i k : nat) : bool :=
  match d_star with
  | None => false
  | Some e => existsb (fun row => negb (Qle_bool (Qabs (nth i row 0%Q - nth k row 0%Q)) e)) rows
  end.

(** laesa.py:115-145 *)
Definition laesa_pairs (data pivots : list A) (rows : list (list Q)) (radius : Q) : list (A * A) :=
  flat_map (fun '(i, x) =>
    let d_star := nearest pivots x None in
    flat_map (fun '(k, y) =>
      if Nat.ltb i k && negb (eliminated d_star rows i k) && Qle_bool (distance x y) radius then [(x, y)] else [])
      (enumerate data))
    (enumerate data).

(** laesa.py:75-154; ceil(log2(n)) is exact *)
Definition laesa (draw : nat) (data : list A) (radius : Q) (pivots : option nat) (lo : nat) (hi : option nat) (mode : string)
  : res (list (list A)) :=
  let! n := match pivots with
            | Some n => Ok n
            | None => match data with [] => Err ValueError | _ => Ok (Nat.log2_up (length data)) end
            end in
  let! (p, D) := pivot_selection draw data n in
  let! ps := mapM (index data) (firstn n p) in
  clusters_from_pairs set_order (laesa_pairs data ps D radius) lo hi mode false.
End Laesa.
