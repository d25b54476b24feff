(** The calls of the distance in fog/clustering/laesa.py and fog/clustering/quickjoin.py (one process, no vp-tree).  See
    CallsModel: the function of the user may keep a state, answer anything and raise. *)
From Coq Require Import QArith Qabs String.
From Verif Require Import Base ClustersModel PairwiseModel CallsModel SpaceModel QuickJoinModel.
Open Scope nat_scope.
Open Scope list_scope.
Notation length := List.length.

Section Laesa.
Context {A : Type} `{EqDec A}.
Variable set_order : list A -> list A.
Variable pivot_order : list nat -> list nat.
Notation qprog := (prog (A * A) Q (list A)).

(** laesa.py:49-58 *)
Fixpoint pivot_scan_prog (pivot : A) (p : list nat) (items : list (nat * (A * Q))) (maximum : Q) (b_prime : nat)
    : qprog (list Q * nat) :=
  match items with
  | [] => Ret ([], b_prime)
  | (j, (item, a)) :: items =>
    if memb j p then do (acc, b) <- pivot_scan_prog pivot p items maximum b_prime; Ret (a :: acc, b)
    else Call (pivot, item) (fun d : Q =>
      let a := (a + d)%Q in
      do (acc, b) <-
        (if Qle_bool a maximum then pivot_scan_prog pivot p items maximum b_prime else pivot_scan_prog pivot p items a j);
      Ret (a :: acc, b))
  end.

(** laesa.py:43-60 *)
Fixpoint pivot_loop_prog (n : nat) (data : list A) (acc : list Q) (p : list nat) (b_prime : nat) : qprog (list nat) :=
  match n with
  | 0 => Ret p
  | S n =>
    do pivot <- lift (index data b_prime);
    do (acc, b_prime) <- pivot_scan_prog pivot p (enumerate (combine data acc)) 0%Q b_prime;
    pivot_loop_prog n data acc (sadd p b_prime) b_prime
  end.

(** laesa.py:31-71 *)
Definition pivot_selection_prog (draw : nat) (data : list A) (pivots : nat) : qprog (list nat * list (list Q)) :=
  match data with
  | [] => Raise ValueError
  | _ =>
    do s <- pivot_loop_prog pivots data (map (fun _ => 0%Q) data) [] draw;
    let p := pivot_order s in
    do D <- for_each (seq 0 pivots) [] (fun D i =>
      do b <- lift (index p i);
      do pivot <- lift (index data b);
      do row <- for_each data [] (fun row item => Call (pivot, item) (fun d : Q => Ret (row ++ [d])));
      Ret (D ++ [row]));
    Ret (p, D)
  end.

(** laesa.py:118-127 *)
Definition nearest_prog (pivots : list A) (x : A) : qprog (option Q) :=
  for_each pivots None (fun d_star y =>
    Call (y, x) (fun d : Q =>
      Ret (match d_star with Some e => if Qle_bool e d then d_star else Some d | None => Some d end))).

(** laesa.py:115-147: the pairs, and the number that is printed *)
Definition laesa_pairs_prog (data pivots : list A) (rows : list (list Q)) (radius : Q) : qprog (list (A * A) * nat) :=
  for_each (enumerate data) ([], 0) (fun st '(i, x) =>
    do d_star <- nearest_prog pivots x;
    for_each (filter (fun ky => Nat.ltb i (fst ky)) (enumerate data)) st (fun '(pairs, DD) '(k, y) =>
      if eliminated d_star rows i k then Ret (pairs, DD)
      else Call (x, y) (fun d : Q => Ret (if Qle_bool d radius then pairs ++ [(x, y)] else pairs, DD + 1)))).

(** laesa.py:75-154; what is printed is not an event *)
Definition laesa_prog (draw : nat) (data : list A) (radius : Q) (pivots : option nat) (lo : nat) (hi : option nat) (mode : string)
    : qprog unit :=
  do n <- lift (match pivots with
                | Some n => Ok n
                | None => match data with [] => Err ValueError | _ => Ok (Nat.log2_up (length data)) end
                end);
  do (p, D) <- pivot_selection_prog draw data n;
  do ps <- lift (mapM (index data) (firstn n p));
  clusters_prog set_order (do (pairs, _) <- laesa_pairs_prog data ps D radius; Ret pairs) lo hi mode false.
End Laesa.

Section QuickJoin.
Context {A : Type} `{EqDec A}.
Variable set_order : list A -> list A.
(** quickjoin.py:236-238: what is done with the answers of the function, and the radius *)
Variable sign : Q -> Q.
Variable radius : Q.
Notation qprog := (prog (A * A) Q (list A)).

(** quickjoin.py:40-63 *)
Fixpoint partition_prog (items : list A) (p : A) (rho : Q) : qprog (list A * list A * list A * list A) :=
  match items with
  | [] => Ret ([], [], [], [])
  | item :: items =>
    Call (p, item) (fun q : Q =>
      let d := sign q in
      do (L, G, Lw, Gw) <- partition_prog items p rho;
      Ret (if negb (Qle_bool rho d)
           then (item :: L, G, (if Qle_bool (rho - radius) d then item :: Lw else Lw), Gw)
           else (L, item :: G, Lw, (if Qle_bool d (rho + radius) then item :: Gw else Gw))))
  end.

Definition keep_close (pairs : list (A * A)) (ab : A * A) : qprog (list (A * A)) :=
  Call ab (fun q : Q => Ret (if Qle_bool (sign q) radius then pairs ++ [ab] else pairs)).

(** quickjoin.py:66-87 and 317-320 *)
Definition solve_prog (b : block A) (pairs : list (A * A)) : qprog (list (A * A)) :=
  for_each (match b with Self items => bucket_pairs items | Cross S1 S2 => flat_map (fun a => map (fun b => (a, b)) S2) S1 end)
    pairs keep_close.

(** quickjoin.py:241-320: blocks is a generator, each block is compared before the next one is looked for *)
Fixpoint quick_loop_prog (beta : Q) (block_size : nat) (fuel : nat) (stack : list (block A)) (draws : list nat) (pairs : list (A * A))
    : qprog (list (A * A)) :=
  match stack, fuel with
  | [], _ => Ret pairs
  | _, 0 => Raise OutOfFuel
  | Self items :: stack, S fuel =>
    let n := length items in
    if Nat.leb n block_size then
      do pairs <- solve_prog (Self items) pairs;
      quick_loop_prog beta block_size fuel stack draws pairs
    else
      do (i1, draws) <- lift (randint n draws);
      do (i2, draws) <- lift (draw_other n i1 draws);
      do p1 <- lift (index items i1);
      do p2 <- lift (index items i2);
      Call (p1, p2) (fun q : Q =>
        let rho := (beta * sign q)%Q in
        do (L, G, Lw, Gw) <- partition_prog items p1 rho;
        quick_loop_prog beta block_size fuel (Cross Lw Gw :: Self L :: Self G :: stack) draws pairs)
  | Cross S1 S2 :: stack, S fuel =>
    let n1 := length S1 in
    let n2 := length S2 in
    let n := n1 + n2 in
    if Nat.leb n block_size then
      if Nat.eqb n1 0 || Nat.eqb n2 0 then quick_loop_prog beta block_size fuel stack draws pairs
      else
        do pairs <- solve_prog (Cross S1 S2) pairs;
        quick_loop_prog beta block_size fuel stack draws pairs
    else
      do (i1, draws) <- lift (randint n draws);
      do (i2, draws) <- lift (draw_other n i1 draws);
      do p1 <- lift (if Nat.ltb i1 n1 then index S1 i1 else index S2 (i1 - n1));
      do p2 <- lift (if Nat.ltb i2 n1 then index S1 i2 else index S2 (i2 - n1));
      Call (p1, p2) (fun q : Q =>
        let rho := (beta * sign q)%Q in
        do (L1, G1, Lw1, Gw1) <- partition_prog S1 p1 rho;
        do (L2, G2, Lw2, Gw2) <- partition_prog S2 p1 rho;
        quick_loop_prog beta block_size fuel (Cross Gw1 Lw2 :: Cross Lw1 Gw2 :: Cross G1 G2 :: Cross L1 L2 :: stack) draws pairs)
  end.

Definition quick_prog (fuel : nat) (draws : list nat) (data : list A) (block_size lo : nat) (hi : option nat) (mode : string) (beta : Q)
    : qprog unit :=
  clusters_prog set_order (quick_loop_prog beta block_size fuel [Self data] draws []) lo hi mode true.
End QuickJoin.

(** quickjoin.py:191-340 with processes = 1 and vp_tree = False; [similar]: the function is a similarity *)
Definition quickjoin_prog {A} `{EqDec A} (set_order : list A -> list A) (similar : bool) (fuel : nat) (draws : list nat) (data : list A)
    (radius : Q) (block_size lo : nat) (hi : option nat) (mode : string) (beta : Q) : prog (A * A) Q (list A) unit :=
  if similar then quick_prog set_order (fun q => - q)%Q (- radius)%Q fuel draws data block_size lo hi mode beta
  else quick_prog set_order (fun q => q) radius fuel draws data block_size lo hi mode beta.

(** quickjoin(data, radius): neither a distance nor a similarity; calling None is a TypeError *)
Definition missing {Q B} : @user Q B unit := fun w _ => (w, Err TypeError).
