(** The clustering functions as programs that call the function of the user: which pairs it is given, in
    which order, and what has been yielded before.  The other models take that function to be pure and total; here
    it may keep a state, answer differently each time and raise.
    fog/clustering/pairwise.py, blocking.py, sorted_neighborhood.py, passjoin.py and utils.py. *)
From Coq Require Import String.
From Verif Require Import Base ClustersModel PairwiseModel SortModel BlockingModel NeighborhoodModel.
From Verif Require PassJoinModel LevModel.
Open Scope nat_scope.
Open Scope string_scope.
Open Scope list_scope.
Notation length := List.length.
Notation concat := List.concat.

(** A generator: it returns, raises, calls the user's function with [q] and goes on with its answer, or yields [c] and
    goes on.  No function modelled here catches exceptions.  [Q]: arguments of a call, [B]: answers, [C]: what is yielded. *)
Inductive prog (Q B C R : Type) : Type :=
| Ret (r : R)
| Raise (e : exn)
| Call (q : Q) (k : B -> prog Q B C R)
| Yield (c : C) (p : prog Q B C R).
Arguments Ret {Q B C R} r.
Arguments Raise {Q B C R} e.
Arguments Call {Q B C R} q k.
Arguments Yield {Q B C R} c p.

Inductive event (Q C : Type) : Type :=
| Asked (q : Q)
| Gave (c : C).
Arguments Asked {Q C} q.
Arguments Gave {Q C} c.

Section Prog.
Context {Q B C : Type}.
Notation prog := (prog Q B C).

Fixpoint pbind {R R'} (p : prog R) (f : R -> prog R') : prog R' :=
  match p with
  | Ret r => f r
  | Raise e => Raise e
  | Call q k => Call q (fun b => pbind (k b) f)
  | Yield c p => Yield c (pbind p f)
  end.

Definition lift {R} (r : res R) : prog R := match r with Ok a => Ret a | Err e => Raise e end.

(** a [for] loop; [st]: the variables that its body changes *)
Fixpoint for_each {X St} (l : list X) (st : St) (body : St -> X -> prog St) : prog St :=
  match l with
  | [] => Ret st
  | x :: l => pbind (body st x) (fun st => for_each l st body)
  end.

(** the user's function: from its state and the arguments to its new state and its answer, or exception *)
Definition user (W : Type) := W -> Q -> W * res B.

(** what happens until the generator is exhausted, or fails; the last state of the user's function and the end *)
Fixpoint run {W R} (f : user W) (w : W) (p : prog R) : list (event Q C) * W * res R :=
  match p with
  | Ret r => ([], w, Ok r)
  | Raise e => ([], w, Err e)
  | Call q k =>
    match f w q with
    | (w, Ok b) => let '(t, w, o) := run f w (k b) in (Asked q :: t, w, o)
    | (w, Err e) => ([Asked q], w, Err e)
    end
  | Yield c p => let '(t, w, o) := run f w p in (Gave c :: t, w, o)
  end.

(** a function without state that does not raise *)
Definition pure (f : Q -> B) : user unit := fun w q => (w, Ok (f q)).

Definition asked (t : list (event Q C)) : list Q :=
  flat_map (fun e => match e with Asked q => [q] | Gave _ => [] end) t.
Definition given (t : list (event Q C)) : list C :=
  flat_map (fun e => match e with Asked _ => [] | Gave c => [c] end) t.

(** [yield from] over a list *)
Fixpoint yield_from (l : list C) : prog unit :=
  match l with
  | [] => Ret tt
  | c :: l => Yield c (yield_from l)
  end.
End Prog.

Notation "'do' x <- a ; b" := (pbind a (fun x => b)) (at level 200, x pattern, a at level 100, b at level 200).

Section Pairwise.
Context {A K : Type}.
(** calls of the function that make_similarity_function returns; it calls the user's function once, with the same arguments *)
Notation sprog := (prog (K * K) bool (list A)).

(** yield [data[i] for i in c], pairwise.py:262-264, 367-368 *)
Fixpoint yield_read (data : list A) (l : list (list nat)) : sprog unit :=
  match l with
  | [] => Ret tt
  | c :: l => do c <- lift (mapM (index data) c); Yield c (yield_read data l)
  end.

(** pairwise.py:220-231, 250-264: pairwise_fuzzy_clusters with processes = 1 *)
Definition fuzzy_prog (key : A -> K) (data : list A) (lo : nat) (hi : option nat) : sprog unit :=
  do graph <- for_each (upper_pairs (map key data)) [] (fun graph ab =>
      Call (snd (fst ab), snd (snd ab)) (fun similar : bool =>
        Ret (if similar then add_pair false graph (fst (fst ab), fst (snd ab)) else graph)));
  yield_read data (fuzzy_loop (fun l => l) false lo hi graph []).

(** pairwise.py:332-348, 366-368: pairwise_connected_components with processes = 1 *)
Definition components_prog (key : A -> K) (data : list A) (lo : nat) (hi : option nat) : sprog unit :=
  do sets <- for_each (upper_pairs (map key data)) (uf_make (length data)) (fun sets ab =>
      if uf_connected sets (fst (fst ab)) (fst (snd ab)) then Ret sets
      else Call (snd (fst ab), snd (snd ab)) (fun similar : bool =>
        Ret (if similar then uf_union sets (fst (fst ab)) (fst (snd ab)) else sets)));
  yield_read data (uf_components sets lo hi).

(** pairwise.py:118-143 pairwise_worker; the workers yield nothing *)
Definition worker_prog (payload : list K * list K * nat * nat) : sprog (list (nat * nat)) :=
  let '(rows, cols, offset_i, offset_j) := payload in
  for_each (if Nat.eqb offset_i offset_j then upper_pairs rows else cross_pairs rows cols) [] (fun pairs ab =>
    Call (snd (fst ab), snd (snd ab)) (fun similar : bool =>
      Ret (if similar then pairs ++ [(offset_i + fst (fst ab), offset_j + fst (snd ab))] else pairs))).
End Pairwise.

Section Leader.
Context {A : Type}.
Notation sprog := (prog (A * A) bool (list A)).

(** pairwise.py:94-112 *)
Fixpoint leader_inner_prog (hi : option nat) (a : A) (rest : list (nat * A)) (visited : list nat)
    (cluster : option (list A)) : sprog (list nat * option (list A)) :=
  match rest with
  | [] => Ret (visited, cluster)
  | (j, b) :: rest' =>
    if memb j visited then leader_inner_prog hi a rest' visited cluster
    else Call (a, b) (fun similar : bool =>
      if similar then
        let cluster' := match cluster with None => [a; b] | Some c => c ++ [b] end in
        if negb (le_max (length cluster') hi) then Raise AttributeError
        else leader_inner_prog hi a rest' (j :: visited) (Some cluster')
      else leader_inner_prog hi a rest' visited cluster)
  end.

(** pairwise.py:86-115 *)
Fixpoint leader_loop_prog (lo : nat) (hi : option nat) (l : list (nat * A)) (visited : list nat) : sprog unit :=
  match l with
  | [] => Ret tt
  | (i, a) :: rest =>
    if memb i visited then leader_loop_prog lo hi rest visited
    else
      do (visited', cluster) <- leader_inner_prog hi a rest visited None;
      match cluster with
      | Some c => if Nat.leb lo (length c) then Yield c (leader_loop_prog lo hi rest visited')
                  else leader_loop_prog lo hi rest visited'
      | None => leader_loop_prog lo hi rest visited'
      end
  end.

(** pairwise.py:19-115 pairwise_leader *)
Definition leader_prog (data : list A) (lo : nat) (hi : option nat) : sprog unit :=
  leader_loop_prog lo hi (enumerate data) [].

(** pairwise.py:371-408 pairwise, processes = 1; the mode is checked before anything else *)
Definition pairwise_prog (data : list A) (lo : nat) (hi : option nat) (mode : string) : sprog unit :=
  if string_dec mode "leader" then leader_prog data lo hi
  else if string_dec mode "fuzzy_clusters" then fuzzy_prog (fun x => x) data lo hi
  else if string_dec mode "connected_components" then components_prog (fun x => x) data lo hi
  else Raise TypeError.
End Leader.

Section Pairs.
Context {A B : Type} `{EqDec A} `{EqDec B}.
Variable set_order : list A -> list A.
Variable block_order : list B -> list B.
Notation sprog := (prog (A * A) bool (list A)).

(** utils.py:44-128 clusters_from_pairs on a generator of pairs: the pairs are all drawn first (lines 78-80), even if the mode
    is unknown *)
Definition clusters_prog {Q T} (pairs : prog Q T (list A) (list (A * A))) (lo : nat) (hi : option nat) (mode : string)
    (fuzzy : bool) : prog Q T (list A) unit :=
  do pairs <- pairs;
  do clusters <- lift (clusters_from_pairs set_order pairs lo hi mode fuzzy);
  yield_from clusters.

(** compare a and b, and yield the pair if they are similar *)
Definition keep_similar (pairs : list (A * A)) (ab : A * A) : sprog (list (A * A)) :=
  Call ab (fun similar : bool => Ret (if similar then pairs ++ [ab] else pairs)).

(** utils.py:148-185 clusters_from_buckets with a similarity *)
Definition buckets_prog (buckets : list (list A)) (lo : nat) (hi : option nat) (mode : string) (fuzzy : bool) : sprog unit :=
  clusters_prog (for_each (pairs_from_buckets buckets) [] keep_similar) lo hi mode fuzzy.

(** blocking.py:21-47 block_worker without [serialized]; [graph]: None, or the dictionary of line 41 *)
Definition block_worker_prog (block : list A) (graph : option (dict A (list A))) : sprog (list (A * A)) :=
  for_each (bucket_pairs block) [] (fun pairs ab =>
    if match graph with
       | None => false
       | Some g => match dget g (fst ab) with Some l => memb (snd ab) l | None => false end
       end
    then Ret pairs
    else keep_similar pairs ab).

(** blocking.py:50-149 blocking with processes = 1.  [worker_graph] (lines 95-98) is never filled.
    The functions [block] and [blocks] are pure and total. *)
Definition blocking_prog (how : (A -> B) + (A -> list B)) (data : list A) (lo : nat) (hi : option nat) (mode : string)
    : sprog unit :=
  let '(buckets, worker_graph, fuzzy) :=
    match how with
    | inl block => (dispatch_block block data, None, false)
    | inr blocks => (dispatch_blocks block_order blocks data, Some [], true)
    end in
  clusters_prog
    (for_each (dvalues buckets) [] (fun pairs bucket =>
       if Nat.ltb (length bucket) 2 then Ret pairs
       else do found <- block_worker_prog bucket worker_graph; Ret (pairs ++ found)))
    lo hi mode fuzzy.

(** sorted_neighborhood.py:96-99, 217-218, 223-227 *)
Definition compare_prog (s : list A) (pairs : list (A * A)) (ij : nat * nat) : sprog (list (A * A)) :=
  do a <- lift (index s (fst ij));
  do b <- lift (index s (snd ij));
  keep_similar pairs (a, b).

(** sorted_neighborhood.py:92-95 *)
Definition window_cells (window n : nat) : list (nat * nat) :=
  flat_map (fun i => map (fun j => (i, j)) (range (i + 1) (Nat.min n (i + window)))) (range 0 n).

(** sorted_neighborhood.py:30-108 sorted_neighborhood *)
Definition neighborhood_prog (once : bool) (data : list A) (key : A -> A -> bool)
    (keys : option (list (A -> A -> bool))) (window lo : nat) (hi : option nat) (mode : string) : sprog unit :=
  let multipass_keys := match keys with Some ks => ks | None => [key] end in
  clusters_prog
    (for_each (sorted_passes once data multipass_keys) [] (fun pairs s =>
       for_each (window_cells window (length s)) pairs (compare_prog s)))
    lo hi mode (match keys with Some _ => true | None => false end).

(** sorted_neighborhood.py:122-125 *)
Fixpoint enlarge_prog (fuel : nat) (s : list A) (f first last : nat) : sprog nat :=
  match fuel with
  | O => Raise OutOfFuel
  | S fuel' =>
    do a <- lift (index s first);
    do b <- lift (index s last);
    Call (a, b) (fun similar : bool => if similar then enlarge_prog fuel' s f last (last + (last - f)) else Ret last)
  end.

(** sorted_neighborhood.py:130-139; [k] is [w - window] *)
Fixpoint retrench_prog (k : nat) (s : list A) (last : nat) : sprog nat :=
  match k with
  | O => Ret last
  | S k' =>
    do a <- lift (index s (last - 1));
    do b <- lift (index s last);
    Call (a, b) (fun similar : bool => if similar then Ret last else retrench_prog k' s (last - 1))
  end.

(** sorted_neighborhood.py:207-227 for one interval *)
Definition interval_cells (start stop : nat) : list (nat * nat) :=
  let l := stop - start + 1 in
  if Nat.eqb l 1 then []
  else if Nat.eqb l 2 then [(start, stop)]
  else flat_map (fun i => map (fun j => (i, j)) (range (i + 1) (stop + 1))) (range start (stop + 1)).

(** sorted_neighborhood.py:118-149 and 207-227: full_AA_SNM is a generator, each interval is compared before the next one is
    looked for *)
Fixpoint adaptive_loop_prog (fuel : nat) (s : list A) (step first : nat) (pairs : list (A * A)) : sprog (list (A * A)) :=
  match fuel with
  | O => Raise OutOfFuel
  | S fuel' =>
    let n := length s in
    let last := first + step in
    if Nat.ltb last n then
      do last <- enlarge_prog fuel s first first last;
      do last <- retrench_prog (last - first - step) s last;
      do pairs <- for_each (interval_cells first last) pairs (compare_prog s);
      adaptive_loop_prog fuel' s step (last + 1) pairs
    else if Nat.ltb first n then for_each (interval_cells first (n - 1)) pairs (compare_prog s)
    else Ret pairs
  end.

(** sorted_neighborhood.py:152-236 adaptive_sorted_neighborhood, with window = step + 1 *)
Definition adaptive_prog (fuel : nat) (once : bool) (data : list A) (key : A -> A -> bool)
    (keys : option (list (A -> A -> bool))) (step lo : nat) (hi : option nat) (mode : string) : sprog unit :=
  let multipass_keys := match keys with Some ks => ks | None => [key] end in
  clusters_prog
    (for_each (sorted_passes once data multipass_keys) [] (fun pairs s => adaptive_loop_prog fuel s step 0 pairs))
    lo hi mode (match keys with Some _ => true | None => false end).
End Pairs.

Section PassJoin.
Import PassJoinModel LevModel.
Variable k : nat.
(** the distance is an integer *)
Notation dprog := (prog (str * str) nat (list str)).

(** passjoin.py:246-269 *)
Definition match_prog (sort : bool) (L : index_t) (A : str) (pairs : list (str * str)) : dprog (list (str * str)) :=
  let s := length A in
  let lo := if sort then s else s - k in
  for_each (seq lo (s + k + 1 - lo)) pairs (fun pairs l =>
    match dget L l with
    | None => Ret pairs
    | Some Ll =>
      for_each (partition k l) pairs (fun pairs '(i, start, len) =>
        for_each (multi_match_aware_substrings k A l i start len) pairs (fun pairs substring =>
          match dget Ll (i, substring) with
          | None => Ret pairs
          | Some candidates =>
            for_each candidates pairs (fun pairs B =>
              if Nat.leb s k && Nat.leb l k then Ret (pairs ++ [(A, B)])
              else Call (A, B) (fun d => Ret (if Nat.leb d k then pairs ++ [(A, B)] else pairs)))
          end))
    end).

(** passjoin.py:193-283 passjoin *)
Definition passjoin_prog (set_order : list str -> list str) (data : list str) (sort : bool)
    (lo : nat) (hi : option nat) (mode : string) : dprog unit :=
  let data := if sort then sorted data else data in
  clusters_prog set_order
    (do (_, pairs) <- for_each data ([], []) (fun '(L, pairs) A =>
       do pairs <- match_prog sort L A pairs; Ret (index_string k L A, pairs));
     Ret pairs)
    lo hi mode false.
End PassJoin.
