(** C176-C182: the calls of key functions *)
From Coq Require Import String QArith.
From Verif Require Import Base BaseFacts ClustersModel PairwiseModel SortModel BlockingModel BlockingSpec BlockingProofs NeighborhoodModel
  HashJoinModel HashJoinSpec HashJoinProofs MinHashModel MinHashSpec MinHashProofs MinHashClusterProofs MetricsModel LevModel CallsModel
  CallsSpec CallsProofs CallsMoreProofs KeyCallsModel KeyCallsSpec KeyCallsProofs KeyCallsMinHashProofs.
Open Scope nat_scope.
Open Scope string_scope.
Open Scope list_scope.
Notation length := List.length.
Notation concat := List.concat.

(** ** C176: one call per item, in the order of the data, before anything is yielded or compared *)

(** key_collision: whatever the key does; the clusters depend on its answers only, and are those of the pure model *)
Theorem C176_key {A K} `{EqDec K} (truthy : K -> bool) (data : list A) lo hi : exists finish : list K -> list (list A) * res unit,
  (forall W (f : user W) (w : W), run f w (key_collision_key_prog truthy data lo hi) = talks f w data finish) /\
  forall key, finish (map key data) = outcome (Ok (key_collision_key truthy key data lo hi)).
Proof. apply collision_key_talks. Qed.
Print Assumptions C176_key.

Theorem C176_keys {A K} `{EqDec A} `{EqDec K} set_order (truthy : K -> bool) (data : list A) lo hi merge :
  exists finish : list (option (list K)) -> list (list A) * res unit,
  (forall W (f : user W) (w : W), run f w (key_collision_keys_prog set_order truthy data lo hi merge) = talks f w data finish) /\
  forall keys, finish (map keys data) = outcome (key_collision_keys set_order truthy keys data lo hi merge).
Proof. apply collision_keys_talks. Qed.
Print Assumptions C176_keys.

(** intersection_index *)
Theorem C176_intersection {A T} `{EqDec T} (token_order : list T -> list T) set_order (data : list A) metric radius lo hi mode :
  In metric ["jaccard"; "overlap"] ->
  exists finish : list (list T) -> list (list A) * res unit,
  (forall W (f : user W) (w : W), run f w (intersection_prog token_order set_order data metric radius lo hi mode) = talks f w data finish) /\
  forall key, match intersection_index token_order set_order data metric radius key lo hi mode with
              | Ok out => finish (map key data) = (out, Ok tt)
              | Err e => snd (finish (map key data)) = Err e
              end.
Proof. apply intersection_talks. Qed.
Print Assumptions C176_intersection.

(** an unknown metric is refused before any call *)
Theorem C176_metric {A T W} `{EqDec T} (token_order : list T -> list T) set_order (data : list A) metric radius lo hi mode (f : user W) (w : W) :
  ~ In metric ["jaccard"; "overlap"] ->
  run f w (intersection_prog token_order set_order data metric radius lo hi mode) = ([], w, Err TypeError).
Proof.
  intros Hm. unfold intersection_prog. destruct (string_dec metric "jaccard") as [->|_]; [exfalso; apply Hm; left; reflexivity|].
  destruct (string_dec metric "overlap") as [->|_]; [exfalso; apply Hm; right; left; reflexivity|]. reflexivity.
Qed.
Print Assumptions C176_metric.

(** blocking: the blocks of all the items, then the comparisons of the model with a pure [block]; if [block] raises, nothing is compared.
    Both functions may share a state. *)
Theorem C176_block {A B} `{EqDec A} `{EqDec B} set_order (block_order : list B -> list B) (data : list A) lo hi mode :
  exists rest : list B -> prog (A * A) bool (list A) unit,
  (forall W (f : @user A B W) (g : @user (A * A) bool W) (w : W),
   run (both f g) w (blocking_block_prog set_order data lo hi mode) =
   match feed f w data with
   | (answers, w, None) => let '(t, w, o) := run g w (rest answers) in (map Asked (map inl data) ++ map of_second t, w, o)
   | (answers, w, Some e) => (map Asked (map inl (firstn (S (length answers)) data)), w, Err e)
   end) /\
  forall block, rest (map block data) = blocking_prog set_order block_order (inl block) data lo hi mode.
Proof. apply blocking_block_then. Qed.
Print Assumptions C176_block.

Theorem C176_blocks {A B} `{EqDec A} `{EqDec B} set_order (block_order : list B -> list B) (data : list A) lo hi mode :
  exists rest : list (list B) -> prog (A * A) bool (list A) unit,
  (forall W (f : @user A (list B) W) (g : @user (A * A) bool W) (w : W),
   run (both f g) w (blocking_blocks_prog set_order block_order data lo hi mode) =
   match feed f w data with
   | (answers, w, None) => let '(t, w, o) := run g w (rest answers) in (map Asked (map inl data) ++ map of_second t, w, o)
   | (answers, w, Some e) => (map Asked (map inl (firstn (S (length answers)) data)), w, Err e)
   end) /\
  forall blocks, rest (map blocks data) = blocking_prog set_order block_order (inr blocks) data lo hi mode.
Proof. apply blocking_blocks_then. Qed.
Print Assumptions C176_blocks.

Example C176_example_collision :
  run (pure (fun x : nat => Nat.modulo x 3)) tt (key_collision_key_prog (fun k => negb (Nat.eqb k 0)) [1; 2; 3; 4; 7] 2 None) =
  ([Asked 1; Asked 2; Asked 3; Asked 4; Asked 7; Gave [1; 4; 7]], tt, Ok tt).
Proof. vm_compute. reflexivity. Qed.
(** a key that counts its calls, and raises at the third one *)
Definition third (n : nat) (x : nat) : nat * res nat := (S n, if Nat.ltb n 2 then Ok (Nat.modulo x 3) else Err KeyError).
Example C176_example_raises :
  run third 0 (key_collision_key_prog (fun k => negb (Nat.eqb k 0)) [1; 4; 3; 7] 2 None) = ([Asked 1; Asked 4; Asked 3], 3, Err KeyError).
Proof. vm_compute. reflexivity. Qed.
Example C176_example_blocking :
  run (both (still (fun x => Nat.modulo x 2)) (fun n q => (S n, Ok (Nat.eqb (fst q + 2) (snd q))))) 0
    (blocking_block_prog (fun l => l) [1; 2; 3; 6] 2 None "connected_components") =
  ([Asked (inl 1); Asked (inl 2); Asked (inl 3); Asked (inl 6); Asked (inr (1, 3)); Asked (inr (2, 6)); Gave [1; 3]], 2, Ok tt).
Proof. vm_compute. reflexivity. Qed.
Example C176_example_intersection :
  run (pure (fun x : nat => [x; 5])) tt (intersection_prog (fun l => l) (fun l => l) [1; 1; 2] "jaccard" 1 2 None "connected_components") =
  ([Asked 1; Asked 1; Asked 2; Gave [1; 1]], tt, Ok tt).
Proof. vm_compute. reflexivity. Qed.

(** ** C177: sorted neighborhood asks for the keys once per pass *)

(** whatever both functions do: each key in turn is called with each item, in the order of the data; when the data is an iterator, the
    first pass takes it all *)
Theorem C177_calls {A K P W} `{EqDec A} set_order (key_leb : K -> K -> bool) (item_leb : A -> A -> bool)
  (f : @user (P * A) K W) (g : @user (A * A) bool W) w once data key keys window lo hi mode t w' o :
  run (both f g) w (neighborhood_keys_prog set_order key_leb item_leb once data key keys window lo hi mode) = (t, w', o) ->
  match o with
  | Ok _ => lefts (asked t) = key_calls once data (match keys with Some ks => ks | None => [key] end)
  | Err _ => starts (lefts (asked t)) (key_calls once data (match keys with Some ks => ks | None => [key] end))
  end.
Proof.
  intros E. pose proof (keys_met_clusters set_order (both f g) w (passes_prog key_leb item_leb
      (fun pairs s => for_each (window_cells window (length s)) pairs (compare_prog s)) once data
       (match keys with Some ks => ks | None => [key] end) []) lo hi mode (match keys with Some _ => true | None => false end) _
       (keys_met_passes key_leb item_leb _ f g once _ w data [])) as M.
  unfold neighborhood_keys_prog in E. rewrite E in M. exact M.
Qed.
Print Assumptions C177_calls.

Theorem C177_adaptive_calls {A K P W} `{EqDec A} set_order (key_leb : K -> K -> bool) (item_leb : A -> A -> bool)
  (f : @user (P * A) K W) (g : @user (A * A) bool W) w fuel once data key keys step lo hi mode t w' o :
  run (both f g) w (adaptive_keys_prog set_order key_leb item_leb fuel once data key keys step lo hi mode) = (t, w', o) ->
  match o with
  | Ok _ => lefts (asked t) = key_calls once data (match keys with Some ks => ks | None => [key] end)
  | Err _ => starts (lefts (asked t)) (key_calls once data (match keys with Some ks => ks | None => [key] end))
  end.
Proof.
  intros E. pose proof (keys_met_clusters set_order (both f g) w (passes_prog key_leb item_leb
      (fun pairs s => adaptive_loop_prog fuel s step 0 pairs) once data
       (match keys with Some ks => ks | None => [key] end) []) lo hi mode (match keys with Some _ => true | None => false end) _
       (keys_met_passes key_leb item_leb _ f g once _ w data [])) as M.
  unfold adaptive_keys_prog in E. rewrite E in M. exact M.
Qed.
Print Assumptions C177_adaptive_calls.

(** with keys that do not change nor raise, the rest is the run of the model where keys are not called; the similarity does as it likes *)
Theorem C177_same {A K P W} `{EqDec A} set_order (key_leb : K -> K -> bool) (item_leb : A -> A -> bool) (key : P * A -> K)
  (g : @user (A * A) bool W) w once data k keys window lo hi mode t w' o :
  run (both (still key) g) w (neighborhood_keys_prog set_order key_leb item_leb once data k keys window lo hi mode) = (t, w', o) ->
  run g w (neighborhood_prog set_order once data (by_key key_leb item_leb key k)
             (option_map (map (by_key key_leb item_leb key)) keys) window lo hi mode) = (hide t, w', o).
Proof. intros E. rewrite <- (neighborhood_hidden set_order key_leb item_leb key g), E. reflexivity. Qed.
Print Assumptions C177_same.

Theorem C177_adaptive_same {A K P W} `{EqDec A} set_order (key_leb : K -> K -> bool) (item_leb : A -> A -> bool) (key : P * A -> K)
  (g : @user (A * A) bool W) w fuel once data k keys step lo hi mode t w' o :
  run (both (still key) g) w (adaptive_keys_prog set_order key_leb item_leb fuel once data k keys step lo hi mode) = (t, w', o) ->
  run g w (adaptive_prog set_order fuel once data (by_key key_leb item_leb key k)
             (option_map (map (by_key key_leb item_leb key)) keys) step lo hi mode) = (hide t, w', o).
Proof. intros E. rewrite <- (adaptive_hidden set_order key_leb item_leb key g), E. reflexivity. Qed.
Print Assumptions C177_adaptive_same.

(** two passes: without key, then with the key of name 7; the keys of a pass come before its comparisons, after those of the pass before *)
Example C177_example :
  run (both (still (fun q : nat * nat => 10 - snd q)) (fun n q => (S n, Ok (Nat.eqb (fst q) (snd q + 1))))) 0
    (neighborhood_keys_prog (fun l => l) Nat.leb Nat.leb false [2; 5; 1] None (Some [None; Some 7]) 2 2 None "connected_components") =
  ([Asked (inr (1, 2)); Asked (inr (2, 5)); Asked (inl (7, 2)); Asked (inl (7, 5)); Asked (inl (7, 1)); Asked (inr (5, 2)); Asked (inr (2, 1));
    Gave [2; 1]], 4, Ok tt).
Proof. vm_compute. reflexivity. Qed.
Example C177_example_adaptive :
  run (both (still (fun q : nat * nat => snd q)) (fun n q => (S n, Ok (Nat.leb (snd q) (fst q + 1))))) 0
    (adaptive_keys_prog (fun l => l) Nat.leb Nat.leb 9 true [2; 9; 1] (Some 7) None 1 2 None "connected_components") =
  ([Asked (inl (7, 2)); Asked (inl (7, 9)); Asked (inl (7, 1)); Asked (inr (1, 2)); Asked (inr (2, 9)); Asked (inr (2, 9)); Asked (inr (1, 2));
    Gave [1; 2]], 4, Ok tt).
Proof. vm_compute. reflexivity. Qed.

(** ** C178: hashjoin and minhash ask for the same keys again and again *)
Theorem C178_hashjoin_refuted : forall n, exists (left right : list nat) (key : nat -> nat) t x,
  run (both (still key) (still (fun x => Collection [x]))) tt (hashjoin_prog (Collection left) (Collection right) true false) = (t, tt, Ok tt) /\
  NoDup (left ++ right) /\ In x right /\ count_occ Nat.eq_dec (lefts (asked t)) x = n.
Proof.
  intros n. exists (seq 1 n), (0 :: seq (S n) n), (fun x => x).
  destruct (key_loop_pure (fun x : nat => x) false (seq 1 n) (Collection (0 :: seq (S n) n))) as [B E].
  exists (map of_first (key_trace (fun x : nat => x) false (seq 1 n) (Collection (0 :: seq (S n) n)))), 0.
  assert (Hs : swapped (Collection (seq 1 n)) (Collection (0 :: seq (S n) n)) = false).
  { cbn [swapped length]. rewrite !seq_length. apply Nat.ltb_ge. lia. }
  split; [|split; [|split]].
  - rewrite hashjoin_key_run. unfold outer, inner. rewrite Hs. cbn [items].
    change (@still nat nat unit (fun x => x)) with (@pure nat nat (fun x => x)). rewrite E. reflexivity.
  - apply NoDup_app_iff. split; [apply seq_NoDup|]. split.
    + constructor; [rewrite in_seq; lia|apply seq_NoDup].
    + intros x Hx [<-|Hx']; apply in_seq in Hx; [lia|]. apply in_seq in Hx'. lia.
  - left. reflexivity.
  - rewrite asked_first, lefts_inl. rewrite key_trace_list by reflexivity. cbn [items].
    assert (Hr : forall a, 0 < a -> count_occ Nat.eq_dec (asked (key_row (fun x : nat => x) false a (0 :: seq (S n) n))) 0 = 1).
    { intros a Ha. unfold key_row. cbn [flat_map]. rewrite asked_app. destruct (eqb a 0) eqn:Ea; [rewrite eqb_true in Ea; lia|].
      cbn [asked flat_map app count_occ]. fold (@asked nat (nat * nat)).
      destruct (Nat.eq_dec 0 0) as [_|Hne]; [|contradiction]. f_equal. apply count_occ_not_In. intros Hin.
      assert (G : forall l, In 0 (asked (flat_map (fun b : nat => Asked b :: (if eqb a b then [Gave (a, b)] else [])) l)) -> In 0 l).
      { induction l as [|b l IH]; [auto|]. cbn [flat_map]. rewrite asked_app, in_app_iff. intros [H1|H1]; [left|right; apply IH, H1].
        destruct (eqb a b); destruct H1 as [H1|[]]; exact H1. }
      apply G in Hin. apply in_seq in Hin. lia. }
    assert (Hf : forall m s, 0 < s -> count_occ Nat.eq_dec (asked (flat_map (fun a => Asked a :: key_row (fun x : nat => x) false a (0 :: seq (S n) n)) (seq s m))) 0 = m).
    { induction m as [|m IH]; intros s Hs0; [reflexivity|]. cbn [seq flat_map]. rewrite asked_app.
      rewrite count_occ_app, IH by lia. change (asked (Asked s :: ?l)) with (s :: asked l).
      change (asked (Asked s :: key_row (fun x : nat => x) false s (0 :: seq (S n) n))) with (s :: asked (key_row (fun x : nat => x) false s (0 :: seq (S n) n))).
      cbn [count_occ]. destruct (Nat.eq_dec s 0); [lia|]. rewrite Hr by exact Hs0. reflexivity. }
    apply Hf. lia.
Qed.
Print Assumptions C178_hashjoin_refuted.

(** two items with the same key, in the same bucket for both bands: three calls each *)
Theorem C178_minhash_refuted : exists (data : list nat) (key : nat -> sequence N) t x,
  run (pure key) tt (minhash_prog (fun n => n) (fun n => n) (fun l => l) (fun l => l) (fun _ _ => false) [(1, 2); (3, 4)]%N data 2 (1 # 2) (Some 2))
    = (t, tt, Ok tt) /\ NoDup data /\ In x data /\ count_occ Nat.eq_dec (asked t) x = 3.
Proof.
  exists [5; 6], (fun _ => Tokens [7; 8]%N), ([Asked 5; Asked 6; Asked 5; Asked 6; Asked 5; Asked 6; Gave [5; 6]]), 5.
  split; [vm_compute; reflexivity|]. split; [repeat constructor; cbn; intuition discriminate|]. split; [left; reflexivity|reflexivity].
Qed.
Print Assumptions C178_minhash_refuted.

(** ** C179: hashjoin asks for the key of each outer item once, and for the keys of all the inner items each time *)

(** whatever the function does, with [key] and with [keys]; when it raises it is not called again *)
Theorem C179_calls {T K W} `{EqDec K} (f : @user T K W) (g : @user T (iterable K) W) w left right t w' o :
  run (both f g) w (hashjoin_prog left right true false) = (t, w', o) ->
  match o with
  | Ok _ => asked t = map inl (join_calls left right)
  | Err _ => exists n, asked t = map inl (firstn (S n) (join_calls left right))
  end.
Proof.
  rewrite hashjoin_key_run. pose proof (steady_run f _ _ (key_loop_steady (K := K) (swapped left right) (items (outer left right)) (inner left right)) w) as R.
  destruct (run f w _) as [[t0 w0] [B|e]]; intros [= <- <- <-]; rewrite asked_first.
  - f_equal. exact R.
  - destruct R as [n R]. exists n. f_equal. exact R.
Qed.
Print Assumptions C179_calls.

Theorem C179_keys_calls {T K W} `{EqDec K} (f : @user T K W) (g : @user T (iterable K) W) w left right t w' o :
  run (both f g) w (hashjoin_prog left right false true) = (t, w', o) ->
  match o with
  | Ok _ => asked t = map inr (join_calls left right)
  | Err _ => exists n, asked t = map inr (firstn (S n) (join_calls left right))
  end.
Proof.
  rewrite hashjoin_keys_run. pose proof (steady_run g _ _ (keys_loop_steady (K := K) (swapped left right) (items (outer left right)) (inner left right)) w) as R.
  destruct (run g w _) as [[t0 w0] [B|e]]; intros [= <- <- <-]; rewrite asked_second.
  - f_equal. exact R.
  - destruct R as [n R]. exists n. f_equal. exact R.
Qed.
Print Assumptions C179_keys_calls.

(** how many calls *)
Theorem C179_number {T} (left right : iterable T) :
  length (join_calls left right) =
  if reiterable (inner left right) then length (items (outer left right)) * S (length (items (inner left right)))
  else match length (items (outer left right)) with 0 => 0 | n => n + length (items (inner left right)) end.
Proof.
  unfold join_calls. destruct (reiterable (inner left right)).
  - induction (items (outer left right)) as [|a l IH]; [reflexivity|]. cbn [flat_map length]. rewrite app_length. cbn [length]. rewrite IH. lia.
  - destruct (items (outer left right)) as [|a l]; [reflexivity|]. cbn [length]. rewrite app_length. lia.
Qed.
Print Assumptions C179_number.

(** with a pure key, re-iterable inner items: a pair is yielded as soon as the key of its inner item is known *)
Theorem C179_trace {T K} `{EqDec K} (key : T -> K) (keys : T -> iterable K) left right : reiterable (inner left right) = true ->
  run (both (still key) (still keys)) tt (hashjoin_prog left right true false) =
  (flat_map (fun a => Asked (inl a) :: flat_map (fun b => Asked (inl b) :: (if eqb (key a) (key b) then [Gave (ordered left right (a, b))] else []))
     (items (inner left right))) (items (outer left right)), tt, Ok tt).
Proof.
  intros Hi. rewrite hashjoin_key_run. change (@still T K unit key) with (@pure T K key).
  destruct (key_loop_pure key (swapped left right) (items (outer left right)) (inner left right)) as [B E]. rewrite E. rewrite (key_trace_list key (swapped left right) _ _ Hi).
  f_equal. f_equal. clear E Hi. unfold ordered. cbn [fst snd]. induction (items (outer left right)) as [|a l IH]; [reflexivity|].
  cbn [flat_map]. rewrite map_app. f_equal; [|exact IH]. cbn [map of_first]. f_equal. clear IH. unfold key_row.
  induction (items (inner left right)) as [|b bs IHb]; [reflexivity|]. cbn [flat_map]. rewrite map_app, IHb. f_equal. cbn [map of_first].
  destruct (eqb (key a) (key b)); [|reflexivity]. destruct (swapped left right); reflexivity.
Qed.
Print Assumptions C179_trace.

(** the pairs are those of the model with pure functions, for all iterables *)
Theorem C179_agrees {T K} `{EqDec K} (key : T -> K) (keys : T -> iterable K) left right :
  (exists t, run (both (still key) (still keys)) tt (hashjoin_prog left right true false) = (t, tt, Ok tt) /\
     given t = hashjoin left right (Some key) None) /\
  ((forall x, reiterable (keys x) = true) ->
   exists t, run (both (still key) (still keys)) tt (hashjoin_prog left right false true) = (t, tt, Ok tt) /\
     given t = hashjoin left right None (Some (fun x => items (keys x)))).
Proof.
  split.
  - rewrite hashjoin_key_run. change (@still T K unit key) with (@pure T K key).
    destruct (key_loop_pure key (swapped left right) (items (outer left right)) (inner left right)) as [B E]. rewrite E.
    eexists. split; [reflexivity|]. rewrite given_first, key_trace_given. symmetry. apply (hashjoin_sides left right key (fun _ => [])).
  - intros Hk. rewrite hashjoin_keys_run. change (@still T (iterable K) unit keys) with (@pure T (iterable K) keys).
    destruct (keys_loop_pure keys (swapped left right) (items (outer left right)) (inner left right)) as [B E]. rewrite E.
    eexists. split; [reflexivity|]. rewrite given_second, keys_trace_given by exact Hk. symmetry.
    apply (hashjoin_sides left right key (fun x => items (keys x))).
Qed.
Print Assumptions C179_agrees.

Example C179_example :
  run (both (still (fun x => Nat.modulo x 2)) (still (fun x => Collection [x]))) tt
    (hashjoin_prog (Collection [1; 2; 3]) (Collection [5; 4]) true false) =
  ([Asked (inl 5); Asked (inl 1); Gave (1, 5); Asked (inl 2); Asked (inl 3); Gave (3, 5);
    Asked (inl 4); Asked (inl 1); Asked (inl 2); Gave (2, 4); Asked (inl 3)], tt, Ok tt).
Proof. vm_compute. reflexivity. Qed.
Example C179_example_iterator :
  map (fun r => lefts (asked r)) [fst (fst (run (both (still (fun x => x)) (still (fun x => Collection [x]))) tt
    (hashjoin_prog (Collection [1; 2]) (Iterator [5; 4]) true false)))] = [[1; 5; 4; 2]].
Proof. vm_compute. reflexivity. Qed.

(** ** C180: minhash asks for each key once, then for the keys of a pair each time it meets the pair *)
Section MinHash.
Context {A T : Type} `{EqDec A} `{EqDec T}.
Variable crc32 : T -> N.
Variable letter : N -> T.
Variable token_order : list N -> list N.
Hypothesis token_order_perm : forall l, Permutation (token_order l) l.
Variable set_order : list A -> list A.
Hypothesis set_order_perm : forall l, Permutation (set_order l) l.
Variable same : A -> A -> bool.
Variable key : A -> sequence T.

(** all the items, then two calls per pair; a pair of different items is met once for each band where both signatures are the same *)
Theorem C180_calls (dec : forall x y : A * A, {x = y} + {x <> y}) params data h radius bands : length params = h ->
  let b := match bands with Some b => b | None => guess_bands h radius end in 0 < b <= h ->
  exists pairs out, minhash crc32 letter token_order set_order key same params data h radius bands = Ok out /\
    run (pure key) tt (minhash_prog crc32 letter token_order set_order same params data h radius bands) =
    (map Asked (data ++ flat_map (fun ab => [fst ab; snd ab]) pairs) ++ map Gave out, tt, Ok tt) /\
    (NoDup data -> forall x y sx sy n, precedes data x y ->
     create_signature crc32 token_order params h (key x) = Ok sx -> create_signature crc32 token_order params h (key y) = Ok sy ->
     card (fun i => i < b /\ forall j, i * (h / b) <= j < S i * (h / b) -> nth_error sx j = nth_error sy j) n ->
     count_occ dec pairs (x, y) = n).
Proof.
  intros L b Hb.
  destruct (minhash_run crc32 letter token_order token_order_perm set_order set_order_perm same params h ltac:(lia) key data radius bands Hb) as [out [E R]].
  fold b in R. eexists _, out. split; [exact E|]. split; [exact R|]. intros ND x y sx sy n P Ex Ey C.
  rewrite (sig_eq crc32 token_order token_order_perm) in Ex, Ey by lia. injection Ex as <-. injection Ey as <-.
  apply (minhash_count crc32 token_order set_order set_order_perm same params h ltac:(lia)); first [assumption|apply Nat.div_str_pos; lia|apply Nat.mul_div_le; lia].
Qed.

(** no call with no band, one call if there are more bands than hashes *)
Theorem C180_fails params x data h radius : length params = h ->
  run (pure key) tt (minhash_prog crc32 letter token_order set_order same params (x :: data) h radius (Some 0)) = ([], tt, Err ZeroDivisionError) /\
  forall b, h < b -> run (pure key) tt (minhash_prog crc32 letter token_order set_order same params (x :: data) h radius (Some b)) =
    ([Asked x], tt, Err ValueError).
Proof.
  intros L. split; [reflexivity|]. intros b Hb. unfold minhash_prog. destruct (Nat.eqb_spec b 0); [lia|].
  rewrite (Nat.div_small h b) by exact Hb. unfold fill_prog. cbn [for_each pbind run pure].
  rewrite (sig_eq crc32 token_order token_order_perm) by lia. reflexivity.
Qed.
End MinHash.
Print Assumptions C180_calls.
Print Assumptions C180_fails.

(** ** C181: the keys of an item may be any iterable *)

(** keys given by a generator: a pair is lost *)
Theorem C181_refuted : exists (left right : list nat) (keys : nat -> list nat) a b t,
  In a left /\ In b right /\ shares_key keys a b /\
  run (both (still (fun x => x)) (still (fun x => Iterator (keys x)))) tt (hashjoin_prog (Collection left) (Collection right) false true) = (t, tt, Ok tt) /\
  ~ In (a, b) (given t).
Proof.
  exists [1], [2; 1], (fun x => [x]), 1, 1, [Asked (inr 1); Asked (inr 2); Asked (inr 1)].
  split; [left; reflexivity|]. split; [right; left; reflexivity|]. split; [exists 1; split; left; reflexivity|].
  split; [vm_compute; reflexivity|]. intros [].
Qed.
Print Assumptions C181_refuted.

(** ** C182: with generators, an outer item is joined with the first inner item only *)
Theorem C182_generators {T K} `{EqDec K} (key : T -> K) (keys : T -> list K) left right : reiterable (inner left right) = true ->
  exists m, (forall a b, m a b = true <-> shares_key keys a b) /\
  exists t, run (both (still key) (still (fun x => Iterator (keys x)))) tt (hashjoin_prog left right false true) = (t, tt, Ok tt) /\
    given t = map (ordered left right) (matching_pairs m (items (outer left right)) (firstn 1 (items (inner left right)))).
Proof.
  intros Hi. exists (common_key keys). split; [apply common_key_true|]. rewrite hashjoin_keys_run.
  change (@still T (iterable K) unit (fun x => Iterator (keys x))) with (@pure T (iterable K) (fun x => Iterator (keys x))).
  destruct (keys_loop_pure (fun x => Iterator (keys x)) (swapped left right) (items (outer left right)) (inner left right)) as [B E]. rewrite E.
  eexists. split; [reflexivity|]. rewrite given_second, keys_trace_once by exact Hi. clear E Hi. unfold matching_pairs, ordered.
  induction (items (outer left right)) as [|a l IH]; [reflexivity|]. cbn [flat_map list_prod]. rewrite filter_app, map_app, IH. f_equal.
  destruct (firstn 1 (items (inner left right))) as [|b bs] eqn:Eb; [reflexivity|].
  assert (bs = []) as -> by (destruct (items (inner left right)); cbn in Eb; [discriminate|injection Eb as _ <-; reflexivity]).
  unfold row_pairs. cbn [flat_map map filter fst snd]. destruct (common_key keys a b); [|reflexivity]. destruct (swapped left right); reflexivity.
Qed.
Print Assumptions C182_generators.

(** with lists, all the pairs that share a key *)
Theorem C182_lists {T K} `{EqDec K} (key : T -> K) (keys : T -> list K) left right : reiterable right = true ->
  exists m, (forall a b, m a b = true <-> shares_key keys a b) /\
  exists t, run (both (still key) (still (fun x => Collection (keys x)))) tt (hashjoin_prog left right false true) = (t, tt, Ok tt) /\
    Permutation (given t) (matching_pairs m (items left) (items right)).
Proof.
  intros Hr. exists (common_key keys). split; [apply common_key_true|].
  destruct (C179_agrees key (fun x => Collection (keys x)) left right) as [_ G]. destruct (G (fun _ => eq_refl)) as (t & E & Eg).
  exists t. split; [exact E|]. rewrite Eg. apply hashjoin_keys. exact Hr.
Qed.
Print Assumptions C182_lists.

Example C182_example :
  given (fst (fst (run (both (still (fun x => x)) (still (fun x => Iterator [x; x + 1]))) tt
    (hashjoin_prog (Collection [1; 2; 3]) (Collection [2; 1; 3]) false true)))) = [(1, 2); (2, 2); (3, 2)].
Proof. vm_compute. reflexivity. Qed.
