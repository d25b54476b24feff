(** C167-C170: the calls of the distance made by laesa and quickjoin *)
From Coq Require Import QArith Qabs String.
From Verif Require Import Base BaseFacts ClustersModel PairwiseModel CallsModel CallsSpec CallsProofs CallsMoreProofs
  SpaceModel QuickJoinModel MetricCallsModel MetricCallsSpec MetricCallsProofs.
From Verif Require SpaceProofs.
Open Scope nat_scope.
Open Scope string_scope.
Open Scope list_scope.
Notation length := List.length.
Notation concat := List.concat.

(** ** C167: the calls of laesa, exactly *)
Section Laesa.
Context {A : Type} `{EqDec A}.
Variable distance : A -> A -> Q.
Variable set_order : list A -> list A.
Variable pivot_order : list nat -> list nat.
Hypothesis pivot_order_perm : forall l, Permutation (pivot_order l) l.
Notation ask := (pure (fun q => distance (fst q) (snd q))).

(** the model that calls the distance gives what the model of C75 gives *)
Theorem C167_agrees draw data radius pivots lo hi mode : (data <> [] -> draw < length data) ->
  exists t o, run ask tt (laesa_prog set_order pivot_order draw data radius pivots lo hi mode) = (t, tt, o) /\
    outcome (laesa set_order pivot_order distance draw data radius pivots lo hi mode) = (given t, o).
Proof. apply laesa_agrees. Qed.

(** all the calls come first: those that choose the pivots, those that fill the table of the pivots, then, for each item, one with each
    pivot and one with each following item that is not eliminated *)
Theorem C167_trace draw data radius pivots lo hi mode n p D ps : draw < length data ->
  n = match pivots with Some n => n | None => Nat.log2_up (length data) end ->
  pivot_selection pivot_order distance draw data n = Ok (p, D) -> mapM (index data) (firstn n p) = Ok ps ->
  exists chosen out o, outcome (laesa set_order pivot_order distance draw data radius pivots lo hi mode) = (out, o) /\
    run ask tt (laesa_prog set_order pivot_order draw data radius pivots lo hi mode) =
      (map Asked (chosen ++ table_calls data ps ++ item_calls distance data ps D) ++ map Gave out, tt, o) /\
    length ps = n /\ D = map (fun y => map (distance y) data) ps /\
    2 * length chosen + n * (n - 1) = 2 * n * length data.
Proof. apply laesa_run. exact pivot_order_perm. Qed.

(** with p pivots, n items and k pairs that are not eliminated: 3 p n - p (p - 1) / 2 + k calls *)
Theorem C167_count draw data radius pivots lo hi mode n p D ps t o : draw < length data ->
  n = match pivots with Some n => n | None => Nat.log2_up (length data) end ->
  pivot_selection pivot_order distance draw data n = Ok (p, D) -> mapM (index data) (firstn n p) = Ok ps ->
  run ask tt (laesa_prog set_order pivot_order draw data radius pivots lo hi mode) = (t, tt, o) ->
  2 * length (asked t) + n * (n - 1) = 6 * n * length data + 2 * length (kept_pairs distance data ps D).
Proof.
  intros Hd En Hs Hp E. destruct (laesa_run distance set_order pivot_order pivot_order_perm draw data radius pivots lo hi mode n p D ps Hd En Hs Hp)
    as (chosen & out & o' & _ & Hr & Hl & _ & Hc).
  rewrite Hr in E. injection E as <- _. rewrite asked_app, asked_Asked, asked_Gave, app_nil_r, !app_length, (table_calls_length distance), item_calls_length, Hl. nia.
Qed.

(** whatever the function does, it is only called with items of the data *)
Theorem C167_items {W} (f : user W) (w : W) draw data radius pivots lo hi mode t w' o :
  run f w (laesa_prog set_order pivot_order draw data radius pivots lo hi mode) = (t, w', o) ->
  forall x y, In (x, y) (asked t) -> In x data /\ In y data.
Proof.
  intros E x y Hin. apply (run_calls_in (fun q => In (fst q) data /\ In (snd q) data) f _
    (laesa_inside data set_order pivot_order draw radius pivots lo hi mode) w t w' o E (x, y) Hin).
Qed.

(** ** C169: with the default number of pivots and at most 30 items, laesa calls the distance more often than comparing all the pairs *)
Theorem C169_worse draw data radius lo hi mode p D ps t o : 2 <= length data -> length data <= 30 -> draw < length data ->
  pivot_selection pivot_order distance draw data (Nat.log2_up (length data)) = Ok (p, D) ->
  mapM (index data) (firstn (Nat.log2_up (length data)) p) = Ok ps ->
  run ask tt (laesa_prog set_order pivot_order draw data radius None lo hi mode) = (t, tt, o) ->
  length (cells (length data)) < length (asked t).
Proof.
  intros H1 H2 Hd Hs Hp E. pose proof (C167_count draw data radius None lo hi mode _ p D ps t o Hd eq_refl Hs Hp E) as Hc.
  pose proof (length_cells (length data)) as Hl. set (n := length data) in *. clearbody n. set (k := length (kept_pairs _ _ _ _)) in *. clearbody k.
  assert (Hn : In n (seq 2 29)) by (apply in_seq; lia). clear H1 H2.
  assert (G : forall m, In m (seq 2 29) -> m * (m - 1) + Nat.log2_up m * (Nat.log2_up m - 1) < 6 * Nat.log2_up m * m).
  { intros m Hm. cbn [seq] in Hm. repeat (destruct Hm as [<-|Hm]; [vm_compute; lia|]). destruct Hm. }
  specialize (G n Hn). lia.
Qed.
End Laesa.
Print Assumptions C167_agrees.
Print Assumptions C167_trace.
Print Assumptions C167_count.
Print Assumptions C167_items.
Print Assumptions C169_worse.

(** ** C168: the number that laesa prints *)
Definition gap (x y : nat) : Q := inject_Z (Z.abs (Z.of_nat x - Z.of_nat y)).
Definition ask_gap : @user (nat * nat) Q unit := pure (fun q => gap (fst q) (snd q)).
Definition laesa_data := [0; 1; 5].

(** "DISTANCES: 0" is printed where the distance is called 17 times *)
Theorem C168_refuted :
  exists p D ps, pivot_selection (fun l => l) gap 0 laesa_data 2 = Ok (p, D) /\ mapM (index laesa_data) (firstn 2 p) = Ok ps /\
    (exists t pairs, run ask_gap tt (laesa_pairs_prog laesa_data ps D 1) = (t, tt, Ok (pairs, 0))) /\
    (exists t, run ask_gap tt (laesa_prog (fun l => l) (fun l => l) 0 laesa_data 1 None 2 None "connected_components") = (t, tt, Ok tt) /\
      length (asked t) = 17).
Proof.
  eexists _, _, _. split; [vm_compute; reflexivity|]. split; [vm_compute; reflexivity|]. split; [eexists _, _; vm_compute; reflexivity|].
  eexists. split; vm_compute; reflexivity.
Qed.
Print Assumptions C168_refuted.

(** ** C169: the number printed is the number of pairs that are not eliminated *)
Theorem C169_printed {A} `{EqDec A} (distance : A -> A -> Q) data pivots rows radius :
  exists t, run (pure (fun q => distance (fst q) (snd q))) tt (laesa_pairs_prog data pivots rows radius) =
    (t, tt, Ok (laesa_pairs distance data pivots rows radius, length (kept_pairs distance data pivots rows))) /\
    length (asked t) = length data * length pivots + length (kept_pairs distance data pivots rows).
Proof.
  eexists. split; [apply laesa_pairs_run|]. rewrite asked_Asked. apply item_calls_length.
Qed.
Print Assumptions C169_printed.

(** the pairs kept are pairs of positions i < k, at most n (n - 1) / 2 *)
Theorem C169_kept {A} (distance : A -> A -> Q) data pivots rows :
  exists cs, subseq cs (cells (length data)) /\ kept_pairs distance data pivots rows = at_cells data cs.
Proof. apply kept_cells. Qed.
Print Assumptions C169_kept.

(** ** C170: the calls of quickjoin (one process, no vp-tree) *)
Section QuickJoin.
Context {A : Type} `{EqDec A}.
Variable set_order : list A -> list A.

Definition as_measure (similar : bool) (f : A -> A -> Q) : measure A := if similar then Similarity f else Distance f.

(** the model that calls the function gives what the model of C23 and C86 gives *)
Theorem C170_agrees neighbors identity unordered similar f fuel draws data radius size lo hi mode beta :
  exists t o, run (pure (fun q => f (fst q) (snd q))) tt (quickjoin_prog set_order similar fuel draws data radius size lo hi mode beta) = (t, tt, o) /\
    outcome (quickjoin set_order neighbors identity unordered fuel draws data radius (as_measure similar f) size lo hi mode 1 beta false) = (given t, o).
Proof. apply quickjoin_agrees. Qed.

(** whatever the function does, it is only called with items of the data *)
Theorem C170_items {W} (f : user W) (w : W) similar fuel draws data radius size lo hi mode beta t w' o :
  run f w (quickjoin_prog set_order similar fuel draws data radius size lo hi mode beta) = (t, w', o) ->
  forall x y, In (x, y) (asked t) -> In x data /\ In y data.
Proof. apply quickjoin_items. Qed.

(** at most block_size items: all the pairs once, in order, whatever the function does *)
Theorem C170_small {W} (f : user W) (w : W) similar fuel draws data radius size lo hi mode beta : length data <= size ->
  run f w (quickjoin_prog set_order similar (S fuel) draws data radius size lo hi mode beta) =
  talks f w (at_cells data (cells (length data)))
    (fun answers => outcome (clusters_from_pairs set_order
       (select (at_cells data (cells (length data)))
         (map (fun q => if similar then Qle_bool (- q) (- radius) else Qle_bool q radius) answers)) lo hi mode true)).
Proof. intros Hs. unfold quickjoin_prog. destruct similar; apply (quick_small _ _ set_order f w fuel draws data size lo hi mode beta Hs). Qed.

(** neither a distance nor a similarity: nothing is checked; with at least two items, the first comparison raises TypeError *)
Theorem C170_missing fuel draws x y data radius size lo hi mode beta : length (x :: y :: data) <= size ->
  run missing tt (quickjoin_prog set_order false (S fuel) draws (x :: y :: data) radius size lo hi mode beta) = ([Asked (x, y)], tt, Err TypeError).
Proof.
  intros Hs. rewrite C170_small by exact Hs. unfold talks.
  assert (E : exists l, at_cells (x :: y :: data) (cells (length (x :: y :: data))) = (x, y) :: l).
  { unfold cells. cbn [length]. eexists. reflexivity. }
  destruct E as [l E]. rewrite E. reflexivity.
Qed.

(** more items than block_size: the choice of the pivots raises it *)
Theorem C170_missing_pivots fuel draws data radius size lo hi mode beta i1 i2 draws1 draws2 : size < length data ->
  randint (length data) draws = Ok (i1, draws1) -> draw_other (length data) i1 draws1 = Ok (i2, draws2) ->
  exists p1 p2, nth_error data i1 = Some p1 /\ nth_error data i2 = Some p2 /\
    run missing tt (quickjoin_prog set_order false (S fuel) draws data radius size lo hi mode beta) = ([Asked (p1, p2)], tt, Err TypeError).
Proof. apply missing_pivots. Qed.

(** at most one item: nothing is called, nothing is found *)
Theorem C170_missing_none fuel draws data radius size lo hi beta : length data <= 1 -> length data <= size ->
  run missing tt (quickjoin_prog set_order false (S fuel) draws data radius size lo hi "connected_components" beta) = ([], tt, Ok tt).
Proof.
  intros H1 Hs. rewrite C170_small by exact Hs. destruct data as [|x [|y data]]; [reflexivity|reflexivity|cbn in H1; lia].
Qed.

(** one item with block_size = 0: two different pivots are looked for, for ever *)
Theorem C170_one {W} (f : user W) (w : W) similar fuel draws x radius lo hi mode beta :
  run f w (quickjoin_prog set_order similar fuel draws [x] radius 0 lo hi mode beta) = ([], w, Err OutOfFuel).
Proof.
  assert (G : forall draws, draw_other 1 0 draws = Err OutOfFuel).
  { intros d. induction d as [|d0 d IH]; [reflexivity|]. cbn [draw_other]. rewrite Nat.mod_1_r. exact IH. }
  unfold quickjoin_prog, quick_prog, clusters_prog. destruct fuel; [destruct similar; reflexivity|].
  destruct draws as [|d draws]; [destruct similar; reflexivity|].
  destruct similar; cbn [quick_loop_prog length Nat.leb randint]; rewrite Nat.mod_1_r; cbn [lift pbind]; rewrite G; reflexivity.
Qed.
End QuickJoin.
Print Assumptions C170_agrees.
Print Assumptions C170_items.
Print Assumptions C170_small.
Print Assumptions C170_missing.
Print Assumptions C170_missing_pivots.
Print Assumptions C170_missing_none.
Print Assumptions C170_one.

(** ** Examples *)
(** 3 items, 2 pivots: 5 calls to choose them, 6 for the table, 6 with the pivots, none between the items, where comparing all the pairs takes 3 *)
Example C167_example :
  run ask_gap tt (laesa_prog (fun l => l) (fun l => l) 0 laesa_data 1 None 2 None "connected_components") =
  (map Asked ([(0, 0); (0, 1); (0, 5); (5, 0); (5, 1)] ++ [(5, 0); (5, 1); (5, 5); (0, 0); (0, 1); (0, 5)] ++
     [(5, 0); (0, 0); (5, 1); (0, 1); (5, 5); (0, 5)]), tt, Ok tt).
Proof. vm_compute. reflexivity. Qed.
(** 5 items: 12 + 15 + 15 calls, and 2 pairs that are not eliminated *)
Example C167_example_kept :
  exists p D ps t, pivot_selection (fun l => l) gap 2 [0; 1; 5; 9; 10] 3 = Ok (p, D) /\
    mapM (index [0; 1; 5; 9; 10]) (firstn 3 p) = Ok ps /\
    run ask_gap tt (laesa_prog (fun l => l) (fun l => l) 2 [0; 1; 5; 9; 10] 1 None 2 None "connected_components") = (t, tt, Ok tt) /\
    given t = [[9; 10]] /\ length (asked t) = 44 /\ length (kept_pairs gap [0; 1; 5; 9; 10] ps D) = 2.
Proof. eexists _, _, _, _. repeat (split; [vm_compute; reflexivity|]). vm_compute. reflexivity. Qed.
Example C170_example :
  run ask_gap tt (quickjoin_prog (fun l => l) false 20 [0; 2] [0; 1; 5] 1 2 2 None "connected_components" (1 # 2)) =
  ([Asked (0, 5); Asked (0, 0); Asked (0, 1); Asked (0, 5); Asked (0, 1); Gave [0; 1]], tt, Ok tt).
Proof. vm_compute. reflexivity. Qed.
Example C170_example_similarity :
  run (pure (fun q => - gap (fst q) (snd q))%Q) tt (quickjoin_prog (fun l => l) true 20 [] [0; 1; 5] (-1) 5 2 None "connected_components" (1 # 2)) =
  ([Asked (0, 1); Asked (0, 5); Asked (1, 5); Gave [0; 1]], tt, Ok tt).
Proof. vm_compute. reflexivity. Qed.
