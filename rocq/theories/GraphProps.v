(** C44-C46, C66-C68: graphs *)
From Coq Require Import QArith String Sorted.
From Verif Require Import Base ClustersSpec MetricsModel SortModel GraphModel GraphSpec GraphProofs GraphProjectionProofs.
Notation length := List.length.
Notation concat := List.concat.
Open Scope list_scope.
Open Scope nat_scope.

Section Components.
Context {N W : Type} `{EqDec N}.
Variable g : graph N W.
Hypothesis Hg : undirected g.

(** C44: the sizes of the connected components of the accepted edges, when the filter does not depend on the direction *)
Theorem C44_components f : symmetric f -> exists out, component_sizes g f = Ok (map (@length N) out) /\
  is_components (node g) (accepted g f) 0 None out /\ Permutation (concat out) (map fst g).
Proof. exact (component_sizes_components g Hg f). Qed.

(** C44: they sum to the number of nodes *)
Theorem C44_sum f : exists sizes, component_sizes g f = Ok sizes /\ list_sum sizes = length g /\ Forall (fun n => 1 <= n) sizes.
Proof. exact (component_sizes_sum g Hg f). Qed.

(** C66: for any filter, each size counts the nodes reachable from a root and not reached before *)
Theorem C66_explored f : exists out, component_sizes g f = Ok (map (@length N) out) /\
  explored (accepted g f) [] out /\ Permutation (concat out) (dkeys g).
Proof. exact (component_sizes_explored g Hg f). Qed.

(** C66: the second largest size, in whatever order they come; None below two components *)
Theorem C66_second_largest f :
  exists sizes s, component_sizes g f = Ok sizes /\ second_largest_component_size g f = Ok s /\ second_largest sizes s.
Proof. exact (second_largest_spec g Hg f). Qed.
End Components.

(** C44: the sizes do not come in decreasing order *)
Theorem C44_decreasing_refuted : exists (g : graph nat unit) sizes, undirected g /\
  component_sizes g (fun _ _ _ => true) = Ok sizes /\ ~ StronglySorted (fun a b => b <= a) sizes.
Proof.
  exists [(1, []); (2, [(3, tt)]); (3, [(2, tt)])], [1; 2]. split; [|split; [reflexivity|]].
  - split.
    + repeat constructor; simpl; intuition discriminate.
    + intros a l Hin. simpl in Hin. intuition (match goal with E : _ = _ |- _ => injection E as <- <- end); repeat constructor; simpl; auto.
    + intros a b w (l & Hin & Hb). simpl in Hin.
      destruct Hin as [E|[E|[E|[]]]]; injection E as <- <-; simpl in Hb; [contradiction| |];
        destruct Hb as [E|[]]; injection E as <- <-; eexists; (split; [simpl; first [right; right; left; reflexivity | right; left; reflexivity]|left; reflexivity]).
  - intros Hs. inversion Hs as [|? ? _ Hf]; subst. inversion Hf; subst. lia.
Qed.

Section Floatsam.
Context {N : Type} `{EqDec N}.
Variable g : graph N Q.
Hypothesis Hg : undirected g.
Variable int_log : nat -> nat.
Hypothesis Hedge : exists a b w, edge g a b w.

(** C45: when it stops, the threshold is the last one before two components of the requested size appear (the
    starting threshold is not tested), and the edges kept are exactly those which weigh at least that much *)
Theorem C45_threshold fuel start rate m remove best g' :
  floatsam_sparsification int_log fuel g start rate m remove = Ok (best, g') ->
  (exists k, (best == scaled start rate k)%Q /\ drifts g (drifter g int_log m) (scaled start rate (S k)) /\
    forall j, 1 <= j <= k -> ~ drifts g (drifter g int_log m) (scaled start rate j)) /\
  g' = if remove then map (fun nl => (fst nl, filter (fun mw => Qle_bool best (snd mw)) (snd nl))) g else g.
Proof. exact (floatsam_exact g Hg int_log fuel start rate m remove best g' Hedge). Qed.

(** C67: it stops exactly when some tested threshold gives two components of the requested size *)
Theorem C67_terminates start rate m remove :
  (exists fuel r, floatsam_sparsification int_log fuel g start rate m remove = Ok r) <->
  exists k, drifts g (drifter g int_log m) (scaled start rate (S k)).
Proof. exact (floatsam_terminates g Hg int_log start rate m remove Hedge). Qed.

(** C67: in particular for drifters of at most one node *)
Theorem C67_small_drifters start rate m remove : (0 < rate)%Q -> drifter g int_log m <= 1 -> 2 <= length g ->
  exists fuel r, floatsam_sparsification int_log fuel g start rate m remove = Ok r.
Proof. exact (floatsam_small g Hg int_log start rate m remove Hedge). Qed.

(** C67: and never when the graph has less than twice as many nodes *)
Theorem C67_too_few_nodes start rate m remove : length g < 2 * drifter g int_log m ->
  forall fuel, floatsam_sparsification int_log fuel g start rate m remove = Err OutOfFuel.
Proof.
  exact (fun Hl => floatsam_endless g Hg int_log start rate m remove Hedge (fun t Hd => Nat.lt_irrefl _ (Nat.lt_le_trans _ _ _ Hl (drifts_nodes g int_log _ t Hd)))).
Qed.

(** C67: nor when every edge touches the same node *)
Theorem C67_star center start rate m remove : (forall a b w, edge g a b w -> a = center \/ b = center) ->
  2 <= drifter g int_log m ->
  forall fuel, floatsam_sparsification int_log fuel g start rate m remove = Err OutOfFuel.
Proof.
  exact (fun Hs Hm => floatsam_endless g Hg int_log start rate m remove Hedge (fun t => star_no_drift g int_log center _ t Hs Hm)).
Qed.
End Floatsam.

(** C67: without an edge, the starting threshold comes back *)
Theorem C67_no_edge {N} `{EqDec N} (g : graph N Q) int_log fuel start rate m remove : undirected g -> (forall a b w, ~ edge g a b w) ->
  floatsam_sparsification int_log fuel g start rate m remove = Ok (start, g).
Proof. exact (fun Hg => floatsam_no_edge g Hg int_log fuel start rate m remove). Qed.

(** a star of 8 branches *)
Definition star8 : graph nat Q := (0, map (fun n => (n, 1%Q)) (seq 1 8)) :: map (fun n => (n, [(0, 1%Q)])) (seq 1 8).

Lemma star8_edge a b w : edge star8 a b w <-> (w = 1%Q /\ ((a = 0 /\ 1 <= b <= 8) \/ (b = 0 /\ 1 <= a <= 8))).
Proof.
  unfold edge, star8. split.
  - intros (l & [E|Hin] & Hb).
    + assert (Ea : a = 0) by congruence. assert (El : map (fun n => (n, 1%Q)) (seq 1 8) = l) by congruence. clear E. subst a l. apply in_map_iff in Hb. destruct Hb as (n & E & Hn). apply in_seq in Hn. injection E as <- <-. split; [reflexivity|lia].
    + apply in_map_iff in Hin. destruct Hin as (n & E & Hn). apply in_seq in Hn. injection E as <- <-. destruct Hb as [E|[]]. injection E as <- <-. split; [reflexivity|lia].
  - intros [-> [[-> Hb]|[-> Ha]]].
    + eexists. split; [left; reflexivity|]. apply in_map_iff. exists b. split; [reflexivity|]. apply in_seq. lia.
    + exists [(0, 1%Q)]. split; [right; apply in_map_iff; exists a; split; [reflexivity|]; apply in_seq; lia|left; reflexivity].
Qed.

Lemma star8_undirected : undirected star8.
Proof.
  split.
  - vm_compute. repeat constructor; simpl; lia.
  - intros a l [E|Hin].
    + injection E as <- <-. vm_compute. repeat constructor; simpl; lia.
    + apply in_map_iff in Hin. destruct Hin as (n & E & _). injection E as <- <-. repeat constructor. intros [].
  - intros a b w. rewrite !star8_edge. tauto.
Qed.

(** C45: with the default drifter size (int(log 9) = 2) the search over a star of 8 branches never ends *)
Theorem C45_termination_refuted : exists (g : graph nat Q) int_log, undirected g /\ int_log (length g) = 2 /\
  forall fuel remove, floatsam_sparsification int_log fuel g 0 (5 # 100) None remove = Err OutOfFuel.
Proof.
  exists star8, (fun _ => 2). split; [exact star8_undirected|]. split; [reflexivity|]. intros fuel remove.
  refine (C67_star star8 star8_undirected (fun _ => 2) _ 0 0 (5 # 100) None remove _ _ fuel).
  - exists 0, 1, 1%Q. apply star8_edge. split; [reflexivity|lia].
  - intros a b w He. apply star8_edge in He. lia.
  - simpl. lia.
Qed.

Section Projection.
Context {N P : Type} `{EqDec N} `{EqDec P}.
Variable sqrt : Q -> Q.
Variable geb : N -> N -> bool.
Variable part : N -> option P.
Variable g : graph N Q.
Hypothesis sqrt_ext : forall x y, (x == y)%Q -> (sqrt x == sqrt y)%Q.
Hypothesis sqrt_pos : forall x, (0 < x)%Q -> (0 < sqrt x)%Q.
Hypothesis geb_total : forall a b, geb a b = true \/ geb b a = true.
Hypothesis geb_antisym : forall a b, geb a b = true -> geb b a = true -> a = b.
Hypothesis Hg : undirected g.
Variable metric : option string.
Hypothesis Hmetric : forall s, metric = Some s -> In s ["cosine"; "jaccard"; "overlap"; "dice"; "binary_cosine"]%string.
Variable project : P.
Variable threshold : option Q.
Hypothesis Hparts : forall n, In n (map fst g) -> part n <> None.
Let nodes := filter (fun n => match part n with Some p => eqb p project | None => false end) (map fst g).

(** C68: both modes, with or without the check, give exactly the projection; for the topology mode with the cosine
    metric, no node of the projected part may have only null weights *)
Theorem C68_projection topology check : bipartite g part ->
  (topology = true -> metric = Some "cosine"%string -> forall a, In a nodes -> ~ null_row g a) ->
  exists m, monopartite_projection sqrt geb part g project metric threshold topology check = Ok (nodes, m) /\
    is_projection g sqrt metric threshold nodes m.
Proof. exact (projection_exact sqrt geb part g sqrt_ext sqrt_pos Hg metric Hmetric geb_total geb_antisym project threshold Hparts topology check). Qed.

(** C68: the quadratic mode does so on any graph *)
Theorem C68_quadratic : exists m, monopartite_projection sqrt geb part g project metric threshold false false = Ok (nodes, m) /\
    is_projection g sqrt metric threshold nodes m.
Proof. exact (projection_quadratic sqrt geb part g sqrt_ext sqrt_pos Hg metric Hmetric project threshold Hparts). Qed.

(** C68: two projections have the same edges with the same weights *)
Theorem C68_same_edges m m' : is_projection g sqrt metric threshold nodes m -> is_projection g sqrt metric threshold nodes m' ->
  forall a b w, In (a, b, w) m -> exists w', (w == w')%Q /\ (In (a, b, w') m' \/ In (b, a, w') m').
Proof. exact (projections_agree sqrt g sqrt_ext Hg metric Hmetric threshold nodes m m'). Qed.

(** C68: the check refuses exactly the graphs which are not bipartite *)
Theorem C68_check topology : ~ bipartite g part ->
  monopartite_projection sqrt geb part g project metric threshold topology true = Err TypeError.
Proof. exact (projection_check sqrt geb part g sqrt_ext sqrt_pos Hg metric Hmetric project threshold Hparts topology). Qed.

(** C46: the two modes agree, except for cosine with null vectors *)
Theorem C46_modes_partial check check' : bipartite g part ->
  (metric = Some "cosine"%string -> forall a, In a nodes -> ~ null_row g a) ->
  exists m m', monopartite_projection sqrt geb part g project metric threshold true check = Ok (nodes, m) /\
    monopartite_projection sqrt geb part g project metric threshold false check' = Ok (nodes, m') /\
    is_projection g sqrt metric threshold nodes m /\ is_projection g sqrt metric threshold nodes m'.
Proof.
  exact (fun Hb Hn =>
    match C68_projection true check Hb (fun _ => Hn), C68_projection false check' Hb (fun E => False_ind _ (Bool.diff_false_true E)) with
    | ex_intro _ m (conj E Hm), ex_intro _ m' (conj E' Hm') => ex_intro _ m (ex_intro _ m' (conj E (conj E' (conj Hm Hm'))))
    end).
Qed.
End Projection.

(** C46: a node whose weights are all null makes the topology mode raise KeyError *)
Theorem C46_modes_refuted : exists (g : graph nat Q) part, bipartite g part /\ undirected g /\ exists r,
  monopartite_projection (P := bool) (fun q => q) (fun a b => Nat.leb b a) part g true (Some "cosine"%string) None false true = Ok r /\
  monopartite_projection (P := bool) (fun q => q) (fun a b => Nat.leb b a) part g true (Some "cosine"%string) None true true = Err KeyError.
Proof.
  exists [(1, [(10, 1%Q)]); (2, [(10, 0%Q)]); (10, [(1, 1%Q); (2, 0%Q)])], (fun n => Some (Nat.ltb n 10)).
  assert (He : forall a b w, edge [(1, [(10, 1%Q)]); (2, [(10, 0%Q)]); (10, [(1, 1%Q); (2, 0%Q)])] a b w ->
    (a = 1 /\ b = 10 /\ w = 1%Q) \/ (a = 2 /\ b = 10 /\ w = 0%Q) \/ (a = 10 /\ b = 1 /\ w = 1%Q) \/ (a = 10 /\ b = 2 /\ w = 0%Q)).
  { intros a b w (l & Hl & Hb). simpl in Hl. destruct Hl as [E|[E|[E|[]]]]; injection E as <- <-; simpl in Hb; intuition congruence. }
  split; [|split].
  - split.
    + intros a b w Hab. apply He in Hab. intuition subst; discriminate.
    + intros a b c a' b' c' w w' w'' _ _ _. destruct (Nat.ltb a 10), (Nat.ltb b 10), (Nat.ltb c 10); auto.
  - split.
    + simpl. repeat constructor; simpl; lia.
    + intros a l Hin. simpl in Hin. destruct Hin as [E|[E|[E|[]]]]; injection E as <- <-; simpl; repeat constructor; simpl; lia.
    + intros a b w Hab. apply He in Hab. destruct Hab as [(-> & -> & ->)|[(-> & -> & ->)|[(-> & -> & ->)|(-> & -> & ->)]]]; eexists;
        (split; [simpl; first [right; right; left; reflexivity | right; left; reflexivity | left; reflexivity]|simpl; auto]).
  - eexists. split; vm_compute; reflexivity.
Qed.

(* ---- tests of the repository (test/graph/) ---- *)
Definition add_edge {W} (g : graph nat W) (e : nat * nat * W) : graph nat W :=
  let '(u, v, w) := e in
  let g := dmodify g u [] (fun l => l ++ [(v, w)]) in
  dmodify g v [] (fun l => l ++ [(u, w)]).

Definition components9 : graph nat unit :=
  dset (fold_left add_edge (map (fun e => (fst e, snd e, tt)) [(1, 2); (2, 3); (3, 4); (4, 1); (1, 5); (6, 7); (6, 8)]) []) 9 [].

Example C44_repository_tests :
  (let! l := component_sizes components9 (fun _ _ _ => true) in Ok (sort_by Nat.leb l)) = Ok [1; 3; 5] /\
  (let! l := component_sizes components9 (fun u _ _ => negb (Nat.eqb u 1)) in Ok (sort_by Nat.leb l)) = Ok [1; 1; 1; 3; 3] /\
  second_largest_component_size ([] : graph nat unit) (fun _ _ _ => true) = Ok None /\
  second_largest_component_size ([(1, [])] : graph nat unit) (fun _ _ _ => true) = Ok None /\
  second_largest_component_size components9 (fun _ _ _ => true) = Ok (Some 3) /\
  second_largest_component_size components9 (fun u _ _ => negb (Nat.eqb u 1) && negb (Nat.eqb u 2)) = Ok (Some 2).
Proof. vm_compute. repeat split. Qed.

Example C45_example : (* two triangles joined by a light edge *)
  let g := fold_left add_edge [(1, 2, 1%Q); (2, 3, 1%Q); (3, 1, 1%Q); (4, 5, 1%Q); (5, 6, 1%Q); (6, 4, 1%Q); (3, 4, (3 # 10)%Q)] [] in
  (let! r := floatsam_sparsification (fun _ => 1) 100 g 0 (1 # 10) (Some 3) true in
   Ok (Qred (fst r), map (fun nl => (fst nl, map fst (snd nl))) (snd r))) =
  Ok ((3 # 10)%Q, [(1, [2; 3]); (2, [1; 3]); (3, [2; 1; 4]); (4, [5; 6; 3]); (5, [4; 6]); (6, [5; 4])]).
Proof. vm_compute. reflexivity. Qed.

(** Gabriel 0, John 1, Lucy 2, Mary 3, Meredith 4; colours from 10 *)
Definition people : graph nat Q :=
  fold_left add_edge [(1, 10, 1%Q); (1, 13, 3%Q); (0, 12, 2%Q); (0, 14, 4%Q); (3, 10, 2%Q); (3, 12, 1%Q); (2, 10, 7%Q); (2, 13, 1%Q)]
    (map (fun n => (n, [])) [1; 3; 2; 0; 4; 10; 11; 12; 13; 14]).
Definition sqrt6 (q : Q) : Q := inject_Z (Z.sqrt (Qnum q * 1000000000000 / Zpos (Qden q))) / 1000000.
Definition project_people metric threshold topology :=
  let! r := monopartite_projection sqrt6 (fun a b => Nat.leb b a) (fun n => Some (Nat.ltb n 10)) people true metric threshold topology true in
  Ok (fst r, map (fun e => (fst (fst e), snd (fst e), Qred (snd e))) (snd r)).

Example C46_repository_tests :
  project_people (Some "unknown"%string) None true = Err TypeError /\
  project_people None None true = Ok ([1; 3; 2; 0; 4], [(1, 3, 1%Q); (1, 2, 2%Q); (2, 3, 1%Q); (0, 3, 1%Q)]) /\
  project_people None None false = Ok ([1; 3; 2; 0; 4], [(1, 3, 1%Q); (1, 2, 2%Q); (3, 2, 1%Q); (3, 0, 1%Q)]) /\
  (let! r := project_people (Some "cosine"%string) (Some (3 # 10)%Q) true in Ok (map fst (snd r))) = Ok [(1, 2); (2, 3)] /\
  (let! r := project_people (Some "overlap"%string) None true in Ok (snd r)) = Ok [(1, 3, (1 # 2)%Q); (1, 2, 1%Q); (2, 3, (1 # 2)%Q); (0, 3, (1 # 2)%Q)] /\
  (let! r := project_people (Some "jaccard"%string) None false in Ok (snd r)) = Ok [(1, 3, (1 # 3)%Q); (1, 2, 1%Q); (3, 2, (1 # 3)%Q); (3, 0, (1 # 3)%Q)].
Proof. vm_compute. repeat split. Qed.

Print Assumptions C44_components.
Print Assumptions C44_sum.
Print Assumptions C44_decreasing_refuted.
Print Assumptions C45_threshold.
Print Assumptions C45_termination_refuted.
Print Assumptions C46_modes_partial.
Print Assumptions C46_modes_refuted.
Print Assumptions C66_explored.
Print Assumptions C66_second_largest.
Print Assumptions C67_terminates.
Print Assumptions C67_small_drifters.
Print Assumptions C67_too_few_nodes.
Print Assumptions C67_star.
Print Assumptions C67_no_edge.
Print Assumptions C68_projection.
Print Assumptions C68_quadratic.
Print Assumptions C68_same_edges.
Print Assumptions C68_check.
