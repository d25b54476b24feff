(** C53, C79, C80: nn_descent and nn_descent_full *)
From Coq Require Import QArith Lqa String.
From Verif Require Import Base ClustersModel ClustersSpec PairwiseSpec LevModel StringsModel NNDescentModel NNDescentSpec NNDescentProofs NNDescentFullProofs.
Open Scope nat_scope.
Open Scope list_scope.
Notation length := List.length.

Section NNDescent.
Context {A : Type} `{EqDec A}.
Variable set_order : list nat -> list nat.
Hypothesis set_order_perm : forall l, Permutation (set_order l) l.
Variable heapify : list (Q * nat) -> list (Q * nat).
Variable heapreplace : list (Q * nat) -> Q * nat -> list (Q * nat).
Variable is_heap : list (Q * nat) -> Prop.
Hypothesis heaps : heap_module is_heap heapify heapreplace.
Variable V : list A.
Variable draws : list nat.
(** randint draws positions *)
Hypothesis draws_positions : forall r, In r draws -> r < length V.

(** C53: the links are between distinct positions whose similarity reaches the radius *)
Theorem C53_links similarity fuel k radius lo hi out :
  nn_descent set_order heapify heapreplace (Some similarity) None V fuel draws k radius lo hi "connected_components" = Ok out ->
  exists pairs clusters, (forall i j, In (i, j) pairs -> i <> j /\ exists x y, nth_error V i = Some x /\ nth_error V j = Some y /\ (radius <= similarity x y)%Q) /\
    is_components (fun i => exists j, In (i, j) pairs \/ In (j, i) pairs) (fun i j => In (i, j) pairs) lo hi clusters /\ reads V clusters out.
Proof. intros E. eapply with_facts; eauto. Qed.

(** C53: likewise with a distance *)
Theorem C53_links_distance similarity distance fuel k radius lo hi out :
  nn_descent set_order heapify heapreplace similarity (Some distance) V fuel draws k radius lo hi "connected_components" = Ok out ->
  exists pairs clusters, (forall i j, In (i, j) pairs -> i <> j /\ exists x y, nth_error V i = Some x /\ nth_error V j = Some y /\ (distance x y <= radius)%Q) /\
    is_components (fun i => exists j, In (i, j) pairs \/ In (j, i) pairs) (fun i j => In (i, j) pairs) lo hi clusters /\ reads V clusters out.
Proof.
  intros E. destruct (with_facts set_order set_order_perm heapify heapreplace is_heap heaps (fun x y => - distance x y)%Q V _ _ _ _ _ _ _ draws_positions E)
    as (pairs & clusters & P & C & R).
  exists pairs, clusters. split; [|auto]. intros i j Hin. destruct (P i j Hin) as (Hne & x & y & Ex & Ey & L). split; [assumption|]. exists x, y. repeat split; auto. lra.
Qed.

Section Graph.
Variable similarity : A -> A -> Q.

(** C53: each item starts with [k] other positions and their similarities *)
Theorem C53_initial k B : initial_loop set_order heapify similarity V draws k (seq 0 (length V)) = Ok B ->
  Forall2 (neighbors_of similarity V k) (seq 0 (length V)) B.
Proof.
  intros E. eapply Forall2_imp; [|eapply (initial_ok set_order set_order_perm heapify heapreplace is_heap heaps similarity V k); eauto].
  - intros i h [_ G]. exact G.
  - intros i Hi. apply in_seq in Hi. lia.
Qed.

(** C53: the turns keep [k] neighbors for each item, and whatever all the similarities of a list reach is still reached *)
Theorem C53_turns k fuel B B' : initial_loop set_order heapify similarity V draws k (seq 0 (length V)) = Ok B ->
  descend set_order heapreplace similarity V fuel B = Ok B' ->
  Forall2 (neighbors_of similarity V k) (seq 0 (length V)) B' /\
  Forall2 (fun h h' => forall q, at_least q h -> at_least q h') B B'.
Proof.
  intros E E'.
  assert (G : all_good is_heap similarity V k B).
  { eapply (initial_ok set_order set_order_perm heapify heapreplace is_heap heaps similarity V k); eauto. intros i Hi. apply in_seq in Hi. lia. }
  destruct (descend_good set_order set_order_perm heapify heapreplace is_heap heaps similarity V k fuel B B' G E') as [G' M].
  split; [|exact M]. eapply Forall2_imp; [|exact G']. intros i h [_ X]. exact X.
Qed.
End Graph.

(** C79: with less neighbors than items, once every position was drawn for each item the descent ends within a bounded
    number of turns *)
Theorem C79_ends similarity distance blocks k radius lo hi fuel : V <> [] -> match k with Some k => k < length V | None => True end ->
  draws = concat blocks -> length V <= length blocks -> Forall (fun block => forall j, j < length V -> In j block) blocks ->
  length V * (match k with Some k => k | None => Nat.log2 (length V) end * length V) < fuel -> (similarity <> None \/ distance <> None) ->
  exists out, nn_descent set_order heapify heapreplace similarity distance V fuel draws k radius lo hi "connected_components" = Ok out.
Proof.
  intros Hne Hk Ed L C F Hs.
  assert (Hk' : chosen V k < length V). { unfold chosen. destruct k; [assumption|]. apply Nat.log2_lt_lin. destruct V; [congruence|cbn; lia]. }
  unfold nn_descent. destruct distance as [d|]; [|destruct similarity as [s|]; [|destruct Hs; congruence]];
    eapply with_ends; eauto.
Qed.

(** C79: with as many neighbors as items or more, no draws are enough *)
Theorem C79_endless similarity distance k radius lo hi fuel mode out : V <> [] -> length V <= k ->
  nn_descent set_order heapify heapreplace similarity distance V fuel draws (Some k) radius lo hi mode <> Ok out.
Proof.
  intros Hne Hk. unfold nn_descent. destruct distance as [d|]; [|destruct similarity as [s|]]; [eapply with_endless; eauto..|].
  unfold call_none. cbn [bind]. destruct (Nat.eqb_spec (length V * k) 0) as [Z|Z]; [destruct V; [congruence|cbn in *; lia]|].
  destruct (sample_loop _ _ _ _); discriminate.
Qed.
End NNDescent.

(** C79: no default number of neighbors for no data *)
Theorem C79_empty {A} set_order heapify heapreplace (s : A -> A -> Q) fuel draws radius lo hi mode :
  nn_descent set_order heapify heapreplace (Some s) None [] fuel draws None radius lo hi mode = Err ValueError.
Proof. reflexivity. Qed.

Section Full.
Context {A : Type} `{EqDec A}.
Variable set_order : list nat -> list nat.
Hypothesis set_order_perm : forall l, Permutation (set_order l) l.
Variable heapify : list (Q * (nat * bool)) -> list (Q * (nat * bool)).
Variable heapreplace : list (Q * (nat * bool)) -> Q * (nat * bool) -> list (Q * (nat * bool)).
Variable is_heap : list (Q * (nat * bool)) -> Prop.
Hypothesis heaps : heap_module is_heap heapify heapreplace.
Variable V : list A.
Variable draws : list nat.
Hypothesis draws_positions : forall r, In r draws -> r < length V.
Variable later : nat -> nat.

(** C80: the links are between distinct positions whose similarity, in one direction, reaches the radius *)
Theorem C80_links similarity fuel k radius rho delta lo hi out :
  nn_descent_full set_order heapify heapreplace (Some similarity) None V fuel draws later k radius rho delta lo hi "connected_components" = Ok out ->
  exists pairs clusters, (forall i j, In (i, j) pairs -> i <> j /\ exists x y, nth_error V i = Some x /\ nth_error V j = Some y /\
      (radius <= similarity x y \/ radius <= similarity y x)%Q) /\
    is_components (fun i => exists j, In (i, j) pairs \/ In (j, i) pairs) (fun i j => In (i, j) pairs) lo hi clusters /\ reads V clusters out.
Proof. intros E. eapply full_facts; eauto. Qed.

(** C80: likewise with a symmetric distance *)
Theorem C80_links_distance similarity distance fuel k radius rho delta lo hi out : (forall x y, distance x y == distance y x)%Q ->
  nn_descent_full set_order heapify heapreplace similarity (Some distance) V fuel draws later k radius rho delta lo hi "connected_components" = Ok out ->
  exists pairs clusters, (forall i j, In (i, j) pairs -> i <> j /\ exists x y, nth_error V i = Some x /\ nth_error V j = Some y /\ (distance x y <= radius)%Q) /\
    is_components (fun i => exists j, In (i, j) pairs \/ In (j, i) pairs) (fun i j => In (i, j) pairs) lo hi clusters /\ reads V clusters out.
Proof.
  intros Hs E. destruct (full_facts set_order set_order_perm heapify heapreplace is_heap heaps (fun x y => - distance x y)%Q V later _ _ _ _ _ _ _ _ _ draws_positions E)
    as (pairs & clusters & P & C & R).
  exists pairs, clusters. split; [|auto]. intros i j Hin. destruct (P i j Hin) as (Hne & x & y & Ex & Ey & L). split; [assumption|]. exists x, y. repeat split; auto.
  specialize (Hs x y). destruct L; lra.
Qed.

(** C80: when int(rho * k) is 0, as it is by default for one neighbor, a turn compares nothing: the neighbors are those drawn first *)
Theorem C80_unsampled similarity t B : length B = length V ->
  exists B' t', turn_full set_order heapreplace similarity V later t 0%Z B = Ok (B', 0, t') /\ map unflagged B' = map unflagged B.
Proof. intros L. apply turn_full_0; [assumption|lia|assumption|]. apply Forall_forall. intros h _. left. reflexivity. Qed.

(** C80: neither does it when rho is -1 or less: the samples leave out the last k entries of lists of k *)
Theorem C80_negative similarity t B k rho : length B = length V -> (forall h, In h B -> length h <= k) -> (rho <= -1)%Q ->
  exists B' t', turn_full set_order heapreplace similarity V later t (towards_zero (rho * inject_Z (Z.of_nat k))) B = Ok (B', 0, t') /\ map unflagged B' = map unflagged B.
Proof.
  intros L Hk Hr. assert (H0 : (towards_zero (rho * inject_Z (Z.of_nat k)) <= - Z.of_nat k)%Z) by (apply towards_zero_low; exact Hr).
  apply turn_full_0; [assumption|lia|assumption|]. apply Forall_forall. intros h Hh. specialize (Hk h Hh). right. lia.
Qed.

(** C79: nn_descent_full ends when there are neighbors to look for and delta is positive *)
Theorem C79_full_ends similarity distance blocks k radius rho delta lo hi fuel :
  0 < match k with Some k => k | None => Nat.log2 (length V) end < length V -> (0 < delta)%Q ->
  draws = concat blocks -> length V <= length blocks -> Forall (fun block => forall j, j < length V -> In j block) blocks ->
  length V * (match k with Some k => k | None => Nat.log2 (length V) end * (2 * length V)) + 1 < fuel -> (similarity <> None \/ distance <> None) ->
  exists out, nn_descent_full set_order heapify heapreplace similarity distance V fuel draws later k radius rho delta lo hi "connected_components" = Ok out.
Proof.
  intros Hk Hdelta Ed L C F Hs.
  unfold nn_descent_full. destruct distance as [d|]; [|destruct similarity as [s|]; [|destruct Hs; congruence]];
    eapply full_ends; eauto.
Qed.

(** C79: otherwise it never does, for instance for a single item and the default number of neighbors *)
Theorem C79_full_endless similarity distance k radius rho delta lo hi fuel mode out :
  length V = 0 \/ match k with Some k => k | None => Nat.log2 (length V) end = 0 \/ (delta <= 0)%Q ->
  nn_descent_full set_order heapify heapreplace similarity distance V fuel draws later k radius rho delta lo hi mode <> Ok out.
Proof.
  intros Hz. unfold nn_descent_full. destruct distance as [d|]; [|destruct similarity as [s|]]; [apply full_endless; assumption..|].
  unfold call_none. destruct (match k with Some k => Ok k | None => _ end) as [k'|e]; cbn [bind]; [|discriminate].
  destruct (Nat.eqb (length V * k') 0); [apply full_endless; assumption|]. destruct (sample_loop _ _ _ _); discriminate.
Qed.
End Full.

Theorem C79_full_single {A} set_order heapify heapreplace (similarity : A -> A -> Q) x fuel draws later radius rho delta lo hi mode out :
  (forall l, Permutation (set_order l) l) ->
  nn_descent_full set_order heapify heapreplace (Some similarity) None [x] fuel draws later None radius rho delta lo hi mode <> Ok out.
Proof. intros P. apply C79_full_endless; auto. Qed.

Print Assumptions C80_links.
Print Assumptions C80_links_distance.
Print Assumptions C80_unsampled.
Print Assumptions C80_negative.
Print Assumptions C79_full_ends.
Print Assumptions C79_full_endless.
Print Assumptions C79_full_single.
Print Assumptions C53_links.
Print Assumptions C53_links_distance.
Print Assumptions C53_initial.
Print Assumptions C53_turns.
Print Assumptions C79_ends.
Print Assumptions C79_endless.
Print Assumptions C79_empty.

(** test/clustering/nn_descent_test.py uses another package for the edit distance; here the matrix without shortcuts.  The
    draws come in blocks that have every position. *)
Definition nn_data : list str := [codes "Mister Hyde"; codes "Mister Hide"; codes "Claudia Loc"; codes "Cladia Loc"].
Definition lev_distance (x y : str) : Q :=
  inject_Z (Z.of_nat (if eqb x y then 0 else dp_rows x (map to_ushort y) 0 0 (map (fun i => i + 1) (seq 0 (length y))))).
Definition nn_run fuel draws k := nn_descent (fun l => l) sort_entries replace_least None (Some lev_distance) nn_data fuel draws k 1 2 None "connected_components".

Example nn_test : nn_run 10 [2; 2; 0; 0] (Some 1) = Ok [[codes "Mister Hyde"; codes "Mister Hide"]; [codes "Claudia Loc"; codes "Cladia Loc"]].
Proof. vm_compute. reflexivity. Qed.
Example nn_test_blocks : nn_run 33 (concat (repeat [3; 0; 2; 1] 4)) None = Ok [[codes "Mister Hyde"; codes "Mister Hide"]; [codes "Claudia Loc"; codes "Cladia Loc"]].
Proof. vm_compute. reflexivity. Qed.
Example nn_endless : nn_run 10 (concat (repeat [3; 0; 2; 1] 4)) (Some 4) = Err OutOfFuel.
Proof. vm_compute. reflexivity. Qed.
(** the same neighbor may fill a whole list *)
Example nn_repeated : nn_descent_graph (fun l => l) sort_entries replace_least (fun x y => - lev_distance x y)%Q nn_data 10 [1; 2; 0; 2; 0; 1; 0; 1; 2] (Some 2) =
  Ok [[((-1)%Q, 1); ((-1)%Q, 1)]; [((-1)%Q, 0); ((-1)%Q, 0)]; [((-1)%Q, 3); ((-1)%Q, 3)]; [((-1)%Q, 2); ((-1)%Q, 2)]].
Proof. vm_compute. reflexivity. Qed.
(** the neighbors found depend on the draws: a pair of similar items may be missed *)
Example nn_missed : nn_descent (fun l => l) sort_entries replace_least None (Some (fun x y => inject_Z (Z.abs (Z.of_nat x - Z.of_nat y)))) [0; 10; 1; 11] 10 [1; 0; 3; 2] (Some 1) 1 2 None "connected_components" = Ok [].
Proof. vm_compute. reflexivity. Qed.

Definition full_run fuel draws later k := nn_descent_full (fun l => l) sort_entries replace_least None (Some lev_distance) nn_data fuel draws later k 1 (1 # 2) (1 # 1000) 2 None "connected_components".
(** the test with one neighbor relies on the first draws *)
Example full_test_lucky : full_run 10 [1; 0; 3; 2] (fun t => t) (Some 1) = Ok [[codes "Mister Hyde"; codes "Mister Hide"]; [codes "Claudia Loc"; codes "Cladia Loc"]].
Proof. vm_compute. reflexivity. Qed.
Example full_test_unlucky : full_run 10 [2; 2; 0; 0] (fun t => t) (Some 1) = Ok [].
Proof. vm_compute. reflexivity. Qed.
Example full_test_two : full_run 66 (concat (repeat [3; 0; 2; 1] 4)) (fun t => t) (Some 2) = Ok [[codes "Mister Hyde"; codes "Mister Hide"]; [codes "Claudia Loc"; codes "Cladia Loc"]].
Proof. vm_compute. reflexivity. Qed.
