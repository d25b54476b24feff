(** C21, C22, C60: sorted neighborhood *)
From Coq Require Import String.
From Verif Require Import Base ClustersModel ClustersSpec PairwiseModel BlockingSpec SortModel SortSpec
  NeighborhoodModel NeighborhoodSpec NeighborhoodProofs.
Open Scope nat_scope.
Open Scope list_scope.
Notation length := List.length.

Section Neighborhood.
Context {A : Type} `{EqDec A}.
Variable similarity : A -> A -> bool.

(** C21: the pairs found over all passes *)
Theorem C21_links window (data : list A) keys x y :
  (forall k, In k keys -> total_preorder k) ->
  (In (x, y) (flat_map (window_pairs similarity window) (sorted_passes false data keys)) <->
   neighborhood_link similarity window data keys x y).
Proof. exact (passes_pairs_In similarity window data keys x y). Qed.

(** C21: clusters, for one key or several *)
Theorem C21_components set_order (data : list A) key keys window lo hi :
  (forall l : list A, Permutation (set_order l) l) ->
  (forall k, In k (match keys with Some ks => ks | None => [key] end) -> total_preorder k) ->
  exists out,
    sorted_neighborhood set_order similarity false data key keys window lo hi "connected_components" = Ok out /\
    is_components
      (fun x => exists y, neighborhood_link similarity window data (match keys with Some ks => ks | None => [key] end) x y \/
                          neighborhood_link similarity window data (match keys with Some ks => ks | None => [key] end) y x)
      (neighborhood_link similarity window data (match keys with Some ks => ks | None => [key] end)) lo hi out.
Proof. exact (fun Hs => sorted_neighborhood_components similarity set_order Hs data key keys window lo hi). Qed.

(** C21: a window at least as large as the data compares everything *)
Theorem C21_large_window set_order (data : list A) key window lo hi :
  (forall l : list A, Permutation (set_order l) l) ->
  total_preorder key -> length data <= window -> (forall a b, similarity a b = similarity b a) ->
  exists out,
    sorted_neighborhood set_order similarity false data key None window lo hi "connected_components" = Ok out /\
    is_components (fun x => exists y, similarity x y = true /\ (precedes data x y \/ precedes data y x))
      (fun x y => similarity x y = true /\ precedes data x y) lo hi out.
Proof. exact (fun Hs => sorted_neighborhood_exhaustive similarity set_order Hs data key window lo hi). Qed.

(** C22, for window >= 2 (window = step + 1): when no similar records let the enlargement run over the
    end, the method returns; the windows of each order tile it and the links are the similar records of a
    common window *)
Theorem C22_adaptive_partial set_order fuel (data : list A) key keys step lo hi :
  (forall l : list A, Permutation (set_order l) l) ->
  1 <= step -> length data < fuel ->
  (forall k, In k (match keys with Some ks => ks | None => [key] end) -> total_preorder k) ->
  (forall k s f fi la, In k (match keys with Some ks => ks | None => [key] end) ->
     stably_sorted k data s -> ~ overrun similarity s f fi la) ->
  exists windows : list A -> list (nat * nat),
    (forall k s, In k (match keys with Some ks => ks | None => [key] end) -> stably_sorted k data s ->
       tiles (length data) (windows s)) /\
  exists out,
    adaptive_sorted_neighborhood set_order similarity fuel false data key keys step lo hi "connected_components" = Ok out /\
    is_components
      (fun x => exists y, adaptive_link similarity windows data (match keys with Some ks => ks | None => [key] end) x y \/
                          adaptive_link similarity windows data (match keys with Some ks => ks | None => [key] end) y x)
      (adaptive_link similarity windows data (match keys with Some ks => ks | None => [key] end)) lo hi out.
Proof. exact (fun Hs => adaptive_components similarity set_order Hs fuel data key keys step lo hi). Qed.

(** C22: with window = 1 the enlargement never ends as soon as a record is similar to itself *)
Theorem C22_endless_refuted x (s : list A) : similarity x x = true ->
  forall fuel, full_AA_SNM similarity fuel (x :: s) 0 = Err OutOfFuel.
Proof. exact (full_AA_SNM_endless similarity x s). Qed.

(** C60: for window >= 2, either windows that tile the records, or IndexError, and then similar records
    stand too near the end *)
Theorem C60_outcomes (s : list A) step fuel : 1 <= step -> length s < fuel ->
  (exists windows, full_AA_SNM similarity fuel s step = Ok windows /\ tiles (length s) windows) \/
  (full_AA_SNM similarity fuel s step = Err IndexError /\ exists f first last, overrun similarity s f first last).
Proof. exact (full_AA_SNM_spec similarity s step fuel). Qed.

(** C60: the links of a run that returns *)
Theorem C60_links fuel step (s : list A) pairs : 1 <= step -> length s < fuel ->
  adaptive_pairs similarity fuel step s = Ok pairs ->
  exists windows, full_AA_SNM similarity fuel s step = Ok windows /\ tiles (length s) windows /\
    forall x y, In (x, y) pairs <-> interval_link similarity windows s x y.
Proof. exact (adaptive_pairs_In similarity fuel step s pairs). Qed.
End Neighborhood.

(** C21: an iterator is exhausted by the first key, the links of the others are lost *)
Theorem C21_iterator_refuted : exists (similarity : nat -> nat -> bool) (data : list nat) keys window out x y,
  (forall k, In k keys -> total_preorder k) /\
  sorted_neighborhood (fun l => l) similarity true data Nat.leb (Some keys) window 2 None "connected_components" = Ok out /\
  neighborhood_link similarity window data keys x y /\ forall c, In c out -> ~ (In x c /\ In y c).
Proof. exact generator_refuted. Qed.

(** C22: two equal records and window = 2 *)
Theorem C22_index_error_refuted :
  full_AA_SNM Nat.eqb 100 [1; 1] 1 = Err IndexError /\
  adaptive_sorted_neighborhood (fun l => l) Nat.eqb 100 false [1; 1] Nat.leb None 1 2 None "connected_components" =
    Err IndexError.
Proof. exact adaptive_index_error. Qed.

Example C21_ex :
  let sim := fun a b => Nat.leb (b - a) 2 && Nat.leb (a - b) 2 in
  sorted_neighborhood (fun l => l) sim false [9; 4; 1; 3; 20; 11; 2] Nat.leb None 2 2 None "connected_components" =
    Ok [[1; 2; 3; 4]; [9; 11]] /\
  sorted_neighborhood (fun l => l) sim false [9; 4; 1; 3; 20; 11; 2] Nat.leb None 1 2 None "connected_components" =
    Ok [] /\
  sorted_neighborhood (fun l => l) (fun a b => Nat.eqb (a + 2) b) false [1; 2; 3; 4] Nat.leb
    (Some [Nat.leb; fun a b => Nat.leb (Nat.modulo a 2) (Nat.modulo b 2)]) 2 2 None "connected_components" =
    Ok [[2; 4]; [1; 3]].
Proof. repeat split; vm_compute; reflexivity. Qed.

Example C22_ex :
  let sim := fun a b => Nat.leb (b - a) 2 && Nat.leb (a - b) 2 in
  full_AA_SNM sim 100 [1; 2; 3; 4; 9; 11; 20; 30] 1 = Ok [(0, 3); (4, 5); (6, 7)] /\
  adaptive_sorted_neighborhood (fun l => l) sim 100 false [30; 9; 4; 1; 3; 20; 11; 2] Nat.leb None 1 2 None "connected_components" =
    Ok [[1; 3; 4; 2]; [9; 11]].
Proof. repeat split; vm_compute; reflexivity. Qed.

Example C60_ex : overrun Nat.eqb [1; 1] 0 0 1 /\ full_AA_SNM Nat.eqb 3 [1; 2] 1 = Ok [(0, 1)].
Proof. split; [|vm_compute; reflexivity]. unfold overrun. simpl. repeat split; try lia. exists 1, 1. auto. Qed.

Print Assumptions C21_links.
Print Assumptions C21_components.
Print Assumptions C21_large_window.
Print Assumptions C22_adaptive_partial.
Print Assumptions C22_endless_refuted.
Print Assumptions C60_outcomes.
Print Assumptions C60_links.
Print Assumptions C21_iterator_refuted.
Print Assumptions C22_index_error_refuted.
