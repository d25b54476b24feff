(** C54, C56, C75: vp_tree and laesa *)
From Coq Require Import QArith Qabs String.
From Verif Require Import Base ClustersModel ClustersSpec LevModel StringsModel SpaceModel SpaceSpec SpaceProofs.
Open Scope nat_scope.
Open Scope list_scope.
Notation length := List.length.

Section VpTree.
Context {A : Type} `{EqDec A}.
Variable within : A -> A -> bool.
Variable data : list A.
Variable query : A -> list A.
Hypothesis query_exact : forall x, ball within data x (query x).

(** C54: each cluster is the ball of an item, within the size bounds; no centre is within reach of an earlier one; each item
    whose ball has an admissible size is in a cluster *)
Theorem C54_balls lo hi : exists centres,
  Forall2 (ball within data) centres (vp_tree query data lo hi) /\
  (forall x, In x centres -> In x data /\ size_within lo hi (length (filter (within x) data))) /\
  ForallOrdPairs (fun x y => within x y = false) centres /\
  (forall x, In x data -> within x x = true -> size_within lo hi (length (filter (within x) data)) ->
     exists c, In c (vp_tree query data lo hi) /\ In x c).
Proof. exact (vp_tree_spec within data query query_exact lo hi). Qed.

(** C54: with the default bounds, each item that has a neighbour is in a cluster *)
Theorem C54_covers x y : In x data -> In y data -> x <> y -> within x x = true -> within x y = true ->
  exists c, In c (vp_tree query data 2 None) /\ In x c.
Proof. exact (vp_tree_default within data query query_exact x y). Qed.
End VpTree.

(** test/clustering/vp_tree_test.py *)
Definition vp_data : list str := [codes "abc"; codes "bcd"; codes "cde"; codes "def"; codes "efg"; codes "fgh"; codes "ghi"].
Definition vp_query (x : str) : list str := filter (fun y => Nat.leb (levenshtein_distance x y) 2) vp_data.
Example vp_query_exact x : ball (fun x y => Nat.leb (levenshtein_distance x y) 2) vp_data x (vp_query x).
Proof. apply Permutation_refl. Qed.
Example vp_test : vp_tree vp_query vp_data 2 None =
  [[codes "abc"; codes "bcd"]; [codes "bcd"; codes "cde"; codes "def"]; [codes "def"; codes "efg"; codes "fgh"]; [codes "fgh"; codes "ghi"]].
Proof. vm_compute. reflexivity. Qed.
Example vp_test_min : vp_tree vp_query vp_data 3 None =
  [[codes "abc"; codes "bcd"; codes "cde"]; [codes "cde"; codes "def"; codes "efg"]; [codes "efg"; codes "fgh"; codes "ghi"]].
Proof. vm_compute. reflexivity. Qed.

Definition gap (x y : nat) : Q := inject_Z (Z.abs (Z.of_nat x - Z.of_nat y)).
Example gap_metric : pseudometric gap.
Proof.
  split; intros; unfold gap.
  - replace (Z.abs (Z.of_nat x - Z.of_nat y)) with (Z.abs (Z.of_nat y - Z.of_nat x)) by lia. apply Qeq_refl.
  - rewrite <- inject_Z_plus, <- Zle_Qle. lia.
Qed.

Definition id_order {A} (l : list A) : list A := l.
Definition components {A} `{EqDec A} distance draw (data : list A) radius pivots : res (list (list A)) :=
  laesa id_order id_order distance draw data radius pivots 2 None "connected_components".

(** C56: when the first item is itself the pivot, its distance to the nearest pivot is 0 and everything else is eliminated *)
Theorem C56_refuted : (gap 0 1 <= 1)%Q /\ components gap 1 [0; 1] 1 None = Ok [] /\ components gap 0 [0; 1] 1 None = Ok [[0; 1]].
Proof. split; [unfold Qle; cbn; lia|]. split; vm_compute; reflexivity. Qed.

(** C56: with repeated items there may be less pivots than asked for *)
Theorem C56_pivots_refuted : components gap 0 [0; 0; 0] 1 None = Err IndexError.
Proof. vm_compute. reflexivity. Qed.

Section Laesa.
Context {A : Type} `{EqDec A}.
Variable distance : A -> A -> Q.
Variable pivot_order : list nat -> list nat.
Hypothesis pivot_order_perm : forall l, Permutation (pivot_order l) l.
Variable set_order : list A -> list A.
Hypothesis set_order_perm : forall l, Permutation (set_order l) l.

(** C75: for every random draw, either too few pivots are found, or the clusters are the components of the pairs within
    the radius that the pivots found do not eliminate *)
Theorem C75_links draw data radius pivots lo hi :
  data <> [] -> (forall x y, In x data -> In y data -> (0 <= distance x y)%Q) -> draw < length data ->
  let n := pivots_number data pivots in
  laesa set_order pivot_order distance draw data radius pivots lo hi "connected_components" = Err IndexError \/
  exists ps pairs out, length ps = n /\ incl ps data /\
    (forall a b, In (a, b) pairs <-> exists i k, i < k /\ nth_error data i = Some a /\ nth_error data k = Some b /\ (distance a b <= radius)%Q /\ compared distance ps a b) /\
    laesa set_order pivot_order distance draw data radius pivots lo hi "connected_components" = Ok out /\
    is_components (pair_vertex pairs) (pair_link pairs) lo hi out.
Proof. exact (laesa_spec distance pivot_order pivot_order_perm set_order set_order_perm draw data radius pivots lo hi). Qed.

(** C75: a pair that is closer than its first item is to the nearest pivot is never eliminated *)
Theorem C75_compared pivots x y : pseudometric distance -> (forall r, In r pivots -> (distance x y <= distance r x)%Q) ->
  compared distance pivots x y.
Proof. exact (compared_close distance pivots x y). Qed.

(** C75: enough pivots are found when the items are at positive distances and not less numerous than the pivots *)
Theorem C75_total draw data radius pivots lo hi :
  data <> [] -> (forall x y, In x data -> In y data -> (0 <= distance x y)%Q) -> draw < length data -> distinct_items distance data ->
  pivots_number data pivots <= length data ->
  exists out, laesa set_order pivot_order distance draw data radius pivots lo hi "connected_components" = Ok out.
Proof. exact (laesa_total distance pivot_order pivot_order_perm set_order set_order_perm draw data radius pivots lo hi). Qed.
End Laesa.

Example laesa_example : map (fun draw => components gap draw [0; 1; 5; 9; 10] 1 None) (seq 0 5) = [Ok []; Ok []; Ok [[9; 10]]; Ok [[9; 10]]; Ok [[9; 10]]].
Proof. vm_compute. reflexivity. Qed.


Print Assumptions C54_balls.
Print Assumptions C54_covers.
Print Assumptions C56_refuted.
Print Assumptions C56_pivots_refuted.
Print Assumptions C75_links.
Print Assumptions C75_compared.
Print Assumptions C75_total.
