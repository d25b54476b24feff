(** C12, C13: clusters from similar pairs (fog/clustering/utils.py). *)
From Coq Require Import String.
From Verif Require Import Base BaseFacts ClustersModel ClustersSpec ClustersProofs.
Open Scope nat_scope.
Open Scope string_scope.
Open Scope list_scope.

Section Props.
Context {A : Type} `{EqDec A}.
Variable set_order : list A -> list A.
Hypothesis set_order_perm : forall l, Permutation (set_order l) l.

(** C12: for every list of pairs, every size bounds and every iteration order of the sets, the
    function does not fail and yields exactly the connected components within bounds. *)
Theorem C12_connected_components (pairs : list (A * A)) lo hi fuzzy :
  exists out, clusters_from_pairs set_order pairs lo hi "connected_components" fuzzy = Ok out /\
    is_components (pair_vertex pairs) (pair_link pairs) lo hi out.
Proof. exact (clusters_from_pairs_components set_order set_order_perm pairs lo hi fuzzy). Qed.

(** C12, consequence: the clusters do not depend on the iteration order of sets, on the flag
    [fuzzy], nor on the order or direction of the pairs. *)
Theorem C12_order_independent (order2 : list A -> list A) (pairs1 pairs2 : list (A * A))
    lo hi fuzzy1 fuzzy2 :
  (forall l, Permutation (order2 l) l) ->
  (forall x y, neighbour pairs1 x y <-> neighbour pairs2 x y) ->
  exists out1 out2,
    clusters_from_pairs set_order pairs1 lo hi "connected_components" fuzzy1 = Ok out1 /\
    clusters_from_pairs order2 pairs2 lo hi "connected_components" fuzzy2 = Ok out2 /\
    same_clusters out1 out2.
Proof. exact (clusters_from_pairs_same set_order set_order_perm order2 pairs1 pairs2 lo hi fuzzy1 fuzzy2). Qed.

(** C12 for clusters_from_buckets: components of the graph linking two items when some bucket
    holds both (at two positions) and the similarity, if any, accepts them in that order *)
Theorem C12_buckets (buckets : list (list A)) lo hi similarity fuzzy :
  exists out, clusters_from_buckets set_order buckets lo hi "connected_components" similarity fuzzy = Ok out /\
    is_components (fun x => exists y, bucket_link buckets similarity x y \/ bucket_link buckets similarity y x)
      (bucket_link buckets similarity) lo hi out.
Proof. exact (clusters_from_buckets_components set_order set_order_perm buckets lo hi similarity fuzzy). Qed.

(** C13 *)
Theorem C13_fuzzy_clusters (pairs : list (A * A)) lo hi fuzzy :
  exists out, clusters_from_pairs set_order pairs lo hi "fuzzy_clusters" fuzzy = Ok out /\
    (forall c, In c out -> exists h t, c = h :: t /\ pair_vertex pairs h /\
        (forall y, In y t <-> neighbour pairs h y) /\ size_within lo hi (List.length c) /\
        (fuzzy = true -> NoDup t)) /\
    ForallOrdPairs (fun c1 c2 => forall h t, c2 = h :: t -> ~ In h c1) out /\
    (lo <= 2 -> hi = None -> forall x, pair_vertex pairs x -> exists c, In c out /\ In x c) /\
    (fuzzy = true -> forall x ns, pair_vertex pairs x -> NoDup ns ->
       (forall y, In y ns <-> neighbour pairs x y) -> size_within lo hi (S (List.length ns)) ->
       exists c, In c out /\ In x c).
Proof. exact (clusters_from_pairs_fuzzy set_order set_order_perm pairs lo hi fuzzy). Qed.

Theorem C13_unknown_mode (pairs : list (A * A)) lo hi mode fuzzy :
  mode <> "fuzzy_clusters" -> mode <> "connected_components" ->
  clusters_from_pairs set_order pairs lo hi mode fuzzy = Err TypeError.
Proof. exact (clusters_from_pairs_unknown set_order pairs lo hi mode fuzzy). Qed.
End Props.

(** Non-vacuity: two components of which one is too small for min_size = 3; set iteration in
    reverse order. *)
Example C12_ex :
  clusters_from_pairs (@rev nat) [(1, 2); (3, 4); (2, 5); (2, 1)] 3 None "connected_components" true
  = Ok [[1; 2; 5]].
Proof. vm_compute. reflexivity. Qed.

Example C13_ex :
  clusters_from_pairs (@rev nat) [(1, 2); (2, 3); (3, 4); (1, 2)] 2 None "fuzzy_clusters" true
  = Ok [[1; 2]; [3; 4; 2]].
Proof. vm_compute. reflexivity. Qed.

(** with fuzzy=False the caller promises that a pair comes once; otherwise duplicates appear *)
Example C13_ex_list :
  clusters_from_pairs (@rev nat) [(1, 2); (2, 1)] 2 None "fuzzy_clusters" false = Ok [[1; 2; 2]].
Proof. vm_compute. reflexivity. Qed.

Example C12_ex_buckets :
  clusters_from_buckets (@rev nat) [[1; 2; 3]; [3; 4]; [5; 6]] 2 None "connected_components"
    (Some (fun a b => Nat.even (a + b) || Nat.eqb a 3)) false = Ok [[1; 3; 4]].
Proof. vm_compute. reflexivity. Qed.

Print Assumptions C12_connected_components.
Print Assumptions C12_order_independent.
Print Assumptions C12_buckets.
Print Assumptions C13_fuzzy_clusters.
Print Assumptions C13_unknown_mode.
