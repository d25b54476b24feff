(** C195: nn_descent_full with a sampling rate that gives no sample, or that is negative. *)
From Coq Require Import QArith Qround String Permutation Lia.
From Verif Require Import Base BaseFacts ClustersModel ClustersSpec PairwiseModel PairwiseSpec LevModel GraphModel BlockingSpec NNDescentModel NNDescentSpec NNDescentProofs
  CallsModel NNCallsModel NNDescentRateProofs NNDescentProps.
Open Scope nat_scope.
Open Scope string_scope.
Open Scope list_scope.
Notation length := List.length.

(** C195: when int(rho * k) is 0 or rho is -1 or less, the links are those of the neighbors drawn first: k other positions for each position *)
Theorem C195_first {A} `{EqDec A} set_order heapify heapreplace is_heap (similarity : A -> A -> Q) V draws later fuel k radius rho delta lo hi out :
  (forall l, Permutation (set_order l) l) -> heap_module is_heap heapify heapreplace -> (forall r, In r draws -> r < length V) ->
  let k' := match k with Some k => k | None => Nat.log2 (length V) end in
  (rho <= -1)%Q \/ (- (1) < rho * inject_Z (Z.of_nat k') < 1)%Q ->
  nn_descent_full set_order heapify heapreplace (Some similarity) None V fuel draws later k radius rho delta lo hi "connected_components" = Ok out ->
  exists first clusters, length first = length V /\
    (forall i sampled, nth_error first i = Some sampled -> NoDup sampled /\ length sampled = k' /\ forall j, In j sampled -> j < length V /\ i <> j) /\
    (let link i j := exists sampled x y, nth_error first i = Some sampled /\ In j sampled /\ nth_error V i = Some x /\ nth_error V j = Some y /\ (radius <= similarity x y)%Q in
     is_components (fun i => exists j, link i j \/ link j i) link lo hi clusters) /\ reads V clusters out.
Proof.
  intros P HH D k' Hr E. eapply (unsampled_facts set_order P heapify heapreplace is_heap HH similarity V later fuel draws k radius rho delta lo hi out D); [|exact E].
  fold k'. destruct Hr as [Hr|Hr]; [left; exact Hr|right; apply towards_zero_0; exact Hr].
Qed.
Print Assumptions C195_first.

(** C195: a negative rate takes the first entries of the lists, without any draw *)
Theorem C195_slice {X} later t (L : list X) (k : nat) : 0 < k ->
  sample_full later t L (- Z.of_nat k) = Ok (firstn (length L - k) L, t).
Proof.
  intros Hk. unfold sample_full. destruct (Z.leb_spec (Z.of_nat (length L)) (- Z.of_nat k)); [lia|]. replace (Z.to_nat (- Z.of_nat k)) with 0 by lia. cbn [shuffle_loop bind].
  unfold slice_to. destruct (Z.ltb_spec (- Z.of_nat k) 0); [|lia]. do 3 f_equal. lia.
Qed.
Print Assumptions C195_slice.

(** ** Examples *)
(** with rho = -1 the result is that of the first draws *)
Example C195_example : nn_descent_full (fun l => l) sort_entries replace_least None (Some lev_distance) nn_data 10 [2; 2; 0; 0] (fun t => t) (Some 1) 1 (-1) (1 # 1000) 2 None "connected_components" = Ok [].
Proof. vm_compute. reflexivity. Qed.
(** with a negative rate above -1 there are comparisons, 45 here after the 24 of the first samples: all but the last entry of each list are in the samples *)
Example C195_many :
  length (asked (fst (fst (run (pure (fun q : nat * nat => 0%Q)) tt
    (nn_full_prog (fun l => l) false (seq 0 12) sort_entries replace_least (fun t => t) 9 ([1; 2; 0; 2; 0; 1] ++ List.concat (repeat [0; 1] 9)) (Some 2) 1 (- (1 # 2)) (1 # 1000) 2 None
      "connected_components"))))) = 69.
Proof. vm_compute. reflexivity. Qed.
