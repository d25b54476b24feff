(** C205: intersection_index with a radius of 0 or less *)
From Coq Require Import QArith String Lia.
From Verif Require Import Base BaseFacts ClustersModel ClustersSpec ClustersProofs PairwiseModel PairwiseSpec PairwiseProofs PairwiseProps
  BlockingModel BlockingSpec BlockingProofs BlockingProps MetricsModel MetricsSpec MetricsProofs AgreementSpec AgreementProofs.
Open Scope nat_scope.
Open Scope string_scope.
Open Scope list_scope.
Notation length := List.length.

(** the items at positions i > j have a token in common *)
Definition share {T} (keys : list (list T)) (i j : nat) : Prop :=
  j < i /\ exists a b x, nth_error keys i = Some a /\ nth_error keys j = Some b /\ In x a /\ In x b.

Section Any.
Context {A T : Type} `{EqDec T}.
Variable token_order : list T -> list T.
Hypothesis token_order_perm : forall l, Permutation (token_order l) l.

(** any similarity reaches the radius: what is linked is what shares a token, for both metrics *)
Theorem C205_pairs jaccard radius (keys : list (list T)) i j : (radius <= 0)%Q ->
  (In (i, j) (intersection_pairs token_order jaccard radius keys) <-> share keys i j).
Proof.
  intros R. rewrite (intersection_pairs_In token_order token_order_perm). split.
  - intros ((L & _) & S). split; assumption.
  - intros (L & a & b & x & Ha & Hb & Xa & Xb). split; [|exists a, b, x; auto]. split; [exact L|].
    assert (P : forall n m, m <> 0 -> (radius <= inject_Z (Z.of_nat n) / inject_Z (Z.of_nat m))%Q).
    { intros n m Hm. apply (Qle_trans _ 0); [exact R|]. apply Qle_shift_div_l; [unfold Qlt; cbn; lia|]. unfold Qle. cbn. lia. }
    assert (N : forall (c : list T) n, In x c -> card (fun y => In y c) n -> n <> 0).
    { intros c n Xc (l & _ & El & <-). apply El in Xc. destruct l; [destruct Xc | discriminate]. }
    destruct jaccard.
    + exists a, b. eexists. split; [exact Ha|]. split; [exact Hb|]. split.
      * eexists _, _. split; [apply inter_card|]. split; [|split; [|reflexivity]].
        -- apply (card_ext (fun y => In y (a ++ b))); [intros; apply in_app_iff | apply set_card].
        -- apply (N (a ++ b)); [apply in_or_app; left; exact Xa | apply set_card].
      * apply P. apply (N (a ++ b)); [apply in_or_app; left; exact Xa | apply set_card].
    + exists a, b. eexists. split; [exact Ha|]. split; [exact Hb|]. pose proof (N a _ Xa (set_card a)) as Na. pose proof (N b _ Xb (set_card b)) as Nb. split.
      * eexists _, _, _. split; [apply inter_card|]. split; [apply set_card|]. split; [apply set_card|]. split; [exact Na|]. split; [exact Nb | reflexivity].
      * apply P. lia.
Qed.

(** hence the clusters: those of the items sharing tokens, directly or not *)
Theorem C205_components (set_order : list nat -> list nat) (data : list A) (jaccard : bool) radius (key : A -> list T) lo hi :
  (forall l, Permutation (set_order l) l) -> (radius <= 0)%Q ->
  exists idx out,
    intersection_index token_order set_order data (if jaccard then "jaccard" else "overlap") radius key lo hi "connected_components" = Ok out /\ reads data idx out /\
    is_components (fun i => exists j, share (map key data) i j \/ share (map key data) j i) (share (map key data)) lo hi idx.
Proof.
  intros Hp R. unfold intersection_index.
  assert (Hb : forall i j, share (map key data) i j -> i < length data /\ j < length data).
  { intros i j (_ & a & b & x & Ha & Hb & _). split; rewrite <- (map_length key data); apply nth_error_Some; congruence. }
  destruct (positions_read set_order data (intersection_pairs token_order jaccard radius (map key data)) (share (map key data)) lo hi false Hp
     (fun i j => C205_pairs jaccard radius (map key data) i j R) Hb) as (idx & out & E & Rd & C).
  exists idx, out. split; [|auto]. destruct jaccard; simpl; exact E.
Qed.

(** these are the clusters of pairwise with the test "has a token in common", not those of the metric, which any two items satisfy *)
Theorem C205_pairwise (set_order : list nat -> list nat) (data : list A) (jaccard : bool) radius (key : A -> list T) (common : list T -> list T -> bool) lo hi :
  (forall l, Permutation (set_order l) l) -> (radius <= 0)%Q -> 2 <= lo -> (forall a b, common a b = true <-> exists x, In x a /\ In x b) ->
  agree (intersection_index token_order set_order data (if jaccard then "jaccard" else "overlap") radius key lo hi "connected_components")
        (pairwise_connected_components common key data lo hi).
Proof.
  intros Hs R Lo Hc. destruct (C205_components set_order data jaccard radius key lo hi Hs R) as (idx & out & E & Rd & C).
  destruct (C15_serial common key data lo hi) as (idx2 & out2 & E2 & Rd2 & C2).
  exists out, out2. split; [exact E|]. split; [exact E2|]. eapply reads_same; [|exact Rd|exact Rd2].
  apply (is_components_unique (fun i => i < length data) (similar_at common (map key data)) lo hi); [|exact C2].
  apply (is_components_vertex _ (fun i => i < length data)) in C; [|exact Lo|intros i j K; split; [exists j; left|exists i; right]; exact K|].
  2:{ intros i j (_ & a & b & x & Ha & Hb & _). split; rewrite <- (map_length key data); apply nth_error_Some; congruence. }
  apply (is_components_ext (fun i => i < length data) (fun i => i < length data) (share (map key data))); [intros; tauto| |exact C].
  intros i j. split; apply conn_mono; clear i j; intros i j K; apply conn_sym; apply Relation_Operators.rst_step.
  - destruct K as (Hij & a & b & x & Ha & Hb & Xa & Xb). split; [exact Hij|]. exists b, a. split; [exact Hb|]. split; [exact Ha|]. apply Hc. exists x. auto.
  - destruct K as (Hij & a & b & Ha & Hb & Q). apply Hc in Q as (x & Xa & Xb). split; [exact Hij|]. exists b, a, x. auto.
Qed.
End Any.

Example C205_ex : let run := fun metric radius => intersection_index (fun l => l) (fun l => l) [[1; 2]; [2; 3]; [4]; [3]; []]%nat metric radius (fun x => x) 2 None "connected_components" in
  run "jaccard" 0%Q = Ok [[[2; 3]; [3]; [1; 2]]] /\ run "overlap" (-1 # 1)%Q = run "jaccard" 0%Q /\ run "jaccard" (1 # 2)%Q = Ok [[[3]; [2; 3]]].
Proof. vm_compute. repeat split. Qed.

Print Assumptions C205_pairs.
Print Assumptions C205_components.
Print Assumptions C205_pairwise.
