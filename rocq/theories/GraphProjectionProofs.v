(** Proofs about monopartite_projection. *)
From Coq Require Import QArith Qfield Lqa String Relations.
From Verif Require Import Base BaseFacts MetricsModel GraphModel GraphSpec EvaluationProofs GraphProofs.
Notation length := List.length.
Notation concat := List.concat.
Open Scope list_scope.
Open Scope nat_scope.

(* ---- loops ---- *)
Lemma foldM_app {S A} (f : S -> A -> res S) l1 : forall l2 s, foldM f (l1 ++ l2) s = (let! s' := foldM f l1 s in foldM f l2 s').
Proof. induction l1 as [|a l1 IH]; intros l2 s; simpl; [reflexivity|]. destruct (f s a); simpl; [apply IH|reflexivity]. Qed.

Lemma foldM_map {S A B} (h : B -> A) (f : S -> A -> res S) l : forall s, foldM (fun s b => f s (h b)) l s = foldM f (map h l) s.
Proof. induction l as [|a l IH]; intros s; simpl; [reflexivity|]. destruct (f s (h a)); simpl; [apply IH|reflexivity]. Qed.

Lemma foldM_flat {S A B} (h : B -> list A) (f : S -> A -> res S) l : forall s, foldM (fun s b => foldM f (h b) s) l s = foldM f (flat_map h l) s.
Proof.
  induction l as [|a l IH]; intros s; simpl; [reflexivity|]. rewrite foldM_app. destruct (foldM f (h a) s); simpl; [apply IH|reflexivity].
Qed.

Lemma foldM_ext {S A} (f f' : S -> A -> res S) l : (forall s a, In a l -> f s a = f' s a) -> forall s, foldM f l s = foldM f' l s.
Proof.
  induction l as [|a l IH]; intros Hf s; simpl; [reflexivity|]. rewrite (Hf s a) by (left; reflexivity).
  destruct (f' s a); simpl; [apply IH; intros; apply Hf; right; assumption|reflexivity].
Qed.

(* ---- sums ---- *)
Lemma sum_ext {A} (f f' : A -> Q) l : (forall x, In x l -> (f x == f' x)%Q) -> (sum (map f l) == sum (map f' l))%Q.
Proof.
  induction l as [|x l IH]; intros Hf; simpl; [reflexivity|]. rewrite (Hf x) by (left; reflexivity). rewrite IH; [reflexivity|].
  intros y Hy. apply Hf. right; exact Hy.
Qed.

Lemma sum_plus {A} (f f' : A -> Q) l : (sum (map (fun x => f x + f' x) l) == sum (map f l) + sum (map f' l))%Q.
Proof. induction l as [|x l IH]; simpl; [reflexivity|]. rewrite IH. lra. Qed.

Lemma sum_zero {A} (f : A -> Q) l : (forall x, In x l -> (f x == 0)%Q) -> (sum (map f l) == 0)%Q.
Proof. intros Hf. rewrite (sum_ext f (fun _ => 0%Q)); [|exact Hf]. clear Hf. induction l as [|x l IH]; simpl; [reflexivity|]. rewrite IH. lra. Qed.

Lemma sum_nonneg {A} (f : A -> Q) l : (forall x, In x l -> (0 <= f x)%Q) -> (0 <= sum (map f l))%Q.
Proof.
  induction l as [|x l IH]; intros Hf; simpl; [lra|]. pose proof (Hf x (or_introl eq_refl)).
  assert (0 <= sum (map f l))%Q by (apply IH; intros; apply Hf; right; assumption). lra.
Qed.

Lemma sum_zero_inv {A} (f : A -> Q) l : (forall x, In x l -> (0 <= f x)%Q) -> (sum (map f l) == 0)%Q -> forall x, In x l -> (f x == 0)%Q.
Proof.
  induction l as [|y l IH]; intros Hf Hs x; simpl in *; [contradiction|].
  pose proof (Hf y (or_introl eq_refl)). assert (0 <= sum (map f l))%Q by (apply sum_nonneg; intros; apply Hf; right; assumption).
  intros [<-|Hx]; [lra|]. apply IH; [intros; apply Hf; right; assumption|lra|exact Hx].
Qed.

Lemma square_nonneg w : (0 <= w * w)%Q.
Proof.
  destruct (Qlt_le_dec w 0).
  - assert (E : (w * w == (- w) * (- w))%Q) by ring. rewrite E. apply Qmult_le_0_compat; lra.
  - apply Qmult_le_0_compat; assumption.
Qed.

Lemma square_zero w : (w * w == 0)%Q -> (w == 0)%Q.
Proof. intros E. apply Qmult_integral in E. tauto. Qed.

Section Dot.
Context {N : Type} `{EqDec N}.

Definition at_key (d : list (N * Q)) (k : N) : Q := match dget d k with Some w => w | None => 0%Q end.
Definition dots (A B : list (N * Q)) : Q := sum (map (fun kw => (snd kw * at_key B (fst kw))%Q) A).

Lemma at_key_absent d k : ~ In k (map fst d) -> at_key d k = 0%Q.
Proof.
  intros Hk. unfold at_key. destruct (dget d k) as [w|] eqn:E; [|reflexivity]. exfalso. apply Hk. apply (dget_In_keys d k). eauto.
Qed.

Lemma at_key_In d k w : NoDup (map fst d) -> In (k, w) d -> at_key d k = w.
Proof. intros Hn Hk. unfold at_key. rewrite (In_dget d k w Hn Hk). reflexivity. Qed.

Lemma sum_pick (B : list (N * Q)) k v : NoDup (map fst B) ->
  (sum (map (fun kw => snd kw * (if eq_dec (fst kw) k then v else 0)) B) == v * at_key B k)%Q.
Proof.
  induction B as [|[k' w'] B IH]; simpl; intros Hn; [unfold at_key; simpl; lra|]. inversion Hn as [|? ? Hni Hn']; subst.
  rewrite (IH Hn'). unfold at_key at 2. simpl. destruct (eq_dec k' k) as [->|Hne].
  - destruct (eq_dec k k) as [_|]; [|contradiction]. rewrite (at_key_absent B k Hni). ring.
  - destruct (eq_dec k k') as [->|_]; [contradiction|]. unfold at_key. ring.
Qed.

Lemma dots_sym A : forall B, NoDup (map fst A) -> NoDup (map fst B) -> (dots A B == dots B A)%Q.
Proof.
  induction A as [|[k v] A IH]; intros B Ha Hb.
  - unfold dots. simpl. symmetry. apply sum_zero. intros [k w] _. unfold at_key. simpl. ring.
  - simpl in Ha. inversion Ha as [|? ? Hni Ha']; subst. unfold dots. simpl.
    change (sum (map (fun kw => snd kw * at_key B (fst kw)) A))%Q with (dots A B). rewrite (IH B Ha' Hb).
    rewrite (sum_ext (fun kw => snd kw * at_key ((k, v) :: A) (fst kw))%Q
      (fun kw => snd kw * (if eq_dec (fst kw) k then v else 0) + snd kw * at_key A (fst kw))%Q).
    + rewrite sum_plus, (sum_pick B k v Hb). reflexivity.
    + intros [k' w] _. unfold at_key at 1. simpl. destruct (eq_dec k' k) as [->|Hne]; [rewrite (at_key_absent A k Hni); ring|unfold at_key; ring].
Qed.

Lemma dots_self A : NoDup (map fst A) -> (dots A A == sum (map (fun kw => snd kw * snd kw) A))%Q.
Proof. intros Hn. unfold dots. apply sum_ext. intros [k w] Hk. simpl. rewrite (at_key_In A k w Hn Hk). reflexivity. Qed.

Lemma dot_product_eq (A B : dict N Q) : NoDup (map fst A) -> NoDup (map fst B) -> (dot_product A B == dots A B)%Q.
Proof.
  intros Ha Hb. unfold dot_product.
  assert (G : forall (C D : dict N Q) p, (fold_left (fun p kv => match dget D (fst kv) with Some w2 => p + snd kv * w2 | None => p end) C p == p + dots C D)%Q).
  { induction C as [|[k v] C IH]; intros D p; simpl; [unfold dots; simpl; lra|]. rewrite IH. unfold dots at 2. simpl. unfold at_key at 1.
    change (sum (map (fun kw => snd kw * at_key D (fst kw)) C))%Q with (dots C D). destruct (dget D k); ring. }
  destruct (Nat.ltb (length B) (length A)).
  - rewrite (G B A). rewrite (dots_sym B A Hb Ha). ring.
  - rewrite (G A B). ring.
Qed.

Lemma dots_common A B : ~ (dots A B == 0)%Q -> exists k, In k (map fst A) /\ In k (map fst B).
Proof.
  intros Hd. destruct (existsb (fun kw => memb (fst kw) (map fst B)) A) eqn:E.
  - apply existsb_exists in E. destruct E as ([k w] & Hk & Hm). rewrite memb_true in Hm. exists k. split; [apply (in_map fst) in Hk; exact Hk|exact Hm].
  - exfalso. apply Hd. apply sum_zero. intros [k w] Hk. simpl. rewrite at_key_absent; [ring|]. intros Hi.
    assert (Ht : existsb (fun kw => memb (fst kw) (map fst B)) A = true); [|congruence]. apply existsb_exists. exists (k, w). split; [exact Hk|].
    rewrite memb_true. exact Hi.
Qed.

Lemma count_sym (A B : list N) : NoDup A -> NoDup B -> length (filter (fun x => memb x B) A) = length (filter (fun x => memb x A) B).
Proof.
  intros Ha Hb. apply Permutation_length. apply NoDup_Permutation; [apply NoDup_filter; exact Ha|apply NoDup_filter; exact Hb|].
  intros x. rewrite !filter_In, !memb_true. tauto.
Qed.

Lemma intersection_size_count (A B : list N) : NoDup A -> NoDup B -> intersection_size false A B = length (filter (fun x => memb x B) A).
Proof.
  intros Ha Hb. unfold intersection_size, swap_smaller. rewrite (set_of_NoDup_id A Ha), (set_of_NoDup_id B Hb). unfold count_in.
  destruct (Nat.ltb (length B) (length A)).
  - destruct B as [|b B]; [simpl; rewrite filter_none; [reflexivity|intros x _; reflexivity]|]. simpl Nat.eqb. cbv iota. apply count_sym; assumption.
  - destruct A as [|a A]; reflexivity.
Qed.
End Dot.

Section Projection.
Context {N P : Type} `{EqDec N} `{EqDec P}.
Variable sqrt : Q -> Q.
Variable geb : N -> N -> bool.
Variable part : N -> option P.
Variable g : graph N Q.
Hypothesis sqrt_ext : forall x y, (x == y)%Q -> (sqrt x == sqrt y)%Q.
Hypothesis sqrt_pos : forall x, (0 < x)%Q -> (0 < sqrt x)%Q.
Hypothesis Hg : undirected g.
Variable metric : option string.
Hypothesis Hmetric : forall s, metric = Some s -> In s metrics.

Lemma row_adjacent n : adjacent g n = row g n.
Proof. reflexivity. Qed.

Lemma row_NoDup n : NoDup (map fst (row g n)).
Proof.
  unfold row. destruct (dget g n) as [l|] eqn:E; [|constructor]. apply dget_Some_In in E. apply (neighbors_once _ Hg n l E).
Qed.

Lemma row_edge n k w : In (k, w) (row g n) <-> edge g n k w.
Proof.
  unfold row, edge. split.
  - destruct (dget g n) as [l|] eqn:E; [|contradiction]. apply dget_Some_In in E. eauto.
  - intros (l & Hl & Hk). rewrite (In_dget g n l (nodes_once _ Hg) Hl). exact Hk.
Qed.

Lemma neighbors_edge n k : In k (neighbors g n) <-> exists w, edge g n k w.
Proof.
  unfold neighbors. rewrite row_adjacent, in_map_iff. split.
  - intros ([k' w] & <- & Hk). exists w. apply row_edge. exact Hk.
  - intros (w & Hw). exists (k, w). split; [reflexivity|]. apply row_edge. exact Hw.
Qed.

Definition cos : bool := is_metric metric "cosine".
Definition total (n : N) : Q := fold_left (fun s mw => (s + (if cos then snd mw * snd mw else 1))%Q) (row g n) 0%Q.
Definition norm (n : N) : Q := if cos then sqrt (total n) else total n.
Definition vec (n : N) : bool := negb (Qle_bool (total n) 0).

Lemma vector_of_eq n : vector_of sqrt g metric n = if vec n then [(n, (norm n, row g n))] else [].
Proof.
  unfold vector_of. fold cos. rewrite row_adjacent.
  assert (G : forall l s d, NoDup (map fst (d ++ l)) ->
    fold_left (fun (st : Q * dict N Q) mw => ((fst st + (if cos then snd mw * snd mw else 1))%Q, dset (snd st) (fst mw) (snd mw))) l (s, d) =
    (fold_left (fun s mw => (s + (if cos then snd mw * snd mw else 1))%Q) l s, d ++ l)).
  { induction l as [|[k w] l IH]; intros s d Hn; simpl; [rewrite app_nil_r; reflexivity|].
    assert (Hk : ~ In k (dkeys d)).
    { rewrite map_app in Hn. rewrite NoDup_app_iff in Hn. destruct Hn as (_ & _ & Hd). intros Hi. apply (Hd k Hi). left; reflexivity. }
    rewrite (dset_fresh d k w Hk), IH; rewrite <- app_assoc; [reflexivity|exact Hn]. }
  rewrite (G (row g n) 0%Q []) by (apply row_NoDup). reflexivity.
Qed.

Lemma total_eq n : (total n == if cos then dot g n n else nat_Q (degree g n))%Q.
Proof.
  unfold total. assert (G : forall l s, (fold_left (fun s (mw : N * Q) => s + (if cos then snd mw * snd mw else 1)) l s ==
    s + (if cos then sum (map (fun kw => snd kw * snd kw) l) else nat_Q (length l)))%Q).
  { induction l as [|[k w] l IH]; intros s; simpl; [destruct cos; [ring|change (nat_Q 0) with 0%Q; ring]|]. rewrite IH. destruct cos; [ring|].
    unfold nat_Q. rewrite Nat2Z.inj_succ. unfold Z.succ. rewrite inject_Z_plus. change (inject_Z 1) with 1%Q. ring. }
  rewrite G. destruct cos; [|unfold degree; ring]. rewrite Qplus_0_l. symmetry. apply dots_self, row_NoDup.
Qed.

Lemma vec_total n : vec n = true <-> (0 < total n)%Q.
Proof.
  unfold vec. rewrite negb_true_iff. split.
  - intros E. apply Qnot_le_lt. intros Hle. apply Qle_bool_iff in Hle. congruence.
  - intros Hlt. destruct (Qle_bool (total n) 0) eqn:E; [|reflexivity]. apply Qle_bool_iff in E. lra.
Qed.

Lemma nat_Q_pos n : (0 < nat_Q n)%Q <-> n <> 0.
Proof. unfold nat_Q. change 0%Q with (inject_Z 0). rewrite <- Zlt_Qlt. lia. Qed.
Lemma nat_Q_zero n : (nat_Q n == 0)%Q <-> n = 0.
Proof. unfold nat_Q. change 0%Q with (inject_Z 0). rewrite inject_Z_injective. lia. Qed.
Lemma nat_Q_le a b : (nat_Q a <= nat_Q b)%Q <-> a <= b.
Proof. unfold nat_Q. rewrite <- Zle_Qle. lia. Qed.
Lemma nat_Q_plus a b : (nat_Q (a + b) == nat_Q a + nat_Q b)%Q.
Proof. unfold nat_Q. rewrite Nat2Z.inj_add, inject_Z_plus. reflexivity. Qed.

Lemma common_keys a b : common g a b = length (filter (fun x => memb x (map fst (row g b))) (map fst (row g a))).
Proof.
  unfold common. generalize (row g a). intros l. induction l as [|[k w] l IH]; simpl; [reflexivity|].
  destruct (memb k (map fst (row g b))); simpl; rewrite IH; reflexivity.
Qed.

Lemma common_sym a b : common g a b = common g b a.
Proof. rewrite !common_keys. apply count_sym; apply row_NoDup. Qed.

Lemma common_le a b : common g a b <= degree g a /\ common g a b <= degree g b.
Proof.
  assert (G : forall x y, common g x y <= degree g x). { intros x y. unfold common, degree. induction (row g x); simpl; [lia|]. destruct (memb _ _); simpl; lia. }
  split; [apply G|rewrite common_sym; apply G].
Qed.

Lemma dot_sym a b : (dot g a b == dot g b a)%Q.
Proof. apply (dots_sym (row g a) (row g b)); apply row_NoDup. Qed.

Lemma metric_cases : metric = None \/ metric = Some "cosine"%string \/ metric = Some "jaccard"%string \/ metric = Some "overlap"%string \/
  metric = Some "dice"%string \/ metric = Some "binary_cosine"%string.
Proof. destruct metric as [s|]; [|left; reflexivity]. specialize (Hmetric s eq_refl). simpl in Hmetric. intuition congruence. Qed.

Lemma Qdiv_comp' a b c d : (a == b)%Q -> (c == d)%Q -> (a / c == b / d)%Q.
Proof. intros E1 E2. rewrite E1, E2. reflexivity. Qed.

Lemma similarity_sym a b : (similarity g sqrt metric a b == similarity g sqrt metric b a)%Q.
Proof.
  destruct metric_cases as [-> | [-> | [-> | [-> | [-> | ->]]]]]; cbn -[nat_Q Nat.min]; try rewrite (common_sym b a).
  - reflexivity.
  - apply Qdiv_comp'; [apply dot_sym|apply Qmult_comm].
  - apply Qdiv_comp'; [reflexivity|]. ring.
  - rewrite Nat.min_comm. reflexivity.
  - apply Qdiv_comp'; [reflexivity|]. ring.
  - apply Qdiv_comp'; [reflexivity|]. apply sqrt_ext. ring.
Qed.

Lemma quotient_ok a b : ~ (b == 0)%Q -> quotient a b = Ok (a / b)%Q.
Proof. intros Hb. unfold quotient. destruct (Qeq_bool b 0) eqn:E; [apply Qeq_bool_iff in E; contradiction|reflexivity]. Qed.

(** the weight that compute_metric gives *)
Lemma compute_metric_similarity a b : vec a = true -> vec b = true ->
  exists w, compute_metric sqrt metric (row g a) (row g b) (norm a) (norm b) = Ok w /\ (w == similarity g sqrt metric a b)%Q.
Proof.
  intros Ha Hb. apply vec_total in Ha, Hb. pose proof (total_eq a) as Ta. pose proof (total_eq b) as Tb.
  destruct (common_le a b) as [La Lb].
  assert (Hi : Qnat (intersection_size false (dkeys (row g a)) (dkeys (row g b))) = nat_Q (common g a b)).
  { unfold Qnat, nat_Q. rewrite intersection_size_count by apply row_NoDup. rewrite common_keys. reflexivity. }
  unfold compute_metric. fold cos. unfold norm. destruct cos eqn:Ec.
  - assert (Em : metric = Some "cosine"%string).
    { unfold cos, is_metric in Ec. destruct metric as [s|]; [|discriminate]. apply String.eqb_eq in Ec. congruence. }
    rewrite Em. simpl. pose proof (dot_product_eq (row g a) (row g b) (row_NoDup a) (row_NoDup b)) as Ed. change (dots (row g a) (row g b)) with (dot g a b) in Ed.
    assert (Sa : (sqrt (total a) == sqrt (dot g a a))%Q) by (apply sqrt_ext; exact Ta).
    assert (Sb : (sqrt (total b) == sqrt (dot g b b))%Q) by (apply sqrt_ext; exact Tb).
    pose proof (sqrt_pos _ Ha) as Pa. pose proof (sqrt_pos _ Hb) as Pb.
    destruct (Qeq_bool (dot_product (row g a) (row g b)) 0) eqn:Ez.
    + apply Qeq_bool_iff in Ez. exists 0%Q. split; [reflexivity|]. rewrite <- Ed, Ez. unfold Qdiv. ring.
    + eexists. split.
      * apply quotient_ok. intros Hz. apply Qmult_integral in Hz. lra.
      * apply Qdiv_comp'; [exact Ed|]. rewrite Sa, Sb. reflexivity.
  - rewrite Hi. assert (Em : metric <> Some "cosine"%string).
    { intros Em. unfold cos in Ec. rewrite Em in Ec. discriminate. }
    assert (Pa : degree g a <> 0) by (apply nat_Q_pos; rewrite <- Ta; exact Ha).
    assert (Pb : degree g b <> 0) by (apply nat_Q_pos; rewrite <- Tb; exact Hb).
    pose proof (proj2 (nat_Q_pos _) Pa) as Qa. pose proof (proj2 (nat_Q_pos _) Pb) as Qb.
    pose proof (proj2 (nat_Q_le _ _) La) as QLa. pose proof (proj2 (nat_Q_le _ _) Lb) as QLb.
    destruct (Qeq_bool (nat_Q (common g a b)) 0) eqn:Ez.
    + apply Qeq_bool_iff in Ez. exists 0%Q. split; [reflexivity|].
      destruct metric_cases as [-> | [E | [-> | [-> | [-> | ->]]]]]; try contradiction; cbn -[nat_Q Nat.min]; rewrite Ez; unfold Qdiv; ring.
    + apply Qeq_bool_neq in Ez.
      destruct metric_cases as [-> | [E | [-> | [-> | [-> | ->]]]]]; try contradiction; cbn -[nat_Q Nat.min quotient].
      * exists (nat_Q (common g a b)). split; reflexivity.
      * eexists. split; [apply quotient_ok; rewrite Ta, Tb; lra|]. rewrite Ta, Tb. reflexivity.
      * assert (Emin : (py_min (total a) (total b) == nat_Q (Nat.min (degree g a) (degree g b)))%Q).
        { unfold py_min. destruct (Qle_bool (total a) (total b)) eqn:El.
          - apply Qle_bool_iff in El. rewrite Ta, Tb in El. apply (nat_Q_le (degree g a) (degree g b)) in El. rewrite Nat.min_l by exact El. exact Ta.
          - assert (~ degree g a <= degree g b).
            { intros Hle. apply nat_Q_le in Hle. rewrite <- Ta, <- Tb in Hle. apply Qle_bool_iff in Hle. congruence. }
            rewrite Nat.min_r by lia. exact Tb. }
        eexists. split; [apply quotient_ok|apply Qdiv_comp'; [reflexivity|exact Emin]].
        rewrite Emin. rewrite nat_Q_zero. lia.
      * eexists. split; [apply quotient_ok; rewrite Ta, Tb; lra|]. rewrite Ta, Tb. reflexivity.
      * assert (Es : (sqrt (total a * total b) == sqrt (nat_Q (degree g a) * nat_Q (degree g b)))%Q) by (apply sqrt_ext; rewrite Ta, Tb; reflexivity).
        assert (Ps : (0 < sqrt (total a * total b))%Q) by (apply sqrt_pos; apply Qmult_lt_0_compat; assumption).
        eexists. split; [apply quotient_ok; lra|]. rewrite Es. reflexivity.
Qed.

Definition wt (a b : N) : Q := match compute_metric sqrt metric (row g a) (row g b) (norm a) (norm b) with Ok w => w | Err _ => 0%Q end.

Lemma compute_wt a b : vec a = true -> vec b = true ->
  compute_metric sqrt metric (row g a) (row g b) (norm a) (norm b) = Ok (wt a b) /\ (wt a b == similarity g sqrt metric a b)%Q.
Proof. intros Ha Hb. destruct (compute_metric_similarity a b Ha Hb) as (w & E & Hw). unfold wt. rewrite E. auto. Qed.

Lemma keeps_retained threshold w : keeps threshold w = true <-> retained threshold w.
Proof.
  unfold keeps, retained. rewrite andb_true_iff, negb_true_iff. destruct threshold as [t|].
  - rewrite Qle_bool_iff. split; intros [E Ht]; (split; [|exact Ht]); [apply Qeq_bool_neq; exact E|].
    destruct (Qeq_bool w 0) eqn:Ew; [apply Qeq_bool_iff in Ew; contradiction|reflexivity].
  - split; intros [E Ht]; (split; [|constructor || reflexivity]); [apply Qeq_bool_neq; exact E|].
    destruct (Qeq_bool w 0) eqn:Ew; [apply Qeq_bool_iff in Ew; contradiction|reflexivity].
Qed.

Lemma retained_ext threshold w w' : (w == w')%Q -> retained threshold w -> retained threshold w'.
Proof. unfold retained. intros E [Hz Ht]. split; [rewrite <- E; exact Hz|]. destruct threshold; [rewrite <- E; exact Ht|exact Ht]. Qed.

(** a non null similarity needs a vector on both sides and a common neighbor *)
Lemma similarity_needs a b : ~ (similarity g sqrt metric a b == 0)%Q ->
  vec a = true /\ vec b = true /\ exists k, In k (neighbors g a) /\ In k (neighbors g b).
Proof.
  intros Hs. destruct (common_le a b) as [La Lb].
  destruct cos eqn:Ec.
  - assert (Em : metric = Some "cosine"%string).
    { unfold cos, is_metric in Ec. destruct metric as [s|]; [|discriminate]. apply String.eqb_eq in Ec. congruence. }
    rewrite Em in Hs. simpl in Hs.
    assert (Hd : ~ (dot g a b == 0)%Q) by (intros E; apply Hs; rewrite E; unfold Qdiv; ring).
    assert (G : forall x y, ~ (dot g x y == 0)%Q -> vec x = true).
    { intros x y Hxy. rewrite vec_total, total_eq, Ec. assert (Hself : (dot g x x == sum (map (fun kw => snd kw * snd kw) (row g x)))%Q) by (apply dots_self, row_NoDup).
      assert (Hnn : (0 <= dot g x x)%Q) by (rewrite Hself; apply sum_nonneg; intros; apply square_nonneg).
      assert (Hnz : ~ (dot g x x == 0)%Q).
      { intros E. apply Hxy. apply sum_zero. intros kw Hkw. rewrite (square_zero (snd kw)); [ring|].
        rewrite Hself in E. apply (sum_zero_inv (fun kw => snd kw * snd kw)%Q (row g x)); [intros; apply square_nonneg|exact E|exact Hkw]. }
      destruct (Qlt_le_dec 0 (dot g x x)) as [Hlt|Hle]; [exact Hlt|exfalso; apply Hnz, Qle_antisym; assumption]. }
    split; [apply (G a b); exact Hd|]. split; [apply (G b a); rewrite <- dot_sym; exact Hd|]. apply (dots_common (row g a) (row g b)). exact Hd.
  - assert (Hc : common g a b <> 0).
    { intros E. apply Hs. assert (Em : metric <> Some "cosine"%string) by (intros Em; unfold cos in Ec; rewrite Em in Ec; discriminate).
      destruct metric_cases as [-> | [E' | [-> | [-> | [-> | ->]]]]]; try contradiction; cbn -[nat_Q Nat.min]; rewrite E; change (nat_Q 0) with 0%Q; unfold Qdiv; ring. }
    split; [rewrite vec_total, total_eq, Ec, nat_Q_pos; lia|]. split; [rewrite vec_total, total_eq, Ec, nat_Q_pos; lia|].
    rewrite common_keys in Hc. destruct (filter _ _) as [|k l] eqn:E in Hc; [contradiction|].
    assert (Hk : In k (filter (fun x => memb x (map fst (row g b))) (map fst (row g a)))) by (rewrite E; left; reflexivity).
    rewrite filter_In, memb_true in Hk. exists k. exact Hk.
Qed.

Lemma vec_node a : vec a = true -> exists k, In k (neighbors g a).
Proof.
  intros Ha. apply vec_total in Ha. rewrite total_eq in Ha. unfold neighbors. rewrite row_adjacent.
  destruct (row g a) as [|[k w] l] eqn:E; [exfalso|exists k; left; reflexivity].
  unfold dot, degree in Ha. rewrite E in Ha. destruct cos; [simpl in Ha; lra|change (nat_Q (length (@nil (N * Q)))) with 0%Q in Ha; lra].
Qed.

(* ---- the quadratic scan ---- *)
Definition vnodes (nodes : list N) : list N := filter vec nodes.

Lemma vectors_eq nodes : flat_map (vector_of sqrt g metric) nodes = map (fun n => (n, (norm n, row g n))) (vnodes nodes).
Proof.
  induction nodes as [|n nodes IH]; simpl; [reflexivity|]. rewrite vector_of_eq, IH. destruct (vec n); reflexivity.
Qed.

Definition mono_edge threshold (a b : N) : list (N * N * Q) := if keeps threshold (wt a b) then [(a, b, wt a b)] else [].

Fixpoint qpairs threshold (V : list N) : list (N * N * Q) :=
  match V with [] => [] | a :: V' => flat_map (mono_edge threshold a) V' ++ qpairs threshold V' end.

Lemma quadratic_eq threshold V : (forall a, In a V -> vec a = true) -> forall m,
  quadratic_edges sqrt metric threshold (map (fun n => (n, (norm n, row g n))) V) m = Ok (m ++ qpairs threshold V).
Proof.
  induction V as [|a V IH]; intros HV m; simpl; [rewrite app_nil_r; reflexivity|].
  assert (G : forall L m, (forall b, In b L -> vec b = true) ->
    foldM (fun m (nv : N * (Q * dict N Q)) => let '(n2, (norm2, vector2)) := nv in
      let! w := compute_metric sqrt metric (row g a) vector2 (norm a) norm2 in
      Ok (if keeps threshold w then m ++ [(a, n2, w)] else m)) (map (fun n => (n, (norm n, row g n))) L) m =
    Ok (m ++ flat_map (mono_edge threshold a) L)).
  { induction L as [|b L IHL]; intros m0 HL; simpl; [rewrite app_nil_r; reflexivity|].
    destruct (compute_wt a b) as [E _]; [apply HV; left; reflexivity|apply HL; left; reflexivity|]. rewrite E. cbn [bind].
    rewrite IHL by (intros; apply HL; right; assumption). unfold mono_edge at 2.
    destruct (keeps threshold (wt a b)); [rewrite <- app_assoc|]; reflexivity. }
  rewrite G by (intros; apply HV; right; assumption). cbn [bind]. rewrite IH by (intros; apply HV; right; assumption). rewrite <- app_assoc. reflexivity.
Qed.

Lemma mono_edge_In threshold a b x y w : In (x, y, w) (mono_edge threshold a b) <-> x = a /\ y = b /\ w = wt a b /\ keeps threshold (wt a b) = true.
Proof.
  unfold mono_edge. destruct (keeps threshold (wt a b)); simpl; [|intuition discriminate].
  split; [intros [E|[]]; injection E as -> -> <-; auto|intros (-> & -> & -> & _); auto].
Qed.

Lemma qpairs_In threshold V : NoDup V -> forall a b w, In (a, b, w) (qpairs threshold V) ->
  In a V /\ In b V /\ a <> b /\ w = wt a b /\ keeps threshold (wt a b) = true.
Proof.
  induction V as [|x V IH]; simpl; intros Hn a b w; [contradiction|]. inversion Hn as [|? ? Hni Hn']; subst. rewrite in_app_iff, in_flat_map. intros [(y & Hy & Hin)|Hin].
  - apply mono_edge_In in Hin. destruct Hin as (-> & -> & -> & Hk). split; [auto|]. split; [auto|]. split; [intros ->; contradiction|auto].
  - destruct (IH Hn' a b w Hin) as (Ha & Hb & Hne & E & Hk). auto.
Qed.

Lemma qpairs_complete threshold V a b : In a V -> In b V -> a <> b -> keeps threshold (wt a b) = true -> keeps threshold (wt b a) = true ->
  In (a, b, wt a b) (qpairs threshold V) \/ In (b, a, wt b a) (qpairs threshold V).
Proof.
  induction V as [|x V IH]; simpl; [contradiction|]. intros Ha Hb Hne Hk Hk'. rewrite !in_app_iff, !in_flat_map.
  destruct Ha as [->|Ha].
  - destruct Hb as [->|Hb]; [contradiction|]. left. left. exists b. split; [exact Hb|]. apply mono_edge_In. auto.
  - destruct Hb as [->|Hb]; [right; left; exists a; split; [exact Ha|]; apply mono_edge_In; auto|].
    destruct (IH Ha Hb Hne Hk Hk'); [left; right|right; right]; assumption.
Qed.

Lemma same_pair_true (a b x y : N) w : same_pair a b (x, y, w) = true <-> (x = a /\ y = b) \/ (x = b /\ y = a).
Proof. unfold same_pair. rewrite orb_true_iff, !andb_true_iff, !eqb_true. reflexivity. Qed.

Lemma qpairs_once threshold (V : list N) : NoDup V -> forall a b : N, length (filter (same_pair a b) (qpairs threshold V)) <= 1.
Proof.
  induction V as [|x V IH]; simpl; intros Hn a b; [lia|]. inversion Hn as [|? ? Hni Hn']; subst. rewrite filter_app, app_length.
  specialize (IH Hn' a b).
  assert (G : forall L, NoDup L -> length (filter (same_pair a b) (flat_map (mono_edge threshold x) L)) <= 1 /\
    (~ In a L -> ~ In b L -> filter (same_pair a b) (flat_map (mono_edge threshold x) L) = []) /\ (~ x = a -> ~ x = b -> filter (same_pair a b) (flat_map (mono_edge threshold x) L) = []) /\
    (~ (x = a /\ In b L) -> ~ (x = b /\ In a L) -> filter (same_pair a b) (flat_map (mono_edge threshold x) L) = [])).
  { assert (Gn : forall L, (~ (x = a /\ In b L) -> ~ (x = b /\ In a L) -> filter (same_pair a b) (flat_map (mono_edge threshold x) L) = [])).
    { intros L Hc1 Hc2. apply filter_none. intros [[u v] w] Hin. apply in_flat_map in Hin. destruct Hin as (y & Hy & Hin). apply mono_edge_In in Hin.
      destruct Hin as (-> & -> & _). destruct (same_pair a b (x, y, w)) eqn:E; [|reflexivity]. apply same_pair_true in E. exfalso.
      destruct E as [[-> ->]|[-> ->]]; tauto. }
    assert (Gl : forall L, NoDup L -> x <> a \/ x <> b \/ a = b -> length (filter (same_pair a b) (flat_map (mono_edge threshold x) L)) <= 1).
    { induction L as [|y L IHL]; intros HL Hx; simpl; [lia|]. inversion HL as [|? ? Hy HL']; subst. specialize (IHL HL' Hx). rewrite filter_app, app_length.
      destruct (filter (same_pair a b) (mono_edge threshold x y)) as [|e l] eqn:E; [simpl; exact IHL|].
      assert (Hlen : length (e :: l) <= 1). { rewrite <- E. unfold mono_edge. destruct (keeps threshold (wt x y)); cbn [filter]; [|simpl; lia]. destruct (same_pair a b _); simpl; lia. }
      assert (He : In e (filter (same_pair a b) (mono_edge threshold x y))) by (rewrite E; left; reflexivity).
      rewrite filter_In in He. destruct He as [He1 He2]. destruct e as [[u v] w]. apply mono_edge_In in He1. destruct He1 as (-> & -> & _).
      apply same_pair_true in He2. rewrite Gn; [simpl length; rewrite Nat.add_0_r; exact Hlen| |].
      - intros [-> Hb]. destruct He2 as [[_ ->]|[Eab ->]]; [contradiction|]. subst. contradiction.
      - intros [-> Ha]. destruct He2 as [[Eab ->]|[_ ->]]; [|contradiction]. subst. contradiction. }
    intros L HL. split; [|split; [|split]].
    - destruct (eq_dec x a) as [->|]; [|apply Gl; auto]. destruct (eq_dec a b) as [E|]; apply Gl; auto.
    - intros. apply Gn; tauto.
    - intros. apply Gn; tauto.
    - apply Gn. }
  destruct (G V Hn') as (G1 & _ & _ & G4).
  destruct (filter (same_pair a b) (qpairs threshold V)) as [|e l] eqn:E; [simpl; lia|].
  assert (He : In e (filter (same_pair a b) (qpairs threshold V))) by (rewrite E; left; reflexivity).
  rewrite filter_In in He. destruct He as [He1 He2]. destruct e as [[u v] w]. apply (qpairs_In threshold V Hn') in He1. destruct He1 as (Hu & Hv & _).
  apply same_pair_true in He2.
  rewrite G4; [simpl; simpl in IH; lia| |]; intros [-> Hi]; destruct He2 as [[-> ->]|[-> ->]]; contradiction.
Qed.

(* ---- the topology walk ---- *)
Hypothesis geb_total : forall a b, geb a b = true \/ geb b a = true.
Hypothesis geb_antisym : forall a b, geb a b = true -> geb b a = true -> a = b.
Definition candidates (V : list N) : list (N * N) :=
  flat_map (fun a => flat_map (fun np => map (fun b => (a, b)) (neighbors g np)) (neighbors g a)) V.

Definition tstep threshold (vectors : dict N (Q * dict N Q)) (m : list (N * N * Q)) (ab : N * N) : res (list (N * N * Q)) :=
  let '(n1, n2) := ab in
  if geb n1 n2 then Ok m
  else if has_edge m n1 n2 then Ok m
  else match dget vectors n2 with
       | None => Err KeyError
       | Some (norm2, vector2) =>
         let! w := compute_metric sqrt metric (row g n1) vector2 (norm n1) norm2 in
         Ok (if keeps threshold w then m ++ [(n1, n2, w)] else m)
       end.

Lemma topology_flat threshold V :
  topology_edges sqrt geb g metric threshold (map (fun n => (n, (norm n, row g n))) V) =
  foldM (tstep threshold (map (fun n => (n, (norm n, row g n))) V)) (candidates V) [].
Proof.
  unfold topology_edges, candidates. generalize (map (fun n => (n, (norm n, row g n))) V) at 1 3. intros vectors.
  rewrite <- (foldM_flat (fun a => flat_map (fun np => map (fun b => (a, b)) (neighbors g np)) (neighbors g a))).
  rewrite <- foldM_map. apply foldM_ext. intros m a _.
  rewrite <- (foldM_flat (fun np => map (fun b => (a, b)) (neighbors g np))). apply foldM_ext. intros m' np _.
  rewrite <- (foldM_map (fun b => (a, b)) (tstep threshold vectors)). apply foldM_ext. intros m'' n2 _. reflexivity.
Qed.

Lemma candidates_In V a b : In (a, b) (candidates V) <-> In a V /\ exists k, In k (neighbors g a) /\ In b (neighbors g k).
Proof.
  unfold candidates. rewrite in_flat_map. split.
  - intros (x & Hx & Hin). apply in_flat_map in Hin. destruct Hin as (k & Hk & Hin). apply in_map_iff in Hin. destruct Hin as (y & E & Hy).
    injection E as -> ->. eauto.
  - intros (Ha & k & Hk & Hb). exists a. split; [exact Ha|]. apply in_flat_map. exists k. split; [exact Hk|]. apply in_map. exact Hb.
Qed.

Lemma dget_vectors V n : In n V -> dget (map (fun n => (n, (norm n, row g n))) V) n = Some (norm n, row g n).
Proof. induction V as [|x V IH]; simpl; [contradiction|]. intros Hn. destruct (eq_dec n x) as [->|]; [reflexivity|]. destruct Hn; [congruence|auto]. Qed.

Lemma has_edge_same (m : list (N * N * Q)) (a b : N) : has_edge m a b = existsb (same_pair a b) m.
Proof. unfold has_edge. induction m as [|[[x y] w] m IH]; simpl; [reflexivity|]. rewrite IH. reflexivity. Qed.

Lemma filter_existsb {A} (p : A -> bool) l : existsb p l = false -> filter p l = [].
Proof. intros E. apply filter_none. intros x Hx. destruct (p x) eqn:Ep; [|reflexivity]. assert (existsb p l = true) by (apply existsb_exists; eauto). congruence. Qed.

Lemma topology_loop threshold V L : (forall a, In a V -> vec a = true) ->
  (forall a b, In (a, b) L -> In a V /\ (geb a b = false -> In b V)) -> forall m,
  (forall a b w, In (a, b, w) m -> In a V /\ In b V /\ geb a b = false /\ w = wt a b /\ keeps threshold (wt a b) = true) ->
  (forall a b, length (filter (same_pair a b) m) <= 1) ->
  exists m', foldM (tstep threshold (map (fun n => (n, (norm n, row g n))) V)) L m = Ok m' /\
    (forall a b w, In (a, b, w) m' -> In a V /\ In b V /\ geb a b = false /\ w = wt a b /\ keeps threshold (wt a b) = true) /\
    (forall a b, length (filter (same_pair a b) m') <= 1) /\ incl m m' /\
    (forall a b, In (a, b) L -> geb a b = false -> keeps threshold (wt a b) = true -> In (a, b, wt a b) m').
Proof.
  intros HV. induction L as [|[a b] L IH]; intros HL m Hm Ho; simpl.
  - exists m. split; [reflexivity|]. split; [exact Hm|]. split; [exact Ho|]. split; [apply incl_refl|intros ? ? []].
  - assert (HL' : forall a b, In (a, b) L -> In a V /\ (geb a b = false -> In b V)) by (intros; apply HL; right; assumption).
    assert (Hsame : (geb a b = false -> keeps threshold (wt a b) = true -> In (a, b, wt a b) m) ->
      exists m', (let! s' := Ok m in foldM (tstep threshold (map (fun n => (n, (norm n, row g n))) V)) L s') = Ok m' /\
    (forall a b w, In (a, b, w) m' -> In a V /\ In b V /\ geb a b = false /\ w = wt a b /\ keeps threshold (wt a b) = true) /\
    (forall a b, length (filter (same_pair a b) m') <= 1) /\ incl m m' /\
    (forall a0 b0, (a, b) = (a0, b0) \/ In (a0, b0) L -> geb a0 b0 = false -> keeps threshold (wt a0 b0) = true -> In (a0, b0, wt a0 b0) m')).
    { intros Hab. cbn [bind]. destruct (IH HL' m Hm Ho) as (m' & E & H1 & H2 & H3 & H4). exists m'. split; [exact E|]. split; [exact H1|]. split; [exact H2|].
      split; [exact H3|]. intros x y [Exy|Hxy]; [injection Exy as <- <-; intros; apply H3; auto|apply H4; exact Hxy]. }
    destruct (geb a b) eqn:Eg; [apply Hsame; discriminate|].
    destruct (HL a b (or_introl eq_refl)) as [Ha Hb]. specialize (Hb Eg).
    rewrite has_edge_same. destruct (existsb (same_pair a b) m) eqn:Eh.
    + apply Hsame. intros _ _. apply existsb_exists in Eh. destruct Eh as ([[x y] w] & Hin & Hp). apply same_pair_true in Hp.
      destruct (Hm x y w Hin) as (_ & _ & Hgxy & -> & _). destruct Hp as [[-> ->]|[-> ->]]; [exact Hin|]. exfalso. destruct (geb_total a b); congruence.
    + pose proof (dget_vectors V b Hb : @dget N (Q * dict N Q) _ _ _ = _) as Ev; rewrite Ev; clear Ev. destruct (compute_wt a b (HV a Ha) (HV b Hb)) as [E _]. rewrite E. cbn [bind].
      destruct (keeps threshold (wt a b)) eqn:Ek; [|apply Hsame; intros _ E'; congruence].
      destruct (IH HL' (m ++ [(a, b, wt a b)])) as (m' & E' & H1 & H2 & H3 & H4).
      * intros x y w Hin. apply in_app_or in Hin. destruct Hin as [Hin|[Hin|[]]]; [apply Hm; exact Hin|]. injection Hin as <- <- <-. auto.
      * intros x y. rewrite filter_app, app_length. cbn [filter]. destruct (same_pair x y (a, b, wt a b)) eqn:Es; [|simpl; specialize (Ho x y); lia].
        apply same_pair_true in Es. assert (Hf : filter (same_pair x y) m = []); [|rewrite Hf; simpl; lia].
        apply filter_existsb. rewrite <- Eh. destruct Es as [[-> ->]|[-> ->]]; [reflexivity|].
        clear. induction m as [|[[u v] w] m IH]; simpl; [reflexivity|]. rewrite IH. f_equal. apply orb_comm.
      * exists m'. split; [exact E'|]. split; [exact H1|]. split; [exact H2|]. split; [intros e He; apply H3, in_or_app; left; exact He|].
        intros x y [Exy|Hxy]; [|apply H4; exact Hxy]. injection Exy as <- <-. intros _ _. apply H3, in_or_app. right; left; reflexivity.
Qed.

(* ---- the nodes and the check ---- *)
Definition in_part (project : P) (n : N) : bool := match part n with Some p => eqb p project | None => false end.

Lemma kept_nodes_eq project nodes : (forall n, In n nodes -> part n <> None) -> kept_nodes part project nodes = Ok (filter (in_part project) nodes).
Proof.
  induction nodes as [|n nodes IH]; intros Hp; simpl; [reflexivity|]. rewrite IH by (intros; apply Hp; right; assumption).
  specialize (Hp n (or_introl eq_refl)). unfold in_part at 2. destruct (part n) as [p|]; [|contradiction]. cbn [bind]. destruct (eqb p project); reflexivity.
Qed.

Lemma edge_nodes a b w : edge g a b w -> In a (map fst g) /\ In b (map fst g).
Proof.
  intros He. pose proof (both_ways _ Hg _ _ _ He) as (l' & Hl' & _). destruct He as (l & Hl & _).
  split; [apply (in_map fst) in Hl; exact Hl|apply (in_map fst) in Hl'; exact Hl'].
Qed.

Definition check_step := check_edge (N := N) part.

Lemma check_ok : (forall n, In n (map fst g) -> part n <> None) -> bipartite g part -> exists ps, foldM check_step (edges g) [] = Ok ps.
Proof. clear geb_total geb_antisym.
  intros Hp [Hb1 Hb2].
  assert (G : forall L ps, (forall a b w, In (a, b, w) L -> edge g a b w) -> NoDup ps ->
    (forall p, In p ps -> exists a a' w, edge g a a' w /\ part a = Some p) -> exists ps', foldM check_step L ps = Ok ps').
  { induction L as [|[[a b] w] L IH]; intros ps HL Hn Hps; [exists ps; reflexivity|]. cbn [foldM]. unfold check_step at 1, check_edge at 1.
    assert (He : edge g a b w) by (apply HL; left; reflexivity). destruct (edge_nodes a b w He) as [Ha Hb].
    destruct (part a) as [pa|] eqn:Ea; [|exfalso; apply (Hp a Ha); exact Ea]. destruct (part b) as [pb|] eqn:Eb; [|exfalso; apply (Hp b Hb); exact Eb].
    assert (Hn' : NoDup (sadd (sadd ps pa) pb)) by (apply sadd_NoDup, sadd_NoDup, Hn).
    assert (Hps' : forall p, In p (sadd (sadd ps pa) pb) -> exists a a' w, edge g a a' w /\ part a = Some p).
    { intros p Hi. rewrite !sadd_In in Hi. destruct Hi as [[Hi| ->]| ->]; [auto|exists a, b, w; auto|exists b, a, w; split; [apply Hg; exact He|exact Eb]]. }
    destruct (eqb pa pb) eqn:Eab. { rewrite eqb_true in Eab. exfalso. apply (Hb1 a b w He). congruence. }
    destruct (Nat.ltb_spec 2 (length (sadd (sadd ps pa) pb))) as [Hlt|Hle].
    - exfalso. destruct (sadd (sadd ps pa) pb) as [|p1 [|p2 [|p3 l]]]; simpl in Hlt; try lia.
      destruct (Hps' p1) as (x1 & y1 & w1 & E1 & P1); [left; reflexivity|]. destruct (Hps' p2) as (x2 & y2 & w2 & E2 & P2); [right; left; reflexivity|].
      destruct (Hps' p3) as (x3 & y3 & w3 & E3 & P3); [right; right; left; reflexivity|].
      inversion Hn' as [|? ? N1 Hn1]; subst. inversion Hn1 as [|? ? N2 Hn2]; subst.
      destruct (Hb2 _ _ _ _ _ _ _ _ _ E1 E2 E3) as [E|[E|E]]; rewrite ?P1, ?P2, ?P3 in E; injection E as E; subst; [apply N1|apply N2|apply N1]; simpl; auto.
    - cbn [orb bind]. apply IH; [intros; apply HL; right; assumption|exact Hn'|exact Hps']. }
  apply (G (edges g) []); [intros; apply edges_sound; assumption|constructor|intros ? []].
Qed.

Lemma check_not : (forall n, In n (map fst g) -> part n <> None) -> ~ bipartite g part -> foldM check_step (edges g) [] = Err TypeError.
Proof. clear geb_total geb_antisym.
  intros Hp Hnb.
  assert (G : forall L ps, (forall a b w, In (a, b, w) L -> edge g a b w) -> length ps <= 2 -> NoDup ps ->
    foldM check_step L ps = Err TypeError \/ exists ps', foldM check_step L ps = Ok ps' /\ incl ps ps' /\ length ps' <= 2 /\
      (forall a b w, In (a, b, w) L -> part a <> part b /\ exists pa pb, part a = Some pa /\ part b = Some pb /\ In pa ps' /\ In pb ps')).
  { induction L as [|[[a b] w] L IH]; intros ps HL Hlen Hn.
    - right. exists ps. split; [reflexivity|]. split; [apply incl_refl|]. split; [exact Hlen|intros ? ? ? []].
    - cbn [foldM]. unfold check_step at 1 3, check_edge at 1 2.
      assert (He : edge g a b w) by (apply HL; left; reflexivity). destruct (edge_nodes a b w He) as [Ha Hb].
      destruct (part a) as [pa|] eqn:Ea; [|exfalso; apply (Hp a Ha); exact Ea]. destruct (part b) as [pb|] eqn:Eb; [|exfalso; apply (Hp b Hb); exact Eb].
      destruct (eqb pa pb) eqn:Eab; [left; reflexivity|]. cbn [orb].
      destruct (Nat.ltb_spec 2 (length (sadd (sadd ps pa) pb))) as [Hlt|Hle]; [left; reflexivity|]. cbn [bind].
      destruct (IH (sadd (sadd ps pa) pb)) as [E|(ps' & E & Hi & Hl & HE)]; [intros; apply HL; right; assumption|exact Hle|apply sadd_NoDup, sadd_NoDup, Hn|left; exact E|].
      right. exists ps'. split; [exact E|]. split; [intros p Hpp; apply Hi; rewrite !sadd_In; auto|]. split; [exact Hl|].
      intros x y v [Exy|Hin]; [|apply (HE x y v Hin)]. injection Exy as <- <- <-. split.
      + rewrite Ea, Eb. intros E'. injection E' as ->. assert (eqb pb pb = true) by (rewrite eqb_true; reflexivity). congruence.
      + exists pa, pb. split; [exact Ea|]. split; [exact Eb|]. split; apply Hi; rewrite !sadd_In; auto. }
  destruct (G (edges g) []) as [E|(ps' & E & _ & Hl & HE)]; [intros; apply edges_sound; assumption|simpl; lia|constructor|exact E|].
  exfalso. apply Hnb.
  assert (HE' : forall a b w, edge g a b w -> part a <> part b /\ exists pa, part a = Some pa /\ In pa ps').
  { intros a b w He. destruct (edges_complete g a b w Hg He) as [Hin|Hin]; destruct (HE _ _ _ Hin) as (Hne & pa & pb & Ea & Eb & Ia & Ib); (split; [congruence|eauto]). }
  split; [intros a b w He; apply (HE' a b w He)|].
  intros a b c a' b' c' w w' w'' E1 E2 E3. destruct (HE' _ _ _ E1) as (_ & pa & -> & Ia). destruct (HE' _ _ _ E2) as (_ & pb & -> & Ib). destruct (HE' _ _ _ E3) as (_ & pc & -> & Ic).
  destruct ps' as [|p [|q [|r l]]]; simpl in Hl; try lia; simpl in Ia, Ib, Ic; intuition (subst; auto).
Qed.

(* ---- the projection ---- *)
Variable project : P.
Variable threshold : option Q.
Hypothesis Hparts : forall n, In n (map fst g) -> part n <> None.

Lemma metric_known : (match metric with Some m => negb (existsb (String.eqb m) metrics) | None => false end) = false.
Proof.
  destruct metric as [s|]; [|reflexivity]. rewrite negb_false_iff. apply existsb_exists. exists s. split; [apply Hmetric; reflexivity|apply String.eqb_refl].
Qed.

Lemma vnodes_In nodes a : In a (vnodes nodes) <-> In a nodes /\ vec a = true.
Proof. unfold vnodes. rewrite filter_In. reflexivity. Qed.

Definition kept : list N := filter (in_part project) (map fst g).

Lemma kept_NoDup : NoDup kept.
Proof. apply NoDup_filter, nodes_once, Hg. Qed.

Lemma quadratic_projection : exists m, quadratic_edges sqrt metric threshold (flat_map (vector_of sqrt g metric) kept) [] = Ok m /\
  is_projection g sqrt metric threshold kept m.
Proof. clear geb_total geb_antisym.
  rewrite vectors_eq. rewrite quadratic_eq by (intros a Ha; apply vnodes_In in Ha; tauto). exists (qpairs threshold (vnodes kept)). split; [reflexivity|].
  assert (Hn : NoDup (vnodes kept)) by (apply NoDup_filter, kept_NoDup).
  split.
  - intros a b w Hin. apply (qpairs_In threshold _ Hn) in Hin. destruct Hin as (Ha & Hb & Hne & -> & Hk). apply vnodes_In in Ha, Hb. destruct Ha as [Ha Va], Hb as [Hb Vb].
    destruct (compute_wt a b Va Vb) as [_ E]. split; [exact Ha|]. split; [exact Hb|]. split; [exact Hne|]. split; [exact E|]. apply keeps_retained. exact Hk.
  - intros a b Ha Hb Hne Hr. destruct (similarity_needs a b) as (Va & Vb & _); [apply Hr|].
    destruct (compute_wt a b Va Vb) as [_ E]. destruct (compute_wt b a Vb Va) as [_ E'].
    destruct (qpairs_complete threshold (vnodes kept) a b) as [Hin|Hin]; eauto.
    + apply vnodes_In. auto.
    + apply vnodes_In. auto.
    + apply keeps_retained. apply (retained_ext _ (similarity g sqrt metric a b)); [symmetry; exact E|exact Hr].
    + apply keeps_retained. apply (retained_ext _ (similarity g sqrt metric a b)); [rewrite E', (similarity_sym a b); reflexivity|exact Hr].
  - apply qpairs_once. exact Hn.
Qed.

Lemma kept_In a : In a kept <-> In a (map fst g) /\ part a = Some project.
Proof.
  unfold kept. rewrite filter_In. unfold in_part. destruct (part a) as [p|]; [rewrite eqb_true; split; intros [? E]; (split; [assumption|congruence])|split; intros [? E]; discriminate].
Qed.

Lemma topology_projection : bipartite g part -> (metric = Some "cosine"%string -> forall a, In a kept -> ~ null_row g a) ->
  exists m, topology_edges sqrt geb g metric threshold (flat_map (vector_of sqrt g metric) kept) = Ok m /\
  is_projection g sqrt metric threshold kept m.
Proof.
  intros [Hb1 Hb2] Hnull. rewrite vectors_eq, topology_flat.
  assert (Hvec : forall b k, In b kept -> In k (neighbors g b) -> vec b = true).
  { intros b k Hb Hk. rewrite vec_total, total_eq. unfold neighbors in Hk. rewrite row_adjacent in Hk. destruct cos eqn:Ec.
    - assert (Em : metric = Some "cosine"%string).
      { unfold cos, is_metric in Ec. destruct metric as [s|]; [|discriminate]. apply String.eqb_eq in Ec. congruence. }
      specialize (Hnull Em b Hb).
      assert (Hself : (dot g b b == sum (map (fun kw => snd kw * snd kw) (row g b)))%Q) by (apply dots_self, row_NoDup).
      assert (Hnn : (0 <= dot g b b)%Q) by (rewrite Hself; apply sum_nonneg; intros; apply square_nonneg).
      destruct (Qlt_le_dec 0 (dot g b b)) as [Hlt|Hle]; [exact Hlt|]. exfalso. apply Hnull. split; [intros E; rewrite E in Hk; exact Hk|].
      intros k' w Hin. apply square_zero. apply (sum_zero_inv (fun kw => snd kw * snd kw)%Q (row g b) (fun kw _ => square_nonneg (snd kw))) with (x := (k', w)); [|exact Hin].
      rewrite <- Hself. apply Qle_antisym; assumption.
    - apply nat_Q_pos. unfold degree. destruct (row g b); [contradiction|discriminate]. }
  destruct (topology_loop threshold (vnodes kept) (candidates (vnodes kept))) with (m := @nil (N * N * Q)) as (m & E & H1 & H2 & _ & H4).
  - intros a Ha. apply vnodes_In in Ha. tauto.
  - intros a b Hab. apply candidates_In in Hab. destruct Hab as (Ha & k & Hk & Hb). split; [exact Ha|]. intros _. apply vnodes_In in Ha. destruct Ha as [Ha _].
    apply neighbors_edge in Hk, Hb. destruct Hk as (w & Hk), Hb as (w' & Hb). pose proof (both_ways _ Hg _ _ _ Hb) as Hb'. pose proof (both_ways _ Hg _ _ _ Hk) as Hk'.
    assert (Hbk : In b kept).
    { apply kept_In. split; [apply (edge_nodes b k w' Hb')|]. apply kept_In in Ha. destruct Ha as [_ <-].
      destruct (Hb2 _ _ _ _ _ _ _ _ _ Hk Hb Hb') as [Ex|[Ex|Ex]]; [exfalso; apply (Hb1 _ _ _ Hk Ex)|exfalso; apply (Hb1 _ _ _ Hb Ex)|congruence]. }
    apply vnodes_In. split; [exact Hbk|]. apply (Hvec b k Hbk). apply neighbors_edge. eauto.
  - intros ? ? ? [].
  - intros. simpl. lia.
  - exists m. split; [exact E|]. split; [| |exact H2].
    + intros a b w Hin. destruct (H1 a b w Hin) as (Ha & Hb & Hgab & -> & Hk). apply vnodes_In in Ha, Hb. destruct Ha as [Ha Va], Hb as [Hb Vb].
      destruct (compute_wt a b Va Vb) as [_ Ew]. split; [exact Ha|]. split; [exact Hb|]. split; [intros ->; destruct (geb_total b b); congruence|]. split; [exact Ew|].
      apply keeps_retained. exact Hk.
    + intros a b Ha Hb Hne Hr. destruct (similarity_needs a b) as (Va & Vb & k & Ka & Kb); [apply Hr|].
      destruct (compute_wt a b Va Vb) as [_ Ew]. destruct (compute_wt b a Vb Va) as [_ Ew'].
      assert (Hka : forall x, In k (neighbors g x) -> In x (neighbors g k)).
      { intros x Hx. apply neighbors_edge in Hx. destruct Hx as (w & Hw). apply neighbors_edge. exists w. apply Hg. exact Hw. }
      destruct (geb a b) eqn:Eg.
      * assert (geb b a = false) by (destruct (geb b a) eqn:E'; [exfalso; apply Hne; apply geb_antisym; assumption|reflexivity]).
        exists (wt b a). right. apply H4; [|assumption|].
        -- apply candidates_In. split; [apply vnodes_In; auto|]. exists k. auto.
        -- apply keeps_retained. apply (retained_ext _ (similarity g sqrt metric a b)); [rewrite Ew', (similarity_sym a b); reflexivity|exact Hr].
      * exists (wt a b). left. apply H4; [|assumption|].
        -- apply candidates_In. split; [apply vnodes_In; auto|]. exists k. auto.
        -- apply keeps_retained. apply (retained_ext _ (similarity g sqrt metric a b)); [symmetry; exact Ew|exact Hr].
Qed.

Lemma projection_quadratic : exists m, monopartite_projection sqrt geb part g project metric threshold false false = Ok (kept, m) /\
  is_projection g sqrt metric threshold kept m.
Proof. clear geb_total geb_antisym.
  destruct quadratic_projection as (m & E & Hm). exists m. split; [|exact Hm]. unfold monopartite_projection. rewrite metric_known. cbn [bind].
  unfold dkeys. rewrite (kept_nodes_eq project (map fst g) Hparts). fold kept. cbn [bind]. rewrite E. reflexivity.
Qed.

Lemma projection_exact topology check : bipartite g part ->
  (topology = true -> metric = Some "cosine"%string -> forall a, In a kept -> ~ null_row g a) ->
  exists m, monopartite_projection sqrt geb part g project metric threshold topology check = Ok (kept, m) /\ is_projection g sqrt metric threshold kept m.
Proof.
  intros Hb Hnull. destruct (check_ok Hparts Hb) as (ps & Ec). unfold monopartite_projection. rewrite metric_known.
  replace (if check then foldM (check_edge part) (edges g) [] else Ok []) with (if check then @Ok (list P) ps else Ok []) by (destruct check; [symmetry; exact Ec|reflexivity]).
  replace (if check then @Ok (list P) ps else Ok []) with (@Ok (list P) (if check then ps else [])) by (destruct check; reflexivity). cbn [bind].
  unfold dkeys. rewrite (kept_nodes_eq project (map fst g) Hparts). fold kept. cbn [bind].
  destruct topology.
  - destruct (topology_projection Hb) as (m & E & Hm); [intros; apply Hnull; auto|]. rewrite E. exists m. auto.
  - destruct quadratic_projection as (m & E & Hm). rewrite E. exists m. auto.
Qed.

Lemma projection_check topology : ~ bipartite g part -> monopartite_projection sqrt geb part g project metric threshold topology true = Err TypeError.
Proof. clear geb_total geb_antisym.
  intros Hb. unfold monopartite_projection. rewrite metric_known. pose proof (check_not Hparts Hb) as Ec. unfold check_step in Ec. rewrite Ec. reflexivity.
Qed.

Lemma projections_agree nodes m m' : is_projection g sqrt metric threshold nodes m -> is_projection g sqrt metric threshold nodes m' ->
  forall a b w, In (a, b, w) m -> exists w', (w == w')%Q /\ (In (a, b, w') m' \/ In (b, a, w') m').
Proof.
  intros Hm Hm' a b w Hin. destruct (only_retained _ _ _ _ _ _ Hm a b w Hin) as (Ha & Hb & Hne & E & Hr).
  destruct (all_retained _ _ _ _ _ _ Hm' a b Ha Hb Hne (retained_ext _ _ _ E Hr)) as (w' & Hin'). exists w'. split; [|exact Hin'].
  destruct Hin' as [Hin'|Hin']; destruct (only_retained _ _ _ _ _ _ Hm' _ _ _ Hin') as (_ & _ & _ & E' & _); rewrite E, E'; [reflexivity|apply similarity_sym].
Qed.
End Projection.
