(** Proofs about pairwise clustering. *)
From Coq Require Import Relations Sorted String.
From Verif Require Import Base BaseFacts ClustersModel ClustersSpec ClustersProofs
  PairwiseModel PairwiseSpec.
Open Scope nat_scope.

(** ** Enumeration of pairs *)

Lemma In_bucket_pairs_enum {K} (l : list K) k i a j b :
  In ((i, a), (j, b)) (bucket_pairs (combine (seq k (length l)) l)) <->
  k <= i /\ i < j /\ nth_error l (i - k) = Some a /\ nth_error l (j - k) = Some b.
Proof.
  revert k. induction l as [|x l IH]; intros k; simpl.
  - split; [tauto|]. intros (_ & _ & E & _). destruct (i - k); discriminate.
  - rewrite in_app_iff, IH, in_map_iff.
    assert (Hc : forall k j (b : K), In (j, b) (combine (seq k (length l)) l) <->
                 k <= j /\ nth_error l (j - k) = Some b).
    { clear. induction l as [|x l IH]; intros k j b; simpl.
      - split; [tauto|]. intros (_ & E). destruct (j - k); discriminate.
      - rewrite IH. split.
        + intros [E|[Hle Hn]].
          * inversion E; subst. rewrite Nat.sub_diag. auto.
          * split; [lia|]. replace (j - k) with (S (j - S k)) by lia. exact Hn.
        + intros [Hle Hn]. destruct (Nat.eq_dec k j) as [->|Hne].
          * rewrite Nat.sub_diag in Hn. simpl in Hn. left; congruence.
          * right. split; [lia|]. replace (j - k) with (S (j - S k)) in Hn by lia. exact Hn. }
    split.
    + intros [([j' b'] & E & Hin)|(H1 & H2 & H3 & H4)].
      * inversion E; subst. apply Hc in Hin as [Hle Hn].
        rewrite Nat.sub_diag. replace (j - i) with (S (j - S i)) by lia. simpl. repeat split; auto; lia.
      * replace (i - k) with (S (i - S k)) by lia. replace (j - k) with (S (j - S k)) by lia.
        simpl. repeat split; auto; lia.
    + intros (H1 & H2 & H3 & H4). destruct (Nat.eq_dec k i) as [->|Hne].
      * left. rewrite Nat.sub_diag in H3. simpl in H3. inversion H3; subst.
        exists (j, b). split; [reflexivity|]. apply Hc. split; [lia|].
        replace (j - i) with (S (j - S i)) in H4 by lia. exact H4.
      * right. replace (i - k) with (S (i - S k)) in H3 by lia.
        replace (j - k) with (S (j - S k)) in H4 by lia. simpl in *. repeat split; auto; lia.
Qed.

Lemma In_upper_pairs {K} (l : list K) i a j b :
  In ((i, a), (j, b)) (upper_pairs l) <->
  i < j /\ nth_error l i = Some a /\ nth_error l j = Some b.
Proof.
  unfold upper_pairs, enumerate. rewrite In_bucket_pairs_enum, !Nat.sub_0_r.
  split; [tauto|]. intros (?&?&?); repeat split; auto; lia.
Qed.

Lemma In_enumerate {K} (l : list K) i a : In (i, a) (enumerate l) <-> nth_error l i = Some a.
Proof.
  unfold enumerate.
  assert (Hc : forall k j (b : K), In (j, b) (combine (seq k (length l)) l) <->
               k <= j /\ nth_error l (j - k) = Some b).
  { induction l as [|x l IH]; intros k j b; simpl.
    - split; [tauto|]. intros (_ & E). destruct (j - k); discriminate.
    - rewrite IH. split.
      + intros [E|[Hle Hn]].
        * inversion E; subst. rewrite Nat.sub_diag. auto.
        * split; [lia|]. replace (j - k) with (S (j - S k)) by lia. exact Hn.
      + intros [Hle Hn]. destruct (Nat.eq_dec k j) as [->|Hne].
        * rewrite Nat.sub_diag in Hn. simpl in Hn. left; congruence.
        * right. split; [lia|]. replace (j - k) with (S (j - S k)) in Hn by lia. exact Hn. }
  rewrite Hc, Nat.sub_0_r. split; [tauto|]. intros; split; [lia|auto].
Qed.

Lemma In_cross_pairs {K} (r c : list K) i a j b :
  In ((i, a), (j, b)) (cross_pairs r c) <-> nth_error r i = Some a /\ nth_error c j = Some b.
Proof.
  unfold cross_pairs. rewrite in_flat_map. split.
  - intros ([i' a'] & Hin & Hm). apply in_map_iff in Hm as ([j' b'] & E & Hj).
    inversion E; subst. rewrite In_enumerate in Hin, Hj. auto.
  - intros (Hi & Hj). exists (i, a). rewrite In_enumerate. split; [exact Hi|].
    apply in_map_iff. exists (j, b). rewrite In_enumerate. auto.
Qed.

Lemma flat_map_seq_shift {B} (f : nat -> list B) k n :
  flat_map f (seq (S k) n) = flat_map (fun i => f (S i)) (seq k n).
Proof. revert k. induction n as [|n IH]; intros k; simpl; [reflexivity|]. rewrite IH. reflexivity. Qed.

Lemma bucket_pairs_enum_cells {K} (l : list K) k :
  map (fun ab => (fst (fst ab), fst (snd ab))) (bucket_pairs (combine (seq k (length l)) l)) =
  flat_map (fun i => map (fun j => (i, j)) (seq (S i) (k + length l - S i))) (seq k (length l)).
Proof.
  revert k. induction l as [|x l IH]; intros k; simpl; [reflexivity|].
  rewrite map_app, IH, map_map. f_equal.
  - replace (k + S (length l) - S k) with (length l) by lia.
    assert (G : forall k m (l : list K), length l = m ->
      map (fun y : nat * K => (k, fst y)) (combine (seq (S k) m) l) =
      map (fun j => (k, j)) (seq (S k) m)).
    { clear. intros k m l. generalize (S k) as s. revert m.
      induction l as [|x l IH]; intros m s <-; simpl; [reflexivity|].
      f_equal. apply IH. reflexivity. }
    rewrite <- (G k (length l) l eq_refl). apply map_ext. intros [j b]; reflexivity.
  - assert (E : forall i, S k + length l - S i = k + S (length l) - S i) by (intros; lia).
    apply flat_map_ext. intros i. rewrite E. reflexivity.
Qed.

Lemma NoDup_flat_map {B C} (f : B -> list C) l :
  NoDup l -> (forall x, In x l -> NoDup (f x)) ->
  (forall x y c, In x l -> In y l -> In c (f x) -> In c (f y) -> x = y) ->
  NoDup (flat_map f l).
Proof.
  induction l as [|x l IH]; simpl; intros Hl Hf Hd; [constructor|].
  inversion Hl; subst. apply NoDup_app_iff. split; [auto|]. split.
  - apply IH; auto. intros; eapply Hd; eauto.
  - intros c Hc Hc'. apply in_flat_map in Hc' as (y & Hy & Hcy).
    assert (x = y) by (eapply Hd; eauto). subst. contradiction.
Qed.

Lemma NoDup_map_inj {B C} (f : B -> C) l :
  (forall x y, f x = f y -> x = y) -> NoDup l -> NoDup (map f l).
Proof. intros Hf. induction 1; simpl; constructor; auto.
  rewrite in_map_iff. intros (y & E & Hy). apply Hf in E. subst; contradiction. Qed.

Lemma NoDup_map_filter {B C} (f : B -> C) p l : NoDup (map f l) -> NoDup (map f (filter p l)).
Proof.
  induction l as [|x l IH]; simpl; intros Hn; [constructor|].
  inversion Hn; subst. destruct (p x); simpl; auto. constructor; auto.
  rewrite in_map_iff in *. intros (y & E & Hy). apply filter_In in Hy. apply H1. exists y. tauto.
Qed.

(** cells of a chunk *)
Lemma In_chunk_cells {B} (rows cols : list B) oi oj x y :
  In (x, y) (chunk_cells (rows, cols, oi, oj)) <->
  exists i j, x = oi + i /\ y = oj + j /\ i < length rows /\
    (if Nat.eqb oi oj then i < j < length rows else j < length cols).
Proof.
  unfold chunk_cells. destruct (Nat.eqb oi oj); rewrite in_flat_map; split.
  - intros (i & Hi & Hm). apply in_map_iff in Hm as (j & E & Hj). apply in_seq in Hi, Hj.
    inversion E; subst. exists i, j. lia.
  - intros (i & j & -> & -> & Hi & Hj). exists i. rewrite in_seq. split; [lia|].
    apply in_map_iff. exists j. rewrite in_seq. split; [reflexivity|lia].
  - intros (i & Hi & Hm). apply in_map_iff in Hm as (j & E & Hj). apply in_seq in Hi, Hj.
    inversion E; subst. exists i, j. lia.
  - intros (i & j & -> & -> & Hi & Hj). exists i. rewrite in_seq. split; [lia|].
    apply in_map_iff. exists j. rewrite in_seq. split; [reflexivity|lia].
Qed.

Lemma NoDup_chunk_cells {B} (c : list B * list B * nat * nat) : NoDup (chunk_cells c).
Proof.
  destruct c as [[[rows cols] oi] oj]. unfold chunk_cells. destruct (Nat.eqb oi oj).
  - apply NoDup_flat_map; [apply seq_NoDup| |].
    + intros i _. apply NoDup_map_inj; [|apply seq_NoDup]. intros a b E; inversion E; lia.
    + intros a b c Ha Hb Hc Hc'. apply in_map_iff in Hc as (? & <- & _).
      apply in_map_iff in Hc' as (? & E & _). inversion E; lia.
  - apply NoDup_flat_map; [apply seq_NoDup| |].
    + intros i _. apply NoDup_map_inj; [|apply seq_NoDup]. intros a b E; inversion E; lia.
    + intros a b c Ha Hb Hc Hc'. apply in_map_iff in Hc as (? & <- & _).
      apply in_map_iff in Hc' as (? & E & _). inversion E; lia.
Qed.

Definition mk_chunk {B} (data : list B) (c i j : nat) : list B * list B * nat * nat :=
  (slice (i * c) (i * c + c) data,
   if Nat.eqb (i * c) (j * c) then [] else slice (j * c) (j * c + c) data, i * c, j * c).

Lemma chunk_iter_eq {B} (data : list B) c : 1 <= c ->
  upper_triangular_matrix_chunk_iter data c =
  Ok (flat_map (fun j => map (fun i => mk_chunk data c i j) (seq 0 (j + 1)))
       (seq 0 ((length data + c - 1) / c))).
Proof.
  intros Hc. unfold upper_triangular_matrix_chunk_iter.
  destruct c as [|c']; [lia|]. set (c := S c') in *. f_equal.
  remember ((length data + c - 1) / c) as m.
  assert (G : forall l, (forall j, In j l -> j < m) ->
    flat_map (fun j => map (fun i => mk_chunk data c i j) (seq 0 (Nat.min (j + 1) m))) l =
    flat_map (fun j => map (fun i => mk_chunk data c i j) (seq 0 (j + 1))) l).
  { induction l as [|j l IH]; intros Hl; [reflexivity|]. cbn [flat_map].
    rewrite IH by (intros; apply Hl; simpl; auto).
    assert (j < m) by (apply Hl; simpl; auto). replace (Nat.min (j + 1) m) with (j + 1) by lia. reflexivity. }
  rewrite <- G; [reflexivity|]. intros j Hj. apply in_seq in Hj. lia.
Qed.

Lemma In_chunks {B} (data : list B) c chunks chunk : 1 <= c ->
  upper_triangular_matrix_chunk_iter data c = Ok chunks ->
  In chunk chunks <-> exists i j, i <= j /\ j < (length data + c - 1) / c /\ chunk = mk_chunk data c i j.
Proof.
  intros Hc E. rewrite chunk_iter_eq in E by exact Hc. inversion E; subst.
  rewrite in_flat_map. split.
  - intros (j & Hj & Hi). apply in_map_iff in Hi as (i & <- & Hi). apply in_seq in Hi, Hj.
    exists i, j. repeat split; lia.
  - intros (i & j & Hi & Hj & ->). exists j. rewrite in_seq. split; [lia|].
    apply in_map_iff. exists i. rewrite in_seq. split; [reflexivity|lia].
Qed.

Lemma mul_lt_div c i n : 1 <= c -> i < (n + c - 1) / c <-> i * c < n.
Proof.
  intros Hc. split; intros Hi.
  - pose proof (Nat.mul_div_le (n + c - 1) c ltac:(lia)). nia.
  - apply Nat.div_le_lower_bound; [lia|]. nia.
Qed.

Lemma mk_chunk_cells {B} (data : list B) c i j x y : 1 <= c -> i <= j -> j * c < length data ->
  In (x, y) (chunk_cells (mk_chunk data c i j)) <->
  x < y /\ y < length data /\ x / c = i /\ y / c = j.
Proof.
  intros Hc Hij Hj. unfold mk_chunk. rewrite In_chunk_cells.
  assert (Hdiv : forall z q, z / c = q <-> q * c <= z < q * c + c).
  { intros z q. split.
    - intros <-. pose proof (Nat.mul_div_le z c ltac:(lia)).
      pose proof (Nat.mul_succ_div_gt z c ltac:(lia)). nia.
    - intros Hz. symmetry. apply Nat.div_unique with (z - q * c); nia. }
  rewrite !Hdiv, slice_length.
  destruct (Nat.eqb_spec (i * c) (j * c)) as [E|E].
  - assert (i = j) by nia. subst j. split.
    + intros (a & b & -> & -> & H1 & H2). nia.
    + intros (H1 & H2 & H3 & H4). exists (x - i * c), (y - i * c). nia.
  - rewrite slice_length. assert (i < j) by nia. split.
    + intros (a & b & -> & -> & H1 & H2). assert (i * c + c <= j * c) by nia. nia.
    + intros (H1 & H2 & H3 & H4). exists (x - i * c), (y - j * c). nia.
Qed.

Lemma chunks_cover {B} (data : list B) c chunks : 1 <= c ->
  upper_triangular_matrix_chunk_iter data c = Ok chunks ->
  NoDup (flat_map chunk_cells chunks) /\
  forall x y, In (x, y) (flat_map chunk_cells chunks) <-> x < y /\ y < length data.
Proof.
  intros Hc E. split.
  - pose proof E as E'. rewrite chunk_iter_eq in E by exact Hc. inversion E as [Ec]. clear E.
    assert (Hidx : forall m, m <= (length data + c - 1) / c ->
      flat_map chunk_cells (flat_map (fun j => map (fun i => mk_chunk data c i j) (seq 0 (j + 1))) (seq 0 m))
      = flat_map (fun ij => chunk_cells (mk_chunk data c (fst ij) (snd ij)))
          (flat_map (fun j => map (fun i => (i, j)) (seq 0 (j + 1))) (seq 0 m))).
    { intros m _. generalize (seq 0 m) as l. induction l as [|j l IH]; [reflexivity|].
      cbn [flat_map]. rewrite !flat_map_app, IH. f_equal.
      generalize (seq 0 (j + 1)) as l'. induction l' as [|i l' IH']; [reflexivity|].
      cbn [flat_map map]. rewrite IH'. reflexivity. }
    rewrite Hidx by lia. apply NoDup_flat_map.
    + apply NoDup_flat_map; [apply seq_NoDup| |].
      * intros j _. apply NoDup_map_inj; [|apply seq_NoDup]. intros a b Eab; inversion Eab; lia.
      * intros a b q Ha Hb Hq Hq'. apply in_map_iff in Hq as (? & <- & _).
        apply in_map_iff in Hq' as (? & Eq & _). inversion Eq; lia.
    + intros [i j] _. apply NoDup_chunk_cells.
    + intros [i j] [i' j'] [x y] Hin Hin' Hxy Hxy'.
      assert (G : forall i j, In (i, j) (flat_map (fun j => map (fun i => (i, j)) (seq 0 (j + 1)))
                 (seq 0 ((length data + c - 1) / c))) -> i <= j /\ j * c < length data).
      { clear - Hc. intros i j Hin. apply in_flat_map in Hin as (j' & Hj' & Hm).
        apply in_map_iff in Hm as (i' & Eq & Hi'). inversion Eq; subst. apply in_seq in Hi', Hj'.
        split; [lia|]. apply mul_lt_div; lia. }
      apply G in Hin, Hin'. cbn [fst snd] in Hxy, Hxy'.
      apply mk_chunk_cells in Hxy; [|lia..]. apply mk_chunk_cells in Hxy'; [|lia..].
      f_equal; intuition congruence.
  - intros x y. rewrite in_flat_map. split.
    + intros (chunk & Hin & Hxy). rewrite (In_chunks data c chunks) in Hin by assumption.
      destruct Hin as (i & j & Hi & Hj & ->).
      apply mk_chunk_cells in Hxy; [tauto|lia|lia|]. apply mul_lt_div; lia.
    + intros (H1 & H2). exists (mk_chunk data c (x / c) (y / c)). split.
      * rewrite (In_chunks data c chunks) by assumption. exists (x / c), (y / c).
        split; [apply Nat.div_le_mono; lia|]. split; [|reflexivity].
        apply mul_lt_div; [lia|]. pose proof (Nat.mul_div_le y c ltac:(lia)). nia.
      * apply mk_chunk_cells; [lia|apply Nat.div_le_mono; lia| |auto].
        pose proof (Nat.mul_div_le y c ltac:(lia)). nia.
Qed.

(** content of the chunks *)
Lemma nth_error_slice' {B} (l : list B) a c i :
  nth_error (slice a (a + c) l) i = if Nat.ltb i c then nth_error l (a + i) else None.
Proof.
  destruct (Nat.ltb_spec i c).
  - apply nth_error_slice. lia.
  - apply nth_error_None. rewrite slice_length. lia.
Qed.

(** ** Workers *)
Section Worker.
Context {K : Type}.
Variable similarity : K -> K -> bool.

Lemma In_worker keys c i j x y : 1 <= c -> i <= j -> j * c < length keys ->
  In (x, y) (pairwise_worker similarity (mk_chunk keys c i j)) <->
  similar_at similarity keys x y /\ x / c = i /\ y / c = j.
Proof.
  intros Hc Hij Hj. unfold pairwise_worker, mk_chunk.
  assert (Hdiv : forall z q, z / c = q <-> q * c <= z < q * c + c).
  { intros z q. split.
    - intros <-. pose proof (Nat.mul_div_le z c ltac:(lia)).
      pose proof (Nat.mul_succ_div_gt z c ltac:(lia)). nia.
    - intros Hz. symmetry. apply Nat.div_unique with (z - q * c); nia. }
  rewrite !Hdiv. unfold similar_at. rewrite in_map_iff.
  destruct (Nat.eqb_spec (i * c) (j * c)) as [E|E].
  - assert (i = j) by nia. subst j. split.
    + intros ([[a ka] [b kb]] & Eq & Hin). apply filter_In in Hin as [Hin Hs].
      apply In_upper_pairs in Hin as (Hab & Ha & Hb). cbn [fst snd] in *.
      rewrite nth_error_slice' in Ha, Hb.
      destruct (Nat.ltb_spec a c); [|discriminate]. destruct (Nat.ltb_spec b c); [|discriminate].
      inversion Eq; subst. split; [|lia]. split; [lia|]. exists ka, kb. auto.
    + intros ((Hxy & ka & kb & Hx & Hy & Hs) & Hdx & Hdy).
      exists ((x - i * c, ka), (y - i * c, kb)). cbn [fst snd]. split; [f_equal; lia|].
      apply filter_In. split; [|exact Hs]. apply In_upper_pairs. split; [lia|].
      rewrite !nth_error_slice'. destruct (Nat.ltb_spec (x - i * c) c); [|lia].
      destruct (Nat.ltb_spec (y - i * c) c); [|lia].
      replace (i * c + (x - i * c)) with x by lia. replace (i * c + (y - i * c)) with y by lia. auto.
  - assert (i < j) by nia. assert (i * c + c <= j * c) by nia. split.
    + intros ([[a ka] [b kb]] & Eq & Hin). apply filter_In in Hin as [Hin Hs].
      apply In_cross_pairs in Hin as (Ha & Hb). cbn [fst snd] in *.
      rewrite nth_error_slice' in Ha, Hb.
      destruct (Nat.ltb_spec a c); [|discriminate]. destruct (Nat.ltb_spec b c); [|discriminate].
      inversion Eq; subst. split; [|lia]. split; [lia|]. exists ka, kb. auto.
    + intros ((Hxy & ka & kb & Hx & Hy & Hs) & Hdx & Hdy).
      exists ((x - i * c, ka), (y - j * c, kb)). cbn [fst snd]. split; [f_equal; lia|].
      apply filter_In. split; [|exact Hs]. apply In_cross_pairs.
      rewrite !nth_error_slice'. destruct (Nat.ltb_spec (x - i * c) c); [|lia].
      destruct (Nat.ltb_spec (y - j * c) c); [|lia].
      replace (i * c + (x - i * c)) with x by lia. replace (j * c + (y - j * c)) with y by lia. auto.
Qed.

Lemma workers_matches keys c chunks : 1 <= c ->
  upper_triangular_matrix_chunk_iter keys c = Ok chunks ->
  forall x y, In (x, y) (concat (map (pairwise_worker similarity) chunks)) <-> similar_at similarity keys x y.
Proof.
  intros Hc E x y. rewrite <- flat_map_concat_map, in_flat_map. split.
  - intros (chunk & Hin & Hxy). rewrite (In_chunks keys c chunks) in Hin by assumption.
    destruct Hin as (i & j & Hi & Hj & ->).
    apply In_worker in Hxy; [tauto|lia|lia|]. apply mul_lt_div; lia.
  - intros Hs. pose proof Hs as (Hxy & ka & kb & _ & Hy & _).
    assert (y < length keys) by (apply nth_error_Some; congruence).
    exists (mk_chunk keys c (x / c) (y / c)).
    pose proof (Nat.mul_div_le y c ltac:(lia)).
    split.
    + rewrite (In_chunks keys c chunks) by assumption. exists (x / c), (y / c).
      split; [apply Nat.div_le_mono; lia|]. split; [|reflexivity]. apply mul_lt_div; nia.
    + apply In_worker; [lia|apply Nat.div_le_mono; lia|nia|auto].
Qed.

Lemma serial_matches_spec keys x y :
  In (x, y) (serial_matches similarity keys) <-> similar_at similarity keys x y.
Proof.
  unfold serial_matches, similar_at. rewrite in_map_iff. split.
  - intros ([[a ka] [b kb]] & Eq & Hin). apply filter_In in Hin as [Hin Hs].
    apply In_upper_pairs in Hin as (? & ? & ?). cbn [fst snd] in *. inversion Eq; subst. eauto 10.
  - intros (Hxy & ka & kb & Hx & Hy & Hs). exists ((x, ka), (y, kb)). cbn [fst snd].
    split; [reflexivity|]. apply filter_In. split; [|exact Hs]. apply In_upper_pairs. auto.
Qed.

Lemma upper_pairs_NoDup (keys : list K) :
  NoDup (map (fun ab => (fst (fst ab), fst (snd ab))) (upper_pairs keys)).
Proof.
  unfold upper_pairs, enumerate. rewrite bucket_pairs_enum_cells.
  apply NoDup_flat_map; [apply seq_NoDup| |].
  - intros j _. apply NoDup_map_inj; [|apply seq_NoDup]. intros a b Eab; inversion Eab; lia.
  - intros a b q Ha Hb Hq Hq'. apply in_map_iff in Hq as (? & <- & _).
    apply in_map_iff in Hq' as (? & Eq & _). inversion Eq; lia.
Qed.

Lemma serial_matches_NoDup keys : NoDup (serial_matches similarity keys).
Proof. apply NoDup_map_filter, upper_pairs_NoDup. Qed.

Lemma worker_cells chunk p :
  In p (pairwise_worker similarity chunk) -> In p (chunk_cells chunk).
Proof.
  destruct chunk as [[[rows cols] oi] oj]. unfold pairwise_worker.
  rewrite in_map_iff. intros ([[a ka] [b kb]] & <- & Hin). apply filter_In in Hin as [Hin _].
  cbn [fst snd]. apply In_chunk_cells. exists a, b. split; [reflexivity|]. split; [reflexivity|].
  destruct (Nat.eqb oi oj).
  - apply In_upper_pairs in Hin as (Hab & Ha & Hb).
    assert (a < length rows) by (apply nth_error_Some; congruence).
    assert (b < length rows) by (apply nth_error_Some; congruence). lia.
  - apply In_cross_pairs in Hin as (Ha & Hb).
    assert (a < length rows) by (apply nth_error_Some; congruence).
    assert (b < length cols) by (apply nth_error_Some; congruence). lia.
Qed.

Lemma worker_NoDup chunk : NoDup (pairwise_worker similarity chunk).
Proof.
  destruct chunk as [[[rows cols] oi] oj]. unfold pairwise_worker.
  apply NoDup_map_filter.
  assert (G : forall (L : list ((nat * K) * (nat * K))),
     NoDup (map (fun ab => (fst (fst ab), fst (snd ab))) L) ->
     NoDup (map (fun ab => (oi + fst (fst ab), oj + fst (snd ab))) L)).
  { intros L HL.
    replace (map (fun ab : (nat * K) * (nat * K) => (oi + fst (fst ab), oj + fst (snd ab))) L)
      with (map (fun q => (oi + fst q, oj + snd q))
             (map (fun ab : (nat * K) * (nat * K) => (fst (fst ab), fst (snd ab))) L))
      by (rewrite map_map; reflexivity).
    apply NoDup_map_inj; [|exact HL]. intros [a b] [a' b'] E. cbn [fst snd] in E. inversion E. f_equal; lia. }
  apply G. destruct (Nat.eqb oi oj); [apply upper_pairs_NoDup|].
  unfold cross_pairs. clear.
  assert (E : forall (L : list (nat * K)), map (fun ab : (nat * K) * (nat * K) => (fst (fst ab), fst (snd ab)))
     (flat_map (fun a => map (fun b => (a, b)) (enumerate cols)) L) =
     flat_map (fun i => map (fun j => (i, j)) (map fst (enumerate cols))) (map fst L)).
  { induction L as [|[i a] L IH]; [reflexivity|]. simpl. rewrite map_app, IH, !map_map. reflexivity. }
  rewrite E.
  assert (Hnd : forall (l : list K), NoDup (map fst (enumerate l))).
  { intros l. unfold enumerate. 
    assert (Hm : forall k, map fst (combine (seq k (length l)) l) = seq k (length l)).
    { induction l as [|x l IHl]; intros k; simpl; [reflexivity|]. f_equal. apply IHl. }
    rewrite Hm. apply seq_NoDup. }
  apply NoDup_flat_map; [apply Hnd| |].
  - intros i _. apply NoDup_map_inj; [|apply Hnd]. intros a b Eq; inversion Eq; reflexivity.
  - intros a b q _ _ Hq Hq'. apply in_map_iff in Hq as (? & <- & _).
    apply in_map_iff in Hq' as (? & Eq & _). inversion Eq; reflexivity.
Qed.

Lemma workers_NoDup keys c chunks : 1 <= c ->
  upper_triangular_matrix_chunk_iter keys c = Ok chunks ->
  NoDup (concat (map (pairwise_worker similarity) chunks)).
Proof.
  intros Hc E. destruct (chunks_cover keys c chunks Hc E) as [Hn _].
  rewrite <- flat_map_concat_map. clear E. induction chunks as [|ch chunks IH]; simpl in *; [constructor|].
  apply NoDup_app_iff in Hn as (H1 & H2 & H3). apply NoDup_app_iff.
  split; [apply worker_NoDup|]. split; [auto|].
  intros p Hp Hq. apply (H3 p (worker_cells _ _ Hp)).
  apply in_flat_map in Hq as (ch' & ? & ?). apply in_flat_map. exists ch'. split; [auto|].
  apply worker_cells; auto.
Qed.
End Worker.

(** ** Union-find *)
Definition uf_rep (n : nat) (u : uf) (link : nat -> nat -> Prop) : Prop :=
  length u = n /\ forall i j, i < n -> j < n -> (uf_find u i = uf_find u j <-> connected link i j).

Lemma conn_add_edge {A} (links : list (A * A)) x y i j :
  connected (pair_link (links ++ [(x, y)])) i j <->
  connected (pair_link links) i j \/
  (connected (pair_link links) i x /\ connected (pair_link links) y j) \/
  (connected (pair_link links) i y /\ connected (pair_link links) x j).
Proof.
  assert (Hm : forall a b, connected (pair_link links) a b -> connected (pair_link (links ++ [(x, y)])) a b).
  { apply conn_mono. intros a b Hab. apply rst_step. unfold pair_link in *. apply in_app_iff. auto. }
  assert (Hxy : connected (pair_link (links ++ [(x, y)])) x y).
  { apply rst_step. unfold pair_link. apply in_app_iff. simpl. auto. }
  split.
  - intros Hc. induction Hc as [a b Hl|a|a b Hc IH|a b c Hc1 IH1 Hc2 IH2].
    + unfold pair_link in Hl. apply in_app_iff in Hl as [Hl|[E|[]]].
      * left. apply rst_step. exact Hl.
      * inversion E; subst. right; left. split; apply conn_refl.
    + left. apply conn_refl.
    + destruct IH as [IH|[[IHa IHb]|[IHa IHb]]]; apply conn_sym in IH || (apply conn_sym in IHa; apply conn_sym in IHb); tauto.
    + pose proof (conn_trans (pair_link links)) as T. pose proof (conn_sym (pair_link links)) as S.
      destruct IH1 as [IH1|[[IH1a IH1b]|[IH1a IH1b]]], IH2 as [IH2|[[IH2a IH2b]|[IH2a IH2b]]].
      * left; eauto.
      * right; left; split; eauto.
      * right; right; split; eauto.
      * right; left; split; eauto.
      * right; left; split; eauto.
      * left; eauto.
      * right; right; split; eauto.
      * left; eauto.
      * right; right; split; eauto.
  - intros [Hc|[[H1 H2]|[H1 H2]]].
    + auto.
    + eapply conn_trans; [apply Hm; exact H1|]. eapply conn_trans; [exact Hxy|]. auto.
    + eapply conn_trans; [apply Hm; exact H1|]. eapply conn_trans; [apply conn_sym; exact Hxy|]. auto.
Qed.

Lemma uf_find_union u i j k : k < length u ->
  uf_find (uf_union u i j) k = if Nat.eqb (uf_find u k) (uf_find u j) then uf_find u i else uf_find u k.
Proof.
  intros Hk. unfold uf_union. unfold uf_find at 1.
  set (f := fun l => if Nat.eqb l (uf_find u j) then uf_find u i else l).
  rewrite nth_indep with (d' := f 0) by (rewrite map_length; exact Hk).
  rewrite map_nth. reflexivity.
Qed.

Lemma uf_rep_union n u links i j :
  uf_rep n u (pair_link links) -> i < n -> j < n ->
  uf_rep n (uf_union u i j) (pair_link (links ++ [(i, j)])).
Proof.
  intros [Hlen Hrep] Hi Hj. split.
  - unfold uf_union. rewrite map_length. exact Hlen.
  - intros a b Ha Hb. rewrite !uf_find_union by lia. rewrite conn_add_edge.
    rewrite <- !Hrep by assumption.
    destruct (Nat.eqb_spec (uf_find u a) (uf_find u j)), (Nat.eqb_spec (uf_find u b) (uf_find u j));
      intuition congruence.
Qed.

Lemma uf_rep_redundant n u links i j :
  uf_rep n u (pair_link links) -> i < n -> j < n -> uf_connected u i j = true ->
  uf_rep n u (pair_link (links ++ [(i, j)])).
Proof.
  intros [Hlen Hrep] Hi Hj Hc. apply Nat.eqb_eq in Hc. split; [exact Hlen|].
  intros a b Ha Hb. rewrite conn_add_edge, <- !Hrep by assumption. intuition congruence.
Qed.

Lemma uf_rep_make n : uf_rep n (uf_make n) (pair_link []).
Proof.
  split; [apply seq_length|]. intros i j Hi Hj. unfold uf_find, uf_make.
  rewrite !seq_nth by assumption. simpl. split.
  - intros ->. apply conn_refl.
  - intros Hc. clear Hi Hj. induction Hc; [contradiction|auto|auto|congruence].
Qed.

Lemma uf_rep_ext n u l1 l2 :
  (forall x y, l1 x y <-> l2 x y) -> uf_rep n u l1 -> uf_rep n u l2.
Proof.
  intros He [H1 H2]. split; [exact H1|]. intros i j Hi Hj. rewrite H2 by assumption.
  split; apply conn_mono; intros x y Hxy; apply rst_step; apply He; exact Hxy.
Qed.

Lemma parallel_rep n ps links u :
  uf_rep n u (pair_link links) -> (forall i j, In (i, j) ps -> i < n /\ j < n) ->
  uf_rep n (fold_left (fun u ij => uf_union u (fst ij) (snd ij)) ps u) (pair_link (links ++ ps)).
Proof.
  revert u links. induction ps as [|[i j] ps IH]; simpl; intros u links Hu Hps.
  - rewrite app_nil_r. exact Hu.
  - replace (links ++ (i, j) :: ps) with ((links ++ [(i, j)]) ++ ps) by (rewrite <- app_assoc; reflexivity).
    destruct (Hps i j); [auto|]. apply IH; [apply uf_rep_union; assumption|]. intros; apply Hps; auto.
Qed.

Lemma serial_rep {K} (similarity : K -> K -> bool) n L links u :
  uf_rep n u (pair_link links) -> (forall i a j b, In ((i, a), (j, b)) L -> i < n /\ j < n) ->
  uf_rep n (fold_left (fun u ab =>
      if uf_connected u (fst (fst ab)) (fst (snd ab)) then u
      else if similarity (snd (fst ab)) (snd (snd ab)) then uf_union u (fst (fst ab)) (fst (snd ab))
      else u) L u)
    (pair_link (links ++ map (fun ab => (fst (fst ab), fst (snd ab)))
       (filter (fun ab => similarity (snd (fst ab)) (snd (snd ab))) L))).
Proof.
  revert u links. induction L as [|[[i a] [j b]] L IH]; simpl; intros u links Hu HL.
  - rewrite app_nil_r. exact Hu.
  - destruct (HL i a j b); [auto|].
    assert (HL' : forall i a j b, In ((i, a), (j, b)) L -> i < n /\ j < n) by (intros; eapply HL; eauto).
    destruct (similarity a b).
    + cbn [map fst snd].
      match goal with |- context [links ++ ?p :: ?r] =>
        replace (links ++ p :: r) with ((links ++ [p]) ++ r) by (rewrite <- app_assoc; reflexivity) end.
      destruct (uf_connected u i j) eqn:Ec.
      * apply IH; [apply uf_rep_redundant; assumption|exact HL'].
      * apply IH; [apply uf_rep_union; assumption|exact HL'].
    + destruct (uf_connected u i j); apply IH; assumption.
Qed.

Lemma uf_components_spec n u link lo hi :
  uf_rep n u link -> (forall x y, link x y -> x < n /\ y < n) ->
  is_components (fun i => i < n) link lo hi (uf_components u lo hi).
Proof.
  intros [Hlen Hrep] Hlink.
  assert (Hbnd : forall a b, connected link a b -> a = b \/ (a < n /\ b < n)).
  { intros a b Hc. induction Hc as [a b Hl|a|a b Hc IH|a b c Hc1 IH1 Hc2 IH2].
    - right. auto.
    - left; auto.
    - destruct IH as [->|[]]; auto.
    - destruct IH1 as [->|[]], IH2 as [->|[]]; auto. }
  set (cls := fun l => filter (fun i => Nat.eqb (uf_find u i) l) (seq 0 (length u))).
  assert (Hcls : forall l i, In i (cls l) <-> i < n /\ uf_find u i = l).
  { intros l i. unfold cls. rewrite filter_In, in_seq, Nat.eqb_eq, Hlen. intuition lia. }
  assert (Hcomp : forall l, In l u -> component link (cls l) /\ exists x, In x (cls l) /\ x < n).
  { intros l Hl. apply (In_nth u l 0) in Hl as (i & Hi & E).
    assert (Hx : In i (cls l)). { apply Hcls. split; [lia|exact E]. }
    split; [split|].
    - apply NoDup_filter, seq_NoDup.
    - exists i. split; [exact Hx|]. intros y. rewrite Hcls. rewrite Hlen in Hi. split.
      + intros [Hy Hf]. apply Hrep; auto. unfold uf_find in *. congruence.
      + intros Hc. destruct (Hbnd _ _ Hc) as [<-|[_ Hy]]; [apply Hcls; exact Hx|].
        split; [exact Hy|]. apply Hrep in Hc; auto. unfold uf_find in *. congruence.
    - exists i. split; [exact Hx|lia]. }
  unfold uf_components. fold cls.
  set (szok := fun c : list nat => (lo <=? length c) && le_max (length c) hi).
  assert (Hsz : forall c, szok c = true <-> size_within lo hi (length c)).
  { intros c. unfold szok, size_within. rewrite andb_true_iff, Nat.leb_le, le_max_true. tauto. }
  split.
  - intros c Hc. apply filter_In in Hc as [Hc Hs]. apply in_map_iff in Hc as (l & <- & Hl).
    rewrite set_of_In in Hl. destruct (Hcomp l Hl) as [H1 H2]. split; [exact H1|]. split; [exact H2|].
    apply Hsz; exact Hs.
  - intros c Hc (x & Hx & Hxn) Hs.
    assert (Hl : In (uf_find u x) u). { unfold uf_find. apply nth_In. lia. }
    destruct (Hcomp _ Hl) as [H1 _].
    assert (Hp : Permutation c (cls (uf_find u x))).
    { eapply component_Permutation; [exact Hc|exact H1|exact Hx|]. apply Hcls. auto. }
    exists (cls (uf_find u x)). split; [|exact Hp].
    apply filter_In. split; [apply in_map, set_of_In; exact Hl|]. apply Hsz.
    rewrite <- (Permutation_length Hp). exact Hs.
  - assert (G : forall ls, NoDup ls -> NoDup (concat (filter szok (map cls ls)))).
    { induction ls as [|l ls IH]; intros Hnd; [constructor|]. inversion Hnd; subst. cbn [map filter].
      destruct (szok (cls l)); [|auto]. cbn [concat]. apply NoDup_app_iff.
      split; [apply NoDup_filter, seq_NoDup|]. split; [auto|].
      intros x Hx Hy. apply in_concat in Hy as (c & Hc & Hxc). apply filter_In in Hc as [Hc _].
      apply in_map_iff in Hc as (l' & <- & Hl'). apply Hcls in Hx as [_ E], Hxc as [_ E'].
      subst. contradiction. }
    apply G, set_of_NoDup.
Qed.

Lemma mapM_index_ok {A} (data : list A) (c : list nat) :
  (forall i, In i c -> i < length data) ->
  exists xs, mapM (index data) c = Ok xs /\ Forall2 (fun i x => nth_error data i = Some x) c xs.
Proof.
  induction c as [|i c IH]; intros Hc.
  - exists []. split; [reflexivity|constructor].
  - destruct IH as (xs & E & F); [intros; apply Hc; simpl; auto|].
    assert (Hi : i < length data) by (apply Hc; simpl; auto).
    apply nth_error_Some in Hi. destruct (nth_error data i) as [x|] eqn:Ex; [|contradiction].
    exists (x :: xs). split; [|constructor; assumption].
    cbn [mapM]. unfold index at 1. rewrite Ex. cbn [bind]. rewrite E. reflexivity.
Qed.

Lemma mapM_reads {A} (data : list A) (idx : list (list nat)) :
  (forall c i, In c idx -> In i c -> i < length data) ->
  exists out, mapM (mapM (index data)) idx = Ok out /\ reads data idx out.
Proof.
  induction idx as [|c idx IH]; intros Hc.
  - exists []. split; [reflexivity|constructor].
  - destruct IH as (out & E & F); [intros; eapply Hc; simpl; eauto|].
    destruct (mapM_index_ok data c) as (xs & Ex & Fx); [intros; eapply Hc; simpl; eauto|].
    exists (xs :: out). split; [|constructor; assumption].
    cbn [mapM]. rewrite Ex. cbn [bind]. rewrite E. reflexivity.
Qed.

Section Main.
Context {A K : Type}.
Variable similarity : K -> K -> bool.
Variable key : A -> K.

Lemma similar_at_bound keys i j : similar_at similarity keys i j -> i < length keys /\ j < length keys.
Proof.
  intros (H1 & a & b & Ha & Hb & _).
  split; apply nth_error_Some; congruence.
Qed.

Lemma yield_components_spec (data : list A) u lo hi (links : list (nat * nat)) :
  uf_rep (length data) u (pair_link links) ->
  (forall i j, In (i, j) links <-> similar_at similarity (map key data) i j) ->
  exists idx out, yield_components data u lo hi = Ok out /\ reads data idx out /\
    is_components (fun i => i < length data) (similar_at similarity (map key data)) lo hi idx.
Proof.
  intros Hrep Hlinks.
  assert (Hb : forall x y, similar_at similarity (map key data) x y -> x < length data /\ y < length data).
  { intros x y Hxy. apply similar_at_bound in Hxy. rewrite map_length in Hxy. exact Hxy. }
  assert (Hspec : is_components (fun i => i < length data) (similar_at similarity (map key data)) lo hi
                    (uf_components u lo hi)).
  { apply uf_components_spec; [|exact Hb]. eapply uf_rep_ext; [|exact Hrep].
    intros x y. apply Hlinks. }
  exists (uf_components u lo hi).
  assert (Hbound : forall c i, In c (uf_components u lo hi) -> In i c -> i < length data).
  { intros c i Hc Hi. destruct Hspec as [H1 _ _]. destruct (H1 c Hc) as (Hcomp & (x & Hx & Hxn) & _).
    apply (component_conn _ _ x i Hcomp Hx) in Hi.
    assert (G : forall a b, connected (similar_at similarity (map key data)) a b -> a = b \/ (a < length data /\ b < length data)).
    { clear - Hb. intros a b Hc. induction Hc as [a b Hl|a|a b Hc IH|a b c Hc1 IH1 Hc2 IH2].
      - right. auto.
      - left; auto.
      - destruct IH as [->|[]]; auto.
      - destruct IH1 as [->|[]], IH2 as [->|[]]; auto. }
    destruct (G _ _ Hi) as [<-|[]]; auto. }
  destruct (mapM_reads data _ Hbound) as (out & E & F).
  exists out. auto.
Qed.

Lemma pairwise_cc_correct (data : list A) lo hi :
  exists idx out, pairwise_connected_components similarity key data lo hi = Ok out /\ reads data idx out /\
    is_components (fun i => i < length data) (similar_at similarity (map key data)) lo hi idx.
Proof.
  unfold pairwise_connected_components. apply yield_components_spec with (links := serial_matches similarity (map key data)).
  - unfold serial_sets, serial_matches. rewrite map_length.
    apply (serial_rep similarity (length data) (upper_pairs (map key data)) []); [apply uf_rep_make|].
    intros i a j b Hin. apply In_upper_pairs in Hin as (? & Ha & Hb).
    rewrite <- (map_length key). split; apply nth_error_Some; congruence.
  - intros i j. apply serial_matches_spec.
Qed.

Lemma pairwise_cc_parallel_correct (data : list A) lo hi chunk_size arrival :
  1 <= chunk_size -> (forall l, Permutation (arrival l) l) ->
  exists idx out,
    pairwise_connected_components_parallel similarity key data lo hi chunk_size arrival = Ok out /\
    reads data idx out /\
    is_components (fun i => i < length data) (similar_at similarity (map key data)) lo hi idx.
Proof.
  intros Hc Harr. unfold pairwise_connected_components_parallel.
  destruct (upper_triangular_matrix_chunk_iter (map key data) chunk_size) as [chunks|e] eqn:E.
  2:{ rewrite chunk_iter_eq in E by exact Hc. discriminate. }
  cbn [bind].
  assert (Hlinks : forall i j, In (i, j) (concat (arrival (map (pairwise_worker similarity) chunks)))
            <-> similar_at similarity (map key data) i j).
  { intros i j. rewrite <- (workers_matches similarity (map key data) chunk_size chunks Hc E).
    rewrite !in_concat. split; intros (l & Hl & Hi); exists l; (split; [|exact Hi]);
      (eapply Permutation_in; [|exact Hl]); [|symmetry]; apply Harr. }
  apply yield_components_spec with (links := concat (arrival (map (pairwise_worker similarity) chunks))).
  - unfold parallel_sets.
    apply (parallel_rep (length data) _ []); [apply uf_rep_make|].
    intros i j Hin. apply Hlinks in Hin. apply similar_at_bound in Hin. rewrite map_length in Hin. exact Hin.
  - exact Hlinks.
Qed.
End Main.

(** ** Fuzzy clusters *)
Section FuzzyAdj.
Context {A : Type} `{EqDec A}.

Lemma adj_list pairs (g : dict A (list A)) x :
  adj (fold_left (add_pair false) pairs g) x =
  adj g x ++ flat_map (fun p => (if eq_dec (fst p) x then [snd p] else []) ++
                                (if eq_dec (snd p) x then [fst p] else [])) pairs.
Proof.
  revert g. induction pairs as [|[a b] pairs IH]; intros g; cbn [fold_left flat_map].
  - rewrite app_nil_r. reflexivity.
  - rewrite IH, app_assoc. f_equal.
    assert (G : forall g k z, adj (dmodify g k [] (fun c => container_add false c z)) x =
                adj g x ++ if eq_dec k x then [z] else []).
    { clear. intros g k z. unfold adj. destruct (eq_dec k x) as [->|Hn].
      - rewrite dget_dmodify_same. simpl. destruct (dget g x); reflexivity.
      - rewrite dget_dmodify_other by exact Hn. rewrite app_nil_r. reflexivity. }
    unfold add_pair. rewrite !G, <- app_assoc. reflexivity.
Qed.
End FuzzyAdj.

Lemma adj_list_NoDup (pairs : list (nat * nat)) x :
  NoDup pairs -> (forall a b, In (a, b) pairs -> a < b) -> NoDup (adj (build_graph false pairs) x).
Proof.
  intros Hnd Hlt. unfold build_graph. rewrite adj_list. unfold adj at 1; simpl.
  apply NoDup_flat_map; [exact Hnd| |].
  - intros [a b] Hp. apply Hlt in Hp. cbn [fst snd].
    destruct (eq_dec a x), (eq_dec b x); simpl; repeat constructor; simpl; intuition lia.
  - intros [a b] [a' b'] y Hp Hp' Hy Hy'. apply Hlt in Hp, Hp'. cbn [fst snd] in *.
    destruct (eq_dec a x), (eq_dec b x), (eq_dec a' x), (eq_dec b' x); simpl in *;
      intuition (try lia); subst; f_equal; lia.
Qed.

Section Fuzzy.
Context {A K : Type}.
Variable similarity : K -> K -> bool.
Variable key : A -> K.

Lemma yield_fuzzy_spec (data : list A) matches lo hi :
  NoDup matches ->
  (forall i j, In (i, j) matches <-> similar_at similarity (map key data) i j) ->
  exists idx out, yield_fuzzy data matches lo hi = Ok out /\ reads data idx out /\
    are_stars (similar_positions similarity (map key data)) lo hi idx.
Proof.
  intros Hnd Hm.
  assert (Hnb : forall x y, neighbour matches x y <-> similar_positions similarity (map key data) x y).
  { intros x y. unfold neighbour, similar_positions. rewrite !Hm. tauto. }
  assert (Hb : forall x y, similar_positions similarity (map key data) x y -> x < length data /\ y < length data).
  { intros x y [Hxy|Hxy]; apply similar_at_bound in Hxy; rewrite map_length in Hxy; tauto. }
  destruct (fuzzy_loop_facts (fun l => l) (fun l => Permutation_refl l) false lo hi
     (build_graph false matches) (build_graph false matches) [])
    as (F1 & F2 & F3); [auto|apply build_graph_keys_NoDup|].
  set (idx := fuzzy_loop (fun l => l) false lo hi (build_graph false matches) []) in *.
  assert (Hadj : forall x ns, In (x, ns) (build_graph false matches) ->
            NoDup ns /\ forall y, In y ns <-> similar_positions similarity (map key data) x y).
  { intros x ns Hin. apply In_dget in Hin; [|apply build_graph_keys_NoDup].
    assert (E : adj (build_graph false matches) x = ns) by (unfold adj; rewrite Hin; reflexivity).
    split.
    - rewrite <- E. apply adj_list_NoDup; [exact Hnd|]. intros a b Hab. apply Hm in Hab. apply Hab.
    - intros y. rewrite <- E, build_graph_adj. apply Hnb. }
  assert (Hbound : forall c i, In c idx -> In i c -> i < length data).
  { intros c i Hc Hi. destruct (F1 c Hc) as (k & ns & Hin & _ & -> & _).
    destruct (Hadj _ _ Hin) as [_ Hns]. cbn [container_iter] in Hi. destruct Hi as [<-|Hi].
    - assert (Hv : pair_vertex matches k).
      { apply (build_graph_keys false). change k with (fst (k, ns)). apply in_map; exact Hin. }
      destruct Hv as [y Hy]. assert (Hs : neighbour matches k y) by exact Hy.
      apply Hnb, Hb in Hs. tauto.
    - apply Hns, Hb in Hi. tauto. }
  destruct (mapM_reads data idx Hbound) as (out & E & F).
  exists idx, out. split; [exact E|]. split; [exact F|]. split.
  - intros c Hc. destruct (F1 c Hc) as (k & ns & Hin & _ & -> & Hs).
    destruct (Hadj _ _ Hin) as [Hn Hns]. exists k, ns. cbn [container_iter] in *.
    split; [reflexivity|]. split; [exact Hn|]. split; [exact Hns|exact Hs].
  - exact F2.
  - intros x ns Hx Hnn Hns Hs.
    assert (Hv : pair_vertex matches x).
    { destruct ns as [|y ns]; [contradiction|]. exists y. apply Hnb. apply Hns. simpl; auto. }
    apply (build_graph_keys false) in Hv. apply dget_In_keys in Hv as [ns' Hg].
    apply dget_Some_In in Hg. destruct (Hadj _ _ Hg) as [Hn' Hns'].
    assert (Hl : length ns' = length ns).
    { apply NoDup_same_length; [exact Hn'|exact Hnn|]. intros y. rewrite Hns', Hns. tauto. }
    destruct (F3 x ns' Hg) as [[]|Hc]; [rewrite Hl; exact Hs|].
    apply in_concat in Hc as (c & ? & ?). eauto.
Qed.

Lemma pairwise_fuzzy_correct (data : list A) lo hi :
  exists idx out, pairwise_fuzzy_clusters similarity key data lo hi = Ok out /\ reads data idx out /\
    are_stars (similar_positions similarity (map key data)) lo hi idx.
Proof.
  apply yield_fuzzy_spec; [apply serial_matches_NoDup|apply serial_matches_spec].
Qed.

Lemma pairwise_fuzzy_parallel_correct (data : list A) lo hi chunk_size : 1 <= chunk_size ->
  exists idx out, pairwise_fuzzy_clusters_parallel similarity key data lo hi chunk_size = Ok out /\
    reads data idx out /\
    are_stars (similar_positions similarity (map key data)) lo hi idx.
Proof.
  intros Hc. unfold pairwise_fuzzy_clusters_parallel.
  destruct (upper_triangular_matrix_chunk_iter (map key data) chunk_size) as [chunks|e] eqn:E.
  2:{ rewrite chunk_iter_eq in E by exact Hc. discriminate. }
  cbn [bind]. apply yield_fuzzy_spec.
  - eapply workers_NoDup; eassumption.
  - eapply workers_matches; eassumption.
Qed.
End Fuzzy.

(** ** Leader *)
Section LeaderProofs.
Context {A : Type}.
Variable similarity : A -> A -> bool.
Variable data : list A.
Notation N := (length data).
Notation sim := (sim_nth similarity data).

Fixpoint lead (n : nat) : list nat :=
  match n with
  | O => []
  | S m => lead m ++ if existsb (fun h => sim h m) (lead m) then [] else [m]
  end.
Definition isleader (m : nat) : bool := negb (existsb (fun h => sim h m) (lead m)).

Lemma lead_filter n : lead n = filter isleader (seq 0 n).
Proof.
  induction n as [|n IH]; [reflexivity|].
  rewrite seq_S, filter_app. cbn [lead]. rewrite <- IH. f_equal. cbn [filter plus].
  unfold isleader. destruct (existsb _ _); reflexivity.
Qed.

Lemma In_lead n h : In h (lead n) <-> h < n /\ isleader h = true.
Proof. rewrite lead_filter, filter_In, in_seq. intuition lia. Qed.

Lemma isleader_spec m : isleader m = true <-> forall h, h < m -> isleader h = true -> sim h m = false.
Proof.
  unfold isleader at 1. rewrite negb_true_iff. split.
  - intros He h Hh Hl. destruct (sim h m) eqn:E; [|reflexivity].
    assert (Ht : existsb (fun h => sim h m) (lead m) = true).
    { apply existsb_exists. exists h. split; [apply In_lead; auto|exact E]. }
    congruence.
  - intros Hh. destruct (existsb _ _) eqn:E; [|reflexivity].
    apply existsb_exists in E as (h & Hin & Hs). apply In_lead in Hin as [? ?].
    rewrite Hh in Hs by assumption. discriminate.
Qed.

Lemma lead_are_leaders : are_leaders similarity data (lead N).
Proof.
  intros j. rewrite In_lead, isleader_spec. split.
  - intros [Hj Hl]. split; [exact Hj|]. intros h Hh Hlt. apply In_lead in Hh. apply Hl; tauto.
  - intros [Hj Hl]. split; [exact Hj|]. intros h Hh Hlt. apply Hl; [|exact Hh]. apply In_lead. split; [lia|auto].
Qed.

Lemma leader_inner_spec hi a rest visited cluster :
  NoDup (map fst rest) ->
  let ms := filter (fun jb => negb (memb (fst jb) visited) && similarity a (snd jb)) rest in
  let base := match cluster with None => [a] | Some c => c end in
  match ms with
  | [] => leader_inner similarity hi a rest visited cluster = Ok (visited, cluster)
  | _ => if le_max (length base + length ms) hi
         then exists visited', leader_inner similarity hi a rest visited cluster
                = Ok (visited', Some (base ++ map snd ms)) /\
              forall x, In x visited' <-> In x visited \/ In x (map fst ms)
         else leader_inner similarity hi a rest visited cluster = Err AttributeError
  end.
Proof.
  revert visited cluster. induction rest as [|[j b] rest IH]; intros visited cluster Hnd; [reflexivity|].
  simpl in Hnd. inversion Hnd as [|? ? Hni Hnd']; subst. cbn [filter fst snd].
  cbn [leader_inner]. destruct (memb_In j visited) as [Hv|Hv]; cbn [negb andb].
  - apply IH; assumption.
  - destruct (similarity a b) eqn:Es; [|apply IH; assumption].
    set (base := match cluster with None => [a] | Some c => c end).
    assert (Ecl : match cluster with None => [a; b] | Some c => c ++ [b] end = base ++ [b])
      by (unfold base; destruct cluster; reflexivity).
    rewrite Ecl.
    assert (Ems : filter (fun jb => negb (memb (fst jb) (j :: visited)) && similarity a (snd jb)) rest =
                  filter (fun jb => negb (memb (fst jb) visited) && similarity a (snd jb)) rest).
    { apply filter_ext_in. intros [j' b'] Hin. cbn [fst snd]. f_equal. f_equal.
      destruct (memb_In j' (j :: visited)) as [H1|H1], (memb_In j' visited) as [H2|H2]; auto.
      - destruct H1; [|contradiction]. subst. exfalso. apply Hni.
        change j' with (fst (j', b')). apply in_map; exact Hin.
      - exfalso. apply H1. right; exact H2. }
    specialize (IH (j :: visited) (Some (base ++ [b])) Hnd'). cbv zeta in IH. rewrite Ems in IH.
    set (ms := filter (fun jb => negb (memb (fst jb) visited) && similarity a (snd jb)) rest) in *.
    rewrite app_length in *. cbn [length] in *.
    destruct (le_max (length base + 1) hi) eqn:E1; cbn [negb].
    + destruct ms as [|m ms'] eqn:Em.
      * rewrite IH. cbn [length]. rewrite E1. exists (j :: visited).
        split; [reflexivity|]. intros x; simpl; intuition.
      * replace (length base + S (length (m :: ms'))) with (length base + 1 + length (m :: ms')) by (simpl; lia).
        destruct (le_max (length base + 1 + length (m :: ms')) hi).
        -- destruct IH as (visited' & E & Hx). exists visited'. rewrite E. split.
           ++ rewrite <- app_assoc. reflexivity.
           ++ intros x. rewrite Hx. simpl. intuition.
        -- exact IH.
    + assert (le_max (length base + S (length ms)) hi = false) as ->; [|reflexivity].
      destruct hi as [h|]; [|discriminate]. simpl in *. apply Nat.leb_gt in E1. apply Nat.leb_gt. lia.
Qed.

Variable lo : nat.
Variable hi : option nat.

Lemma reads_in (c : list nat) : (forall i, In i c -> i < N) ->
  exists xs, Forall2 (fun i x => nth_error data i = Some x) c xs.
Proof. intros Hc. destruct (mapM_index_ok data c Hc) as (xs & _ & F). eauto. Qed.

Lemma filter_enum (pre suf : list A) (p : nat -> A -> bool) q :
  data = pre ++ suf ->
  (forall j b, length pre <= j -> nth_error data j = Some b -> p j b = q j) ->
  Forall2 (fun i x => nth_error data i = Some x)
     (filter q (seq (length pre) (length suf)))
     (map snd (filter (fun jb => p (fst jb) (snd jb)) (combine (seq (length pre) (length suf)) suf)))
  /\ map fst (filter (fun jb => p (fst jb) (snd jb)) (combine (seq (length pre) (length suf)) suf))
     = filter q (seq (length pre) (length suf)).
Proof.
  revert pre. induction suf as [|b suf IH]; intros pre Hd Hpq.
  - split; [constructor|reflexivity].
  - assert (Hn : nth_error data (length pre) = Some b).
    { rewrite Hd, nth_error_app2, Nat.sub_diag by lia. reflexivity. }
    cbn [length seq combine filter fst snd].
    specialize (IH (pre ++ [b])). rewrite app_length in IH. cbn [length] in IH.
    rewrite Nat.add_1_r in IH. destruct IH as [I1 I2].
    + rewrite <- app_assoc. exact Hd.
    + intros j b' Hj. apply Hpq. lia.
    + rewrite (Hpq (length pre) b (le_n _) Hn). destruct (q (length pre)); cbn [map fst snd].
      * split; [constructor; assumption|]. rewrite I2. reflexivity.
      * split; assumption.
Qed.

Lemma map_fst_enum (l : list A) k : map fst (combine (seq k (length l)) l) = seq k (length l).
Proof. revert k. induction l as [|x l IH]; intros k; simpl; [reflexivity|]. f_equal; apply IH. Qed.

Lemma leader_loop_spec suf : forall pre visited,
  data = pre ++ suf ->
  (forall j, length pre <= j -> j < N ->
     (In j visited <-> exists h, In h (lead (length pre)) /\ sim h j = true)) ->
  let cl := map (leader_cluster similarity data (lead N))
              (filter isleader (seq (length pre) (length suf))) in
  exists out, leader_loop similarity lo hi (combine (seq (length pre) (length suf)) suf) visited
      = (out, if forallb (cluster_fits hi) cl then None else Some AttributeError) /\
    reads data (filter (cluster_kept lo) (takewhile (cluster_fits hi) cl)) out.
Proof.
  induction suf as [|a suf IH]; intros pre visited Hd Hvis; cbv zeta.
  - exists []. split; [reflexivity|constructor].
  - set (i := length pre) in *.
    assert (HN : N = i + S (length suf)) by (rewrite Hd, app_length; reflexivity).
    assert (Hn : nth_error data i = Some a).
    { rewrite Hd. unfold i. rewrite nth_error_app2, Nat.sub_diag by lia. reflexivity. }
    assert (Hd' : data = (pre ++ [a]) ++ suf) by (rewrite <- app_assoc; exact Hd).
    assert (Hlen : length (pre ++ [a]) = S i) by (rewrite app_length; simpl; unfold i; lia).
    cbn [length seq combine filter leader_loop].
    assert (Hil : isleader i = negb (memb i visited)).
    { destruct (memb_In i visited) as [Hv|Hv]; cbn [negb].
      - apply Hvis in Hv as (h & Hh & Hs); [|lia..]. unfold isleader. rewrite negb_false_iff.
        apply existsb_exists. eauto.
      - unfold isleader. rewrite negb_true_iff. destruct (existsb _ _) eqn:E; [|reflexivity].
        exfalso. apply Hv. apply Hvis; [lia..|]. apply existsb_exists in E as (h & ? & ?). eauto. }
    destruct (memb_In i visited) as [Hv|Hv]; rewrite Hil; cbn [negb].
    + specialize (IH (pre ++ [a]) visited Hd'). rewrite Hlen in IH. apply IH.
      intros j H1 H2. rewrite Hvis by lia. cbn [lead]. unfold isleader in Hil.
      apply negb_false_iff in Hil. rewrite Hil, app_nil_r. tauto.
    + assert (Hfun : forall j b, i < j -> nth_error data j = Some b ->
         negb (memb j visited) && similarity a b = follows similarity data (lead N) i j).
      { intros j b Hj Hb. unfold follows. destruct (Nat.ltb_spec i j); [|lia]. cbn [andb].
        assert (Hs : sim i j = similarity a b) by (unfold sim_nth; rewrite Hn, Hb; reflexivity).
        rewrite Hs, andb_comm. f_equal.
        assert (j < N) by (apply nth_error_Some; congruence).
        destruct (memb_In j visited) as [Hvj|Hvj]; cbn [negb].
        - symmetry. apply not_true_iff_false. rewrite forallb_forall. intros Hall.
          apply Hvis in Hvj as (h & Hh & Hhs); [|lia..]. apply In_lead in Hh as [Hh1 Hh2].
          assert (In h (lead N)) by (apply In_lead; split; [lia|auto]).
          specialize (Hall h H1). cbv beta in Hall. rewrite Hhs in Hall.
          destruct (Nat.ltb_spec h i); [discriminate|lia].
        - symmetry. apply forallb_forall. intros h Hh. apply In_lead in Hh as [Hh1 Hh2].
          destruct (Nat.ltb_spec h i); [|reflexivity]. cbn [andb].
          destruct (sim h j) eqn:Eh; [|reflexivity]. exfalso. apply Hvj. apply Hvis; [lia..|].
          exists h. split; [|exact Eh]. apply In_lead. auto. }
      assert (Hfollow : filter (follows similarity data (lead N) i) (seq 0 N) =
                filter (follows similarity data (lead N) i) (seq (S i) (length suf))).
      { rewrite HN. replace (i + S (length suf)) with (S i + length suf) by lia. rewrite seq_app, filter_app.
        replace (filter (follows similarity data (lead (S i + length suf)) i) (seq 0 (S i))) with (@nil nat).
        - reflexivity.
        - symmetry. apply filter_none. intros j Hj. apply in_seq in Hj. unfold follows.
          destruct (Nat.ltb_spec i j); [lia|reflexivity]. }
      destruct (filter_enum (pre ++ [a]) suf (fun j b => negb (memb j visited) && similarity a b)
                  (follows similarity data (lead N) i) Hd') as [F1 F2].
      { intros j b Hj Hb. apply Hfun; [rewrite Hlen in Hj; lia|exact Hb]. }
      rewrite Hlen in F1, F2.
      pose proof (leader_inner_spec hi a (combine (seq (S i) (length suf)) suf) visited None) as Hin.
      rewrite map_fst_enum in Hin. specialize (Hin (seq_NoDup _ _)). cbv zeta in Hin.
      set (ms := filter (fun jb => negb (memb (fst jb) visited) && similarity a (snd jb))
                   (combine (seq (S i) (length suf)) suf)) in *.
      assert (Hcl : leader_cluster similarity data (lead N) i = i :: map fst ms).
      { unfold leader_cluster. rewrite Hfollow, F2. reflexivity. }
      assert (Hlc : length (leader_cluster similarity data (lead N) i) = 1 + length ms).
      { rewrite Hcl. simpl. rewrite map_length. reflexivity. }
      assert (Hrd : Forall2 (fun i x => nth_error data i = Some x)
                (leader_cluster similarity data (lead N) i) (a :: map snd ms)).
      { rewrite Hcl. constructor; [exact Hn|]. rewrite F2. exact F1. }
      assert (Hlead' : lead (S i) = lead i ++ [i]).
      { cbn [lead]. unfold isleader in Hil. apply negb_true_iff in Hil. rewrite Hil. reflexivity. }
      assert (Hvis' : forall visited', (forall x, In x visited' <-> In x visited \/ In x (map fst ms)) ->
         forall j, S i <= j -> j < N ->
          (In j visited' <-> exists h, In h (lead (S i)) /\ sim h j = true)).
      { intros visited' Hv' j H1 H2. rewrite Hv', Hlead', Hvis by lia. rewrite F2, filter_In, in_seq.
        assert (exists b, nth_error data j = Some b) as [b Hb].
        { apply nth_error_Some in H2. destruct (nth_error data j); [eauto|contradiction]. }
        rewrite <- (Hfun j b) by (assumption || lia).
        assert (Hs : sim i j = similarity a b) by (unfold sim_nth; rewrite Hn, Hb; reflexivity).
        split.
        - intros [(h & Hh & Hhs)|[_ Hf]].
          + exists h. split; [apply in_app_iff; auto|exact Hhs].
          + exists i. split; [apply in_app_iff; simpl; auto|]. rewrite Hs.
            apply andb_true_iff in Hf. tauto.
        - intros (h & Hh & Hhs). apply in_app_iff in Hh as [Hh|[<-|[]]]; [left; eauto|].
          destruct (memb_In j visited) as [Hvj|Hvj].
          + left. apply Hvis; [lia..|exact Hvj].
          + right. split; [lia|]. rewrite <- Hs, Hhs. reflexivity. }
      destruct ms as [|m ms'] eqn:Em.
      * rewrite Hin. specialize (IH (pre ++ [a]) visited Hd'). rewrite Hlen in IH. destruct IH as (out & E & R).
        { apply Hvis'. intros x; simpl; tauto. }
        rewrite E. exists out. cbn [map forallb takewhile].
        assert (Hfit : cluster_fits hi (leader_cluster similarity data (lead N) i) = true).
        { unfold cluster_fits. rewrite Hlc. reflexivity. }
        rewrite Hfit. split; [reflexivity|]. cbn [filter].
        assert (Hk : cluster_kept lo (leader_cluster similarity data (lead N) i) = false).
        { unfold cluster_kept. rewrite Hlc. reflexivity. }
        rewrite Hk. exact R.
      * rewrite <- Em in *. assert (Hpos : 1 <= length ms) by (rewrite Em; simpl; lia).
        assert (Hfit : cluster_fits hi (leader_cluster similarity data (lead N) i) = le_max (1 + length ms) hi).
        { unfold cluster_fits. rewrite Hlc. destruct (Nat.leb_spec (1 + length ms) 1); [lia|reflexivity]. }
        cbn [map forallb takewhile]. rewrite Hfit. cbn [length] in Hin.
        destruct (le_max (1 + length ms) hi).
        -- destruct Hin as (visited' & Ein & Hv'). rewrite Ein.
           specialize (IH (pre ++ [a]) visited' Hd'). rewrite Hlen in IH. destruct IH as (out & E & R).
           { apply Hvis'. exact Hv'. }
           rewrite E. cbn [andb filter].
           assert (Hk : cluster_kept lo (leader_cluster similarity data (lead N) i) =
                        Nat.leb lo (length ([a] ++ map snd ms))).
           { unfold cluster_kept. rewrite Hlc. simpl. rewrite map_length.
             destruct (Nat.leb_spec 1 (length ms)); [|lia].
             destruct ms; simpl in *; [lia|reflexivity]. }
           rewrite Hk. destruct (Nat.leb lo (length ([a] ++ map snd ms))).
           ++ exists (([a] ++ map snd ms) :: out). split; [reflexivity|]. constructor; assumption.
           ++ exists out. auto.
        -- rewrite Hin. exists []. split; [reflexivity|constructor].
Qed.

Lemma pairwise_leader_correct :
  exists leaders out, are_leaders similarity data leaders /\ StronglySorted lt leaders /\
    let clusters := map (leader_cluster similarity data leaders) leaders in
    pairwise_leader similarity data lo hi
      = (out, if forallb (cluster_fits hi) clusters then None else Some AttributeError) /\
    reads data (filter (cluster_kept lo) (takewhile (cluster_fits hi) clusters)) out.
Proof.
  destruct (leader_loop_spec data [] []) as (out & E & R); [reflexivity|simpl; firstorder|].
  exists (lead N), out. split; [apply lead_are_leaders|]. split.
  - rewrite lead_filter. generalize 0 as k, N as n. intros k n. revert k.
    induction n as [|n IHn]; intros k; simpl; [constructor|].
    destruct (isleader k); [|apply IHn]. constructor; [apply IHn|].
    apply Forall_forall. intros x Hx. apply filter_In in Hx as [Hx _]. apply in_seq in Hx. lia.
  - cbn [length] in E, R. rewrite <- lead_filter in E, R. split; [exact E|exact R].
Qed.

(** every position is in exactly one leader cluster *)
Lemma leader_clusters_partition leaders : are_leaders similarity data leaders -> NoDup leaders ->
  Permutation (concat (map (leader_cluster similarity data leaders) leaders)) (seq 0 N).
Proof.
  intros Hl Hnd. apply NoDup_Permutation; [| apply seq_NoDup|].
  - rewrite <- flat_map_concat_map. apply NoDup_flat_map; [exact Hnd| |].
    + intros h _. unfold leader_cluster. constructor; [|apply NoDup_filter, seq_NoDup].
      rewrite filter_In. unfold follows. rewrite Nat.ltb_irrefl. intros [_ Hf]; discriminate.
    + assert (G : forall h h' j, In h leaders -> In h' leaders -> h < h' ->
        In j (leader_cluster similarity data leaders h) ->
        In j (leader_cluster similarity data leaders h') -> False).
      { intros h h' j Hh Hh' Hlt Hj Hj'. unfold leader_cluster in *.
        assert (Hsim : sim h j = true \/ j = h).
        { destruct Hj as [<-|Hj]; [auto|]. apply filter_In in Hj as [_ Hj]. unfold follows in Hj.
          rewrite !andb_true_iff in Hj. tauto. }
        destruct Hj' as [<-|Hj'].
        - destruct Hsim as [Hs|]; [|lia]. apply Hl in Hh' as [_ Hh'].
          rewrite Hh' in Hs by assumption. discriminate.
        - apply filter_In in Hj' as [_ Hj']. unfold follows in Hj'.
          rewrite !andb_true_iff, forallb_forall in Hj'. destruct Hj' as [[H1 H2] H3].
          apply Nat.ltb_lt in H1. specialize (H3 h Hh). cbv beta in H3.
          destruct Hsim as [Hs| ->]; [|lia]. rewrite Hs in H3.
          destruct (Nat.ltb_spec h h'); [discriminate|lia]. }
      intros h h' j Hh Hh' Hj Hj'. destruct (Nat.lt_trichotomy h h') as [Hlt|[->|Hlt]];
        [exfalso; exact (G h h' j Hh Hh' Hlt Hj Hj')|reflexivity|exfalso; exact (G h' h j Hh' Hh Hlt Hj' Hj)].
  - intros j. rewrite <- flat_map_concat_map, in_flat_map, in_seq. split.
    + intros (h & Hh & Hj). destruct Hj as [<-|Hj].
      * apply Hl in Hh. lia.
      * apply filter_In in Hj as [Hj _]. apply in_seq in Hj. lia.
    + intros [_ Hj]. simpl in Hj.
      (* the first leader similar to j *)
      assert (Hmin : forall n, (exists h, h < n /\ In h leaders /\ h < j /\ sim h j = true) ->
         exists h, In h leaders /\ h < j /\ sim h j = true /\
            forall h', In h' leaders -> h' < h -> sim h' j = false).
      { induction n as [n IHn] using lt_wf_ind. intros (h & H1 & H2 & H3 & H4).
        destruct (existsb (fun h' => Nat.ltb h' h && sim h' j) leaders) eqn:E.
        - apply existsb_exists in E as (h' & Hin & Hb). apply andb_true_iff in Hb as [Hb1 Hb2].
          apply Nat.ltb_lt in Hb1. apply (IHn h H1). exists h'. repeat split; auto; lia.
        - exists h. repeat split; auto. intros h' Hin Hlt. destruct (sim h' j) eqn:Es; [|reflexivity].
          exfalso. assert (existsb (fun h' => Nat.ltb h' h && sim h' j) leaders = true); [|congruence].
          apply existsb_exists. exists h'. split; [exact Hin|]. apply Nat.ltb_lt in Hlt. rewrite Hlt, Es. reflexivity. }
      destruct (in_dec Nat.eq_dec j leaders) as [Hin|Hnin].
      * exists j. split; [exact Hin|]. left; reflexivity.
      * destruct (Hmin j) as (h & Hh & Hlt & Hs & Hfirst).
        { destruct (existsb (fun h => Nat.ltb h j && sim h j) leaders) eqn:E.
          - apply existsb_exists in E as (h & Hh & Hb). apply andb_true_iff in Hb as [Hb1 Hb2].
            apply Nat.ltb_lt in Hb1. exists h. auto.
          - exfalso. apply Hnin. apply Hl. split; [lia|]. intros h Hh Hlt.
            destruct (sim h j) eqn:Es; [|reflexivity]. exfalso.
            assert (existsb (fun h => Nat.ltb h j && sim h j) leaders = true); [|congruence].
            apply existsb_exists. exists h. split; [exact Hh|]. apply Nat.ltb_lt in Hlt. rewrite Hlt, Es. reflexivity. }
        exists h. split; [exact Hh|]. right. apply filter_In. split; [apply in_seq; lia|].
        unfold follows. rewrite !andb_true_iff. split; [split|].
        -- apply Nat.ltb_lt; exact Hlt.
        -- exact Hs.
        -- apply forallb_forall. intros h' Hh'. destruct (Nat.ltb_spec h' h); [|reflexivity].
           rewrite Hfirst by assumption. reflexivity.
Qed.
End LeaderProofs.

(** ** Corollaries *)
Lemma chunks_contents {A} (data : list A) chunk_size chunks rows cols oi oj : 1 <= chunk_size ->
  upper_triangular_matrix_chunk_iter data chunk_size = Ok chunks ->
  In (rows, cols, oi, oj) chunks ->
  rows = slice oi (oi + chunk_size) data /\
  cols = (if Nat.eqb oi oj then [] else slice oj (oj + chunk_size) data).
Proof.
  intros Hc E Hin. rewrite (In_chunks data chunk_size chunks) in Hin by assumption.
  destruct Hin as (i & j & _ & _ & Eq). inversion Eq; subst. auto.
Qed.

Lemma chunks_total {A} (data : list A) chunk_size : 1 <= chunk_size ->
  exists chunks, upper_triangular_matrix_chunk_iter data chunk_size = Ok chunks.
Proof. intros Hc. rewrite chunk_iter_eq by exact Hc. eauto. Qed.

Lemma Forall2_nth_unique {A} (data : list A) c xs ys :
  Forall2 (fun i x => nth_error data i = Some x) c xs ->
  Forall2 (fun i x => nth_error data i = Some x) c ys -> xs = ys.
Proof.
  intros H1. revert ys. induction H1; intros ys H2; inversion H2; subst; [reflexivity|].
  f_equal; [congruence|auto].
Qed.

Lemma reads_Permutation_cluster {A} (data : list A) c c' xs xs' :
  Permutation c c' ->
  Forall2 (fun i x => nth_error data i = Some x) c xs ->
  Forall2 (fun i x => nth_error data i = Some x) c' xs' -> Permutation xs xs'.
Proof.
  intros Hp F F'.
  destruct (Permutation_Forall2 Hp F) as (ys & Hq & G).
  rewrite (Forall2_nth_unique data c' xs' ys F' G). exact Hq.
Qed.

Lemma reads_same {A} (data : list A) idx1 idx2 out1 out2 :
  same_clusters idx1 idx2 -> reads data idx1 out1 -> reads data idx2 out2 -> same_clusters out1 out2.
Proof.
  intros (idx & Hp & Hf) R1 R2. unfold reads in *.
  destruct (Permutation_Forall2 Hp R1) as (out & Hq & R).
  exists out. split; [exact Hq|]. clear - Hf R R2.
  revert out out2 R R2. induction Hf; intros out out2 R R2; inversion R; inversion R2; subst; constructor.
  - eapply reads_Permutation_cluster; eassumption.
  - auto.
Qed.

Lemma pairwise_cc_same {A K} (similarity : K -> K -> bool) (key : A -> K) (data : list A) lo hi
    chunk_size arrival :
  1 <= chunk_size -> (forall l, Permutation (arrival l) l) ->
  exists out1 out2,
    pairwise_connected_components similarity key data lo hi = Ok out1 /\
    pairwise_connected_components_parallel similarity key data lo hi chunk_size arrival = Ok out2 /\
    same_clusters out1 out2.
Proof.
  intros Hc Ha.
  destruct (pairwise_cc_correct similarity key data lo hi) as (i1 & o1 & E1 & R1 & C1).
  destruct (pairwise_cc_parallel_correct similarity key data lo hi chunk_size arrival Hc Ha)
    as (i2 & o2 & E2 & R2 & C2).
  exists o1, o2. split; [exact E1|]. split; [exact E2|].
  eapply reads_same; [|exact R1|exact R2]. eapply is_components_unique; eassumption.
Qed.

Lemma pairwise_leader_total {A} (similarity : A -> A -> bool) (data : list A) lo :
  snd (pairwise_leader similarity data lo None) = None.
Proof.
  destruct (pairwise_leader_correct similarity data lo None) as (leaders & out & _ & _ & E & _).
  rewrite E. cbn [snd].
  match goal with |- context [forallb ?f ?l] => assert (forallb f l = true) as -> end; [|reflexivity].
  apply forallb_forall. intros c _. unfold cluster_fits. apply orb_true_r.
Qed.

Lemma pairwise_unknown {A} (similarity : A -> A -> bool) data lo hi mode :
  ~ In mode ["leader"; "fuzzy_clusters"; "connected_components"]%string ->
  pairwise similarity data lo hi mode = ([], Some TypeError).
Proof.
  intros Hn. unfold pairwise. simpl in Hn.
  destruct (String.string_dec mode "leader"); [exfalso; intuition congruence|].
  destruct (String.string_dec mode "fuzzy_clusters"); [exfalso; intuition congruence|].
  destruct (String.string_dec mode "connected_components"); [exfalso; intuition congruence|].
  reflexivity.
Qed.

Lemma pairwise_known {A} (similarity : A -> A -> bool) data lo :
  forall mode, In mode ["leader"; "fuzzy_clusters"; "connected_components"]%string ->
  snd (pairwise similarity data lo None mode) = None.
Proof.
  intros mode [<-|[<-|[<-|[]]]]; unfold pairwise; cbn [String.string_dec].
  - apply pairwise_leader_total.
  - destruct (pairwise_fuzzy_correct similarity (fun x => x) data lo None) as (idx & out & E & _).
    simpl. rewrite E. reflexivity.
  - destruct (pairwise_cc_correct similarity (fun x => x) data lo None) as (idx & out & E & _).
    simpl. rewrite E. reflexivity.
Qed.
