From Coq Require Import QArith Lqa.
From Verif Require Import Base BaseFacts PairwiseModel PairwiseProofs SortModel SortSpec SortFacts BlockingProofs CliProofs SpaceProofs FaginModel FaginSpec.
Open Scope nat_scope.

Section Fagin.
Context {D : Type} `{EqDec D}.
Implicit Types (vectors : list (vector D)).

Definition lget {V} (lists : dict D (list V)) (d : D) : list V := match dget lists d with Some l => l | None => [] end.

Lemma lget_modify {V} (lists : dict D (list V)) d e f : f [] = f [] -> lget (dmodify lists d [] f) e = if eq_dec e d then f (lget lists d) else lget lists e.
Proof.
  intros _. unfold lget. destruct (eq_dec e d) as [->|Hn].
  - rewrite dget_dmodify_same. destruct (dget lists d); reflexivity.
  - rewrite dget_dmodify_other by congruence. reflexivity.
Qed.

(** * naive_cosine_pairs *)
Lemma naive_list_spec i l : forall visited, NoDup l ->
  exists vis', naive_list i l visited = (map (pair i) (filter (fun j => negb (memb j visited)) l), vis') /\
    forall j, In j vis' <-> In j visited \/ In j l.
Proof.
  induction l as [|j l IH]; intros visited Hn; cbn [naive_list filter map].
  - exists visited. split; [reflexivity|]. cbn. tauto.
  - inversion Hn as [|? ? Hj Hn']; subst. destruct (memb_In j visited) as [Hv|Hv]; cbn [negb map].
    + destruct (IH visited Hn') as (vis' & -> & K). exists vis'. split; [reflexivity|]. intros k. rewrite K. cbn [In].
      split; intros Q; repeat destruct Q as [Q|Q]; subst; auto.
    + destruct (IH (sadd visited j) Hn') as (vis' & -> & K). exists vis'. split.
      * do 3 f_equal. apply filter_ext_in. intros k Hk. f_equal.
        assert (k <> j) by (intros ->; contradiction).
        destruct (memb_In k (sadd visited j)) as [M|M], (memb_In k visited) as [M'|M']; try reflexivity; rewrite sadd_In in M; tauto.
      * intros k. rewrite K, sadd_In. cbn [In]. split; intros Q; repeat destruct Q as [Q|Q]; subst; auto.
Qed.

Lemma naive_dims_spec i ds : forall lists visited, NoDup ds -> (forall d, In d ds -> NoDup (lget lists d)) ->
  exists js lists', naive_dims i ds lists visited = (map (pair i) js, lists') /\ NoDup js /\
    (forall j, In j js <-> ~ In j visited /\ exists d, In d ds /\ In j (lget lists d)) /\
    (forall d, lget lists' d = lget lists d ++ if memb d ds then [i] else []).
Proof.
  induction ds as [|d ds IH]; intros lists visited Hn Hl; cbn [naive_dims].
  - exists [], lists. split; [reflexivity|]. split; [constructor|]. split.
    + intros j. split; [intros [] | intros (_ & d & [] & _)].
    + intros d. rewrite app_nil_r. reflexivity.
  - inversion Hn as [|? ? Hd Hn']; subst. fold (lget lists d). destruct (naive_list_spec i (lget lists d) visited (Hl d (or_introl eq_refl))) as (vis' & -> & Kv).
    set (lists1 := dmodify lists d [] (fun l => l ++ [i])).
    assert (L1 : forall e, In e ds -> lget lists1 e = lget lists e).
    { intros e He. unfold lists1. rewrite lget_modify by reflexivity. destruct (eq_dec e d) as [->|]; [contradiction | reflexivity]. }
    assert (IHs : exists js lists', naive_dims i ds lists1 vis' = (map (pair i) js, lists') /\ NoDup js /\
      (forall j, In j js <-> ~ In j vis' /\ exists d, In d ds /\ In j (lget lists d)) /\
      (forall d, lget lists' d = lget lists1 d ++ if memb d ds then [i] else [])).
    { destruct (IH lists1 vis' Hn') as (js & lists' & E & Nj & Ij & Ll).
      { intros e He. rewrite L1 by exact He. apply Hl. right. exact He. }
      exists js, lists'. split; [exact E|]. split; [exact Nj|]. split; [|exact Ll].
      intros j. rewrite Ij. split; intros [K1 (e & He & K2)]; (split; [exact K1|]); exists e; (split; [exact He|]); [rewrite <- L1 by exact He | rewrite L1 by exact He]; exact K2. }
    destruct IHs as (js & lists' & -> & Nj & Ij & Ll).
    exists (filter (fun j => negb (memb j visited)) (lget lists d) ++ js), lists'. split; [rewrite map_app; reflexivity|]. split; [|split].
    + apply NoDup_app_iff. split; [apply NoDup_filter, Hl; left; reflexivity|]. split; [exact Nj|]. intros j Hj Hj2. rewrite filter_In in Hj. rewrite Ij, Kv in Hj2. tauto.
    + intros j. rewrite in_app_iff, filter_In, Ij, Kv, negb_true_iff, memb_false. split.
      * intros [[K1 K2]|[K1 (f & Hf & K2)]]; [split; [exact K2 | exists d; cbn; auto]|]. split; [tauto | exists f; cbn; auto].
      * intros [K1 (f & [<-|Hf] & K2)]; [left; auto|]. destruct (in_dec eq_dec j (lget lists d)) as [K|K]; [left; auto|]. right. split; [tauto|]. exists f. auto.
    + intros f. rewrite Ll. unfold lists1. rewrite lget_modify by reflexivity. destruct (eq_dec f d) as [->|Hfe].
      * rewrite (proj2 (memb_true d (d :: ds)) (or_introl eq_refl)), (proj2 (memb_false d ds) Hd), app_nil_r. reflexivity.
      * f_equal. destruct (memb_In f ds) as [M|M], (memb_In f (d :: ds)) as [[M2|M2]|M2]; try reflexivity; try congruence; try contradiction. exfalso. apply M2. right. exact M.
Qed.

(** positions below [n] of the vectors that have dimension [d] *)
Definition having vectors (n : nat) (d : D) : list nat := filter (fun j => memb d (dims vectors j)) (seq 0 n).

Lemma having_In vectors n d j : In j (having vectors n d) <-> j < n /\ In d (dims vectors j).
Proof. unfold having. rewrite filter_In, in_seq, memb_true. split; intros [K1 K2]; (split; [lia | exact K2]). Qed.

Lemma well_formed_dims vectors i : well_formed vectors -> NoDup (dims vectors i).
Proof.
  intros W. unfold dims. destruct (Nat.lt_ge_cases i (length vectors)) as [L|L].
  - unfold well_formed in W. rewrite Forall_forall in W. apply W, nth_In, L.
  - rewrite nth_overflow by exact L. constructor.
Qed.

Lemma naive_loop_spec vectors : well_formed vectors -> forall m n lists, n + m = length vectors ->
  (forall d, lget lists d = having vectors n d) ->
  let out := naive_loop (combine (seq n m) (skipn n vectors)) lists in
  NoDup out /\ forall i j, In (i, j) out <-> n <= i < length vectors /\ j < i /\ share_dimension vectors i j.
Proof.
  intros W. induction m as [|m IH]; intros n lists E Hl; cbv zeta.
  - cbn [seq combine naive_loop]. split; [constructor|]. intros i j. split; [intros [] | intros (K & _); lia].
  - destruct (skipn n vectors) as [|v rest] eqn:Es.
    { apply (f_equal (@length _)) in Es. rewrite skipn_length in Es. cbn in Es. lia. }
    assert (Ev : dims vectors n = dkeys v).
    { unfold dims. f_equal. rewrite <- (firstn_skipn n vectors), Es, app_nth2; rewrite firstn_length; [|lia].
      replace (n - Nat.min n (length vectors)) with 0 by lia. reflexivity. }
    assert (Er : rest = skipn (S n) vectors).
    { replace (S n) with (1 + n) by lia. clear -Es. revert n Es. induction vectors as [|u l IH]; intros [|n] Es; try discriminate; cbn in *; [injection Es as _ <-; reflexivity | apply IH; exact Es]. }
    cbn [seq combine naive_loop].
    destruct (naive_dims_spec n (dkeys v) lists []) as (js & lists' & -> & Nj & Ij & Ll).
    { rewrite <- Ev. apply well_formed_dims, W. }
    { intros d _. rewrite Hl. apply NoDup_filter, seq_NoDup. }
    rewrite Er. destruct (IH (S n) lists' ltac:(lia)) as [N1 I1].
    { intros d. rewrite Ll, Hl. unfold having. rewrite seq_S, filter_app. cbn [filter Nat.add]. rewrite <- Ev. reflexivity. }
    split.
    + apply NoDup_app_iff. split; [apply FinFun.Injective_map_NoDup; [intros x y K; congruence | exact Nj]|]. split; [exact N1|].
      intros [i j] K1 K2. apply in_map_iff in K1. destruct K1 as (j' & K1 & _). injection K1 as <- <-. apply I1 in K2. lia.
    + intros i j. rewrite in_app_iff, I1, in_map_iff. split.
      * intros [(j' & K & K2)|(K & K2 & K3)]; [|split; [lia|]; auto]. injection K as <- <-. apply Ij in K2. destruct K2 as [_ (d & Hd & K2)].
        rewrite Hl, having_In in K2. split; [lia|]. split; [tauto|]. exists d. rewrite Ev. tauto.
      * intros (K & K2 & K3). destruct (Nat.eq_dec i n) as [->|Hn]; [left|right; split; [lia | auto]]. exists j. split; [reflexivity|].
        apply Ij. split; [intros []|]. destruct K3 as (d & Hd & K3). exists d. rewrite <- Ev, Hl, having_In. auto.
Qed.

Lemma naive_cosine_pairs_spec vectors : well_formed vectors ->
  NoDup (naive_cosine_pairs vectors) /\
  forall i j, In (i, j) (naive_cosine_pairs vectors) <-> i < length vectors /\ j < i /\ share_dimension vectors i j.
Proof.
  intros W. destruct (naive_loop_spec vectors W (length vectors) 0 [] eq_refl) as [N1 I1]; [reflexivity|].
  split; [exact N1|]. intros i j. rewrite (I1 i j). split; intros (K & K2 & K3); (split; [lia | auto]).
Qed.

(** * inverted lists *)
Definition entries (d : D) (iv : nat * vector D) : list (Q * nat) := match dget (snd iv) d with Some w => [(w, fst iv)] | None => [] end.

Lemma invert_one i v : NoDup (dkeys v) -> forall lists d,
  lget (fold_left (fun lists dw => dmodify lists (fst dw) [] (fun l => l ++ [(snd dw, i)])) v lists) d = lget lists d ++ entries d (i, v).
Proof.
  unfold entries. cbn [fst snd]. induction v as [|[e w] v IH]; intros Hn lists d; cbn [fold_left dget].
  - rewrite app_nil_r. reflexivity.
  - cbn [dkeys map fst] in Hn. inversion Hn as [|? ? He Hn']; subst. rewrite (IH Hn'). cbn [fst snd]. rewrite lget_modify by reflexivity.
    destruct (eq_dec d e) as [->|Hde]; [|reflexivity]. destruct (dget v e) as [w'|] eqn:E; [|apply app_nil_r].
    exfalso. apply He. apply dget_In_keys. eauto.
Qed.

Lemma invert_spec vectors d : well_formed vectors -> lget (invert vectors) d = flat_map (entries d) (enumerate vectors).
Proof.
  intros W. unfold invert. assert (G : forall l lists, Forall (fun iv : nat * vector D => NoDup (dkeys (snd iv))) l ->
    lget (fold_left (fun lists iv => fold_left (fun lists dw => dmodify lists (fst dw) [] (fun l => l ++ [(snd dw, fst iv)])) (snd iv) lists) l lists) d = lget lists d ++ flat_map (entries d) l).
  { induction l as [|[i v] l IH]; intros lists F; cbn [fold_left flat_map]; [rewrite app_nil_r; reflexivity|].
    inversion F as [|? ? Hv F']; subst. rewrite (IH _ F'). cbn [fst snd] in *. rewrite (invert_one i v Hv). rewrite <- app_assoc. reflexivity. }
  rewrite G; [reflexivity|]. apply Forall_forall. intros [i v] Hin. rewrite In_enumerate' in Hin. unfold well_formed in W. rewrite Forall_forall in W.
  apply W. apply nth_error_In in Hin. exact Hin.
Qed.

Definition posts vectors (d : D) : list nat := map snd (list_of (sorted_lists vectors) d).

Lemma list_of_perm vectors d : well_formed vectors -> Permutation (list_of (sorted_lists vectors) d) (flat_map (entries d) (enumerate vectors)).
Proof.
  intros W. rewrite <- (invert_spec vectors d W). unfold list_of, sorted_lists, lget.
  assert (G : forall l : dict D (list (Q * nat)), dget (map (fun dl => (fst dl, sort_by entry_le (snd dl))) l) d = match dget l d with Some x => Some (sort_by entry_le x) | None => None end).
  { induction l as [|[e x] l IH]; [reflexivity|]. cbn. destruct (eq_dec d e); [reflexivity | exact IH]. }
  rewrite G. destruct (dget (invert vectors) d); [apply sort_by_perm | apply Permutation_refl].
Qed.

Lemma entries_positions vectors d : forall n, map snd (flat_map (entries d) (combine (seq n (length vectors)) vectors)) =
  map (fun j => n + j) (filter (fun j => memb d (dims vectors j)) (seq 0 (length vectors))).
Proof.
  induction vectors as [|v vectors IH]; intros n; [reflexivity|]. cbn [length seq combine flat_map filter]. rewrite map_app, IH.
  assert (E : memb d (dims (v :: vectors) 0) = match dget v d with Some _ => true | None => false end).
  { unfold dims. cbn [nth]. destruct (dget v d) eqn:Ed.
    - apply memb_true. apply dget_In_keys. eauto.
    - apply memb_false. intros K. apply dget_In_keys in K. destruct K. congruence. }
  assert (F : map (fun j => S n + j) (filter (fun j => memb d (dims vectors j)) (seq 0 (length vectors))) =
              map (fun j => n + j) (filter (fun j => memb d (dims (v :: vectors) j)) (seq 1 (length vectors)))).
  { rewrite <- seq_shift, filter_map, map_map. apply map_ext_in. intros; lia. }
  rewrite F, E. unfold entries. cbn [snd fst]. destruct (dget v d); cbn [map app snd]; [rewrite Nat.add_0_r|]; reflexivity.
Qed.

Lemma posts_perm vectors d : well_formed vectors -> Permutation (posts vectors d) (having vectors (length vectors) d).
Proof.
  intros W. unfold posts. rewrite (list_of_perm vectors d W). unfold enumerate. rewrite (entries_positions vectors d 0).
  rewrite map_id. apply Permutation_refl.
Qed.

Lemma posts_In vectors d j : well_formed vectors -> In j (posts vectors d) <-> j < length vectors /\ In d (dims vectors j).
Proof. intros W. rewrite <- having_In. split; apply Permutation_in; [apply posts_perm | apply Permutation_sym, posts_perm]; exact W. Qed.

Lemma posts_NoDup vectors d : well_formed vectors -> NoDup (posts vectors d).
Proof. intros W. apply (Permutation_NoDup (Permutation_sym (posts_perm vectors d W))). apply NoDup_filter, seq_NoDup. Qed.

Lemma posts_length vectors d : well_formed vectors -> length (posts vectors d) <= length vectors.
Proof. intros W. rewrite (Permutation_length (posts_perm vectors d W)). unfold having. etransitivity; [apply filter_le|]. rewrite seq_length. lia. Qed.

(** * fagin_k1 *)
Definition lists_of vectors := sorted_lists vectors.

Lemma nth_posts vectors d o : nth_error (posts vectors d) o = match nth_error (list_of (sorted_lists vectors) d) o with Some (_, j) => Some j | None => None end.
Proof. unfold posts. rewrite nth_error_map. destruct (nth_error _ o) as [[w j]|]; reflexivity. Qed.

Definition cget (counts : dict nat nat) (j : nat) : nat := match dget counts j with Some c => c | None => 0 end.

Lemma cget_modify counts j k : cget (dmodify counts j 0 (fun c => c + 1)) k = cget counts k + if eq_dec k j then 1 else 0.
Proof.
  unfold cget. destruct (eq_dec k j) as [->|Hn].
  - rewrite dget_dmodify_same. destruct (dget counts j); lia.
  - rewrite dget_dmodify_other by congruence. lia.
Qed.

Definition at_offset vectors o j (d : D) : bool := if eq_dec (nth_error (posts vectors d) o) (Some j) then true else false.

Lemma fagin_turn_spec vectors o ds : forall counts, NoDup (dkeys counts) ->
  let '(counts', stop) := fagin_turn (sorted_lists vectors) ds o counts in
  NoDup (dkeys counts') /\
  (forall j, cget counts' j = cget counts j + length (filter (at_offset vectors o j) ds)) /\
  (forall j, In j (dkeys counts') <-> In j (dkeys counts) \/ exists d, In d ds /\ nth_error (posts vectors d) o = Some j) /\
  (stop = true -> counts' = counts) /\
  (stop = true <-> forall d, In d ds -> nth_error (posts vectors d) o = None).
Proof.
  induction ds as [|d ds IH]; intros counts Hn; cbn [fagin_turn].
  - split; [exact Hn|]. split; [intros j; cbn; lia|]. split; [intros j; split; [auto | intros [K|(d & [] & _)]; exact K]|]. split; [reflexivity|]. split; [intros _ d [] | reflexivity].
  - pose proof (nth_posts vectors d o) as Np. destruct (nth_error (list_of (sorted_lists vectors) d) o) as [[w j0]|].
    + specialize (IH (dmodify counts j0 0 (fun c => c + 1))). destruct (fagin_turn (sorted_lists vectors) ds o (dmodify counts j0 0 (fun c => c + 1))) as [counts' stop].
      destruct IH as (H1 & H2 & H3 & H4 & H5); [rewrite dkeys_dmodify; apply sadd_NoDup; exact Hn|].
      cbn [fst]. split; [exact H1|]. split; [|split; [|split; [discriminate|]]].
      * intros j. rewrite H2, cget_modify. cbn [filter]. unfold at_offset at 2. rewrite Np. destruct (eq_dec (Some j0) (Some j)) as [E|E], (eq_dec j j0) as [E2|E2]; try congruence; cbn [length]; lia.
      * intros j. rewrite H3, dkeys_dmodify, sadd_In. cbn [In]. split.
        -- intros [[K| ->]|(e & He & K)]; [auto | right; exists d; auto | right; exists e; auto].
        -- intros [K|(e & [<-|He] & K)]; [auto | left; right; congruence | right; exists e; auto].
      * split; [discriminate|]. intros K. specialize (K d (or_introl eq_refl)). congruence.
    + specialize (IH counts Hn). destruct (fagin_turn (sorted_lists vectors) ds o counts) as [counts' stop]. destruct IH as (H1 & H2 & H3 & H4 & H5).
      split; [exact H1|]. split; [|split; [|split; [exact H4|]]].
      * intros j. rewrite H2. cbn [filter]. unfold at_offset at 2. rewrite Np. destruct (eq_dec None (Some j)) as [E|E]; [discriminate | reflexivity].
      * intros j. rewrite H3. cbn [In]. split.
        -- intros [K|(e & He & K)]; [auto | right; exists e; auto].
        -- intros [K|(e & [<-|He] & K)]; [auto | congruence | right; exists e; auto].
      * rewrite H5. cbn [In]. split; intros K; [intros e [<-|He]; [exact Np | exact (K e He)] | intros e He; apply K; auto].
Qed.

(** what has been counted before offset [o] *)
Definition seen vectors o j (d : D) : bool := memb j (firstn o (posts vectors d)).

Lemma firstn_S_snoc {A} n (l : list A) : firstn (S n) l = firstn n l ++ match nth_error l n with Some x => [x] | None => [] end.
Proof. revert n; induction l as [|y l IH]; intros [|n]; cbn; try reflexivity. cbn in IH. rewrite IH. reflexivity. Qed.

Lemma nth_notin_firstn {A} n (l : list A) x : NoDup l -> nth_error l n = Some x -> ~ In x (firstn n l).
Proof.
  revert n; induction l as [|y l IH]; intros [|n] Hn E K; cbn in *; try discriminate; try tauto.
  inversion Hn as [|? ? Hy Hn']; subst. destruct K as [->|K]; [apply Hy; apply nth_error_In in E; exact E | exact (IH n Hn' E K)].
Qed.

Lemma seen_step vectors o j ds : well_formed vectors ->
  length (filter (seen vectors (S o) j) ds) = length (filter (seen vectors o j) ds) + length (filter (at_offset vectors o j) ds).
Proof.
  intros W. induction ds as [|d ds IH]; [reflexivity|]. cbn [filter].
  assert (E : (if seen vectors (S o) j d then 1 else 0) = (if seen vectors o j d then 1 else 0) + (if at_offset vectors o j d then 1 else 0)).
  { unfold seen, at_offset. rewrite firstn_S_snoc. pose proof (nth_notin_firstn o (posts vectors d)) as Nn.
    destruct (nth_error (posts vectors d) o) as [x|] eqn:Ex.
    - specialize (Nn x (posts_NoDup vectors d W) eq_refl). destruct (memb_In j (firstn o (posts vectors d) ++ [x])) as [M|M], (memb_In j (firstn o (posts vectors d))) as [M'|M'], (eq_dec (Some x) (Some j)) as [E|E]; try reflexivity; exfalso.
      + injection E as ->. contradiction.
      + apply in_app_or in M. destruct M as [M|[->|[]]]; congruence.
      + apply M. apply in_or_app. auto.
      + apply M. apply in_or_app. auto.
      + injection E as ->. apply M. apply in_or_app. right. left. reflexivity.
    - rewrite app_nil_r. destruct (eq_dec None (Some j)) as [E|_]; [discriminate|]. lia. }
  destruct (seen vectors (S o) j d), (seen vectors o j d), (at_offset vectors o j d); cbn [length] in *; lia.
Qed.

Lemma full_filter {A} (p : A -> bool) l : length l <= length (filter p l) <-> forall x, In x l -> p x = true.
Proof.
  induction l as [|y l IH]; cbn [filter length]; [split; [intros _ x [] | lia]|]. pose proof (filter_le p l) as F. destruct (p y) eqn:E; cbn [length].
  - split; [intros K x [<-|Hx]; [exact E | apply IH; [lia | exact Hx]] | intros K; apply le_n_S, IH; intros x Hx; apply K; right; exact Hx].
  - split; [lia|]. intros K. specialize (K y (or_introl eq_refl)). congruence.
Qed.

Lemma two_counts (counts : dict nat nat) (p : nat -> bool) : NoDup (dkeys counts) -> 
  (2 <= length (filter p (dvalues counts)) <-> exists u v, u <> v /\ In u (dkeys counts) /\ In v (dkeys counts) /\ p (cget counts u) = true /\ p (cget counts v) = true).
Proof.
  intros Hn. assert (E : length (filter p (dvalues counts)) = length (filter (fun j => p (cget counts j)) (dkeys counts))).
  { unfold dvalues, dkeys. rewrite !filter_map, !map_length. f_equal. apply filter_ext_in. intros [j c] Hin. cbn [fst snd]. f_equal.
    unfold cget. rewrite (In_dget _ _ _ Hn Hin). reflexivity. }
  rewrite E, (two_distinct _ (NoDup_filter _ Hn)). split.
  - intros (u & v & Hu & Hv & Huv). rewrite filter_In in Hu, Hv. exists u, v. tauto.
  - intros (u & v & Huv & Hu & Hv & Pu & Pv). exists u, v. rewrite !filter_In. auto.
Qed.

Lemma fagin_while_spec vectors i : well_formed vectors -> i < length vectors -> forall fuel o counts,
  length vectors < fuel + o -> o <= length vectors -> NoDup (dkeys counts) ->
  (forall j, cget counts j = length (filter (seen vectors o j) (dims vectors i))) ->
  (forall j, In j (dkeys counts) <-> exists d, In d (dims vectors i) /\ In j (firstn o (posts vectors d))) ->
  (o = 0 \/ ~ 2 <= length (filter (fun c => Nat.leb (length (dims vectors i)) c) (dvalues counts))) ->
  (exists cands, fagin_while fuel (sorted_lists vectors) i (dims vectors i) o counts = Ok [(i, cands)] /\ dims vectors i <> [] /\ fagin_candidates vectors i cands) \/
  (fagin_while fuel (sorted_lists vectors) i (dims vectors i) o counts = Ok [] /\
   (dims vectors i = [] \/ forall j, j < length vectors -> j <> i -> ~ incl (dims vectors i) (dims vectors j))).
Proof.
  intros W Hi. set (ds := dims vectors i).
  assert (Full : forall o counts, (forall j, cget counts j = length (filter (seen vectors o j) ds)) ->
    forall j, Nat.leb (length ds) (cget counts j) = true <-> forall d, In d ds -> In j (firstn o (posts vectors d))).
  { intros o counts Hc j. rewrite Nat.leb_le, Hc, full_filter. unfold seen. split; intros K d Hd; specialize (K d Hd); [rewrite memb_true in K | apply memb_true]; exact K. }
  induction fuel as [|fuel IH]; intros o counts Lf Lo Hn Hc Hk Hf; [lia|].
  cbn [fagin_while].
  pose proof (fagin_turn_spec vectors o ds counts Hn) as T. destruct (fagin_turn (sorted_lists vectors) ds o counts) as [counts' stop].
  destruct T as (T1 & T2 & T3 & T4 & T5). destruct stop.
  - right. split; [reflexivity|]. specialize (T4 eq_refl). subst counts'. rewrite (proj1 T5 eq_refl) || idtac.
    assert (Ex : forall d, In d ds -> firstn o (posts vectors d) = posts vectors d).
    { intros d Hd. apply firstn_all2. apply nth_error_None. apply (proj1 T5 eq_refl d Hd). }
    destruct ds as [|d0 ds0] eqn:Eds; [left; reflexivity|]. right. intros j Hj Hji Hincl.
    assert (Ai : forall d, In d (d0 :: ds0) -> In i (firstn o (posts vectors d))).
    { intros d Hd. rewrite (Ex d Hd). apply posts_In; [exact W|]. split; [exact Hi|]. fold ds. rewrite Eds. exact Hd. }
    assert (Aj : forall d, In d (d0 :: ds0) -> In j (firstn o (posts vectors d))).
    { intros d Hd. rewrite (Ex d Hd). apply posts_In; [exact W|]. split; [exact Hj|]. apply Hincl. exact Hd. }
    destruct Hf as [->|Hf]; [destruct (Ai d0 (or_introl eq_refl))|]. apply Hf. apply two_counts; [exact Hn|].
    exists i, j. split; [congruence|]. split; [apply Hk; exists d0; split; [left; reflexivity | apply Ai; left; reflexivity]|].
    split; [apply Hk; exists d0; split; [left; reflexivity | apply Aj; left; reflexivity]|]. split; apply (Full o counts Hc); assumption.
  - assert (Hc' : forall j, cget counts' j = length (filter (seen vectors (S o) j) ds)) by (intros j; rewrite T2, Hc, seen_step by exact W; reflexivity).
    assert (Hk' : forall j, In j (dkeys counts') <-> exists d, In d ds /\ In j (firstn (S o) (posts vectors d))).
    { intros j. rewrite T3, Hk. split.
      - intros [(d & Hd & K)|(d & Hd & K)]; exists d; (split; [exact Hd|]); rewrite firstn_S_snoc; apply in_or_app; [left; exact K | right; rewrite K; left; reflexivity].
      - intros (d & Hd & K). rewrite firstn_S_snoc in K. apply in_app_or in K. destruct K as [K|K]; [left; exists d; auto|]. right. exists d. split; [exact Hd|].
        destruct (nth_error (posts vectors d) o); [destruct K as [->|[]]; reflexivity | destruct K]. }
    destruct (Nat.leb 2 (length (filter (fun c => Nat.leb (length ds) c) (dvalues counts')))) eqn:E2.
    + left. exists (filter (fun j => negb (Nat.eqb j i)) (dkeys counts')). split; [reflexivity|].
      apply Nat.leb_le in E2. rewrite (two_counts _ _ T1) in E2. destruct E2 as (u & v & Huv & Hu & Hv & Pu & Pv).
      rewrite (Full _ _ Hc') in Pu, Pv. split.
      { intros K. rewrite Hk' in Hu. destruct Hu as (d & Hd & _). rewrite K in Hd. destruct Hd. }
      assert (Ps : forall d j, In j (firstn (S o) (posts vectors d)) -> j < length vectors /\ In d (dims vectors j)).
      { intros d j K. apply posts_In; [exact W|]. apply (firstn_In _ _ _ K). }
      split; [apply NoDup_filter, T1|]. split; [intros K; rewrite filter_In, Nat.eqb_refl in K; destruct K; discriminate|]. split.
      * intros j K. rewrite filter_In, Hk' in K. destruct K as [(d & Hd & K) _]. destruct (Ps d j K) as [K1 K2]. split; [exact K1|]. exists d. auto.
      * assert (G : forall w, w <> i -> In w (dkeys counts') -> (forall d, In d ds -> In w (firstn (S o) (posts vectors d))) ->
          exists j, In j (filter (fun j => negb (Nat.eqb j i)) (dkeys counts')) /\ incl ds (dims vectors j)).
        { intros w Hw Iw Aw. exists w. split; [apply filter_In; split; [exact Iw | rewrite (proj2 (Nat.eqb_neq w i) Hw); reflexivity]|]. intros d Hd. apply (Ps d w (Aw d Hd)). }
        destruct (Nat.eq_dec u i) as [->|Hui]; [apply (G v); auto | apply (G u); auto].
    + apply IH; [lia | | exact T1 | exact Hc' | exact Hk' | right; apply Nat.leb_gt in E2; lia].
      destruct (existsb (fun d => match nth_error (posts vectors d) o with Some _ => true | None => false end) ds) eqn:Ee.
      * apply existsb_exists in Ee. destruct Ee as (d & Hd & Ed). destruct (nth_error (posts vectors d) o) eqn:En; [|discriminate].
        assert (o < length (posts vectors d)) by (apply nth_error_Some; congruence). pose proof (posts_length vectors d W). lia.
      * exfalso. assert (K : false = true); [|discriminate]. apply T5. intros d Hd. destruct (nth_error (posts vectors d) o) eqn:En; [|reflexivity].
        rewrite <- not_true_iff_false in Ee. exfalso. apply Ee. apply existsb_exists. exists d. rewrite En. auto.
Qed.

Lemma enumerate_dims vectors i v : In (i, v) (enumerate vectors) -> i < length vectors /\ dkeys v = dims vectors i.
Proof.
  intros K. rewrite In_enumerate' in K. split; [apply nth_error_Some; congruence|]. unfold dims. rewrite (nth_error_nth _ _ _ K). reflexivity.
Qed.

Lemma fagin_k1_spec vectors : well_formed vectors -> exists out, fagin_k1 vectors = Ok out /\ NoDup (map fst out) /\
  (forall i cands, In (i, cands) out -> i < length vectors /\ fagin_candidates vectors i cands) /\
  (forall i, In i (map fst out) <-> i < length vectors /\ dims vectors i <> [] /\ exists j, j < length vectors /\ j <> i /\ incl (dims vectors i) (dims vectors j)).
Proof.
  intros W. unfold fagin_k1.
  destruct (mapM_exists (fun iv => fagin_while (while_fuel vectors) (sorted_lists vectors) (fst iv) (dkeys (snd iv)) 0 [])
    (fun iv out => (exists cands, out = [(fst iv, cands)] /\ dims vectors (fst iv) <> [] /\ fagin_candidates vectors (fst iv) cands) \/
       (out = [] /\ (dims vectors (fst iv) = [] \/ forall j, j < length vectors -> j <> fst iv -> ~ incl (dims vectors (fst iv)) (dims vectors j)))) (enumerate vectors)) as (outs & E & F).
  { intros [i v] Hin. destruct (enumerate_dims vectors i v Hin) as [Hi Hv]. cbn [fst snd]. rewrite Hv.
    destruct (fagin_while_spec vectors i W Hi (while_fuel vectors) 0 []) as [(cands & K1 & K2 & K3)|(K1 & K2)].
    - unfold while_fuel. lia.
    - lia.
    - constructor.
    - intros j. cbn. symmetry. rewrite filter_none; [reflexivity|]. intros d _. unfold seen. apply memb_false. intros [].
    - intros j. cbn. split; [intros [] | intros (d & _ & [])].
    - left. reflexivity.
    - exists [(i, cands)]. split; [exact K1|]. left. exists cands. auto.
    - exists []. split; [exact K1|]. right. auto. }
  rewrite E. cbn [bind]. exists (concat outs). split; [reflexivity|]. clear E.
  assert (Hids : forall i v, In (i, v) (enumerate vectors) <-> nth_error vectors i = Some v) by (intros; apply In_enumerate').
  assert (Nids : NoDup (map fst (enumerate vectors))).
  { unfold enumerate. assert (G : forall n, map fst (combine (seq n (length vectors)) vectors) = seq n (length vectors)).
    { clear. induction vectors as [|v l IH]; intros n; cbn; [reflexivity | rewrite IH; reflexivity]. }
    rewrite G. apply seq_NoDup. }
  assert (Main : NoDup (map fst (concat outs)) /\ (forall i cands, In (i, cands) (concat outs) -> In i (map fst (enumerate vectors)) /\ fagin_candidates vectors i cands) /\
    (forall i, In i (map fst (concat outs)) <-> In i (map fst (enumerate vectors)) /\ dims vectors i <> [] /\ exists j, j < length vectors /\ j <> i /\ incl (dims vectors i) (dims vectors j))).
  { clear Hids. induction F as [|[i v] out l outs Ho F IH]; [cbn; split; [constructor|]; split; [intros ? ? []|]; intros i; split; [intros [] | intros [[] _]]|].
    cbn [map fst] in Nids. inversion Nids as [|? ? Hni Nids']; subst. specialize (IH Nids'). destruct IH as (I1 & I2 & I3). cbn [fst] in Ho.
    cbn [concat map fst]. destruct Ho as [(cands & -> & Hne & Hc)|(-> & Hno)].
    - cbn [app map fst]. split; [constructor; [rewrite I3; tauto | exact I1]|]. split.
      + intros k c [K|K]; [injection K as <- <-; cbn; auto|]. destruct (I2 k c K). cbn. auto.
      + intros k. cbn [In]. rewrite I3. split.
        * intros [<-|K]; [|tauto]. split; [auto|]. split; [exact Hne|]. destruct Hc as (_ & Hi2 & Hsh & j & Hj & Hinc). exists j. split; [apply Hsh; exact Hj|].
          split; [intros ->; contradiction | exact Hinc].
        * intros ([<-|K] & K2); [auto | right; tauto].
    - cbn [app]. split; [exact I1|]. split; [intros k c K; destruct (I2 k c K); cbn; auto|]. intros k. rewrite I3. cbn [In]. split; [tauto|].
      intros ([<-|K] & K2 & j & Hj & Hji & Hinc); [|split; [exact K|]; split; [exact K2|]; exists j; auto]. exfalso.
      destruct Hno as [Hno|Hno]; [contradiction | exact (Hno j Hj Hji Hinc)]. }
  assert (Hin : forall i, In i (map fst (enumerate vectors)) <-> i < length vectors).
  { intros i. rewrite in_map_iff. split.
    - intros ([k v] & <- & K). rewrite Hids in K. cbn. apply nth_error_Some. congruence.
    - intros L. destruct (nth_error vectors i) as [v|] eqn:Ev; [|apply nth_error_None in Ev; lia]. exists (i, v). rewrite Hids. auto. }
  destruct Main as (M1 & M2 & M3). split; [exact M1|]. split.
  - intros i c K. rewrite <- Hin. exact (M2 i c K).
  - intros i. rewrite M3, Hin. tauto.
Qed.

Lemma map_fst_enumerate {A} (l : list A) : map fst (enumerate l) = seq 0 (length l).
Proof.
  unfold enumerate. generalize 0. induction l as [|x l IH]; intros n; cbn; [reflexivity | rewrite IH; reflexivity].
Qed.

Definition lget' (prox : dict nat (list nat)) (l : nat) : list nat := match dget prox l with Some x => x | None => [] end.

(** * threshold_algorithm_k1 *)
Variable similarity : vector D -> vector D -> Q.

Record ok_state vectors (i : nat) (st : @threshold_state D) : Prop := {
  ok_visited : forall j, In j (visited st) -> j <> i /\ j < length vectors /\ share_dimension vectors i j;
  ok_best : match best st with Some (_, j) => In j (visited st) | None => visited st = [] end
}.

Lemma threshold_turn_spec vectors i vec o : well_formed vectors -> forall ds stop st,
  incl ds (dims vectors i) -> ok_state vectors i st ->
  let '(st', stop') := threshold_turn similarity vectors (sorted_lists vectors) i vec ds o stop st in
  ok_state vectors i st' /\ incl (visited st) (visited st') /\
  (forall d j, In d ds -> nth_error (posts vectors d) o = Some j -> j <> i -> In j (visited st')) /\
  (stop' = true -> stop = true /\ forall d, In d ds -> nth_error (posts vectors d) o = None).
Proof.
  intros W. induction ds as [|d ds IH]; intros stop st Hd Hok; cbn [threshold_turn].
  - split; [exact Hok|]. split; [apply incl_refl|]. split; [intros d j []|]. intros ->. split; [reflexivity | intros d []].
  - assert (Hd' : incl ds (dims vectors i)) by (intros e He; apply Hd; right; exact He).
    pose proof (nth_posts vectors d o) as Np. pose proof (nth_posts vectors d (o + 1)) as Np1.
    destruct (nth_error (list_of (sorted_lists vectors) d) o) as [[w0 j0]|].
    2: { specialize (IH stop st Hd' Hok). destruct (threshold_turn similarity vectors (sorted_lists vectors) i vec ds o stop st) as [st' stop'].
         destruct IH as (H1 & H2 & H3 & H4). split; [exact H1|]. split; [exact H2|]. split.
         - intros e j [<-|He] K; [congruence | exact (H3 e j He K)].
         - intros K. destruct (H4 K) as [K1 K2]. split; [exact K1|]. intros e [<-|He]; [exact Np | exact (K2 e He)]. }
    assert (Sel : forall w j, (if Nat.eqb i j0 then nth_error (list_of (sorted_lists vectors) d) (o + 1) else Some (w0, j0)) = Some (w, j) ->
      j <> i /\ j < length vectors /\ share_dimension vectors i j /\ (j0 <> i -> j = j0)).
    { intros w j K. destruct (Nat.eqb_spec i j0) as [<-|Hij].
      - rewrite K in Np1. assert (Ij : In j (posts vectors d)) by (apply nth_error_In in Np1; exact Np1). rewrite posts_In in Ij by exact W. split.
        + intros ->. pose proof (posts_NoDup vectors d W) as Nd. rewrite (NoDup_nth_error (posts vectors d)) in Nd.
          assert (L : o < length (posts vectors d)) by (apply nth_error_Some; congruence). specialize (Nd o (o + 1) L ltac:(congruence)). lia.
        + split; [tauto|]. split; [|congruence]. exists d. split; [apply Hd; left; reflexivity | tauto].
      - injection K as <- <-. assert (Ij : In j0 (posts vectors d)) by (apply nth_error_In in Np; exact Np). rewrite posts_In in Ij by exact W.
        split; [congruence|]. split; [tauto|]. split; [|auto]. exists d. split; [apply Hd; left; reflexivity | tauto]. }
    destruct (if Nat.eqb i j0 then nth_error (list_of (sorted_lists vectors) d) (o + 1) else Some (w0, j0)) as [[w j]|] eqn:Es.
    + destruct (Sel w j eq_refl) as (S1 & S2 & S3 & S4). clear Sel.
      assert (Fin : forall st1, ok_state vectors i st1 -> incl (visited st) (visited st1) -> In j (visited st1) ->
        let '(st', stop') := threshold_turn similarity vectors (sorted_lists vectors) i vec ds o false st1 in
        ok_state vectors i st' /\ incl (visited st) (visited st') /\
        (forall d' j, In d' (d :: ds) -> nth_error (posts vectors d') o = Some j -> j <> i -> In j (visited st')) /\
        (stop' = true -> stop = true /\ forall d', In d' (d :: ds) -> nth_error (posts vectors d') o = None)).
      { intros st1 O1 I1 J1. specialize (IH false st1 Hd' O1). destruct (threshold_turn similarity vectors (sorted_lists vectors) i vec ds o false st1) as [st' stop'].
        destruct IH as (H1 & H2 & H3 & H4). split; [exact H1|]. split; [intros x Hx; apply H2, I1, Hx|]. split.
        - intros e k [<-|He] K Hk; [|exact (H3 e k He K Hk)]. apply H2. assert (k = j0) by congruence. subst k. rewrite <- (S4 Hk). exact J1.
        - intros K. destruct (H4 K) as [K1 _]. discriminate. }
      destruct (memb_In j (visited st)) as [Hv|Hv].
      * apply Fin; [|apply incl_refl | exact Hv]. destruct Hok as [O1 O2]. constructor; [exact O1 | exact O2].
      * apply Fin.
        -- destruct Hok as [O1 O2]. constructor; cbn [visited best].
           ++ intros k Hk. rewrite sadd_In in Hk. destruct Hk as [Hk| ->]; [exact (O1 k Hk) | auto].
           ++ destruct (best st) as [[b k]|].
              ** destruct (negb _); rewrite sadd_In; auto.
              ** rewrite sadd_In. auto.
        -- intros x Hx. cbn [visited]. rewrite sadd_In. auto.
        -- cbn [visited]. rewrite sadd_In. auto.
    + destruct (Nat.eqb_spec i j0) as [<-|]; [|discriminate].
      specialize (IH false st Hd' Hok). destruct (threshold_turn similarity vectors (sorted_lists vectors) i vec ds o false st) as [st' stop'].
      destruct IH as (H1 & H2 & H3 & H4). split; [exact H1|]. split; [exact H2|]. split.
      * intros e k [<-|He] K Hk; [congruence | exact (H3 e k He K Hk)].
      * intros K. destruct (H4 K) as [K1 _]. discriminate.
Qed.

Lemma threshold_while_spec vectors i vec : well_formed vectors -> dkeys vec = dims vectors i -> forall fuel o st,
  length vectors < fuel + o -> o <= length vectors -> ok_state vectors i st ->
  (forall d j, In d (dims vectors i) -> In j (firstn o (posts vectors d)) -> j <> i -> In j (visited st)) ->
  exists j, threshold_while similarity fuel vectors (sorted_lists vectors) i vec o st = Ok (i, j) /\
    ((j <> i /\ j < length vectors /\ share_dimension vectors i j) \/
     (j = i /\ forall k, k < length vectors -> k <> i -> ~ share_dimension vectors i k)).
Proof.
  intros W Ev. induction fuel as [|fuel IH]; intros o st Lf Lo Hok Hv; [lia|]. cbn [threshold_while]. rewrite Ev.
  pose proof (threshold_turn_spec vectors i vec o W (dims vectors i) true st (incl_refl _) Hok) as T.
  destruct (threshold_turn similarity vectors (sorted_lists vectors) i vec (dims vectors i) o true st) as [st' stop] eqn:Et. destruct T as (T1 & T2 & T3 & T4).
  assert (Hbest : forall b j, best st' = Some (b, j) -> j <> i /\ j < length vectors /\ share_dimension vectors i j).
  { intros b j K. destruct T1 as [O1 O2]. rewrite K in O2. exact (O1 j O2). }
  destruct stop.
  - destruct (T4 eq_refl) as [_ T5]. eexists. split; [reflexivity|]. destruct (best st') as [[b j]|] eqn:Eb; [left; exact (Hbest b j eq_refl)|].
    right. split; [reflexivity|]. intros k Hk Hki (d & Hd1 & Hd2). destruct T1 as [_ O2]. rewrite Eb in O2.
    assert (K : In k (visited st')); [|rewrite O2 in K; destruct K]. apply T2. apply (Hv d k Hd1); [|exact Hki].
    rewrite firstn_all2 by (apply nth_error_None, T5, Hd1). apply posts_In; auto.
  - assert (Next : exists j, threshold_while similarity fuel vectors (sorted_lists vectors) i vec (S o) st' = Ok (i, j) /\
      ((j <> i /\ j < length vectors /\ share_dimension vectors i j) \/ (j = i /\ forall k, k < length vectors -> k <> i -> ~ share_dimension vectors i k)) \/ length vectors <= o).
    { destruct (Nat.le_gt_cases (length vectors) o) as [L|L]; [exists 0; right; exact L|].
      destruct (IH (S o) st' ltac:(lia) ltac:(lia) T1) as (j & K).
      { intros d k Hd Hk Hki. rewrite firstn_S_snoc in Hk. apply in_app_or in Hk. destruct Hk as [Hk|Hk]; [apply T2; exact (Hv d k Hd Hk Hki)|].
        destruct (nth_error (posts vectors d) o) as [x|] eqn:Ex; [destruct Hk as [->|[]] | destruct Hk]. exact (T3 d k Hd Ex Hki). }
      exists j. left. exact K. }
    assert (Done : o < length vectors).
    { destruct (Nat.lt_ge_cases o (length vectors)) as [L|L]; [exact L|]. exfalso. clear Next.
      (* every list is exhausted, and the turn would have stopped *)
      assert (G : forall ds stop0 st0, snd (threshold_turn similarity vectors (sorted_lists vectors) i vec ds o stop0 st0) = stop0).
      { induction ds as [|d ds IHd]; intros stop0 st0; cbn [threshold_turn]; [reflexivity|].
        assert (Nn : nth_error (list_of (sorted_lists vectors) d) o = None).
        { apply nth_error_None. pose proof (posts_length vectors d W) as Pl. unfold posts in Pl. rewrite map_length in Pl. lia. }
        rewrite Nn. apply IHd. }
      specialize (G (dims vectors i) true st). rewrite Et in G. discriminate. }
    destruct Next as (j & [K|K]); [|lia].
    destruct (best st') as [[b k]|] eqn:Eb.
    + destruct (Qle_bool _ b); [exists k; split; [reflexivity|]; left; exact (Hbest b k eq_refl) | exists j; exact K].
    + exists j. exact K.
Qed.

Lemma threshold_spec vectors : well_formed vectors -> exists out, threshold_algorithm_k1 similarity vectors = Ok out /\ map fst out = seq 0 (length vectors) /\
  forall i j, In (i, j) out ->
    ((j <> i /\ j < length vectors /\ share_dimension vectors i j) \/
     (j = i /\ forall k, k < length vectors -> k <> i -> ~ share_dimension vectors i k)).
Proof.
  intros W. unfold threshold_algorithm_k1.
  destruct (mapM_exists (fun iv => threshold_while similarity (while_fuel vectors) vectors (sorted_lists vectors) (fst iv) (snd iv) 0 {| visited := []; best := None; t_vector := [] |})
    (fun iv ij => fst ij = fst iv /\ ((snd ij <> fst iv /\ snd ij < length vectors /\ share_dimension vectors (fst iv) (snd ij)) \/
       (snd ij = fst iv /\ forall k, k < length vectors -> k <> fst iv -> ~ share_dimension vectors (fst iv) k))) (enumerate vectors)) as (out & E & F).
  { intros [i v] Hin. destruct (enumerate_dims vectors i v Hin) as [Hi Hv]. cbn [fst snd].
    destruct (threshold_while_spec vectors i v W Hv (while_fuel vectors) 0 {| visited := []; best := None; t_vector := [] |}) as (j & K1 & K2).
    - unfold while_fuel. lia.
    - lia.
    - constructor; cbn; [intros j [] | reflexivity].
    - intros d j _ [].
    - exists (i, j). auto. }
  exists out. split; [exact E|]. clear E. split.
  - rewrite <- (map_fst_enumerate vectors). clear -F. induction F as [|[i v] [i' j] l out [K _] F IH]; [reflexivity|]. cbn in *. rewrite K, IH. reflexivity.
  - clear -F. intros i j Hin. induction F as [|[i' v] [i2 j2] l out [K K2] F IH]; [destruct Hin|]. destruct Hin as [Hin|Hin]; [|exact (IH Hin)].
    injection Hin as -> ->. cbn in K, K2. subst i'. exact K2.
Qed.

(** * sqrt_indexation_pairs *)
Lemma min_by_spec key m l : exists l1 l2, m :: l = l1 ++ min_by key m l :: l2 /\
  (forall x, In x (m :: l) -> (key (min_by key m l) <= key x)%Q) /\ forall x, In x l1 -> (key (min_by key m l) < key x)%Q.
Proof.
  revert m. induction l as [|y l IH]; intros m; cbn [min_by].
  - exists [], []. split; [reflexivity|]. split; [|intros x []]. intros x [<-|[]]. apply Qle_refl.
  - destruct (Qle_bool (key m) (key y)) eqn:E.
    + apply Qle_bool_iff in E. destruct (IH m) as (l1 & l2 & E1 & K1 & K2). pose proof (K1 m (or_introl eq_refl)) as Km.
      destruct l1 as [|m' l1]; cbn [app] in E1; injection E1 as E0 E1.
      * exists [], (y :: l). split; [cbn [app]; rewrite <- E0; reflexivity|]. split; [|intros x []].
        intros x [<-|[<-|Hx]]; [exact Km | lra | exact (K1 x (or_intror Hx))].
      * subst m'. exists (m :: y :: l1), l2. split; [cbn [app]; rewrite E1 at 1; reflexivity|]. split.
        -- intros x [<-|[<-|Hx]]; [exact Km | lra | exact (K1 x (or_intror Hx))].
        -- pose proof (K2 m (or_introl eq_refl)) as Lm. intros x [<-|[<-|Hx]]; [exact Lm | lra | exact (K2 x (or_intror Hx))].
    + assert (L : (key y < key m)%Q) by (apply Qnot_le_lt; intros K; apply Qle_bool_iff in K; congruence).
      destruct (IH y) as (l1 & l2 & E1 & K1 & K2). pose proof (K1 y (or_introl eq_refl)) as Ky.
      exists (m :: l1), l2. split; [cbn [app]; f_equal; exact E1|]. split.
      * intros x [<-|Hx]; [lra | exact (K1 x Hx)].
      * intros x [<-|Hx]; [lra | exact (K2 x Hx)].
Qed.

Lemma sqrt_loop_spec vectors leaders (leader : nat -> nat) : (forall i v, nth_error vectors i = Some v -> leader_of similarity vectors leaders v = Ok (leader i)) ->
  forall m n prox, n + m = length vectors -> (forall l, lget' prox l = filter (fun j => Nat.eqb (leader j) l) (seq 0 n)) ->
  sqrt_loop similarity vectors leaders (combine (seq n m) (skipn n vectors)) prox =
  Ok (flat_map (fun i => (i, leader i) :: map (fun j => (i, j)) (filter (fun j => Nat.eqb (leader j) (leader i)) (seq 0 i))) (seq n m)).
Proof.
  intros Hl. induction m as [|m IH]; intros n prox E Hp; [reflexivity|].
  destruct (skipn n vectors) as [|v rest] eqn:Es.
  { apply (f_equal (@length _)) in Es. rewrite skipn_length in Es. cbn in Es. lia. }
  assert (Ev : nth_error vectors n = Some v /\ rest = skipn (S n) vectors).
  { clear -Es. revert n Es. induction vectors as [|u l IH]; intros [|n] Es; try discriminate; cbn in *; [injection Es as -> ->; auto | apply IH; exact Es]. }
  destruct Ev as [Ev ->]. cbn [seq combine sqrt_loop]. rewrite (Hl n v Ev). cbn [bind]. fold (lget' prox (leader n)). rewrite Hp.
  rewrite (IH (S n)); [|lia|].
  - cbn [bind flat_map]. reflexivity.
  - intros l. unfold lget'. destruct (Nat.eq_dec l (leader n)) as [->|Hne].
    + rewrite dget_dmodify_same. fold (lget' prox (leader n)). rewrite seq_S, filter_app. cbn [filter Nat.add]. rewrite Nat.eqb_refl, <- Hp.
      unfold lget'. destruct (dget prox (leader n)); reflexivity.
    + rewrite dget_dmodify_other by congruence. fold (lget' prox l). rewrite Hp, seq_S, filter_app. cbn [filter Nat.add].
      rewrite (proj2 (Nat.eqb_neq (leader n) l) ltac:(congruence)), app_nil_r. reflexivity.
Qed.

Lemma sqrt_spec indices vectors : Permutation indices (seq 0 (length vectors)) ->
  exists leader,
    sqrt_indexation_pairs similarity indices vectors =
      Ok (flat_map (fun i => (i, leader i) :: map (fun j => (i, j)) (filter (fun j => Nat.eqb (leader j) (leader i)) (seq 0 i))) (seq 0 (length vectors))) /\
    forall i v, nth_error vectors i = Some v -> exists l1 l2, firstn (Nat.sqrt (length vectors)) indices = l1 ++ leader i :: l2 /\
      (forall x, In x (firstn (Nat.sqrt (length vectors)) indices) -> (similarity v (nth x vectors []) <= similarity v (nth (leader i) vectors []))%Q) /\
      forall x, In x l1 -> (similarity v (nth x vectors []) < similarity v (nth (leader i) vectors []))%Q.
Proof.
  intros P. set (leaders := firstn (Nat.sqrt (length vectors)) indices).
  set (leader := fun i => match leaders with [] => 0 | m :: l => min_by (fun x => (1 - similarity (nth i vectors []) (nth x vectors []))%Q) m l end).
  assert (Ne : vectors <> [] -> leaders <> []).
  { intros Hv K. apply (f_equal (@length _)) in K. unfold leaders in K. rewrite firstn_length, (Permutation_length P), seq_length in K. cbn in K.
    destruct vectors as [|v l]; [contradiction|]. cbn [length] in K. assert (1 <= Nat.sqrt (S (length l))) by (apply (Nat.sqrt_le_mono 1); lia). lia. }
  exists leader. split.
  - unfold sqrt_indexation_pairs. fold leaders. apply (sqrt_loop_spec vectors leaders leader) with (n := 0); [|reflexivity|reflexivity].
    intros i v Ev. unfold leader_of, leader. replace (nth i vectors []) with v by (symmetry; apply nth_error_nth; exact Ev). destruct leaders as [|m l]; [|reflexivity].
    exfalso. apply Ne; [|reflexivity]. intros ->. destruct i; discriminate.
  - intros i v Ev. unfold leader. replace (nth i vectors []) with v by (symmetry; apply nth_error_nth; exact Ev). destruct leaders as [|m l] eqn:El.
    { exfalso. apply Ne; [|reflexivity]. intros ->. destruct i; discriminate. }
    destruct (min_by_spec (fun x => (1 - similarity v (nth x vectors []))%Q) m l) as (l1 & l2 & E1 & K1 & K2). exists l1, l2. split; [exact E1|]. split.
    + intros x Hx. specialize (K1 x Hx). cbv beta in K1. lra.
    + intros x Hx. specialize (K2 x Hx). cbv beta in K2. lra.
Qed.
End Fagin.
