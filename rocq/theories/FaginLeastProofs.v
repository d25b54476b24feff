(** Lemmas behind C200 *)
From Coq Require Import QArith Lqa Sorted.
From Verif Require Import Base BaseFacts PairwiseModel PairwiseProofs SortModel SortSpec SortFacts BlockingProofs CliProofs SpaceProofs FaginModel FaginSpec FaginProofs FaginLeastSpec.
Open Scope nat_scope.

Section Least.
Context {D : Type} `{EqDec D}.
Implicit Types vectors : list (vector D).

Lemma entry_le_spec a b : entry_le a b = true <-> (fst a < fst b)%Q \/ ((fst a == fst b)%Q /\ snd a <= snd b).
Proof.
  unfold entry_le. destruct (Qle_bool (fst a) (fst b)) eqn:E1.
  - apply Qle_bool_iff in E1. destruct (Qle_bool (fst b) (fst a)) eqn:E2.
    + apply Qle_bool_iff in E2. rewrite Nat.leb_le. split; [intros K; right; split; [lra | exact K] | intros [K|[_ K]]; [lra | exact K]].
    + split; [intros _; left | reflexivity]. apply Qnot_le_lt. intros K. apply Qle_bool_iff in K. congruence.
  - split; [discriminate|]. intros K. exfalso. assert (L : (fst a <= fst b)%Q) by (destruct K as [K|[K _]]; lra). apply Qle_bool_iff in L. congruence.
Qed.

Lemma entry_le_total : total_preorder entry_le.
Proof.
  constructor.
  - intros a b. rewrite !entry_le_spec. destruct (Q_dec (fst a) (fst b)) as [[K|K]|K]; [left; left; exact K | right; left; exact K|].
    destruct (Nat.le_ge_cases (snd a) (snd b)); [left; right; split; assumption | right; right; split; [lra | assumption]].
  - intros a b c. rewrite !entry_le_spec. intros [K|[K K']] [L|[L L']]; [left; lra | left; lra | left; lra | right; split; [lra | lia]].
Qed.

Lemma list_of_sorted vectors d : StronglySorted (fun a b => entry_le a b = true) (list_of (sorted_lists vectors) d).
Proof.
  unfold list_of, sorted_lists.
  assert (G : forall l : dict D (list (Q * nat)), dget (map (fun dl => (fst dl, sort_by entry_le (snd dl))) l) d = match dget l d with Some x => Some (sort_by entry_le x) | None => None end).
  { induction l as [|[e x] l IH]; [reflexivity|]. cbn. destruct (eq_dec d e); [reflexivity | exact IH]. }
  rewrite G. destruct (dget (invert vectors) d); [apply sort_by_sorted, entry_le_total | constructor].
Qed.

Lemma list_of_In vectors d w k : well_formed vectors ->
  In (w, k) (list_of (sorted_lists vectors) d) <-> k < length vectors /\ dget (nth k vectors []) d = Some w.
Proof.
  intros W. rewrite (list_of_perm vectors d W). rewrite in_flat_map. unfold entries. split.
  - intros ([i v] & K1 & K2). cbn [fst snd] in K2. rewrite In_enumerate' in K1.
    destruct (dget v d) as [w'|] eqn:E; [|destruct K2]. destruct K2 as [K2|[]]. injection K2 as <- <-.
    split; [apply nth_error_Some; congruence|]. rewrite (nth_error_nth _ _ _ K1). exact E.
  - intros [L E]. exists (k, nth k vectors []). cbn [fst snd]. rewrite E. split; [|left; reflexivity].
    rewrite In_enumerate'. apply nth_error_nth'. exact L.
Qed.

(** the first position of the list of d that is not i *)
Definition first_other vectors (i : nat) (d : D) : option nat :=
  match nth_error (list_of (sorted_lists vectors) d) 0 with
  | None => None
  | Some (w0, j0) =>
    match (if Nat.eqb i j0 then nth_error (list_of (sorted_lists vectors) d) 1 else Some (w0, j0)) with None => None | Some (_, j) => Some j end
  end.

Lemma least_first vectors i d k : well_formed vectors -> least_other vectors i d k -> first_other vectors i d = Some k.
Proof.
  intros W (L & N & w & E & M). unfold first_other.
  pose proof (proj2 (list_of_In vectors d w k W) (conj L E)) as Hin.
  assert (Mem : forall w' k', In (w', k') (list_of (sorted_lists vectors) d) -> k' <> i -> entry_le (w, k) (w', k') = true).
  { intros w' k' K Nk. apply (list_of_In vectors d w' k' W) in K. destruct K as [K1 K2]. apply entry_le_spec. exact (M k' w' K1 Nk K2). }
  pose proof (list_of_sorted vectors d) as S. pose proof (posts_NoDup vectors d W) as Nd. unfold posts in Nd.
  assert (Anti : forall w' k', entry_le (w, k) (w', k') = true -> entry_le (w', k') (w, k) = true -> k' = k).
  { intros w' k' K1 K2. apply entry_le_spec in K1. apply entry_le_spec in K2. cbn [fst snd] in *. destruct K1 as [K1|[K1 K1']], K2 as [K2|[K2 K2']]; [lra | lra | lra | lia]. }
  destruct (list_of (sorted_lists vectors) d) as [|[w0 j0] l]; [destruct Hin|]. cbn [nth_error map snd] in *.
  inversion S as [|? ? S' F]; subst. rewrite Forall_forall in F. inversion Nd as [|? ? Nj Nd']; subst.
  destruct (Nat.eqb_spec i j0) as [<-|Hij].
  - destruct Hin as [K|Hin]; [congruence|]. destruct l as [|[w1 j1] l]; [destruct Hin|]. cbn [nth_error map snd] in *. f_equal.
    destruct Hin as [K|Hin]; [congruence|]. inversion S' as [|? ? S2 F2]; subst. rewrite Forall_forall in F2.
    apply (Anti w1 j1); [|exact (F2 _ Hin)]. apply Mem; [right; left; reflexivity|]. intros ->. apply Nj. left. reflexivity.
  - f_equal. destruct Hin as [K|Hin]; [congruence|]. apply (Anti w0 j0); [|exact (F _ Hin)]. apply Mem; [left; reflexivity | congruence].
Qed.

Variable similarity : vector D -> vector D -> Q.

(** the best one is the most similar one of those visited *)
Definition best_visited vectors (vec : vector D) (st : @threshold_state D) : Prop :=
  match best st with
  | None => visited st = []
  | Some (b, j) => b = similarity vec (nth j vectors []) /\ forall k, In k (visited st) -> (similarity vec (nth k vectors []) <= b)%Q
  end.

Lemma turn_best vectors lists i vec o : forall ds stop st, best_visited vectors vec st ->
  best_visited vectors vec (fst (threshold_turn similarity vectors lists i vec ds o stop st)) /\
  incl (visited st) (visited (fst (threshold_turn similarity vectors lists i vec ds o stop st))).
Proof.
  induction ds as [|d ds IH]; intros stop st B; cbn [threshold_turn]; [split; [exact B | apply incl_refl]|].
  destruct (nth_error (list_of lists d) o) as [[w0 j0]|]; [|exact (IH stop st B)].
  destruct (if Nat.eqb i j0 then nth_error (list_of lists d) (o + 1) else Some (w0, j0)) as [[w j]|]; [|exact (IH false st B)].
  destruct (memb j (visited st)); [exact (IH false {| visited := visited st; best := best st; t_vector := dset (t_vector st) d w |} B)|].
  match goal with |- context [threshold_turn _ _ _ _ _ _ _ false ?s] => set (st1 := s) end.
  assert (B1 : best_visited vectors vec st1).
  { unfold best_visited, st1 in *. cbn [best visited]. destruct (best st) as [[b k0]|].
    - destruct (Qle_bool (similarity vec (nth j vectors [])) b) eqn:Eq; cbn [negb].
      + apply Qle_bool_iff in Eq. destruct B as [B1 B2]. split; [exact B1|]. intros k Hk. rewrite sadd_In in Hk. destruct Hk as [Hk| ->]; [exact (B2 k Hk) | exact Eq].
      + destruct B as [B1 B2]. split; [reflexivity|]. intros k Hk. rewrite sadd_In in Hk. destruct Hk as [Hk| ->]; [|lra].
        specialize (B2 k Hk). assert (K : (b < similarity vec (nth j vectors []))%Q); [|lra]. apply Qnot_le_lt. intros K. apply Qle_bool_iff in K. congruence.
    - split; [reflexivity|]. intros k Hk. rewrite sadd_In, B in Hk. destruct Hk as [[]| ->]. lra. }
  destruct (IH false st1 B1) as [K1 K2]. split; [exact K1|]. intros x Hx. apply K2. unfold st1. cbn [visited]. rewrite sadd_In. auto.
Qed.

Lemma turn_first vectors i vec : forall ds stop st d k, best_visited vectors vec st -> In d ds -> first_other vectors i d = Some k ->
  In k (visited (fst (threshold_turn similarity vectors (sorted_lists vectors) i vec ds 0 stop st))).
Proof.
  induction ds as [|e ds IH]; intros stop st d k B Hd Hf; [destruct Hd|].
  destruct Hd as [<-|Hd].
  - pose proof (turn_best vectors (sorted_lists vectors) i vec 0 [e] stop st B) as [B1 _]. revert B1.
    unfold first_other in Hf. cbn [threshold_turn]. change (0 + 1) with 1.
    destruct (nth_error (list_of (sorted_lists vectors) e) 0) as [[w0 j0]|]; [|discriminate].
    destruct (if Nat.eqb i j0 then nth_error (list_of (sorted_lists vectors) e) 1 else Some (w0, j0)) as [[w j]|]; [|discriminate].
    injection Hf as ->. destruct (memb_In k (visited st)) as [M|M]; cbn [fst]; intros B1; apply (turn_best vectors _ i vec 0 ds false _ B1); cbn [visited]; [exact M|].
    rewrite sadd_In. auto.
  - pose proof (turn_best vectors (sorted_lists vectors) i vec 0 [e] stop st B) as [B1 _]. revert B1. cbn [threshold_turn].
    destruct (nth_error (list_of (sorted_lists vectors) e) 0) as [[w0 j0]|]; [|intros _; exact (IH stop st d k B Hd Hf)].
    destruct (if Nat.eqb i j0 then nth_error (list_of (sorted_lists vectors) e) (0 + 1) else Some (w0, j0)) as [[w j]|]; [|intros _; exact (IH false st d k B Hd Hf)].
    destruct (memb j (visited st)); cbn [fst]; intros B1; exact (IH false _ d k B1 Hd Hf).
Qed.

Lemma while_least vectors i vec d k : In d (dkeys vec) -> first_other vectors i d = Some k -> forall fuel o st a j,
  best_visited vectors vec st -> (o = 0 \/ In k (visited st)) ->
  threshold_while similarity fuel vectors (sorted_lists vectors) i vec o st = Ok (a, j) ->
  (similarity vec (nth k vectors []) <= similarity vec (nth j vectors []))%Q.
Proof.
  intros Hd Hf. induction fuel as [|fuel IH]; intros o st a j B Ho; cbn [threshold_while]; [discriminate|].
  pose proof (turn_best vectors (sorted_lists vectors) i vec o (dkeys vec) true st B) as [B1 I1].
  assert (Hk : In k (visited (fst (threshold_turn similarity vectors (sorted_lists vectors) i vec (dkeys vec) o true st)))).
  { destruct Ho as [->|Ho]; [exact (turn_first vectors i vec (dkeys vec) true st d k B Hd Hf) | exact (I1 k Ho)]. }
  destruct (threshold_turn similarity vectors (sorted_lists vectors) i vec (dkeys vec) o true st) as [st' stop]. cbn [fst] in *.
  pose proof B1 as B2. unfold best_visited in B2. destruct (best st') as [[b j']|]; [|rewrite B2 in Hk; destruct Hk].
  destruct B2 as [E B2]. specialize (B2 k Hk).
  destruct stop; [intros K; injection K as <- <-; rewrite <- E; exact B2|].
  destruct (Qle_bool (similarity vec (t_vector st')) b); [intros K; injection K as <- <-; rewrite <- E; exact B2|].
  intros K. exact (IH (S o) st' a j B1 (or_intror Hk) K).
Qed.

Lemma threshold_least vectors out : well_formed vectors -> threshold_algorithm_k1 similarity vectors = Ok out ->
  forall i j d k, In (i, j) out -> In d (dims vectors i) -> least_other vectors i d k ->
  (similarity (nth i vectors []) (nth k vectors []) <= similarity (nth i vectors []) (nth j vectors []))%Q.
Proof.
  intros W E i j d k Hin Hd Hl. destruct (threshold_spec similarity vectors W) as (out' & E' & F & _). assert (out' = out) by congruence. subst out'. clear E'.
  assert (Hw : exists v, In (i, v) (enumerate vectors) /\ exists a, a = i /\
     threshold_while similarity (while_fuel vectors) vectors (sorted_lists vectors) i v 0 {| visited := []; best := None; t_vector := [] |} = Ok (a, j)).
  { unfold threshold_algorithm_k1 in E. rewrite <- map_fst_enumerate in F. revert out E F Hin. generalize (enumerate vectors) as l.
    induction l as [|[i0 v0] l IH]; intros out E F Hin; cbn [mapM fst snd] in E.
    - injection E as <-. destruct Hin.
    - destruct (threshold_while similarity (while_fuel vectors) vectors (sorted_lists vectors) i0 v0 0 _) as [[a b]|] eqn:Ew; [|discriminate]. cbn [bind] in E.
      destruct (mapM _ l) as [rest|] eqn:Er; [|discriminate]. cbn [bind] in E. injection E as <-. cbn [map fst] in F. injection F as -> F.
      destruct Hin as [K|Hin].
      + injection K as -> ->. exists v0. split; [left; reflexivity|]. exists i. auto.
      + destruct (IH rest eq_refl F Hin) as (v & K1 & K2). exists v. split; [right; exact K1 | exact K2]. }
  destruct Hw as (v & Hv & a & _ & Ew). rewrite In_enumerate' in Hv. assert (Hn : nth i vectors [] = v) by (exact (nth_error_nth _ _ [] Hv)). rewrite Hn.
  apply (while_least vectors i v d k) in Ew; [exact Ew | | apply least_first; assumption | cbn; reflexivity | left; reflexivity].
  rewrite <- Hn. exact Hd.
Qed.
End Least.
