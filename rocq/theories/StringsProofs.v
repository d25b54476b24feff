(** Proofs about the string utilities *)
From Coq Require Import String Ascii QArith Qround Sorting.Sorted.
From Verif Require Import Base BaseFacts LevModel LevKeysSpec StringsModel StringsSpec.
Open Scope nat_scope.
Open Scope list_scope.
Notation length := List.length.
Notation concat := List.concat.

(** ** squeeze *)
Definition kept (group : N -> bool) (r : N * nat) : N * nat := (fst r, if group (fst r) then 1 else snd r).

Lemma squeeze_run_skip group c n rest : squeeze_sub group (Some c) (repeat c n ++ rest) = squeeze_sub group (Some c) rest.
Proof. induction n; cbn [repeat app squeeze_sub]; auto. destruct (eq_dec (Some c) (Some c)); congruence. Qed.

Lemma squeeze_run_keep group c n m rest : group c = false -> m <> Some c ->
  squeeze_sub group m (repeat c (S n) ++ rest) = repeat c (S n) ++ squeeze_sub group None rest.
Proof.
  intros G. revert m. induction n; intros m Hm; cbn [repeat app squeeze_sub];
    (destruct (eq_dec m (Some c)); [congruence|]); rewrite G; auto.
  f_equal. specialize (IHn None). cbn [repeat app squeeze_sub] in IHn. rewrite G in IHn. apply IHn. congruence.
Qed.

Lemma squeeze_runs group runs : forall m, runs_ok runs ->
  match runs with [] => True | r :: _ => m <> Some (fst r) end ->
  squeeze_sub group m (expand runs) = expand (map (kept group) runs).
Proof.
  induction runs as [|[c n] runs IH]; intros m; [reflexivity|].
  intros [Hn [Hd Hok]] Hm. cbn [fst snd] in *.
  change (expand ((c, n) :: runs)) with (repeat c n ++ expand runs).
  cbn [map]. change (expand (kept group (c, n) :: map (kept group) runs))
    with (repeat c (snd (kept group (c, n))) ++ expand (map (kept group) runs)).
  unfold kept at 1. cbn [fst snd].
  destruct n as [|n]; [lia|]. destruct (group c) eqn:G.
  - cbn [repeat app squeeze_sub]. destruct (eq_dec m (Some c)); [congruence|]. rewrite G.
    rewrite squeeze_run_skip. f_equal. apply IH; auto. destruct runs as [|[]]; auto. cbn in *. congruence.
  - rewrite squeeze_run_keep by auto. f_equal. apply IH; auto. destruct runs; auto. discriminate.
Qed.

Lemma runs_exist {A} `{EqDec A} (s : list A) : exists runs, runs_ok runs /\ expand runs = s.
Proof.
  induction s as [|c s [runs [Hok He]]]; [exists []; cbn; auto|].
  destruct runs as [|[d n] runs].
  - exists [(c, 1)]. cbn in *. subst. auto.
  - destruct (eq_dec c d) as [->|Hn].
    + exists ((d, S n) :: runs). cbn in *. subst. intuition lia.
    + exists ((c, 1) :: (d, n) :: runs). cbn in *. subst. intuition lia.
Qed.

Lemma not_roman_spec c : not_roman c = true <-> ~ roman_digit c.
Proof. unfold not_roman, roman_digit. rewrite negb_true_iff, memb_false. reflexivity. Qed.

Lemma dot_spec c : dot_matches c = true <-> c <> 10%N.
Proof. unfold dot_matches. lia. Qed.

Lemma squeeze_expand runs (roman : bool) : runs_ok runs ->
  exists ns, squeeze (expand runs) roman = expand (combine (map fst runs) ns) /\
    Forall2 (fun r n => (if roman then roman_digit (fst r) else fst r = 10%N) /\ n = snd r
                     \/ (if roman then ~ roman_digit (fst r) else fst r <> 10%N) /\ n = 1) runs ns.
Proof.
  intros Hok. exists (map (fun r => snd (kept (if roman then not_roman else dot_matches) r)) runs). split.
  - unfold squeeze. rewrite squeeze_runs by (auto; destruct runs; auto; discriminate).
    f_equal. clear. induction runs as [|[] runs IH]; cbn [map combine]; auto. rewrite <- IH. reflexivity.
  - clear. induction runs as [|[c n] runs IH]; cbn [map]; constructor; auto.
    unfold kept. cbn [fst snd]. clear IH. destruct roman.
    + pose proof (not_roman_spec c). destruct (not_roman c); [right|left]; split; auto; try apply H; auto.
      unfold roman_digit in *. destruct (in_dec N.eq_dec c [73; 88; 67; 77; 105; 120; 99; 109]%N); auto.
      apply H in n0. discriminate.
    + pose proof (dot_spec c). destruct (dot_matches c); [right|left]; split; auto; try apply H; auto.
      destruct (N.eq_dec c 10); auto. apply H in n0. discriminate.
Qed.

Lemma kept_idem group runs : map (kept group) (map (kept group) runs) = map (kept group) runs.
Proof. rewrite map_map. apply map_ext. intros [c n]. unfold kept. cbn. destruct (group c); reflexivity. Qed.

Lemma kept_ok group runs : runs_ok runs -> runs_ok (map (kept group) runs).
Proof.
  induction runs as [|[c n] runs IH]; auto. intros [Hn [Hd Hok]]. cbn [map runs_ok]. split; [|split]; auto.
  - unfold kept. cbn in *. destruct (group c); lia.
  - destruct runs as [|[]]; cbn in *; auto.
Qed.

Lemma squeeze_idem s roman : squeeze (squeeze s roman) roman = squeeze s roman.
Proof.
  destruct (runs_exist s) as [runs [Hok <-]]. unfold squeeze.
  rewrite (squeeze_runs _ runs) by (auto; destruct runs; auto; discriminate).
  rewrite squeeze_runs.
  - rewrite kept_idem. reflexivity.
  - apply kept_ok; auto.
  - destruct runs; cbn; auto; discriminate.
Qed.

(** a double in the result comes from a kept character *)
Lemma squeeze_doubles group s : forall m p c q,
  squeeze_sub group m s = p ++ c :: c :: q -> group c = false.
Proof.
  assert (K : forall s m x q, squeeze_sub group (Some m) s = x :: q -> x <> m).
  { induction s0 as [|d s0 IH]; intros m x q E; cbn [squeeze_sub] in E; [discriminate|].
    destruct (eq_dec (Some m) (Some d)); [eauto|]. congruence. }
  induction s as [|d s IH]; intros m p c q E; cbn [squeeze_sub] in E.
  - destruct p; discriminate.
  - destruct (eq_dec m (Some d)); [eauto|].
    destruct p as [|x p]; cbn [app] in E; injection E as E1 E2; [|eauto].
    subst d. destruct (group c) eqn:G; auto. apply K in E2. congruence.
Qed.

Lemma squeeze_no_double s p c q : squeeze s false = p ++ c :: c :: q -> c = 10%N.
Proof.
  intros E. apply squeeze_doubles in E. cbv iota in E. destruct (N.eq_dec c 10); auto.
  apply dot_spec in n. congruence.
Qed.

Lemma squeeze_no_double_roman s p c q : squeeze s true = p ++ c :: c :: q -> roman_digit c.
Proof.
  intros E. apply squeeze_doubles in E. cbv iota in E.
  destruct (in_dec N.eq_dec c [73; 88; 67; 77; 105; 120; 99; 109]%N); auto.
  apply not_roman_spec in n. congruence.
Qed.

Lemma squeeze_sub_In group s : forall m c, In c (squeeze_sub group m s) -> In c s.
Proof.
  induction s as [|d s IH]; intros m c H; cbn [squeeze_sub] in H; auto.
  destruct (eq_dec m (Some d)); cbn [In] in *; [right; eauto|]. destruct H; eauto.
Qed.

Lemma squeeze_no_newline s : ~ In 10%N s -> ~ has_double (squeeze s false).
Proof.
  intros Hs [p [c [q E]]]. pose proof (squeeze_no_double _ _ _ _ E) as ->. apply Hs.
  apply (squeeze_sub_In dot_matches s None). unfold squeeze in E. cbv iota in E. rewrite E.
  apply in_or_app. cbn. auto.
Qed.

(** ** n-grams *)
Lemma skipn_skipn {A} x y (l : list A) : skipn x (skipn y l) = skipn (x + y) l.
Proof.
  revert l. induction y; intros l; [rewrite Nat.add_0_r; reflexivity|].
  rewrite Nat.add_succ_r. destruct l; [rewrite !skipn_nil; reflexivity|]. cbn [skipn]. apply IHy.
Qed.

Section Ngrams.
Context {A : Type}.

Lemma ngrams_length n (s : list A) : 1 <= n -> length (ngrams n s) = Nat.max 1 (length s + 1 - n).
Proof.
  intros Hn. unfold ngrams. rewrite app_length, map_length, seq_length.
  destruct (Nat.ltb_spec (length s) n); cbn [length]; lia.
Qed.

Lemma ngrams_short n (s : list A) : length s < n -> ngrams n s = [s].
Proof.
  intros Hn. unfold ngrams. destruct (Nat.ltb_spec (length s) n); [|lia].
  replace (length s + 1 - n) with 0 by lia. reflexivity.
Qed.

Lemma ngrams_nth n (s : list A) i g : 1 <= n <= length s -> nth_error (ngrams n s) i = Some g ->
  length g = n /\ window s i g.
Proof.
  intros Hn E. unfold ngrams in E. destruct (Nat.ltb_spec (length s) n); [lia|]. cbn [app] in E.
  assert (Hi : i < length s + 1 - n).
  { apply nth_error_Some_lt in E || (assert (nth_error (map (fun i => slice i (i + n) s) (seq 0 (length s + 1 - n))) i <> None) by congruence;
    apply nth_error_Some in H0; rewrite map_length, seq_length in H0; exact H0). }
  rewrite (map_nth_error _ _ _ (d := i)) in E.
  2:{ rewrite nth_error_nth' with (d := 0) by (rewrite seq_length; lia). rewrite seq_nth by lia. reflexivity. }
  injection E as <-. split.
  - rewrite slice_length. lia.
  - exists (firstn i s), (skipn (i + n) s). unfold slice. replace (i + n - i) with n by lia. split.
    + rewrite <- (firstn_skipn i s) at 1. f_equal. rewrite <- (firstn_skipn n (skipn i s)) at 1.
      rewrite skipn_skipn. do 2 f_equal. lia.
    + rewrite firstn_length. lia.
Qed.

Lemma window_unique (s : list A) i g g' : window s i g -> window s i g' -> length g = length g' -> g = g'.
Proof.
  intros [p [q [E1 L1]]] [p' [q' [E2 L2]]] L. subst s.
  assert (p = p' /\ g ++ q = g' ++ q') as [-> E3].
  { clear -E2 L1 L2. revert i p' L1 L2 E2. induction p; intros i [|b p'] L1 L2 E; cbn in *; try lia; auto.
    injection E as -> E. destruct (IHp (length p) p') as [-> ->]; auto; lia. }
  clear -E3 L. revert g' L E3. induction g; intros [|b g'] L E; cbn in *; try lia; auto.
  injection E as -> E. f_equal. apply IHg; auto.
Qed.

(** the last items of the windows from the one at position i *)
Lemma last_letters_windows n (s : list A) : 1 <= n -> forall m i, i + m + n <= length s + 1 ->
  last_letters (map (fun i => slice i (i + n) s) (seq i m)) = Ok (slice (i + n - 1) (i + n - 1 + m) s).
Proof.
  intros Hn. induction m; intros i Hi; cbn [seq map last_letters].
  - f_equal. unfold slice. replace (i + n - 1 + 0 - (i + n - 1)) with 0 by lia. reflexivity.
  - assert (E : slice i (i + n) s = slice i (i + n - 1) s ++ slice (i + n - 1) (i + n) s).
    { unfold slice. replace (i + n - i) with ((i + n - 1 - i) + 1) by lia.
      replace (i + n - (i + n - 1)) with 1 by lia.
      replace (i + n - 1) with (i + n - 1 - i + i) at 3 by lia. rewrite <- skipn_skipn.
      generalize (i + n - 1 - i) (skipn i s). clear. induction n; intros [|a l]; cbn; rewrite ?firstn_nil; auto.
      f_equal. apply IHn. }
    assert (exists c, slice (i + n - 1) (i + n) s = [c]) as [c Ec].
    { pose proof (slice_length (i + n - 1) (i + n) s) as L.
      destruct (slice (i + n - 1) (i + n) s) as [|c [|]]; cbn [length] in L; try lia. eauto. }
    rewrite E, Ec, rev_app_distr. cbn [rev app]. rewrite IHm by lia. cbn [bind]. f_equal.
    replace (slice (i + n - 1) (i + n - 1 + S m) s)
      with (slice (i + n - 1) (i + n) s ++ slice (S i + n - 1) (S i + n - 1 + m) s).
    + rewrite Ec. reflexivity.
    + unfold slice. replace (i + n - (i + n - 1)) with 1 by lia. replace (i + n - 1 + S m - (i + n - 1)) with (S m) by lia.
      replace (S i + n - 1 + m - (S i + n - 1)) with m by lia. replace (S i + n - 1) with (1 + (i + n - 1)) by lia.
      rewrite <- skipn_skipn. destruct (skipn (i + n - 1) s); cbn; auto. rewrite firstn_nil. reflexivity.
Qed.

Lemma join_ngrams_ngrams n (s : list A) : 1 <= n -> join_ngrams (ngrams n s) = Ok s.
Proof.
  intros Hn. destruct (Nat.ltb_spec (length s) n).
  - rewrite ngrams_short by auto. cbn. rewrite app_nil_r. reflexivity.
  - unfold ngrams. destruct (Nat.ltb_spec (length s) n); [lia|]. cbn [app].
    destruct (length s + 1 - n) as [|m] eqn:M; [lia|].
    cbn [seq map join_ngrams]. rewrite last_letters_windows by lia. cbn [bind]. f_equal.
    unfold slice. replace (0 + n - 0) with n by lia. replace (1 + n - 1) with n by lia.
    replace (n + m - n) with (length s - n) by lia. rewrite skipn_O.
    rewrite <- (skipn_length n s), firstn_all. apply firstn_skipn.
Qed.

Lemma last_letters_any (grams : list (list A)) : (forall r, last_letters grams = Ok r <-> Forall2 (fun h x => exists p, h = p ++ [x]) grams r) /\
  (forall e, last_letters grams = Err e <-> In [] grams /\ e = IndexError).
Proof.
  induction grams as [|g grams [IH1 IH2]]; cbn [last_letters].
  - split; [intros r | intros e]; split; intros H; [injection H as <-; constructor | inversion H; reflexivity | discriminate | destruct H as [[] _]].
  - destruct (rev g) as [|c t] eqn:E.
    + assert (g = []) by (rewrite <- (rev_involutive g), E; reflexivity). subst g. split; [intros r | intros e]; split; intros H.
      * discriminate.
      * inversion H as [|? ? ? ? (p & Hp) _]; subst. destruct p; discriminate.
      * injection H as <-. split; [left; reflexivity | reflexivity].
      * destruct H as [_ ->]. reflexivity.
    + assert (Eg : g = rev t ++ [c]) by (rewrite <- (rev_involutive g), E; reflexivity). split; [intros r | intros e]; split; intros H.
      * destruct (last_letters grams) as [rest|e]; cbn [bind] in H; [|discriminate]. injection H as <-. constructor; [exists (rev t); exact Eg | apply IH1; reflexivity].
      * inversion H as [|? x ? l (p & Hp) Hl]; subst. apply IH1 in Hl. rewrite Hl. cbn [bind]. apply app_inj_tail in Hp. destruct Hp as [_ ->]. reflexivity.
      * destruct (last_letters grams) as [rest|e'] eqn:El; cbn [bind] in H; [discriminate|]. injection H as ->. destruct (proj1 (IH2 e) eq_refl) as [H1 H2]. split; [right; exact H1 | exact H2].
      * destruct H as [[H|H] ->]; [rewrite H in E; discriminate|].
        rewrite (proj2 (IH2 IndexError)) by (split; [exact H | reflexivity]). reflexivity.
Qed.
Lemma join_ngrams_any (g : list A) grams s :
  join_ngrams (g :: grams) = Ok s <-> exists lasts, s = g ++ lasts /\ Forall2 (fun h x => exists p, h = p ++ [x]) grams lasts.
Proof.
  destruct (last_letters_any grams) as [H1 _]. cbn [join_ngrams]. split.
  - intros H. destruct (last_letters grams) as [rest|e]; cbn [bind] in H; [|discriminate]. injection H as <-. exists rest. split; [reflexivity | apply H1; reflexivity].
  - intros (l & -> & F). apply H1 in F. rewrite F. reflexivity.
Qed.
Lemma join_ngrams_fails (grams : list (list A)) e :
  join_ngrams grams = Err e <-> grams = [] /\ e = RuntimeError \/ In [] (tl grams) /\ e = IndexError.
Proof.
  destruct grams as [|g grams]; cbn [join_ngrams tl].
  - split; [intros H; injection H as <-; auto | intros [[_ ->]|[[] _]]; reflexivity].
  - destruct (last_letters_any grams) as [_ H2]. split.
    + intros H. destruct (last_letters grams) as [rest|e']; cbn [bind] in H; [discriminate|]. injection H as ->. right. apply H2. reflexivity.
    + intros [[H _]|H]; [discriminate|]. apply H2 in H. rewrite H. reflexivity.
Qed.
End Ngrams.

(** ** combinations *)
Lemma combinations_map {A B} (f : A -> B) l : forall s, combinations (map f l) s = map (map f) (combinations l s).
Proof.
  induction l as [|x l IH]; intros [|s]; cbn [combinations map]; auto.
  rewrite map_app, !map_map, !IH, map_map. reflexivity.
Qed.

Lemma combinations_In {A} (l : list A) : forall s c, In c (combinations l s) <-> subseq c l /\ length c = s.
Proof.
  induction l as [|x l IH]; intros [|s] c; cbn [combinations In].
  - split; [intros [<-|[]]; split; [constructor|reflexivity]|]. intros [_ L]. destruct c; [auto|discriminate].
  - split; [tauto|]. intros [H L]. inversion H; subst. discriminate.
  - split.
    + intros [<-|[]]. split; auto. constructor. clear. induction l; constructor; auto.
    + intros [_ L]. destruct c; [auto|discriminate].
  - rewrite in_app_iff, in_map_iff, IH. split.
    + intros [[c' [<- H]]|[H L]]; [apply IH in H|]; cbn [length]; split; try constructor; intuition.
    + intros [H L]. inversion H; subst; [left|right]; auto. eexists. split; eauto. apply IH. cbn in L. auto.
Qed.

Lemma subseq_In {A} (c l : list A) x : subseq c l -> In x c -> In x l.
Proof. induction 1; cbn; intuition. Qed.

Lemma combinations_NoDup {A} (l : list A) : NoDup l -> forall s, NoDup (combinations l s).
Proof.
  induction 1 as [|x l Hx Hl IH]; intros [|s]; cbn [combinations]; try (repeat constructor; cbn; tauto).
  apply NoDup_app_iff. split; [|split].
  - apply FinFun.Injective_map_NoDup; auto. intros a b E. congruence.
  - apply IH.
  - intros c Hc Hc'. rewrite in_map_iff in Hc. destruct Hc as [c' [<- _]].
    apply combinations_In in Hc'. destruct Hc' as [Hs _]. apply Hx. eapply subseq_In; eauto. cbn. auto.
Qed.

Lemma subseq_length {A} (c l : list A) : subseq c l -> length c <= length l.
Proof. induction 1; cbn; lia. Qed.

Lemma subseq_seq_sorted p : forall m i, subseq p (seq i m) -> StronglySorted lt p /\ Forall (fun x => i <= x < i + m) p.
Proof.
  intros m. revert p. induction m; cbn [seq]; intros p i H; inversion H; subst.
  - split; constructor.
  - apply IHm in H2. destruct H2 as [S F]. split; constructor; auto.
    + eapply Forall_impl; [|exact F]. cbn. intros. lia.
    + lia.
    + eapply Forall_impl; [|exact F]. cbn. intros. lia.
  - apply IHm in H2. destruct H2 as [S F]. split; auto. eapply Forall_impl; [|exact F]. cbn. intros. lia.
Qed.

Lemma sorted_subseq_seq m : forall p i, StronglySorted lt p -> Forall (fun x => i <= x < i + m) p -> subseq p (seq i m).
Proof.
  induction m; cbn [seq]; intros p i S F.
  - destruct p; [constructor|]. inversion F. lia.
  - destruct p as [|x p]; [constructor; apply IHm; constructor|].
    inversion S; subst. inversion F; subst.
    destruct (Nat.eq_dec x i) as [->|].
    + constructor. apply IHm; auto. rewrite Forall_forall in *. intros y Hy. specialize (H2 y Hy). specialize (H4 y Hy). lia.
    + constructor. apply IHm; auto. constructor; [lia|].
      rewrite Forall_forall in *. intros y Hy. specialize (H2 y Hy). specialize (H4 y Hy). lia.
Qed.

Lemma combinations_full {A} (l : list A) : combinations l (length l) = [l].
Proof.
  assert (Z : forall (l : list A) s, length l < s -> combinations l s = []).
  { clear. induction l; intros [|s] H; cbn in *; try lia; auto. rewrite !IHl by lia. reflexivity. }
  induction l; cbn [combinations length]; auto. rewrite IHl, Z by lia. reflexivity.
Qed.

(** ** ngram_keys *)
Definition picks (n : nat) (s : str) (t : Q) : list (list nat) :=
  let g := length (ngrams n s) in
  seq 0 g :: flat_map (fun t => combinations (seq 0 g) (g - 1 - t)) (seq 0 (g - least_grams n s t)).

Lemma least_le n s t : 1 <= n -> (0 <= t <= 1)%Q -> 1 <= least_grams n s t <= length (ngrams n s).
Proof.
  intros Hn [H0 H1]. unfold least_grams. rewrite ngrams_length by auto. unfold gram_count.
  set (k := (Z.of_nat (length s) - Z.of_nat n + 1)%Z).
  assert (F : (Qfloor (inject_Z k * t) <= Z.max 1 k)%Z).
  { rewrite <- (Qfloor_Z (Z.max 1 k)). apply Qfloor_resp_le. destruct (Z_le_gt_dec k 0) as [Hk|Hk].
    - apply Qle_trans with (inject_Z 0 * t)%Q.
      + apply Qmult_le_compat_r; auto. rewrite <- Zle_Qle. lia.
      + rewrite Qmult_0_l. change 0%Q with (inject_Z 0). rewrite <- Zle_Qle. lia.
    - apply Qle_trans with (inject_Z k * 1)%Q.
      + rewrite !(Qmult_comm (inject_Z k)). apply Qmult_le_compat_r; auto. change 0%Q with (inject_Z 0). rewrite <- Zle_Qle. lia.
      + rewrite Qmult_1_r. rewrite <- Zle_Qle. lia. }
  lia.
Qed.

Lemma map_nth_seq_id {A} (l : list A) d : map (fun i => nth i l d) (seq 0 (length l)) = l.
Proof.
  induction l; cbn; auto. f_equal. rewrite <- seq_shift, map_map. exact IHl.
Qed.

Lemma ngram_keys_picks n s t : 1 <= n -> (0 <= t <= 1)%Q ->
  ngram_keys n s t = map (fun p => concat (map (fun i => nth i (ngrams n s) []) p)) (picks n s t).
Proof.
  intros Hn Ht. pose proof (least_le n s t Hn Ht) as B. unfold ngram_keys, picks. cbn [map].
  rewrite map_nth_seq_id. f_equal.
  pose proof (ngrams_length n s Hn) as L.
  replace (Z.of_nat (length s) - (Z.of_nat n - 1))%Z with (gram_count n s) by (unfold gram_count; lia).
  assert (Hl : Z.max 1 (Qfloor (inject_Z (gram_count n s) * t)) = Z.of_nat (least_grams n s t)) by (unfold least_grams; lia).
  rewrite Hl. destruct (Z_le_gt_dec (gram_count n s) 0) as [Hk|Hk].
  - replace (Z.to_nat (gram_count n s - Z.of_nat (least_grams n s t))) with 0 by lia.
    assert (length (ngrams n s) = 1) by (unfold gram_count in *; lia).
    replace (length (ngrams n s) - least_grams n s t) with 0 by lia. reflexivity.
  - assert (G : gram_count n s = Z.of_nat (length (ngrams n s))) by (unfold gram_count in *; lia).
    rewrite G. set (g := length (ngrams n s)) in *.
    replace (Z.to_nat (Z.of_nat g - Z.of_nat (least_grams n s t))) with (g - least_grams n s t) by lia.
    rewrite !flat_map_concat_map, !concat_map, !map_map. f_equal. apply map_ext. intros a.
    replace (Z.to_nat (Z.of_nat g - 1 - Z.of_nat a)) with (g - 1 - a) by lia.
    transitivity (map (@concat N) (combinations (map (fun i => nth i (ngrams n s) []) (seq 0 g)) (g - 1 - a))).
    + unfold g at 2. rewrite map_nth_seq_id. reflexivity.
    + rewrite combinations_map, map_map. reflexivity.
Qed.

Lemma picks_In n s t p : 1 <= n -> (0 <= t <= 1)%Q ->
  In p (picks n s t) <-> positions_of (length (ngrams n s)) p /\ least_grams n s t <= length p.
Proof.
  intros Hn Ht. pose proof (least_le n s t Hn Ht) as B. unfold picks. set (g := length (ngrams n s)) in *.
  set (l := least_grams n s t) in *.
  assert (P : forall p, subseq p (seq 0 g) <-> positions_of g p).
  { clear. intros p. split; intros H.
    - apply subseq_seq_sorted in H. destruct H as [S F]. split; auto. eapply Forall_impl; [|exact F]. cbn. intros. lia.
    - destruct H as [S F]. apply sorted_subseq_seq; auto. eapply Forall_impl; [|exact F]. cbn. intros. lia. }
  cbn [In]. rewrite in_flat_map. rewrite <- P. split.
  - intros [<-|[x [Hx Hp]]].
    + split; [|rewrite seq_length; lia].
      rewrite <- combinations_full in B at 1 || idtac.
      assert (In (seq 0 g) (combinations (seq 0 g) (length (seq 0 g)))) by (rewrite combinations_full; cbn; auto).
      apply combinations_In in H. tauto.
    + apply combinations_In in Hp. rewrite in_seq in Hx. split; [tauto|]. lia.
  - intros [Hs Hl]. pose proof (subseq_length _ _ Hs) as L. rewrite seq_length in L.
    destruct (Nat.eq_dec (length p) g) as [E|E].
    + left. assert (In p (combinations (seq 0 g) (length (seq 0 g)))) as H by (apply combinations_In; rewrite seq_length; auto).
      rewrite combinations_full in H. destruct H as [H|[]]; auto.
    + right. exists (g - 1 - length p). rewrite in_seq. split; [lia|]. apply combinations_In. split; auto. lia.
Qed.

Lemma picks_sizes_gen g l : forall m i, i + m = g - l -> 1 <= l <= g ->
  StronglySorted (fun p q => length q <= length p)
    (flat_map (fun t => combinations (seq 0 g) (g - 1 - t)) (seq i m)) /\
  NoDup (flat_map (fun t => combinations (seq 0 g) (g - 1 - t)) (seq i m)) /\
  Forall (fun p => length p <= g - 1 - i /\ length p < g) (flat_map (fun t => combinations (seq 0 g) (g - 1 - t)) (seq i m)).
Proof.
  induction m; intros i E Hl; cbn [seq flat_map].
  - repeat split; constructor.
  - destruct (IHm (S i)) as [Hs [Hn Hf]]; try lia.
    assert (C : forall p, In p (combinations (seq 0 g) (g - 1 - i)) -> length p = g - 1 - i)
      by (intros p Hp; apply combinations_In in Hp; tauto).
    repeat split.
    + revert C. generalize (combinations (seq 0 g) (g - 1 - i)). intros cs. induction cs as [|c cs IH]; intros C; auto.
      cbn [app]. constructor; [apply IH; intros; apply C; cbn; auto|].
      apply Forall_app. split; rewrite Forall_forall in *; intros p Hp.
      * rewrite (C c), (C p) by (cbn; auto). lia.
      * rewrite (C c) by (cbn; auto). specialize (Hf p Hp). lia.
    + apply NoDup_app_iff. split; [|split]; auto.
      * apply combinations_NoDup, seq_NoDup.
      * intros p Hp Hq. apply C in Hp. rewrite Forall_forall in Hf. specialize (Hf p Hq). lia.
    + apply Forall_app. split; rewrite Forall_forall in *; intros p Hp.
      * apply C in Hp. lia.
      * specialize (Hf p Hp). lia.
Qed.

Lemma picks_sizes n s t : 1 <= n -> (0 <= t <= 1)%Q ->
  StronglySorted (fun p q => length q <= length p) (picks n s t) /\ NoDup (picks n s t).
Proof.
  intros Hn Ht. pose proof (least_le n s t Hn Ht) as B. unfold picks. set (g := length (ngrams n s)) in *.
  destruct (picks_sizes_gen g (least_grams n s t) (g - least_grams n s t) 0) as [Hs [Hd Hf]]; try lia.
  rewrite Forall_forall in Hf. split; constructor; auto.
  - rewrite Forall_forall. intros p Hp. rewrite seq_length. specialize (Hf p Hp). lia.
  - intros Hp. specialize (Hf _ Hp). rewrite seq_length in Hf. lia.
Qed.

Lemma ngram_keys_enum n s t : 1 <= n -> (0 <= t <= 1)%Q ->
  exists ps, ngram_keys n s t = map (fun p => concat (map (fun i => nth i (ngrams n s) []) p)) ps /\
    (forall p, In p ps <-> positions_of (length (ngrams n s)) p /\ least_grams n s t <= length p) /\
    NoDup ps /\ StronglySorted (fun p q => length q <= length p) ps.
Proof.
  intros Hn Ht. exists (picks n s t). destruct (picks_sizes n s t Hn Ht). split; [|split]; auto.
  - apply ngram_keys_picks; auto.
  - intros p. apply picks_In; auto.
Qed.

Lemma subseq_positions {A} (c l : list A) d : subseq c l ->
  exists p, subseq p (seq 0 (length l)) /\ c = map (fun i => nth i l d) p.
Proof.
  induction 1 as [|x c l H [p [Hp ->]]|x c l H [p [Hp ->]]].
  - exists []. split; [constructor|reflexivity].
  - exists (0 :: map S p). cbn [length seq map nth]. split.
    + constructor. rewrite <- seq_shift. clear -Hp. induction Hp; cbn; constructor; auto.
    + f_equal. rewrite map_map. reflexivity.
  - exists (map S p). cbn [length seq]. split.
    + constructor. rewrite <- seq_shift. clear -Hp. induction Hp; cbn; constructor; auto.
    + rewrite map_map. reflexivity.
Qed.

Lemma ngram_keys_In n s t key : 1 <= n -> (0 <= t <= 1)%Q ->
  In key (ngram_keys n s t) <->
  exists c, subseq c (ngrams n s) /\ least_grams n s t <= length c /\ key = concat c.
Proof.
  intros Hn Ht. rewrite ngram_keys_picks by auto. rewrite in_map_iff. split.
  - intros [p [<- Hp]]. apply picks_In in Hp; auto. destruct Hp as [[S F] L].
    exists (map (fun i => nth i (ngrams n s) []) p). rewrite map_length. split; [|split]; auto.
    assert (H : subseq p (seq 0 (length (ngrams n s)))).
    { apply sorted_subseq_seq; auto. eapply Forall_impl; [|exact F]. cbn. intros. lia. }
    assert (G : forall (p m : list nat), subseq p m ->
      subseq (map (fun i => nth i (ngrams n s) []) p) (map (fun i => nth i (ngrams n s) []) m)).
    { clear. intros p m H. induction H; cbn; constructor; auto. }
    apply G in H. rewrite map_nth_seq_id in H. exact H.
  - intros [c [Hc [L ->]]]. destruct (subseq_positions c (ngrams n s) [] Hc) as [p [Hp ->]].
    exists p. split; auto. apply picks_In; auto. rewrite map_length in L. split; auto.
    apply subseq_seq_sorted in Hp. destruct Hp as [S F]. split; auto. eapply Forall_impl; [|exact F]. cbn. intros. lia.
Qed.

Lemma ngram_keys_share n s s' t c : 1 <= n -> (0 <= t <= 1)%Q ->
  subseq c (ngrams n s) -> subseq c (ngrams n s') ->
  least_grams n s t <= length c -> least_grams n s' t <= length c ->
  share (ngram_keys n s t) (ngram_keys n s' t).
Proof. intros. exists (concat c). split; apply ngram_keys_In; eauto. Qed.

(** ** omission and skeleton keys *)
Lemma VOWELS_vowel c : memb c VOWELS = vowel c.
Proof.
  destruct (vowel c) eqn:E.
  - rewrite memb_true. unfold vowel in E. rewrite existsb_exists in E. destruct E as [x [Hx E]].
    apply N.eqb_eq in E. subst. exact Hx.
  - rewrite memb_false. intros H. assert (vowel c = true); [|congruence].
    unfold vowel. rewrite existsb_exists. exists c. split; [exact H|apply N.eqb_refl].
Qed.

Lemma firsts_In l x : In x (firsts l) <-> In x l.
Proof.
  revert x. induction l as [|y l IH]; intros x; cbn [firsts In]; [tauto|].
  rewrite filter_In, IH. destruct (N.eqb_spec y x); cbn; intuition.
Qed.

Lemma firsts_NoDup l : NoDup (firsts l).
Proof.
  induction l; cbn [firsts]; constructor.
  - rewrite filter_In, N.eqb_refl. cbn. intuition discriminate.
  - apply NoDup_filter; auto.
Qed.

Lemma filter_comm {A} (p q : A -> bool) l : filter p (filter q l) = filter q (filter p l).
Proof. induction l; cbn; auto. destruct (q a) eqn:Q, (p a) eqn:P; cbn; rewrite ?Q, ?P, ?IHl; auto. Qed.

Lemma firsts_filter p l : firsts (filter p l) = filter p (firsts l).
Proof.
  induction l as [|x l IH]; cbn [firsts filter]; auto. destruct (p x) eqn:P; cbn [firsts filter].
  - rewrite IH, filter_comm. reflexivity.
  - rewrite IH, filter_comm. symmetry. apply filter_all. intros y Hy. rewrite filter_In in Hy.
    destruct (N.eqb_spec x y); auto. subst. destruct Hy. congruence.
Qed.

Lemma firsts_app l x : firsts (l ++ [x]) = if in_dec N.eq_dec x l then firsts l else firsts l ++ [x].
Proof.
  induction l as [|y l IH]; cbn [app firsts]; [destruct (in_dec N.eq_dec x []); cbn in *; [tauto|reflexivity]|].
  rewrite IH. destruct (in_dec N.eq_dec x (y :: l)) as [i|i], (in_dec N.eq_dec x l) as [j|j]; cbn [In] in i; try tauto.
  - destruct i as [->|i]; [|tauto]. rewrite filter_app. cbn [filter]. rewrite N.eqb_refl. cbn. rewrite app_nil_r. reflexivity.
  - rewrite filter_app. cbn [filter app]. destruct (N.eqb_spec y x); [tauto|]. reflexivity.
Qed.

Lemma firsts_NoDup_id l : NoDup l -> firsts l = l.
Proof.
  induction 1 as [|x l Hx Hl IH]; cbn [firsts]; auto. rewrite IH. f_equal. apply filter_all.
  intros y Hy. destruct (N.eqb_spec x y); auto. subst. contradiction.
Qed.

Section PollockZamora.
Variable unidecode : str -> str.
Variable upper : str -> str.

Lemma clean_letters s : Forall letter (clean unidecode upper s).
Proof.
  apply Forall_forall. intros c Hc. apply filter_In in Hc. destruct Hc as [_ Hc].
  unfold is_upper_letter, letter in *. lia.
Qed.

Lemma letter_cases c : letter c -> In c CONSONANTS /\ vowel c = false \/ In c VOWELS /\ vowel c = true.
Proof.
  intros H. unfold letter in H.
  assert (In c (map N.of_nat (seq 65 26))) as Hc.
  { apply in_map_iff. exists (N.to_nat c). split; [lia|]. apply in_seq. lia. }
  revert Hc. generalize c. clear. apply Forall_forall.
  repeat (constructor; [ first [left; split; [cbn; tauto|reflexivity] | right; split; [cbn; tauto|reflexivity]] |]). constructor.
Qed.

Lemma omission_fold w : let st := fold_left omission_step w ([], []) in
  snd st = firsts (filter vowel w) /\ (forall c, vowel c = false -> In c (fst st) <-> In c w).
Proof.
  cbv zeta. induction w as [|x w IH] using rev_ind; [cbn; tauto|]. rewrite fold_left_app. cbn [fold_left].
  destruct (fold_left omission_step w ([], [])) as [ls vs]. cbn [fst snd] in IH. destruct IH as [IH1 IH2].
  unfold omission_step. rewrite VOWELS_vowel, filter_app. cbn [filter]. destruct (vowel x) eqn:V; cbn [andb].
  - rewrite firsts_app. destruct (memb x vs) eqn:M; cbn [negb fst snd].
    + rewrite memb_true in M. rewrite IH1, firsts_In in M. split.
      * destruct (in_dec N.eq_dec x (filter vowel w)); tauto.
      * intros c Vc. rewrite sadd_In, in_app_iff, IH2 by auto. cbn. intuition congruence.
    + rewrite memb_false in M. rewrite IH1, firsts_In in M. split.
      * destruct (in_dec N.eq_dec x (filter vowel w)); [tauto|congruence].
      * intros c Vc. rewrite in_app_iff, IH2 by auto. cbn. intuition congruence.
  - rewrite app_nil_r. cbn [fst snd]. split; auto. intros c Vc. rewrite sadd_In, in_app_iff, IH2 by auto. cbn. intuition.
Qed.

Lemma consonants_no_vowel c : In c CONSONANTS -> vowel c = false.
Proof. revert c. apply Forall_forall. repeat constructor. Qed.

Lemma omission_form s : let w := clean unidecode upper s in
  omission_key unidecode upper s = filter (fun c => memb c w) rarity ++ firsts (filter vowel w).
Proof.
  cbv zeta. unfold omission_key. set (w := clean unidecode upper s).
  destruct (Nat.eqb_spec (length w) 0) as [L|L].
  - apply length_zero_iff_nil in L. rewrite L. reflexivity.
  - pose proof (omission_fold w) as F. cbv zeta in F. destruct (fold_left omission_step w ([], [])) as [ls vs].
    cbn [fst snd] in F. destruct F as [-> F]. f_equal. change CONSONANTS with rarity.
    apply filter_ext_in. intros c Hc. apply (consonants_no_vowel c) in Hc. specialize (F c Hc).
    destruct (memb c ls) eqn:M; symmetry.
    + rewrite memb_true in M |- *. tauto.
    + rewrite memb_false in M |- *. tauto.
Qed.

Lemma omission_NoDup s : NoDup (omission_key unidecode upper s).
Proof.
  rewrite omission_form. apply NoDup_app_iff. split; [|split].
  - apply NoDup_filter. unfold rarity. repeat constructor; cbn; intuition discriminate.
  - apply firsts_NoDup.
  - intros c Hc Hv. rewrite filter_In in Hc. destruct Hc as [Hc _]. apply (consonants_no_vowel c) in Hc.
    rewrite firsts_In, filter_In in Hv. destruct Hv. congruence.
Qed.

Lemma omission_In s c : In c (omission_key unidecode upper s) <-> In c (clean unidecode upper s).
Proof.
  rewrite omission_form, in_app_iff, filter_In, firsts_In, filter_In, memb_true.
  split; [tauto|]. intros H. pose proof (clean_letters s) as L. rewrite Forall_forall in L. specialize (L c H).
  apply letter_cases in L. destruct L as [[L1 L2]|[L1 L2]]; tauto.
Qed.

Lemma skeleton_fold a w : let st := fold_left (skeleton_step a) w ([a], [], []) in
  let cs := firsts (filter (fun c => negb (N.eqb c a) && negb (vowel c)) w) in
  let vs := firsts (filter (fun c => negb (N.eqb c a) && vowel c) w) in
  st = (a :: cs ++ vs, cs, vs).
Proof.
  cbv zeta. induction w as [|x w IH] using rev_ind; [reflexivity|]. rewrite fold_left_app. cbn [fold_left]. rewrite IH.
  clear IH. rewrite !filter_app. cbn [filter].
  set (cs := filter (fun c => negb (N.eqb c a) && negb (vowel c)) w).
  set (vs := filter (fun c => negb (N.eqb c a) && vowel c) w).
  unfold skeleton_step. destruct (N.eqb_spec x a) as [->|Hx]; cbn [negb andb].
  - rewrite !app_nil_r. reflexivity.
  - rewrite VOWELS_vowel. destruct (vowel x); cbn [negb andb]; rewrite !app_nil_r, firsts_app.
    + destruct (in_dec N.eq_dec x vs) as [i|i].
      * rewrite <- firsts_In in i. rewrite <- memb_true in i. rewrite i. reflexivity.
      * rewrite <- firsts_In in i. rewrite <- memb_false in i. rewrite i. cbn [app]. rewrite <- app_assoc. reflexivity.
    + destruct (in_dec N.eq_dec x cs) as [i|i].
      * rewrite <- firsts_In in i. rewrite <- memb_true in i. rewrite i. reflexivity.
      * rewrite <- firsts_In in i. rewrite <- memb_false in i. rewrite i. f_equal. f_equal.
        cbn [length]. rewrite app_length. replace (S (length (firsts cs) + length (firsts vs)) - length (firsts vs)) with (S (length (firsts cs))) by lia.
        cbn [firstn skipn app]. rewrite firstn_app, skipn_app, Nat.sub_diag, firstn_all, skipn_all. cbn [firstn skipn app].
        rewrite app_nil_r, <- app_assoc. reflexivity.
Qed.

Lemma skeleton_form s : skeleton_key unidecode upper s =
  match clean unidecode upper s with
  | [] => []
  | a :: w =>
    a :: firsts (filter (fun c => negb (N.eqb c a) && negb (vowel c)) w)
      ++ firsts (filter (fun c => negb (N.eqb c a) && vowel c) w)
  end.
Proof.
  unfold skeleton_key. destruct (clean unidecode upper s) as [|a w]; auto. rewrite skeleton_fold. reflexivity.
Qed.

Lemma skeleton_NoDup s : NoDup (skeleton_key unidecode upper s).
Proof.
  rewrite skeleton_form. destruct (clean unidecode upper s) as [|a w]; constructor.
  - rewrite in_app_iff, !firsts_In, !filter_In, N.eqb_refl. cbn. intuition discriminate.
  - apply NoDup_app_iff. split; [|split]; try apply firsts_NoDup.
    intros c. rewrite !firsts_In, !filter_In. destruct (vowel c); rewrite ?andb_false_r; intuition discriminate.
Qed.

Lemma skeleton_In s c : In c (skeleton_key unidecode upper s) <-> In c (clean unidecode upper s).
Proof.
  rewrite skeleton_form. destruct (clean unidecode upper s) as [|a w]; [tauto|]. cbn [In].
  rewrite in_app_iff, !firsts_In, !filter_In. destruct (N.eqb_spec c a); [subst; tauto|].
  destruct (vowel c); cbn; intuition congruence.
Qed.

Lemma keys_letters s c :
  (In c (omission_key unidecode upper s) <-> letter c /\ In c (upper (unidecode s))) /\
  (In c (skeleton_key unidecode upper s) <-> letter c /\ In c (upper (unidecode s))).
Proof.
  rewrite omission_In, skeleton_In. unfold clean. rewrite filter_In. unfold is_upper_letter, letter.
  rewrite andb_true_iff, !N.leb_le. tauto.
Qed.

(** only the first appearances matter *)
Lemma omission_firsts s s' : firsts (clean unidecode upper s) = firsts (clean unidecode upper s') ->
  omission_key unidecode upper s = omission_key unidecode upper s'.
Proof.
  intros E. rewrite !omission_form. cbv zeta. rewrite !firsts_filter, E. apply (f_equal2 (@app N)); [|reflexivity]. apply filter_ext. intros c.
  destruct (memb c (clean unidecode upper s')) eqn:M.
  - rewrite memb_true in *. rewrite <- firsts_In, E, firsts_In. exact M.
  - rewrite memb_false in *. rewrite <- firsts_In, E, firsts_In. exact M.
Qed.

Lemma skeleton_firsts s s' : firsts (clean unidecode upper s) = firsts (clean unidecode upper s') ->
  skeleton_key unidecode upper s = skeleton_key unidecode upper s'.
Proof.
  intros E. rewrite !skeleton_form.
  destruct (clean unidecode upper s) as [|a w], (clean unidecode upper s') as [|b w']; auto; try discriminate.
  cbn [firsts] in E. injection E as -> E. f_equal.
  assert (F : forall p w, (forall c, p c = true -> N.eqb b c = false) -> firsts (filter p w) = filter p (filter (fun y => negb (N.eqb b y)) (firsts w))).
  { clear. intros p w H. rewrite firsts_filter. set (l := firsts w). clearbody l. induction l as [|x l IH]; cbn [filter]; auto.
    destruct (p x) eqn:P.
    - rewrite (H x P). cbn [negb filter]. rewrite P, IH. reflexivity.
    - destruct (N.eqb b x); cbn [negb filter]; rewrite ?P; auto. }
  f_equal; rewrite !F by (intros c Hc; rewrite N.eqb_sym; destruct (N.eqb c b); auto; discriminate); rewrite E; reflexivity.
Qed.

Hypothesis ascii_fixed : forall s, Forall letter s -> upper (unidecode s) = s.

Lemma clean_fixed s : Forall letter s -> clean unidecode upper s = s.
Proof.
  intros H. unfold clean. rewrite ascii_fixed by auto. apply filter_all. intros c Hc.
  rewrite Forall_forall in H. specialize (H c Hc). unfold letter, is_upper_letter in *. lia.
Qed.

Lemma omission_idem s : omission_key unidecode upper (omission_key unidecode upper s) = omission_key unidecode upper s.
Proof.
  assert (L : Forall letter (omission_key unidecode upper s)).
  { apply Forall_forall. intros c Hc. apply omission_In in Hc. pose proof (clean_letters s) as L.
    rewrite Forall_forall in L. auto. }
  etransitivity; [apply omission_form|]. cbv zeta. rewrite (clean_fixed _ L).
  etransitivity; [|symmetry; apply omission_form]. cbv zeta. apply (f_equal2 (@app N)).
  - apply filter_ext. intros c. destruct (memb c (clean unidecode upper s)) eqn:M.
    + rewrite memb_true in *. rewrite omission_In. exact M.
    + rewrite memb_false in *. rewrite omission_In. exact M.
  - rewrite omission_form. cbv zeta. rewrite filter_app.
    rewrite (filter_none vowel (filter _ rarity)).
    2:{ intros c Hc. rewrite filter_In in Hc. apply consonants_no_vowel. exact (proj1 Hc). }
    cbn [app]. rewrite filter_all.
    2:{ intros c Hc. rewrite firsts_In, filter_In in Hc. tauto. }
    apply firsts_NoDup_id, firsts_NoDup.
Qed.

Lemma skeleton_idem s : skeleton_key unidecode upper (skeleton_key unidecode upper s) = skeleton_key unidecode upper s.
Proof.
  assert (L : Forall letter (skeleton_key unidecode upper s)).
  { apply Forall_forall. intros c Hc. apply skeleton_In in Hc. pose proof (clean_letters s) as L.
    rewrite Forall_forall in L. auto. }
  rewrite skeleton_form, (clean_fixed _ L). rewrite skeleton_form.
  destruct (clean unidecode upper s) as [|a w]; auto. f_equal. rewrite !filter_app.
  set (cs := filter (fun c => negb (N.eqb c a) && negb (vowel c)) w).
  set (vs := filter (fun c => negb (N.eqb c a) && vowel c) w).
  f_equal.
  - rewrite (filter_all _ (firsts cs)), (filter_none _ (firsts vs)), app_nil_r.
    + apply firsts_NoDup_id, firsts_NoDup.
    + intros c Hc. rewrite firsts_In in Hc. unfold vs in Hc. rewrite filter_In in Hc. destruct (vowel c); [|rewrite andb_false_r in Hc; intuition discriminate]. rewrite andb_false_r. reflexivity.
    + intros c Hc. rewrite firsts_In in Hc. unfold cs in Hc. rewrite filter_In in Hc. tauto.
  - rewrite (filter_none _ (firsts cs)), (filter_all _ (firsts vs)). cbn [app].
    + apply firsts_NoDup_id, firsts_NoDup.
    + intros c Hc. rewrite firsts_In in Hc. unfold vs in Hc. rewrite filter_In in Hc. tauto.
    + intros c Hc. rewrite firsts_In in Hc. unfold cs in Hc. rewrite filter_In in Hc. destruct (vowel c); [rewrite andb_false_r in Hc; intuition discriminate|]. rewrite andb_false_r. reflexivity.
Qed.
End PollockZamora.
