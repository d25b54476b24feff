From Coq Require Import String Ascii.
From Verif Require Import Base BaseFacts LevModel StringsModel StringsSpec StringsProofs PhoneticsModel WordsModel WordsSpec.
Open Scope nat_scope.
Open Scope list_scope.
Notation length := List.length.
Notation concat := List.concat.

(** * Lists *)
Lemma span_le (p : N -> bool) s : span p s <= length s.
Proof. induction s as [|c s IH]; cbn [span length]; [lia | destruct (p c); lia]. Qed.

Lemma span_forall (p : N -> bool) s : Forall (fun c => p c = true) (firstn (span p s) s).
Proof. induction s as [|c s IH]; cbn [span firstn]; [constructor | destruct (p c) eqn:E; cbn [firstn]; [constructor; assumption | constructor]]. Qed.

Lemma slice_length s i j : j <= length s -> length (slice s i j) = j - i.
Proof. intros H. unfold slice. rewrite firstn_length, skipn_length. unfold str in *. lia. Qed.

Lemma slice_nil s i : slice s i i = [].
Proof. unfold slice. rewrite Nat.sub_diag. reflexivity. Qed.

Lemma slice_app s i j k : i <= j -> j <= k -> slice s i j ++ slice s j k = slice s i k.
Proof.
  intros Hi Hj. unfold slice. replace (k - i) with ((j - i) + (k - j)) by lia.
  assert (E : skipn j s = skipn (j - i) (skipn i s)).
  { rewrite <- (firstn_skipn i s) at 1. rewrite skipn_app.
    destruct (Nat.le_gt_cases (length s) i) as [L|L].
    - rewrite (skipn_all2 (n := i)) by exact L. rewrite !skipn_nil, app_nil_r.
      rewrite skipn_all2; [reflexivity|]. rewrite firstn_length. unfold str in *. lia.
    - rewrite (skipn_all2 (n := j)) by (rewrite firstn_length; unfold str in *; lia).
      rewrite firstn_length, Nat.min_l by (unfold str in *; lia). reflexivity. }
  rewrite E. remember (skipn i s) as u. clear.
  revert u. induction (j - i) as [|n IH]; intros u; [reflexivity|].
  destruct u as [|x u]; [rewrite !firstn_nil; reflexivity|]. cbn. f_equal. apply IH.
Qed.

Lemma skipn_nth (s : str) i c : nth_error s i = Some c -> skipn i s = c :: skipn (i + 1) s.
Proof.
  revert i; induction s as [|x s IH]; intros [|i] H; cbn in *; try discriminate.
  - injection H as ->. reflexivity.
  - apply IH. exact H.
Qed.

Lemma nth_skipn (s : str) i c r : skipn i s = c :: r -> nth_error s i = Some c.
Proof. revert i; induction s as [|x s IH]; intros [|i] H; cbn in *; try discriminate; [injection H as ->; reflexivity | apply IH; exact H]. Qed.

Lemma slice_cons s i j c : nth_error s i = Some c -> i < j -> slice s i j = c :: slice s (i + 1) j.
Proof.
  intros H L. unfold slice. rewrite (skipn_nth s i c H). replace (j - i) with (S (j - (i + 1))) by lia. reflexivity.
Qed.

Lemma slice_one s i c : nth_error s i = Some c -> slice s i (i + 1) = [c].
Proof. intros H. rewrite (slice_cons s i (i + 1) c H) by lia. rewrite slice_nil. reflexivity. Qed.

Lemma nth_error_lt (s : str) i c : nth_error s i = Some c -> i < length s.
Proof. intros H. apply nth_error_Some. congruence. Qed.

Lemma slice_within s i j : i <= j -> s = firstn i s ++ slice s i j ++ skipn j s.
Proof.
  intros H. rewrite <- (firstn_skipn i s) at 1. f_equal. unfold slice.
  rewrite <- (firstn_skipn (j - i) (skipn i s)) at 1. f_equal.
  destruct (Nat.le_gt_cases (length s) i) as [L|L].
  - rewrite !skipn_all2; try reflexivity; unfold str in *; try lia. rewrite skipn_all2 by exact L. cbn. lia.
  - rewrite <- (firstn_skipn i s) at 2. rewrite skipn_app.
    rewrite (skipn_all2 (n := j)) by (rewrite firstn_length; unfold str in *; lia).
    rewrite firstn_length, Nat.min_l by (unfold str in *; lia). reflexivity.
Qed.

Lemma scan_bounds p s j : j <= length s -> j <= scan p s j <= length s.
Proof.
  intros H. unfold scan. pose proof (span_le p (skipn j s)) as L. rewrite skipn_length in L. unfold str in *. lia.
Qed.

Lemma scan_forall p s j : Forall (fun c => p c = true) (slice s j (scan p s j)).
Proof.
  unfold slice, scan. replace (j + span p (skipn j s) - j) with (span p (skipn j s)) by lia. apply span_forall.
Qed.

Lemma scan_gt p s j c : nth_error s j = Some c -> p c = true -> j < scan p s j.
Proof. intros H P. unfold scan. rewrite (skipn_nth s j c H). cbn [span]. rewrite P. lia. Qed.

Lemma scan_stop p s j c : nth_error s (scan p s j) = Some c -> p c = false.
Proof.
  unfold scan. intros H.
  assert (E : nth_error (skipn j s) (span p (skipn j s)) = Some c).
  { rewrite <- H. clear. revert s. induction j as [|j IH]; intros s; [reflexivity|].
    destruct s as [|x s]; [cbn [skipn span]; destruct (S j + 0); reflexivity|]. cbn. apply IH. }
  clear H. remember (skipn j s) as u. clear Hequ. induction u as [|x u IH]; cbn [span] in E; [discriminate|].
  destruct (p x) eqn:P; cbn in E; [apply IH, E | injection E as <-; exact P].
Qed.

(** * Splits *)
Lemma split_on_length sep cur s : length (split_on sep cur s) = S (count sep s).
Proof.
  revert cur. induction s as [|c s IH]; intros cur; cbn [split_on]; [reflexivity|].
  unfold count in *. cbn [filter]. rewrite (N.eqb_sym sep c). destruct (c =? sep)%N; cbn [length]; rewrite IH; reflexivity.
Qed.

Lemma split_on_join sep cur s : concat (interleave [sep] (split_on sep cur s)) = rev cur ++ s.
Proof.
  revert cur. induction s as [|c s IH]; intros cur; cbn [split_on].
  - cbn. reflexivity.
  - destruct (N.eqb_spec c sep) as [->|Hn].
    + assert (E : exists x l, split_on sep [] s = x :: l).
      { pose proof (split_on_length sep [] s) as L. destruct (split_on sep [] s) as [|x l]; [discriminate|]. exists x, l. reflexivity. }
      destruct E as (x & l & E). cbn [interleave]. rewrite E. cbn [concat]. rewrite <- E, IH. reflexivity.
    + rewrite IH. cbn [rev]. rewrite <- app_assoc. reflexivity.
Qed.

Lemma split_join sep s : concat (interleave [sep] (split sep s)) = s.
Proof. unfold split. rewrite split_on_join. reflexivity. Qed.

Lemma split_on_pieces (P : N -> Prop) sep cur s :
  Forall P cur -> Forall P s -> Forall (fun c => c <> sep) cur ->
  Forall (fun x => Forall P x /\ Forall (fun c => c <> sep) x) (split_on sep cur s).
Proof.
  intros Hc Hs. revert cur Hc. induction Hs as [|c s Hp Hs IH]; intros cur Hc Hn; cbn [split_on].
  - constructor; [|constructor]. split; apply Forall_rev; assumption.
  - destruct (N.eqb_spec c sep) as [->|Hne].
    + constructor; [split; apply Forall_rev; assumption|]. apply IH; constructor.
    + apply IH; constructor; assumption.
Qed.

Lemma split_pieces (P : N -> Prop) sep s :
  Forall P s -> Forall (fun x => Forall P x /\ Forall (fun c => c <> sep) x) (split sep s).
Proof. intros H. apply split_on_pieces; [constructor | exact H | constructor]. Qed.

Lemma count_In c s : count c s <> 0 <-> In c s.
Proof.
  unfold count. split.
  - intros H. destruct (filter (N.eqb c) s) as [|x l] eqn:E; [contradiction|].
    assert (Hx : In x (filter (N.eqb c) s)) by (rewrite E; left; reflexivity).
    apply filter_In in Hx. destruct Hx as [Hx E']. apply N.eqb_eq in E'. subst x. exact Hx.
  - intros H E. assert (Hx : In c (filter (N.eqb c) s)) by (apply filter_In; split; [exact H | apply N.eqb_refl]).
    destruct (filter (N.eqb c) s); [destruct Hx | discriminate].
Qed.

Lemma starts_with_app p s : starts_with p s = true -> exists b, s = p ++ b.
Proof.
  revert s. induction p as [|c p IH]; intros s H; [exists s; reflexivity|].
  destruct s as [|d s]; cbn in H; [discriminate|]. apply andb_prop in H. destruct H as [E H].
  apply N.eqb_eq in E. subst d. destruct (IH s H) as [b ->]. exists b. reflexivity.
Qed.

Lemma contains_app p s : contains p s = true -> exists a b, s = a ++ p ++ b.
Proof.
  induction s as [|c s IH]; cbn [contains]; intros H; apply orb_prop in H; destruct H as [H|H]; try discriminate.
  - destruct (starts_with_app _ _ H) as [b E]. exists [], b. exact E.
  - destruct (starts_with_app _ _ H) as [b E]. exists [], b. exact E.
  - destruct (IH H) as (a & b & ->). exists (c :: a), b. reflexivity.
Qed.

(** * Coverings *)
Section Covers.
Variable skip : N -> Prop.
Variable lost : str -> Prop.

Lemma covers_app s1 t1 s2 t2 : covers skip lost s1 t1 -> covers skip lost s2 t2 -> covers skip lost (s1 ++ s2) (t1 ++ t2).
Proof.
  intros H1 H2. induction H1 as [|c s ts Hk H IH|t s ts H IH|t s ts Hl H IH]; cbn [app].
  - exact H2.
  - apply covers_skip; assumption.
  - rewrite <- app_assoc. apply covers_take. exact IH.
  - rewrite <- app_assoc. apply covers_lost; assumption.
Qed.

Lemma covers_one t : covers skip lost t [t].
Proof. rewrite <- (app_nil_r t) at 1. apply covers_take. constructor. Qed.

Lemma covers_all ts : covers skip lost (concat ts) ts.
Proof. induction ts as [|t ts IH]; cbn [concat]; [constructor | apply covers_take; exact IH]. Qed.

Lemma covers_gaps sep pieces : skip sep -> covers skip lost (concat (interleave [sep] pieces)) pieces.
Proof.
  intros Hs. induction pieces as [|x l IH]; [constructor|]. destruct l as [|y l]; [cbn [interleave concat]; apply covers_take; constructor|].
  change (interleave [sep] (x :: y :: l)) with (x :: [sep] :: interleave [sep] (y :: l)). cbn [concat].
  apply covers_take. cbn [app]. apply covers_skip; [exact Hs | exact IH].
Qed.

Lemma covers_points pieces : 2 <= length pieces -> Forall lost pieces ->
  covers skip lost (concat (interleave [46%N] pieces)) (removelast (interleave [46%N] pieces)).
Proof.
  intros H HF. induction HF as [|x l Hx HF IH]; cbn in H; [lia|]. destruct l as [|y l]; cbn in H; [lia|].
  destruct l as [|z l].
  - cbn. rewrite app_nil_r. apply covers_take. change (46%N :: y) with (46%N :: y). rewrite <- (app_nil_r y).
    apply covers_lost; [inversion HF; assumption | constructor].
  - change (interleave [46%N] (x :: y :: z :: l)) with (x :: [46%N] :: interleave [46%N] (y :: z :: l)).
    assert (E : interleave [46%N] (y :: z :: l) = y :: [46%N] :: interleave [46%N] (z :: l)) by reflexivity.
    change (removelast (x :: [46%N] :: interleave [46%N] (y :: z :: l))) with (x :: removelast ([46%N] :: interleave [46%N] (y :: z :: l))).
    change (removelast ([46%N] :: interleave [46%N] (y :: z :: l))) with ([46%N] :: removelast (interleave [46%N] (y :: z :: l))).
    cbn [concat]. apply covers_take. apply covers_take. apply IH. cbn. lia.
Qed.
End Covers.

Lemma covers_weaken (skip : N -> Prop) (lost lost' : str -> Prop) s ts :
  (forall t, lost t -> lost' t) -> covers skip lost s ts -> covers skip lost' s ts.
Proof.
  intros H C. induction C as [|c s ts Hk C IH|t s ts C IH|t s ts Hl C IH];
    [apply covers_nil | apply covers_skip | apply covers_take | apply covers_lost]; auto.
Qed.

Lemma covers_filter (skip : N -> Prop) (p : N -> bool) s ts :
  (forall c, p c = true -> ~ skip c) -> covers skip never s ts -> filter p (concat ts) = filter p s.
Proof.
  intros Hp C. induction C as [|c s ts Hk H IH|t s ts H IH|t s ts Hl H IH]; cbn [concat filter].
  - reflexivity.
  - destruct (p c) eqn:E; [exfalso; exact (Hp c E Hk) | exact IH].
  - rewrite !filter_app, IH. reflexivity.
  - destruct Hl.
Qed.

(** * with_holes and punct_emoji_iter *)
Lemma with_holes_concat emoji s : forall cur k, (k = 0 -> cur = []) -> concat (map snd (with_holes emoji cur k s)) = rev cur ++ s.
Proof.
  induction s as [|c s IH]; intros cur k Hk; cbn [with_holes].
  - destruct cur; cbn [map concat snd]; rewrite ?app_nil_r; reflexivity.
  - destruct k as [|[|k]].
    + rewrite (Hk eq_refl). destruct (emoji (c :: s)) as [|[|n]]; cbn [map concat snd rev app].
      * rewrite IH by reflexivity. reflexivity.
      * rewrite IH by reflexivity. reflexivity.
      * rewrite IH by discriminate. reflexivity.
    + cbn [map concat snd]. rewrite IH by reflexivity. cbn [rev app]. rewrite <- app_assoc. reflexivity.
    + rewrite IH by discriminate. cbn [rev]. rewrite <- app_assoc. reflexivity.
Qed.

Lemma with_holes_nonempty emoji s : forall cur k, Forall (fun t => snd t <> []) (with_holes emoji cur k s).
Proof.
  assert (R : forall (c : N) l, rev (c :: l) <> []).
  { intros c l H. apply (f_equal (@length N)) in H. rewrite rev_length in H. discriminate. }
  induction s as [|c s IH]; intros cur k; cbn [with_holes].
  - destruct cur; repeat constructor. apply R.
  - destruct k as [|[|k]]; [destruct (emoji (c :: s)) as [|[|n]]| |]; try apply IH; constructor; try apply IH; cbn [snd]; try discriminate. apply R.
Qed.

Lemma merge_emojis_concat l : concat (map snd (merge_emojis l)) = concat (map snd l).
Proof.
  assert (H : forall n l, length l <= n -> concat (map snd (merge_emojis l)) = concat (map snd l)); [|apply (H _ l (le_n _))].
  clear l. induction n as [|n IH]; intros l L; [destruct l; [reflexivity | cbn in L; lia]|].
  destruct l as [|a l]; [reflexivity|]. destruct l as [|b l]; [reflexivity|]. cbn [length] in L.
  cbn [merge_emojis]. destruct (_ && _ && _); cbn [map concat snd].
  - rewrite IH by lia. rewrite app_assoc. reflexivity.
  - f_equal. exact (IH (b :: l) ltac:(cbn [length]; lia)).
Qed.

Lemma merge_emojis_nonempty l : Forall (fun t : token => snd t <> []) l -> Forall (fun t => snd t <> []) (merge_emojis l).
Proof.
  assert (H : forall n l, length l <= n -> Forall (fun t : token => snd t <> []) l -> Forall (fun t => snd t <> []) (merge_emojis l)); [|apply (H _ l (le_n _))].
  clear l. induction n as [|n IH]; intros l L HF; [destruct l; [constructor | cbn in L; lia]|].
  destruct l as [|a l]; [constructor|]. destruct l as [|b l]; [exact HF|]. cbn [length] in L.
  inversion HF as [|? ? Ha HF']; subst. inversion HF' as [|? ? Hb HF'']; subst.
  cbn [merge_emojis]. destruct (_ && _ && _); constructor.
  - cbn [snd]. destruct (snd a); [contradiction | discriminate].
  - apply IH; [lia | assumption].
  - assumption.
  - exact (IH (b :: l) ltac:(cbn [length]; lia) HF').
Qed.

Lemma punct_emoji_concat emoji s : concat (map snd (punct_emoji_iter emoji s)) = s.
Proof. unfold punct_emoji_iter. rewrite merge_emojis_concat, with_holes_concat by reflexivity. reflexivity. Qed.

Lemma punct_emoji_nonempty emoji s : Forall (fun t => snd t <> []) (punct_emoji_iter emoji s).
Proof. apply merge_emojis_nonempty, with_holes_nonempty. Qed.

(** * split_hashtag *)
Section Hashtags.
Variables isdigit isupper islower : N -> bool.

Lemma skipn_slice s i j : i <= j -> skipn i s = slice s i j ++ skipn j s.
Proof.
  intros H. apply (app_inv_head (firstn i s)). rewrite firstn_skipn. apply slice_within. exact H.
Qed.

Lemma split_loop_ok (s : str) (rest : str) : forall state offset i,
  rest = skipn i s -> i <= length s -> offset < i -> (state = UpperNext -> offset + 2 <= i) ->
  concat (map snd (split_loop isdigit isupper islower s state offset i rest)) = skipn offset s /\
  Forall (fun t => snd t <> []) (split_loop isdigit isupper islower s state offset i rest).
Proof.
  assert (NE : forall k l, k < l -> l <= length s -> slice s k l <> []).
  { intros k l H1 H2 E. apply (f_equal (@length N)) in E. rewrite slice_length in E by exact H2. cbn in E. lia. }
  induction rest as [|c rest IH]; intros state offset i Hr Hi Ho Hu.
  - assert (L : length s <= i).
    { apply (f_equal (@length N)) in Hr. rewrite skipn_length in Hr. cbn in Hr. unfold str in *. lia. }
    cbn [split_loop map concat snd]. rewrite app_nil_r. split; [reflexivity|]. constructor; [|constructor].
    cbn [snd]. intros E. apply (f_equal (@length N)) in E. rewrite skipn_length in E. cbn in E. unfold str in *. lia.
  - assert (Hc : nth_error s i = Some c).
    { rewrite <- (firstn_skipn i s), <- Hr. rewrite nth_error_app2 by (rewrite firstn_length; unfold str in *; lia).
      rewrite firstn_length, Nat.min_l by (unfold str in *; lia). rewrite Nat.sub_diag. reflexivity. }
    pose proof (nth_error_lt _ _ _ Hc) as Lt.
    assert (Hr' : rest = skipn (i + 1) s).
    { rewrite (skipn_nth s i c Hc) in Hr. injection Hr as ->. reflexivity. }
    assert (K : forall st o, o < i + 1 -> (st = UpperNext -> o + 2 <= i + 1) ->
      concat (map snd (split_loop isdigit isupper islower s st o (i + 1) rest)) = skipn o s /\
      Forall (fun t => snd t <> []) (split_loop isdigit isupper islower s st o (i + 1) rest)).
    { intros st o H1 H2. apply IH; try assumption; unfold str in *; lia. }
    assert (Y : forall (t : token_type) st k, offset < k -> k <= i -> st <> UpperNext ->
      concat (map snd ((t, slice s offset k) :: split_loop isdigit isupper islower s st k (i + 1) rest)) = skipn offset s /\
      Forall (fun t => snd t <> []) ((t, slice s offset k) :: split_loop isdigit isupper islower s st k (i + 1) rest)).
    { intros t st k H1 H2 H3. destruct (K st k ltac:(lia) ltac:(intros; contradiction)) as [K1 K2].
      cbn [map concat snd]. rewrite K1. split; [rewrite (skipn_slice s offset k) by lia; reflexivity|].
      constructor; [cbn [snd]; apply NE; unfold str in *; lia | exact K2]. }
    cbn [split_loop]. destruct state.
    + destruct (isupper c); [apply Y; [lia | lia | discriminate]|]. destruct (isdigit c); [apply Y; [lia | lia | discriminate]|].
      apply K; [lia | discriminate].
    + destruct (islower c); [apply K; [lia | discriminate]|]. destruct (isupper c); [apply K; lia|].
      destruct (isdigit c); [apply Y; [lia | lia | discriminate]|]. apply K; [lia | discriminate].
    + specialize (Hu eq_refl). destruct (islower c); [apply Y; [lia | lia | discriminate]|].
      destruct (isdigit c); [apply Y; [lia | lia | discriminate]|]. apply K; lia.
    + destruct (negb (isdigit c)); [destruct (isupper c); (apply Y; [lia | lia | discriminate])|]. apply K; [lia | discriminate].
Qed.

Lemma split_hashtag_ok s : 2 <= length s -> exists ts, split_hashtag isdigit isupper islower s = Ok ts /\
  concat (map snd ts) = skipn 1 s /\ Forall (fun t => snd t <> []) ts.
Proof.
  intros L. unfold split_hashtag. destruct (nth_error s 1) as [c|] eqn:E.
  2: { apply nth_error_None in E. unfold str in *. lia. }
  eexists. split; [reflexivity|]. apply split_loop_ok; [reflexivity | exact L | lia |].
  destruct (negb (isdigit c)); discriminate.
Qed.

Lemma split_hashtag_short s : length s < 2 -> split_hashtag isdigit isupper islower s = Err IndexError.
Proof.
  intros L. unfold split_hashtag. destruct (nth_error s 1) as [c|] eqn:E; [|reflexivity].
  apply nth_error_lt in E. unfold str in *. lia.
Qed.
End Hashtags.

(** * The loops *)
(** no point follows a point, [prev] being the previous character *)
Fixpoint dots_ok (prev : N) (l : str) : Prop :=
  match l with
  | [] => True
  | c :: l' => (c = 46%N -> prev <> 46%N) /\ dots_ok c l'
  end.

Lemma dots_ok_app prev a b : dots_ok prev (a ++ b) <-> dots_ok prev a /\ dots_ok (last (prev :: a) 0%N) b.
Proof.
  revert prev; induction a as [|c a IH]; intros prev; cbn [app dots_ok].
  - cbn. tauto.
  - rewrite IH. assert (E : last (prev :: c :: a) 0%N = last (c :: a) 0%N) by reflexivity. rewrite E. tauto.
Qed.

Section Loops.
Variables isspace isalnum isalpha isdigit isupper : N -> bool.
Hypothesis classes : char_classes isspace isalnum isalpha isdigit isupper.
Notation nospace := (Forall (fun c => isspace c = false)).

Lemma numeric_loop_ok rest : forall lastc chosen t j j' b t',
  numeric_loop isspace isalpha isdigit rest lastc chosen t j = (j', b, t') ->
  j' <= j + length rest /\ (j <= j' \/ (j' = j - 1 /\ memb lastc DECIMALS = true /\ b = true)) /\
  nospace (firstn (j' - j) rest) /\
  (b = false -> t' = Word).
Proof.
  clear classes.
  induction rest as [|n rest IH]; intros lastc chosen t j j' b t' H; cbn [numeric_loop] in H.
  - injection H as <- <- <-. rewrite Nat.sub_diag. split; [lia|]. split; [lia|]. split; [constructor | discriminate].
  - cbn [length]. destruct (isspace n) eqn:Sp.
    { injection H as <- <- <-. rewrite Nat.sub_diag. split; [lia|]. split; [lia|]. split; [constructor | discriminate]. }
    assert (Z : forall ch tt', numeric_loop isspace isalpha isdigit rest n ch tt' (j + 1) = (j', b, t') ->
      j' <= j + S (length rest) /\ (j <= j' \/ (j' = j - 1 /\ memb lastc DECIMALS = true /\ b = true)) /\
      nospace (firstn (j' - j) (n :: rest)) /\ (b = false -> t' = Word)).
    { intros ch tt' E. apply IH in E. destruct E as (L & B & F & W). split; [lia|]. split; [lia|]. split; [|exact W].
      destruct (j' - j) as [|m] eqn:M; [constructor|]. cbn [firstn]. constructor; [exact Sp|].
      replace (j' - (j + 1)) with m in F by lia. exact F. }
    destruct (negb (isdigit n)).
    + destruct (memb lastc DECIMALS) eqn:D.
      { injection H as <- <- <-. split; [lia|]. split; [right; auto|]. split; [|discriminate]. replace (j - 1 - j) with 0 by lia. constructor. }
      destruct (negb (lastc =? 45)%N && _).
      { injection H as <- <- <-. rewrite Nat.sub_diag. split; [lia|]. split; [lia|]. split; [constructor | reflexivity]. }
      destruct (negb (memb n DECIMALS)).
      { injection H as <- <- <-. rewrite Nat.sub_diag. split; [lia|]. split; [lia|]. split; [constructor | discriminate]. }
      destruct chosen.
      { injection H as <- <- <-. rewrite Nat.sub_diag. split; [lia|]. split; [lia|]. split; [constructor | discriminate]. }
      exact (Z _ _ H).
    + exact (Z _ _ H).
Qed.

(** the points of a text that starts like a number and becomes a word *)
Lemma numeric_loop_dots rest : forall lastc chosen t j j' t',
  numeric_loop isspace isalpha isdigit rest lastc chosen t j = (j', false, t') ->
  dots_ok lastc (firstn (j' - j) rest) /\ last (lastc :: firstn (j' - j) rest) 0%N <> 46%N /\ j <= j'.
Proof.
  induction rest as [|n rest IH]; intros lastc chosen t j j' t' H; cbn [numeric_loop] in H; [discriminate|].
  destruct (isspace n) eqn:Sp; [discriminate|].
  assert (Z : forall ch tt', (n = 46%N -> lastc <> 46%N) ->
    numeric_loop isspace isalpha isdigit rest n ch tt' (j + 1) = (j', false, t') ->
    dots_ok lastc (firstn (j' - j) (n :: rest)) /\ last (lastc :: firstn (j' - j) (n :: rest)) 0%N <> 46%N /\ j <= j').
  { intros ch tt' HD E. apply IH in E. destruct E as (D & L & J).
    replace (j' - j) with (S (j' - (j + 1))) by lia. cbn [firstn dots_ok].
    split; [|split; [exact L | lia]]. split; [exact HD | exact D]. }
  destruct (isdigit n) eqn:Dg; cbn [negb] in H.
  - apply (Z _ _) in H; [exact H|].
    intros ->. rewrite (cc_digit_point _ _ _ _ _ classes) in Dg. discriminate.
  - destruct (memb lastc DECIMALS) eqn:D; [discriminate|].
    destruct (negb (lastc =? 45)%N && _).
    { injection H as <- <-. rewrite Nat.sub_diag. cbn [firstn dots_ok last]. repeat split; try lia.
      intros ->. cbv in D. discriminate. }
    destruct (memb n DECIMALS) eqn:Dn; cbn [negb] in H; [|discriminate].
    destruct chosen; [discriminate|]. apply (Z _ _) in H; [exact H|].
    intros _ ->. cbv in D. discriminate.
Qed.

(** a text that starts with a hyphen and becomes a word: a digit or a decimal mark comes next *)
Lemma numeric_loop_hyphen rest t j j' t' :
  numeric_loop isspace isalpha isdigit rest 45%N None t j = (j', false, t') ->
  exists n rest', rest = n :: rest' /\ (isdigit n = true \/ memb n DECIMALS = true) /\ j + 1 <= j'.
Proof.
  intros H. destruct rest as [|n rest]; cbn [numeric_loop] in H; [discriminate|].
  destruct (isspace n); [discriminate|]. exists n, rest. split; [reflexivity|].
  destruct (isdigit n) eqn:D; cbn [negb] in H.
  - split; [left; reflexivity|]. apply numeric_loop_ok in H. destruct H as (_ & [H|(_ & _ & H)] & _); [exact H | discriminate].
  - replace (memb 45%N DECIMALS) with false in H by reflexivity. cbn [N.eqb Pos.eqb negb andb] in H.
    destruct (memb n DECIMALS) eqn:E; cbn [negb] in H; [|discriminate].
    split; [right; reflexivity|]. apply numeric_loop_ok in H. destruct H as (_ & [H|(_ & _ & H)] & _); [exact H | discriminate].
Qed.

Lemma alnum_loop_ok could rest : forall prev j acr j' acr',
  alnum_loop isspace isalnum isupper could rest prev j acr = (j', acr') ->
  j <= j' <= j + length rest /\ nospace (firstn (j' - j) rest) /\
  (acr' = true -> acr = false ->
    could = false /\ In 46%N (firstn (j' - j) rest) /\ upper_point isupper (prev :: rest)).
Proof.
  clear classes.
  induction rest as [|n rest IH]; intros prev j acr j' acr' H; cbn [alnum_loop] in H.
  - injection H as <- <-. rewrite Nat.sub_diag. split; [cbn; lia|]. split; [constructor | congruence].
  - cbn [length].
    assert (Stop : (j, acr) = (j', acr') -> j <= j' <= j + S (length rest) /\ nospace (firstn (j' - j) (n :: rest)) /\
      (acr' = true -> acr = false -> could = false /\ In 46%N (firstn (j' - j) (n :: rest)) /\ upper_point isupper (prev :: n :: rest))).
    { intros E. injection E as <- <-. rewrite Nat.sub_diag. split; [lia|]. split; [constructor | congruence]. }
    destruct (isspace n) eqn:Sp; [exact (Stop H)|].
    assert (UP : upper_point isupper (n :: rest) -> upper_point isupper (prev :: n :: rest)).
    { intros (a & u & b & E & U). exists (prev :: a), u, b. split; [cbn; rewrite E; reflexivity | exact U]. }
    assert (Go : alnum_loop isspace isalnum isupper could rest n (j + 1) acr = (j', acr') ->
      j <= j' <= j + S (length rest) /\ nospace (firstn (j' - j) (n :: rest)) /\
      (acr' = true -> acr = false -> could = false /\ In 46%N (firstn (j' - j) (n :: rest)) /\ upper_point isupper (prev :: n :: rest))).
    { intros E. apply IH in E. destruct E as (L & F & A). split; [lia|].
      replace (j' - j) with (S (j' - (j + 1))) by lia. cbn [firstn]. split; [constructor; assumption|].
      intros A1 A2. destruct (A A1 A2) as (A3 & A4 & A5). split; [exact A3|]. split; [right; exact A4 | apply UP; exact A5]. }
    destruct could eqn:C.
    { destruct (n =? 44)%N; [exact (Stop H) | exact (Go H)]. }
    destruct (memb n IDENTIFIER_PARTS || (n =? 183)%N).
    { destruct rest as [|n' rest']; [exact (Stop H)|]. destruct (isspace n'); [exact (Stop H) | exact (Go H)]. }
    destruct (negb (isalnum n)); [|exact (Go H)].
    destruct ((n =? 46)%N && isupper prev) eqn:P; [|exact (Stop H)].
    apply andb_prop in P. destruct P as [P1 P2]. apply N.eqb_eq in P1. subst n.
    apply IH in H. destruct H as (L & F & _). split; [lia|]. replace (j' - j) with (S (j' - (j + 1))) by lia. cbn [firstn].
    split; [constructor; assumption|]. intros _ _. split; [reflexivity|]. split; [left; reflexivity|].
    exists [], prev, rest. split; [reflexivity | exact P2].
Qed.

Lemma alnum_loop_dots rest : forall prev j acr j' acr',
  alnum_loop isspace isalnum isupper false rest prev j acr = (j', acr') ->
  dots_ok prev (firstn (j' - j) rest) /\
  (isupper prev = false -> match firstn (j' - j) rest with [] => True | c :: _ => c <> 46%N end).
Proof.
  induction rest as [|n rest IH]; intros prev j acr j' acr' H; pose proof H as H0; cbn [alnum_loop] in H.
  - rewrite firstn_nil. cbn. tauto.
  - assert (Stop : (j, acr) = (j', acr') -> dots_ok prev (firstn (j' - j) (n :: rest)) /\
      (isupper prev = false -> match firstn (j' - j) (n :: rest) with [] => True | c :: _ => c <> 46%N end)).
    { intros E. injection E as <- <-. rewrite Nat.sub_diag. cbn. tauto. }
    assert (Go : forall acr2, (n = 46%N -> isupper prev = true) -> alnum_loop isspace isalnum isupper false rest n (j + 1) acr2 = (j', acr') ->
      dots_ok prev (firstn (j' - j) (n :: rest)) /\
      (isupper prev = false -> match firstn (j' - j) (n :: rest) with [] => True | c :: _ => c <> 46%N end)).
    { intros acr2 D E. pose proof (alnum_loop_ok _ _ _ _ _ _ _ E) as (L & _). apply IH in E.
      replace (j' - j) with (S (j' - (j + 1))) by lia. cbn [firstn dots_ok].
      split; [split; [|apply E]|].
      - intros -> ->. rewrite (cc_upper_point _ _ _ _ _ classes) in D. specialize (D eq_refl). discriminate.
      - intros U ->. rewrite D in U by reflexivity. discriminate. }
    destruct (isspace n); [exact (Stop H)|].
    destruct (memb n IDENTIFIER_PARTS || (n =? 183)%N) eqn:I.
    { assert (N46 : n <> 46%N) by (intros ->; cbv in I; discriminate).
      destruct rest as [|n' rest']; [exact (Stop H)|]. destruct (isspace n'); [exact (Stop H)|].
      apply (Go _ ltac:(intros; contradiction) H). }
    destruct (isalnum n) eqn:A; cbn [negb] in H.
    { apply (Go acr); [|exact H]. intros ->. rewrite (cc_alnum_point _ _ _ _ _ classes) in A. discriminate. }
    destruct ((n =? 46)%N && isupper prev) eqn:P; [|exact (Stop H)].
    apply andb_prop in P. apply (Go true); [intros _; apply P | exact H].
Qed.
End Loops.

(** * The end of a token *)
Lemma split_on_dots s : forall cur prev, dots_ok prev s -> (cur = [] -> prev = 46%N) ->
  Forall (fun x : str => x <> []) (removelast (split_on 46%N cur s)).
Proof.
  induction s as [|c s IH]; intros cur prev D H; cbn [split_on]; [constructor|].
  cbn [dots_ok] in D. destruct D as [D1 D2]. destruct (N.eqb_spec c 46) as [->|Hn].
  - assert (Hl : split_on 46%N [] s <> []).
    { pose proof (split_on_length 46%N [] s) as L. destruct (split_on 46%N [] s); [discriminate|]. discriminate. }
    assert (E : removelast (rev cur :: split_on 46%N [] s) = rev cur :: removelast (split_on 46%N [] s)).
    { destruct (split_on 46%N [] s); [contradiction | reflexivity]. }
    unfold str in *. rewrite E. constructor.
    + intros R. destruct cur as [|x cur]; [exact (D1 eq_refl (H eq_refl))|].
      apply (f_equal (@length N)) in R. rewrite rev_length in R. discriminate.
    + apply (IH [] 46%N D2). reflexivity.
  - apply (IH (c :: cur) c D2). discriminate.
Qed.

Lemma interleave_pieces sep l : Forall (fun x : str => x <> []) (removelast l) -> sep <> [] ->
  Forall (fun x : str => x <> []) (removelast (interleave sep l)).
Proof.
  intros H Hs. induction l as [|x l IH]; [constructor|]. destruct l as [|y l]; [constructor|].
  assert (E : removelast (x :: y :: l) = x :: removelast (y :: l)) by reflexivity. rewrite E in H.
  inversion H as [|? ? Hx H']; subst.
  assert (Hn : interleave sep (y :: l) <> []) by (destruct l; discriminate).
  change (interleave sep (x :: y :: l)) with (x :: sep :: interleave sep (y :: l)).
  change (removelast (x :: sep :: interleave sep (y :: l))) with (x :: removelast (sep :: interleave sep (y :: l))).
  assert (E2 : removelast (sep :: interleave sep (y :: l)) = sep :: removelast (interleave sep (y :: l))).
  { destruct (interleave sep (y :: l)); [contradiction | reflexivity]. }
  rewrite E2. constructor; [exact Hx|]. constructor; [exact Hs|]. apply IH. exact H'.
Qed.

Lemma split_two sep s : count sep s = 1 -> exists a b, split sep s = [a; b] /\ s = a ++ sep :: b.
Proof.
  intros H. pose proof (split_on_length sep [] s) as L. rewrite H in L. fold (split sep s) in L.
  pose proof (split_join sep s) as J. destruct (split sep s) as [|a [|b [|x l]]]; try discriminate.
  exists a, b. split; [reflexivity|]. cbn in J. rewrite app_nil_r in J. symmetry. exact J.
Qed.

Ltac branch := match goal with |- context [if ?b then _ else _] => destruct b end.

Section Step.
Variables isspace isalnum isalpha isdigit isupper islower : N -> bool.
Variable lower : str -> str.
Variable emoji : str -> nat.
Variable split_hashtags : bool.
Hypothesis classes : char_classes isspace isalnum isalpha isdigit isupper.
Variable s : str.
Notation nospace := (Forall (fun c => isspace c = false)).

Notation skipped := (droppable isspace split_hashtags).
Notation forgotten := (acronym_tail isspace isupper s).

Definition good (i i' : nat) (ts : list token) : Prop :=
  covers skipped forgotten (slice s i i') (map snd ts) /\ (~ euphonic_t s -> Forall (fun t => snd t <> []) ts).

Lemma good_concat i i' ts : concat (map snd ts) = slice s i i' -> Forall (fun t : token => snd t <> []) ts -> good i i' ts.
Proof. intros H F. split; [rewrite <- H; apply covers_all | intros _; exact F]. Qed.

Lemma slice_nonempty i j : i < j -> j <= length s -> slice s i j <> [].
Proof. intros H1 H2 E. apply (f_equal (@length N)) in E. rewrite slice_length in E by exact H2. cbn in E. lia. Qed.

Definition hashtag_like (t : token_type) (before : str) : Prop :=
  t = Hashtag -> 2 <= length before /\ exists c l, before = c :: l /\ (c = 35%N \/ c = 36%N).
Definition union_like (t : token_type) (before : str) : Prop :=
  t = Word -> forall r, before = 45%N :: r -> memb r FRENCH_UNION_TARGETS = false.

Lemma regular_word_ok i j t before :
  before = slice s i j -> i < j -> j <= length s -> union_like t before -> hashtag_like t before ->
  exists ts, regular_word isdigit isupper islower split_hashtags t before = Ok ts /\ good i j ts.
Proof.
  intros Hb Hij Hj Hu Hh.
  assert (One : forall t', good i j [(t', before)]).
  { intros t'. apply good_concat; [cbn; rewrite app_nil_r; exact Hb|]. constructor; [|constructor]. cbn [snd]. rewrite Hb.
    apply slice_nonempty; lia. }
  assert (S45 : skipped 45%N) by (right; right; left; reflexivity).
  destruct t; cbn [regular_word]; try (eexists; split; [reflexivity | apply One]).
  - destruct (Nat.eqb (count 45 before) 2 && contains (codes "-t-") before) eqn:E.
    + eexists; split; [reflexivity|]. apply andb_prop in E. destruct E as [E1 E2]. split.
      * rewrite map_map. cbn [snd]. rewrite map_id. rewrite <- Hb. rewrite <- (split_join 45%N before) at 1. apply covers_gaps. exact S45.
      * intros HN. exfalso. apply HN. apply contains_app in E2. destruct E2 as (a & b & E2).
        pose proof (slice_within s i j ltac:(lia)) as W. rewrite <- Hb, E2 in W.
        exists (firstn i s ++ a), (b ++ skipn j s). rewrite W at 1. rewrite <- !app_assoc. reflexivity.
    + destruct (Nat.eqb_spec (count 45 before) 1) as [E1|E1]; [|eexists; split; [reflexivity | apply One]].
      destruct (split_two _ _ E1) as (a & b & Es & Eb). rewrite Es.
      destruct (memb b FRENCH_UNION_TARGETS) eqn:Hm; [|eexists; split; [reflexivity | apply One]].
      eexists; split; [reflexivity|]. split.
      * cbn [map snd]. rewrite <- Hb, <- (split_join 45%N before), Es at 1. apply covers_gaps. exact S45.
      * intros _. repeat constructor; cbn [snd].
        -- intros ->. cbn in Eb. pose proof (eq_trans (eq_sym Hm) (Hu eq_refl b Eb)) as K. discriminate K.
        -- intros ->. cbv in Hm. discriminate.
  - destruct split_hashtags eqn:Sp; [|eexists; split; [reflexivity | apply One]].
    destruct (Hh eq_refl) as (L & c & l & Ec & Hc).
    destruct (split_hashtag_ok isdigit isupper islower before L) as (ts & E & C & F).
    exists ts. split; [exact E|]. split; [|intros _; exact F]. rewrite <- Hb, Ec. rewrite Ec in C. cbn [skipn] in C. rewrite <- C.
    apply covers_skip; [right; right; right; split; [exact Sp | exact Hc] | apply covers_all].
Qed.

Definition acronym_like (before : str) : Prop :=
  In 46%N before /\ upper_point isupper s /\ match before with [] => True | c :: l => c <> 46%N /\ dots_ok c l end.

Lemma finish_word_ok i j t acr before :
  before = slice s i j -> i < j -> j <= length s -> (acr = true -> nospace before) ->
  (acr = true -> acronym_like before) -> union_like t before -> hashtag_like t before ->
  exists ts i', finish_word isalnum isdigit isupper islower lower split_hashtags s i j t acr before = Ok (ts, i') /\
    j <= i' <= length s /\ good i i' ts.
Proof.
  intros Hb Hij Hj Hs Ha Hu Hh. unfold finish_word.
  assert (NE : before <> []) by (rewrite Hb; apply slice_nonempty; lia).
  destruct acr.
  - destruct (Ha eq_refl) as (Hin & Hup & Hd). destruct (forallb _ _).
    + eexists; eexists; split; [reflexivity|]. split; [lia|]. apply good_concat; [cbn; rewrite app_nil_r; exact Hb|].
      repeat constructor. exact NE.
    + eexists; eexists; split; [reflexivity|]. split; [lia|]. split.
      * rewrite map_map. cbn [snd]. rewrite map_id. rewrite <- Hb. rewrite <- (split_join 46%N before) at 1.
        apply covers_points.
        -- unfold split. rewrite split_on_length. apply count_In in Hin. lia.
        -- pose proof (split_pieces _ 46%N before (Hs eq_refl)) as HP. eapply Forall_impl; [|exact HP].
           intros x [P1 P2]. split; [exact Hup|]. apply Forall_forall. intros c Hc.
           rewrite Forall_forall in P1, P2. split; [apply P2 | apply P1]; exact Hc.
      * intros _. rewrite Forall_map. cbn [snd]. apply interleave_pieces; [|discriminate].
        destruct before as [|c l]; [contradiction|]. destruct Hd as [Hd1 Hd2]. unfold split. cbn [split_on].
        apply N.eqb_neq in Hd1. rewrite Hd1. apply (split_on_dots l [c] c Hd2). discriminate.
  - destruct (regular_word_ok i j t before Hb Hij Hj Hu Hh) as (rs & Er & Gr).
    destruct (nth_error s j) as [a|] eqn:Ej.
    2: { rewrite Er. cbn [bind]. eexists; eexists; split; [reflexivity|]. split; [lia | exact Gr]. }
    pose proof (nth_error_lt _ _ _ Ej) as Lj.
    destruct (memb a APOSTROPHES).
    + set (k := scan (fun n => isalnum n || memb n SIGILS) s (j + 1)).
      assert (Hk : j + 1 <= k <= length s) by (apply scan_bounds; unfold str in *; lia).
      assert (Whole : before ++ [a] ++ slice s (j + 1) k = slice s i k).
      { rewrite Hb. rewrite <- (slice_one s j a Ej). rewrite app_assoc, !slice_app by lia. reflexivity. }
      assert (Part : before ++ [a] = slice s i (j + 1)).
      { rewrite Hb. rewrite <- (slice_one s j a Ej). rewrite slice_app by lia. reflexivity. }
      assert (G1 : forall t', good i (j + 1) [(t', before ++ [a])]).
      { intros t'. apply good_concat; [cbn [map snd concat]; rewrite app_nil_r; exact Part|]. repeat constructor. cbn [snd].
        destruct before; discriminate. }
      destruct (Nat.ltb_spec (j + 1) k) as [Lk|Lk].
      * assert (Hn : slice s (j + 1) k <> []) by (apply slice_nonempty; lia).
        destruct (slice s (j + 1) k) as [|a0 al] eqn:Eaf; [contradiction|].
        destruct (rev before) as [|b0 bl] eqn:Eb.
        { exfalso. apply NE. rewrite <- (rev_involutive before), Eb. reflexivity. }
        assert (G2 : forall t', good i k [(t', before ++ [a] ++ a0 :: al)]).
        { intros t'. apply good_concat; [cbn [map snd concat]; rewrite app_nil_r; exact Whole|]. repeat constructor. cbn [snd].
          destruct before; discriminate. }
        destruct (isdigit a0); [eexists; eexists; split; [reflexivity|]; split; [unfold str in *; lia | apply G1]|].
        branch.
        { eexists; eexists; split; [reflexivity|]; split; [lia|]. apply good_concat.
          - cbn [map snd concat]. rewrite app_nil_r. exact Whole.
          - repeat constructor; [exact NE | discriminate]. }
        branch.
        { eexists; eexists; split; [reflexivity|]; split; [lia|]. rewrite <- Whole. apply G2. }
        branch.
        { eexists; eexists; split; [reflexivity|]; split; [lia | apply G2]. }
        eexists; eexists; split; [reflexivity|]; split; [unfold str in *; lia | apply G1].
      * eexists; eexists; split; [reflexivity|]; split; [lia|]. replace k with (j + 1) by lia. apply good_concat.
        -- cbn [map snd concat]. rewrite <- Part. reflexivity.
        -- repeat constructor; [exact NE | discriminate].
    + destruct (Nat.ltb (j + 1) (length s) && (a =? 46)%N && memb (lower before) ABBREVIATIONS) eqn:Ab.
      * apply andb_prop in Ab. destruct Ab as [Ab _]. apply andb_prop in Ab. destruct Ab as [_ Ab]. apply N.eqb_eq in Ab. subst a.
        eexists; eexists; split; [reflexivity|]; split; [unfold str in *; lia|]. apply good_concat.
        -- cbn [map snd concat]. rewrite app_nil_r, Hb. change (codes ".") with [46%N]. rewrite <- (slice_one s j _ Ej), slice_app by lia. reflexivity.
        -- repeat constructor. cbn [snd]. destruct before; discriminate.
      * rewrite Er. cbn [bind]. eexists; eexists; split; [reflexivity|]. split; [lia | exact Gr].
Qed.

Lemma finish_ok i j t acr c :
  nth_error s i = Some c -> i < j -> j <= length s -> (acr = true -> nospace (slice s i j)) ->
  c <> 46%N ->
  (acr = true -> In 46%N (slice s i j) /\ upper_point isupper s /\ dots_ok c (slice s (i + 1) j)) ->
  (acr = true -> memb c APOSTROPHES = true -> nth_error s (i + 1) <> Some 46%N) ->
  (t = Word -> forall r, slice s i j = 45%N :: r -> memb r FRENCH_UNION_TARGETS = false) ->
  (t = Word -> memb c APOSTROPHES = true -> i + 1 < j -> nth_error s (i + 1) <> Some 45%N) ->
  (t = Hashtag -> i + 2 <= j /\ (c = 35%N \/ c = 36%N)) ->
  exists ts i', finish isalnum isdigit isupper islower lower split_hashtags s i j t acr = Ok (ts, i') /\
    i < i' <= length s /\ good i i' ts.
Proof.
  intros Hc Hij Hj Hs Hdot Ha Haq Hu Huq Hh. unfold finish.
  rewrite (slice_cons s i j c Hc Hij) in *.
  pose proof (nth_error_lt _ _ _ Hc) as Li.
  destruct (memb c APOSTROPHES && negb (memb (lower (slice s (i + 1) j)) ENGLISH_ARCHAIC_CONTRACTIONS)) eqn:E.
  - apply andb_prop in E. destruct E as [Eq _].
    destruct (Nat.eqb_spec (i + 1) j) as [Ej|Ej].
    { eexists; eexists; split; [reflexivity|]. split; [unfold str in *; lia|].
      apply good_concat; [cbn; rewrite (slice_one s i c Hc); reflexivity | repeat constructor; discriminate]. }
    destruct (finish_word_ok (i + 1) j t acr (slice s (i + 1) j)) as (ts & i' & Ef & Li' & [G1 G2]); try reflexivity; try lia.
    + intros A. specialize (Hs A). inversion Hs; assumption.
    + intros A. destruct (Ha A) as (H1 & H2 & H3). split; [|split; [exact H2|]].
      * destruct H1 as [H1|H1]; [congruence | exact H1].
      * destruct (nth_error s (i + 1)) as [d|] eqn:Ed.
        2: { apply nth_error_None in Ed. unfold str in *. lia. }
        rewrite (slice_cons s (i + 1) j d Ed) in * by lia. split; [|exact (proj2 H3)].
        intros ->. apply (Haq A Eq). reflexivity.
    + intros Ht r Er. exfalso. destruct (nth_error s (i + 1)) as [d|] eqn:Ed.
      2: { apply nth_error_None in Ed. unfold str in *. lia. }
      rewrite (slice_cons s (i + 1) j d Ed) in Er by lia. injection Er as -> _. apply (Huq Ht Eq); [lia | reflexivity].
    + intros Ht. exfalso. destruct (Hh Ht) as (_ & [-> | ->]); cbv in Eq; discriminate.
    + rewrite Ef. cbn [bind]. eexists; eexists; split; [reflexivity|]. split; [lia|]. split.
      * rewrite (slice_cons s i i' c Hc) by lia. cbn [map snd]. apply (covers_take skipped forgotten [c]). exact G1.
      * intros HN. constructor; [discriminate | apply G2; exact HN].
  - destruct (finish_word_ok i j t acr (c :: slice s (i + 1) j)) as (ts & i' & Ef & Li' & G); try lia.
    + symmetry. apply slice_cons; assumption.
    + exact Hs.
    + intros A. destruct (Ha A) as (H1 & H2 & H3). split; [exact H1|]. split; [exact H2|]. split; [exact Hdot | exact H3].
    + exact Hu.
    + intros Ht. destruct (Hh Ht) as (L & Hc'). split.
      * cbn [length]. rewrite slice_length by exact Hj. lia.
      * exists c, (slice s (i + 1) j). split; [reflexivity | exact Hc'].
    + exists ts, i'. split; [exact Ef|]. split; [lia | exact G].
Qed.

Lemma slice_skipn i j n : slice s i (j + n) = slice s i j ++ firstn n (skipn j s) \/ j < i.
Proof.
  destruct (Nat.lt_ge_cases j i) as [H|H]; [right; exact H|left].
  rewrite <- (slice_app s i j (j + n)) by lia. f_equal. unfold slice. f_equal. lia.
Qed.

Lemma slice_extend i j j' : i <= j -> j <= j' -> slice s i j' = slice s i j ++ firstn (j' - j) (skipn j s).
Proof. intros H1 H2. destruct (slice_skipn i j (j' - j)) as [E|E]; [|lia]. replace (j + (j' - j)) with j' in E by lia. exact E. Qed.

Lemma last_slice i j c : nth_error s i = Some c -> i < j -> j <= length s -> last (c :: slice s (i + 1) j) 0%N = nth (j - 1) s 0%N.
Proof.
  intros Hc Hij Hj. rewrite <- (slice_cons s i j c Hc Hij).
  assert (E : slice s i j = slice s i (j - 1) ++ [nth (j - 1) s 0%N]).
  { rewrite <- (slice_app s i (j - 1) j) by lia. f_equal. destruct (nth_error s (j - 1)) as [d|] eqn:Ed.
    - replace j with (j - 1 + 1) at 2 by lia. rewrite (slice_one s (j - 1) d Ed). rewrite (nth_error_nth s (j - 1) 0%N Ed). reflexivity.
    - apply nth_error_None in Ed. unfold str in *. lia. }
  rewrite E. apply last_last.
Qed.

Lemma alphanumerical_ok lookahead i j c :
  nth_error s i = Some c -> i < j -> j <= length s -> nospace (slice s i j) -> c <> 46%N ->
  dots_ok c (slice s (i + 1) j) ->
  (memb c APOSTROPHES = true -> j = i + 1 /\ nth_error s (i + 1) <> Some 45%N) ->
  (c = 45%N -> exists d, nth_error s (i + 1) = Some d /\ (isdigit d = true \/ memb d DECIMALS = true) /\ i + 2 <= j) ->
  exists ts i', alphanumerical isspace isalnum isdigit isupper islower lower split_hashtags s lookahead i j Word = Ok (ts, i') /\
    i < i' <= length s /\ good i i' ts.
Proof.
  intros Hc Hij Hj Hs Hdot Hd Hap Hhy. unfold alphanumerical.
  set (could := starts_as_url lookahead || email_lookahead lookahead).
  destruct (alnum_loop isspace isalnum isupper could (skipn j s) (nth (j - 1) s 0%N) j false) as [j' acr] eqn:E.
  pose proof E as E0. apply (alnum_loop_ok isspace isalnum isalpha isdigit isupper) in E0. destruct E0 as (L & F & A). rewrite skipn_length in L.
  assert (Ext : forall k, k <= j -> slice s k j' = slice s k j ++ firstn (j' - j) (skipn j s)) by (intros k Hk; apply slice_extend; lia).
  assert (Ns : nospace (slice s i j')) by (rewrite Ext by lia; apply Forall_app; split; assumption).
  set (t := if starts_as_url lookahead then Url else if email_lookahead lookahead then Email else Word).
  apply (finish_ok i j' t acr c); try assumption; try (unfold str in *; lia); [intros _; exact Ns | | | | |].
  - intros ->. destruct (A eq_refl eq_refl) as (Ec & Hin & U). rewrite Ext by lia. split; [|split].
    + apply in_or_app. right. exact Hin.
    + destruct U as (a & u & b & Eu & Hu). exists (firstn (j - 1) s ++ a), u, b. split; [|exact Hu].
      rewrite <- app_assoc, <- Eu. rewrite <- (firstn_skipn (j - 1) s) at 1. f_equal.
      destruct (nth_error s (j - 1)) as [d|] eqn:Ed.
      2: { apply nth_error_None in Ed. unfold str in *. lia. }
      rewrite (nth_error_nth s (j - 1) 0%N Ed), (skipn_nth s (j - 1) d Ed). replace (j - 1 + 1) with j by lia. reflexivity.
    + rewrite Ec in E. apply (alnum_loop_dots _ _ _ _ _ classes) in E. destruct E as [E _].
      rewrite Ext by lia. apply dots_ok_app. split; [exact Hd|]. rewrite (last_slice i j c Hc Hij Hj). exact E.
  - intros -> Hq. destruct (A eq_refl eq_refl) as (Ec & _ & _). rewrite Ec in E.
    apply (alnum_loop_dots _ _ _ _ _ classes) in E. destruct E as [_ E].
    destruct (Hap Hq) as [-> _]. replace (i + 1 - 1) with i in E by lia. rewrite (nth_error_nth s i 0%N Hc) in E.
    assert (Up : isupper c = false).
    { rewrite memb_true in Hq. destruct Hq as [<-|[<-|[]]]; apply classes. }
    specialize (E Up). intros Hp. rewrite (skipn_nth s (i + 1) _ Hp) in E.
    destruct (A eq_refl eq_refl) as (_ & Hin & _). rewrite (skipn_nth s (i + 1) _ Hp) in Hin.
    destruct (j' - (i + 1)) as [|m]; [destruct Hin|]. cbn in E. apply E. reflexivity.
  - intros _ r Er. rewrite (slice_cons s i j' c Hc) in Er by lia. injection Er as Ec Er.
    destruct (Hhy Ec) as (d & Hd1 & Hd2 & Lj). rewrite (slice_cons s (i + 1) j' d Hd1) in Er by lia.
    destruct (memb r FRENCH_UNION_TARGETS) eqn:Hm; [|reflexivity]. exfalso. subst r.
    assert (K : (97 <= d <= 122)%N).
    { assert (C : forallb (fun w : str => match w with x :: _ => (97 <=? x)%N && (x <=? 122)%N | [] => false end) FRENCH_UNION_TARGETS = true) by reflexivity.
      rewrite forallb_forall in C. rewrite memb_true in Hm. specialize (C _ Hm). cbv beta iota in C. lia. }
    destruct Hd2 as [Hd2|Hd2].
    + rewrite (cc_digit_letter _ _ _ _ _ classes d K) in Hd2. discriminate.
    + rewrite memb_true in Hd2. destruct Hd2 as [<-|[<-|[]]]; cbv in K; destruct K as [K _]; apply K; reflexivity.
  - intros _ Hq _. apply (Hap Hq).
  - subst t. destruct (starts_as_url lookahead); [discriminate|]. destruct (email_lookahead lookahead); discriminate.
Qed.

Lemma numeric_loop_type rest : forall lastc chosen t j j' t',
  numeric_loop isspace isalpha isdigit rest lastc chosen t j = (j', true, t') -> t' = t \/ t' = Number.
Proof.
  clear classes. induction rest as [|n rest IH]; intros lastc chosen t j j' t' H; cbn [numeric_loop] in H.
  - injection H as _ <-. left; reflexivity.
  - repeat match type of H with
    | (if ?b then _ else _) = _ => destruct b
    | match ?b with _ => _ end = _ => destruct b
    end; try discriminate; try (injection H as _ <-; left; reflexivity); apply IH in H; destruct H as [->| ->]; right; reflexivity.
Qed.

Lemma consume_ok lookahead i c :
  nth_error s i = Some c -> isspace c = false ->
  memb c (codes "@#$") = true \/ (memb c APOSTROPHES = true /\ nth_error s (i + 1) <> Some 45%N) \/ isalnum c = true \/ c = 45%N ->
  exists ts i', consume isspace isalnum isalpha isdigit isupper islower lower split_hashtags s lookahead i c = Ok (ts, i') /\
    i < i' <= length s /\ good i i' ts.
Proof.
  intros Hc Hsp Hkind. pose proof (nth_error_lt _ _ _ Hc) as Li. unfold consume.
  assert (Mark : exists ts i', Ok ([(Punct, [c])], i + 1) = Ok (ts, i') /\ i < i' <= length s /\ good i i' ts).
  { eexists; eexists; split; [reflexivity|]. split; [unfold str in *; lia|].
    apply good_concat; [cbn; rewrite (slice_one s i c Hc); reflexivity | repeat constructor; discriminate]. }
  assert (Fin : forall j t, i < j -> j <= length s -> c <> 46%N -> t <> Word ->
    (t = Hashtag -> i + 2 <= j /\ (c = 35%N \/ c = 36%N)) ->
    exists ts i', finish isalnum isdigit isupper islower lower split_hashtags s i j t false = Ok (ts, i') /\
      i < i' <= length s /\ good i i' ts).
  { intros j t H1 H2 H3 H4 H5. apply (finish_ok i j t false c); try assumption; try discriminate; intros; contradiction. }
  destruct (memb c (codes "#$")) eqn:Eh.
  { assert (Hc' : c = 35%N \/ c = 36%N).
    { rewrite memb_true in Eh. destruct Eh as [<-|[<-|[]]]; [left | right]; reflexivity. }
    destruct (nth_error s (i + 1)) as [n|] eqn:En; [|exact Mark].
    destruct (isalpha n) eqn:Al; cbn [negb]; [|exact Mark].
    pose proof (nth_error_lt _ _ _ En) as Ln.
    pose proof (scan_gt isalnum s (i + 1) n En (cc_alpha_alnum _ _ _ _ _ classes n Al)) as Lg.
    pose proof (scan_bounds isalnum s (i + 1) ltac:(unfold str in *; lia)) as Lb.
    apply Fin; [lia | lia | destruct Hc' as [-> | ->]; discriminate | discriminate |].
    intros _. split; [lia | exact Hc']. }
  destruct (N.eqb_spec c 64) as [E64|E64].
  { destruct (nth_error s (i + 1)) as [n|] eqn:En; [|exact Mark].
    destruct (is_valid_twitter_char n) eqn:Al; cbn [negb]; [|exact Mark].
    pose proof (nth_error_lt _ _ _ En) as Ln.
    pose proof (scan_bounds is_valid_twitter_char s (i + 1) ltac:(unfold str in *; lia)) as Lb.
    apply Fin; [lia | lia | subst c; discriminate | discriminate | discriminate]. }
  assert (Hkind' : (memb c APOSTROPHES = true /\ nth_error s (i + 1) <> Some 45%N) \/ isalnum c = true \/ c = 45%N).
  { destruct Hkind as [H|H]; [|exact H]. exfalso. rewrite memb_true in H. destruct H as [H|[H|[H|[]]]].
    - apply E64. symmetry. exact H.
    - subst c. cbv in Eh. discriminate.
    - subst c. cbv in Eh. discriminate. }
  assert (Hq : forall d, memb d APOSTROPHES = true -> isalnum d = false).
  { intros d H. rewrite memb_true in H. destruct H as [<-|[<-|[]]]; apply classes. }
  assert (Hdot : c <> 46%N).
  { intros ->. destruct Hkind' as [[H _]|[H|H]]; [cbv in H; discriminate | | discriminate].
    rewrite (cc_alnum_point _ _ _ _ _ classes) in H. discriminate. }
  clear Mark Hkind. destruct (isdigit c || (c =? 45)%N) eqn:Ed.
  - assert (Hdec : memb c DECIMALS = false).
    { destruct (memb c DECIMALS) eqn:E; [|reflexivity]. exfalso. rewrite memb_true in E. destruct E as [<-|[<-|[]]].
      - apply Hdot. reflexivity.
      - apply orb_prop in Ed. destruct Ed as [Ed|Ed]; [|discriminate]. pose proof (cc_digit_comma _ _ _ _ _ classes) as K. cbv in Ed, K. congruence. }
    assert (Hap : memb c APOSTROPHES = false).
    { destruct (memb c APOSTROPHES) eqn:E; [|reflexivity]. pose proof E as Hap0. apply Hq in E. apply orb_prop in Ed. destruct Ed as [Ed|Ed].
      - apply (cc_digit_alnum _ _ _ _ _ classes) in Ed. congruence.
      - apply N.eqb_eq in Ed. subst c. cbv in Hap0. discriminate. }
    destruct (numeric_loop isspace isalpha isdigit (skipn (i + 1) s) c None Punct (i + 1)) as [[j consumed] t] eqn:En.
    pose proof (numeric_loop_ok isspace isalnum isalpha isdigit isupper _ _ _ _ _ _ _ _ En) as (L & B & F & W).
    rewrite skipn_length in L.
    assert (Lj : i + 1 <= j <= length s).
    { destruct B as [B|(_ & B & _)]; [clear -B L Li; unfold str in *; lia | congruence]. }
    destruct consumed.
    + clear Hkind' Hq F W. apply numeric_loop_type in En.
      assert (Lj2 : i + 1 <= (if Nat.ltb (i + 1) j && memb (nth (j - 1) s 0%N) DECIMALS then j - 1 else j) <= length s).
      { destruct (Nat.ltb_spec (i + 1) j); cbn [andb]; [|lia]. destruct (memb (nth (j - 1) s 0%N) DECIMALS); unfold str in *; lia. }
      apply Fin; [lia | lia | exact Hdot | |]; destruct En as [-> | ->]; discriminate.
    + rewrite (W eq_refl) in *. clear W.
      pose proof (numeric_loop_dots _ _ _ _ _ classes _ _ _ _ _ _ _ En) as (D & _ & _).
      assert (Es : slice s (i + 1) j = firstn (j - (i + 1)) (skipn (i + 1) s)) by reflexivity.
      apply (alphanumerical_ok lookahead i j c); [exact Hc | lia | lia | | exact Hdot | exact D | |].
      * rewrite (slice_cons s i j c Hc) by lia. constructor; [exact Hsp | rewrite Es; exact F].
      * intros H. congruence.
      * intros ->. apply (numeric_loop_hyphen isspace isalnum isalpha isdigit isupper) in En. destruct En as (n & r & En & Hn & Ln).
        exists n. split; [|split; [exact Hn | clear -Ln; lia]].
        exact (nth_skipn _ _ _ _ En).
  - apply orb_false_elim in Ed. destruct Ed as [Ed1 Ed2]. apply N.eqb_neq in Ed2.
    apply (alphanumerical_ok lookahead i (i + 1) c); [exact Hc | lia | unfold str in *; lia | | exact Hdot | | |].
    + rewrite (slice_one s i c Hc). constructor; [exact Hsp | constructor].
    + rewrite slice_nil. exact Logic.I.
    + intros H. split; [reflexivity|]. destruct Hkind' as [[_ K]|[K|K]]; [exact K | | contradiction].
      apply Hq in H. congruence.
    + intros H. contradiction.
Qed.

Lemma head_in_lt p u n : head_in p (skipn n u) = true -> n < length u.
Proof.
  intros H. destruct (Nat.lt_ge_cases n (length u)) as [L|L]; [exact L|]. rewrite skipn_all2 in H by exact L. discriminate.
Qed.

Lemma smiley_end_bounds u e : smiley_end u = Some e -> 1 <= e <= length u.
Proof.
  unfold smiley_end. intros H.
  destruct (Nat.leb 1 (span dash u) && head_in (fun c => c =? 62)%N (skipn (span dash u) u)) eqn:E1.
  { apply andb_prop in E1. destruct E1 as [_ E1]. apply head_in_lt in E1. injection H as <-. lia. }
  destruct (head_in (fun c => c =? 60)%N u && Nat.leb 1 (span dash (skipn 1 u))) eqn:E2.
  { apply andb_prop in E2. destruct E2 as [E2 _]. injection H as <-. destruct u as [|x u]; [discriminate|].
    change (skipn 1 (x :: u)) with u. pose proof (span_le dash u). cbn [length]. lia. }
  set (a := opt (fun c => memb c (codes "<>")) u) in *. clearbody a.
  destruct (head_in eyes (skipn a u) && head_in mouth (skipn (a + 1 + opt nose (skipn (a + 1) u)) u)) eqn:E3.
  { apply andb_prop in E3. destruct E3 as [_ E3]. apply head_in_lt in E3. injection H as <-. lia. }
  set (o := opt nose (skipn 1 u)) in *. clearbody o.
  destruct (head_in mouth u && head_in eyes (skipn (1 + o) u)) eqn:E4.
  { apply andb_prop in E4. destruct E4 as [_ E4]. apply head_in_lt in E4. injection H as <-. lia. }
  destruct (head_in (fun c => memb c (codes "<:")) u && head_in (fun c => c =? 51)%N (skipn 1 u)) eqn:E5.
  { apply andb_prop in E5. destruct E5 as [_ E5]. apply head_in_lt in E5. injection H as <-. lia. }
  destruct (starts_with (codes "^^") u) eqn:E6; [|discriminate]. injection H as <-.
  apply starts_with_app in E6. destruct E6 as [b ->]. cbn. lia.
Qed.

Lemma step_ok i c : nth_error s i = Some c ->
  exists ts i', step isspace isalnum isalpha isdigit isupper islower lower emoji split_hashtags s i c = Ok (ts, i') /\
    i < i' <= length s /\ good i i' ts.
Proof.
  intros Hc. pose proof (nth_error_lt _ _ _ Hc) as Li. unfold step.
  destruct (isspace c || is_ascii_junk c) eqn:Es.
  { eexists; eexists; split; [reflexivity|]. split; [unfold str in *; lia|]. split; [|intros _; constructor].
    rewrite (slice_one s i c Hc). apply covers_skip; [|constructor]. apply orb_prop in Es. unfold droppable.
    destruct Es as [Es|Es]; [left; exact Es | right; left; apply N.leb_le; exact Es]. }
  apply orb_false_elim in Es. destruct Es as [Es Ejk].
  destruct (smiley_end (slice s i (i + 64))) as [e|] eqn:Esm.
  { apply smiley_end_bounds in Esm. unfold slice in Esm. rewrite firstn_length, skipn_length in Esm.
    eexists; eexists; split; [reflexivity|]. split; [unfold str in *; lia|].
    apply good_concat; [cbn [map snd concat]; apply app_nil_r|]. repeat constructor. cbn [snd]. apply slice_nonempty; unfold str in *; lia. }
  destruct (memb c (codes "@#$")) eqn:Em.
  { apply consume_ok; [exact Hc | exact Es | left; exact Em]. }
  destruct (negb (isalnum c) && negb (c =? 45)%N) eqn:Ea.
  2: { apply consume_ok; [exact Hc | exact Es | right; right]. apply andb_false_iff in Ea. destruct Ea as [Ea|Ea].
       - left. destruct (isalnum c); [reflexivity | discriminate].
       - right. destruct (N.eqb_spec c 45); [assumption | discriminate]. }
  set (p := fun n => negb (isspace n || isalnum n || is_ascii_junk n || (n =? 35)%N || (n =? 64)%N)).
  pose proof (scan_bounds p s (i + 1) ltac:(unfold str in *; lia)) as Lb.
  destruct (memb (slice s i (scan p s (i + 1))) (map (fun a => [a]) APOSTROPHES)) eqn:Eq.
  - assert (K : memb c APOSTROPHES = true /\ scan p s (i + 1) = i + 1).
    { rewrite memb_true in Eq. rewrite (slice_cons s i _ c Hc) in Eq by lia.
      apply in_map_iff in Eq. destruct Eq as (a & Ea1 & Ea2). injection Ea1 as -> Er. split; [apply memb_true; exact Ea2|].
      apply (f_equal (@length N)) in Er. rewrite slice_length in Er by lia. cbn in Er. lia. }
    destruct K as [K1 K2]. apply consume_ok; [exact Hc | exact Es | right; left]. split; [exact K1|].
    intros H. rewrite <- K2 in H at 1. apply scan_stop in H. unfold p in H.
    rewrite (cc_space_hyphen _ _ _ _ _ classes), (cc_alnum_hyphen _ _ _ _ _ classes) in H. cbv in H. discriminate.
  - eexists; eexists; split; [reflexivity|]. split; [lia|].
    apply good_concat; [apply punct_emoji_concat | apply punct_emoji_nonempty].
Qed.

Lemma tokenize_loop_ok fuel : forall i, i <= length s -> length s <= i + fuel ->
  exists ts, tokenize_loop isspace isalnum isalpha isdigit isupper islower lower emoji split_hashtags fuel s i = Ok ts /\ good i (length s) ts.
Proof.
  induction fuel as [|fuel IH]; intros i H1 H2.
  - assert (E : nth_error s i = None) by (apply nth_error_None; unfold str in *; lia).
    cbn [tokenize_loop]. rewrite E. eexists; split; [reflexivity|]. replace i with (length s) by lia. split; [|intros _; constructor].
    rewrite slice_nil. constructor.
  - cbn [tokenize_loop]. destruct (nth_error s i) as [c|] eqn:E.
    + destruct (step_ok i c E) as (ts & i' & Es & Li & [G1 G2]). rewrite Es. cbn [bind].
      destruct (IH i') as (rest & Er & [R1 R2]); [lia | lia |]. rewrite Er. cbn [bind].
      eexists; split; [reflexivity|]. split.
      * rewrite map_app, <- (slice_app s i i' (length s)) by lia. apply covers_app; assumption.
      * intros HN. apply Forall_app. split; [apply G2 | apply R2]; exact HN.
    + apply nth_error_None in E. eexists; split; [reflexivity|]. replace i with (length s) by (unfold str in *; lia). split; [|intros _; constructor].
      rewrite slice_nil. constructor.
Qed.
End Step.

(** * The whole tokenizer *)
Lemma slice_full (s : str) : slice s 0 (length s) = s.
Proof. unfold slice. rewrite Nat.sub_0_r. cbn [skipn]. apply firstn_all. Qed.

Lemma raw_tokens_ok isspace isalnum isalpha isdigit isupper islower lower emoji split_hashtags s :
  char_classes isspace isalnum isalpha isdigit isupper ->
  exists ts, raw_tokens isspace isalnum isalpha isdigit isupper islower lower emoji split_hashtags s = Ok ts /\
    covers (droppable isspace split_hashtags) (acronym_tail isspace isupper s) s (map snd ts) /\
    (~ euphonic_t s -> Forall (fun t => snd t <> []) ts).
Proof.
  intros C. unfold raw_tokens.
  destruct (tokenize_loop_ok isspace isalnum isalpha isdigit isupper islower lower emoji split_hashtags C s (length s) 0) as (ts & E & G1 & G2); [lia | lia |].
  rewrite slice_full in G1. exists ts. auto.
Qed.

(** * Filters *)
Lemma type_of_name_spec x t : type_of_name x = Some t <-> type_name t = x.
Proof.
  unfold type_of_name. split.
  - destruct (find _ TOKEN_TYPES) as [[n t']|] eqn:E; [|discriminate]. intros H. injection H as <-.
    apply find_some in E. destruct E as [Hin E]. cbn [fst snd] in *. apply String.eqb_eq in E. subst n.
    cbn in Hin. repeat (destruct Hin as [Hin|Hin]; [injection Hin as <- <-; reflexivity|]). destruct Hin.
  - intros <-. destruct t; reflexivity.
Qed.

Lemma type_in_spec t names : type_in t names = true <-> In (type_name t) names.
Proof.
  unfold type_in. rewrite existsb_exists. split.
  - intros (x & Hx & E). destruct (type_of_name x) as [t'|] eqn:T; [|discriminate]. apply type_of_name_spec in T.
    rewrite eqb_true in E. subst. exact Hx.
  - intros H. exists (type_name t). split; [exact H|].
    assert (E : type_of_name (type_name t) = Some t) by (apply type_of_name_spec; reflexivity).
    rewrite E. apply eqb_true. reflexivity.
Qed.

Lemma validate_spec names : validate_token_types names = Ok tt <-> forall x, In x names -> exists t, type_name t = x.
Proof.
  induction names as [|x names IH]; cbn [validate_token_types].
  - split; [intros _ y [] | reflexivity].
  - destruct (type_of_name x) as [t|] eqn:T.
    + apply type_of_name_spec in T. rewrite IH. split.
      * intros H y [<-|Hy]; [exists t; exact T | apply H; exact Hy].
      * intros H y Hy. apply H. right. exact Hy.
    + split; [discriminate|]. intros H. destruct (H x (or_introl eq_refl)) as [t E]. apply type_of_name_spec in E. congruence.
Qed.

Lemma validate_err names : validate_token_types names = Ok tt \/ validate_token_types names = Err TypeError.
Proof. induction names as [|x names IH]; cbn [validate_token_types]; [left; reflexivity|]. destruct (type_of_name x); [exact IH | right; reflexivity]. Qed.

Definition final_options (lower : str -> str) (o : options) : options :=
  {| o_lower := o_lower o; o_unidecode := o_unidecode o; o_reduce_words := o_reduce_words o;
     o_decode_html_entities := o_decode_html_entities o; o_normalize_mentions := o_normalize_mentions o;
     o_normalize_hashtags := o_normalize_hashtags o; o_mentions_as_words := o_mentions_as_words o;
     o_hashtags_as_words := o_hashtags_as_words o; o_split_hashtags := o_split_hashtags o;
     o_min_word_length := o_min_word_length o; o_max_word_length := o_max_word_length o;
     o_stoplist := match o_stoplist o with Some l => Some (set_of (if o_lower o then map lower l else l)) | None => None end;
     o_keep := o_keep o; o_drop := o_drop o |}.

Lemma word_tokenizer_result lower o :
  word_tokenizer lower o = Err TypeError \/ word_tokenizer lower o = Ok (final_options lower o).
Proof.
  unfold word_tokenizer. destruct (match o_keep o with Some _ => _ | None => _ end); [left; reflexivity|].
  destruct (match o_min_word_length o with Some _ => _ | None => _ end); [left; reflexivity|].
  assert (K : forall x : option (list string), match x with Some (n :: l) => validate_token_types (n :: l) | _ => Ok tt end = Ok tt \/
    match x with Some (n :: l) => validate_token_types (n :: l) | _ => Ok tt end = Err TypeError).
  { intros [[|n l]|]; [left; reflexivity | apply validate_err | left; reflexivity]. }
  destruct (K (o_keep o)) as [E|E]; rewrite E; cbn [bind]; [|left; reflexivity].
  destruct (K (o_drop o)) as [E'|E']; rewrite E'; cbn [bind]; [right | left]; reflexivity.
Qed.

Lemma word_tokenizer_accepts lower o : word_tokenizer lower o = Ok (final_options lower o) <-> acceptable o.
Proof.
  assert (K : forall x : option (list string), match x with Some (n :: l) => validate_token_types (n :: l) | _ => Ok tt end = Ok tt <->
    (forall l y, x = Some l -> In y l -> exists t, type_name t = y)).
  { intros [[|n l]|].
    - split; [intros _ l' y E; injection E as <-; intros [] | reflexivity].
    - rewrite validate_spec. split; [intros H l' y E; injection E as <-; apply H | intros H y; apply (H (n :: l) y eq_refl)].
    - split; [discriminate | reflexivity]. }
  assert (KE : forall x : option (list string), match x with Some (n :: l) => validate_token_types (n :: l) | _ => Ok tt end = Ok tt \/
    match x with Some (n :: l) => validate_token_types (n :: l) | _ => Ok tt end = Err TypeError).
  { intros [[|n l]|]; [left; reflexivity | apply validate_err | left; reflexivity]. }
  unfold word_tokenizer, acceptable. split.
  - intros H.
    destruct (match o_keep o with Some _ => match o_drop o with Some _ => true | None => false end | None => false end) eqn:E1; [discriminate|].
    destruct (match o_min_word_length o with Some a => match o_max_word_length o with Some b => Nat.leb b a | None => false end | None => false end) eqn:E2; [discriminate|].
    destruct (KE (o_keep o)) as [E3|E3]; rewrite E3 in H; cbn [bind] in H; [|discriminate].
    destruct (KE (o_drop o)) as [E4|E4]; rewrite E4 in H; cbn [bind] in H; [|discriminate].
    split; [|split].
    + destruct (o_keep o); [|left; reflexivity]. destruct (o_drop o); [discriminate | right; reflexivity].
    + intros a b Ea Eb. rewrite Ea, Eb in E2. apply Nat.leb_gt in E2. exact E2.
    + intros l x [Hl|Hl]; [exact (proj1 (K _) E3 l x Hl) | exact (proj1 (K _) E4 l x Hl)].
  - intros (H1 & H2 & H3).
    assert (E1 : match o_keep o with Some _ => match o_drop o with Some _ => true | None => false end | None => false end = false).
    { destruct (o_keep o); [|reflexivity]. destruct (o_drop o); [|reflexivity]. destruct H1; discriminate. }
    assert (E2 : match o_min_word_length o with Some a => match o_max_word_length o with Some b => Nat.leb b a | None => false end | None => false end = false).
    { destruct (o_min_word_length o); [|reflexivity]. destruct (o_max_word_length o); [|reflexivity]. apply Nat.leb_gt. apply H2; reflexivity. }
    rewrite E1, E2. rewrite (proj2 (K (o_keep o))), (proj2 (K (o_drop o))).
    + cbn [bind]. reflexivity.
    + intros l y Hl. apply H3. right. exact Hl.
    + intros l y Hl. apply H3. left. exact Hl.
Qed.

Definition wanted (lower unidecode : str -> str) (o : options) (tok : token) : bool :=
  let '(t, v) := normalized lower unidecode o tok in
  negb match o_keep o with Some l => negb (type_in (fst tok) l) | None => false end &&
  negb match o_drop o with Some l => type_in (fst tok) l | None => false end &&
  negb (eqb t Word && match o_min_word_length o with Some n => Nat.ltb (length v) n | None => false end) &&
  negb (eqb t Word && match o_max_word_length o with Some n => Nat.ltb n (length v) | None => false end) &&
  negb match o_stoplist o with Some l => memb v l | None => false end.

Lemma filter_token_wanted lower unidecode o tok :
  filter_token lower unidecode o tok = if wanted lower unidecode o tok then [normalized lower unidecode o tok] else [].
Proof.
  destruct tok as [t v]. unfold filter_token, wanted. cbn [fst].
  destruct (match o_keep o with Some l => negb (type_in t l) | None => false end); [cbn [negb andb]; destruct (normalized _ _ _ _); reflexivity|].
  destruct (match o_drop o with Some l => type_in t l | None => false end); [cbn [negb andb]; destruct (normalized _ _ _ _); reflexivity|].
  cbn [negb andb].
  assert (E : (let '(t0, v0) :=
      match t with
      | Mention => let v := if o_normalize_mentions o then lower v else v in if o_mentions_as_words o then (Word, skipn 1 v) else (Mention, v)
      | Hashtag => let v := if o_normalize_hashtags o then unidecode (lower v) else v in if o_hashtags_as_words o then (Word, skipn 1 v) else (Hashtag, v)
      | _ => (t, v)
      end in (t0, if eqb t0 Word && o_lower o then lower v0 else v0)) = normalized lower unidecode o (t, v)).
  { unfold normalized. destruct t; try reflexivity;
      [destruct (o_normalize_hashtags o), (o_hashtags_as_words o) | destruct (o_normalize_mentions o), (o_mentions_as_words o)]; reflexivity. }
  rewrite <- E.
  destruct (match t with Word => _ | _ => _ end) as [t0 v0].
  set (v1 := if eqb t0 Word && o_lower o then lower v0 else v0).
  destruct (eqb t0 Word && match o_min_word_length o with Some n => Nat.ltb (length v1) n | None => false end); [reflexivity|].
  destruct (eqb t0 Word && match o_max_word_length o with Some n => Nat.ltb n (length v1) | None => false end); [reflexivity|].
  destruct (match o_stoplist o with Some l => memb v1 l | None => false end); reflexivity.
Qed.

Lemma wanted_spec lower unidecode o tok :
  wanted lower unidecode (final_options lower o) tok = true <-> requested lower o tok (normalized lower unidecode o tok).
Proof.
  unfold wanted, requested.
  assert (E : normalized lower unidecode (final_options lower o) tok = normalized lower unidecode o tok) by reflexivity.
  rewrite E. destruct (normalized lower unidecode o tok) as [t v]. cbn [fst snd final_options o_keep o_drop o_min_word_length o_max_word_length o_stoplist].
  rewrite !andb_true_iff, !negb_true_iff. split.
  - intros ((((H1 & H2) & H3) & H4) & H5). repeat split.
    + intros l El. rewrite El in H1. apply type_in_spec. destruct (type_in (fst tok) l); [reflexivity | discriminate].
    + intros l El Hin. rewrite El in H2. apply type_in_spec in Hin. congruence.
    + intros -> n En. rewrite En in H3. cbn [eqb] in H3. rewrite (proj2 (eqb_true Word Word) eq_refl) in H3. cbn [andb] in H3. apply Nat.ltb_ge in H3. exact H3.
    + intros -> n En. rewrite En in H4. rewrite (proj2 (eqb_true Word Word) eq_refl) in H4. cbn [andb] in H4. apply Nat.ltb_ge in H4. exact H4.
    + intros l El Hin. rewrite El in H5. apply Bool.not_true_iff_false in H5. apply H5. apply memb_true. apply set_of_In. exact Hin.
  - intros (H1 & H2 & H3 & H4 & H5). repeat split.
    + destruct (o_keep o) as [l|]; [|reflexivity]. rewrite (proj2 (type_in_spec _ _) (H1 l eq_refl)). reflexivity.
    + destruct (o_drop o) as [l|]; [|reflexivity]. apply Bool.not_true_iff_false. intros K. apply type_in_spec in K. exact (H2 l eq_refl K).
    + destruct (eqb t Word) eqn:Et; [|reflexivity]. rewrite eqb_true in Et. destruct (o_min_word_length o) as [n|]; [|reflexivity]. apply Nat.ltb_ge. apply H3; auto.
    + destruct (eqb t Word) eqn:Et; [|reflexivity]. rewrite eqb_true in Et. destruct (o_max_word_length o) as [n|]; [|reflexivity]. apply Nat.ltb_ge. apply H4; auto.
    + destruct (o_stoplist o) as [l|]; [|reflexivity]. apply Bool.not_true_iff_false. intros K. rewrite memb_true, set_of_In in K. exact (H5 l eq_refl K).
Qed.

Lemma flat_map_filter {A B} (p : A -> bool) (f : A -> B) l :
  flat_map (fun x => if p x then [f x] else []) l = map f (filter p l).
Proof. induction l as [|x l IH]; cbn [flat_map filter]; [reflexivity|]. destruct (p x); cbn [app map]; rewrite IH; reflexivity. Qed.

Lemma normalized_id lower unidecode o tok : no_normalization o -> normalized lower unidecode o tok = tok.
Proof.
  intros (H1 & H2 & H3 & H4 & H5). destruct tok as [[] v]; unfold normalized; rewrite ?H1, ?H2, ?H3, ?H4, ?H5; reflexivity.
Qed.

Section Tokenize.
Variables isspace isalnum isalpha isdigit isupper islower letter : N -> bool.
Variables lower unescape unidecode : str -> str.
Variable emoji : str -> nat.

Definition prepared (o : options) (s : str) : str :=
  let s := if o_decode_html_entities o then unescape s else s in
  let s := if o_unidecode o then unidecode s else s in
  if o_reduce_words o then reduce_lenghtening letter s else s.

Lemma tokenize_filters o o' s raw :
  word_tokenizer lower o = Ok o' ->
  raw_tokens isspace isalnum isalpha isdigit isupper islower lower emoji (o_split_hashtags o) (prepared o s) = Ok raw ->
  exists p : token -> bool,
    (forall tok, p tok = true <-> requested lower o tok (normalized lower unidecode o tok)) /\
    tokenize isspace isalnum isalpha isdigit isupper islower letter lower unescape unidecode emoji o' s =
      Ok (map (normalized lower unidecode o) (filter p raw)).
Proof.
  intros Ho Hr. destruct (word_tokenizer_result lower o) as [E|E]; [congruence|]. rewrite E in Ho. injection Ho as <-.
  exists (wanted lower unidecode (final_options lower o)). split; [intros tok; apply wanted_spec|].
  unfold tokenize. change (prepared o s) with (prepared (final_options lower o) s) in Hr. unfold prepared in Hr. cbv zeta in *.
  cbn [final_options o_split_hashtags] in *. rewrite Hr. cbn [bind].
  assert (K : flat_map (filter_token lower unidecode (final_options lower o)) raw =
    map (normalized lower unidecode o) (filter (wanted lower unidecode (final_options lower o)) raw)).
  { rewrite <- flat_map_filter. apply flat_map_ext. intros tok. exact (filter_token_wanted lower unidecode (final_options lower o) tok). }
  destruct (only_defaults (final_options lower o)) eqn:D.
  - f_equal. unfold only_defaults in D. apply negb_true_iff in D. cbn [final_options o_lower o_normalize_mentions o_normalize_hashtags o_mentions_as_words o_hashtags_as_words o_min_word_length o_max_word_length o_stoplist o_keep o_drop] in D.
    repeat (apply orb_false_elim in D; destruct D as [D ?]).
    rewrite (filter_ext_in _ (fun _ => true)).
    + replace (filter (fun _ => true) raw) with raw by (clear; induction raw as [|x l IH]; cbn; congruence).
      symmetry. rewrite <- (map_id raw) at 2. apply map_ext. intros tok. apply normalized_id. repeat split; assumption.
    + intros tok _. unfold wanted. destruct (normalized _ _ _ tok) as [t v].
      cbn [final_options o_min_word_length o_max_word_length o_stoplist o_keep o_drop].
      destruct (o_keep o); [discriminate|]. destruct (o_drop o); [discriminate|]. destruct (o_min_word_length o); [discriminate|].
      destruct (o_max_word_length o); [discriminate|]. destruct (o_stoplist o); [discriminate|]. rewrite !andb_false_r. reflexivity.
  - f_equal. exact K.
Qed.
End Tokenize.

(** * reduce_lenghtening *)
Lemma span_run c n rest : match rest with d :: _ => d <> c | [] => True end -> span (N.eqb c) (repeat c n ++ rest) = n.
Proof.
  intros H. induction n as [|n IH]; cbn [repeat app span].
  - destruct rest as [|d rest]; [reflexivity|]. cbn [span]. destruct (N.eqb_spec c d); [congruence | reflexivity].
  - rewrite N.eqb_refl, IH. reflexivity.
Qed.

Lemma reduce_skip letter k s : forall r, length r = k -> reduce_from letter k (r ++ s) = reduce_from letter 0 s.
Proof. induction k as [|k IH]; intros [|x r] H; try discriminate; [reflexivity|]. cbn [app reduce_from]. apply IH. cbn in H. lia. Qed.

Lemma reduce_run letter c n rest : match rest with d :: _ => d <> c | [] => True end ->
  reduce_from letter 0 (repeat c n ++ rest) = shorten letter (c, n) ++ reduce_from letter 0 rest.
Proof.
  intros H. unfold shorten. destruct (letter c && Nat.leb 5 n) eqn:E.
  - apply andb_prop in E. destruct E as [E1 E2]. apply Nat.leb_le in E2. destruct n as [|n]; [lia|].
    change (repeat c (S n) ++ rest) with (c :: (repeat c n ++ rest)). cbn [reduce_from].
    change (c :: (repeat c n ++ rest)) with (repeat c (S n) ++ rest). rewrite span_run by exact H.
    rewrite E1. rewrite (proj2 (Nat.leb_le 5 (S n)) E2). cbn [andb]. cbn [repeat]. f_equal. cbn [app]. 
    replace (S n - 1) with n by lia. apply reduce_skip. apply repeat_length.
  - induction n as [|n IH]; [reflexivity|].
    change (repeat c (S n) ++ rest) with (c :: (repeat c n ++ rest)). cbn [reduce_from].
    change (c :: (repeat c n ++ rest)) with (repeat c (S n) ++ rest). rewrite span_run by exact H. rewrite E.
    cbn [repeat app]. f_equal. apply IH. destruct (letter c); [|reflexivity]. cbn [andb] in *. apply Nat.leb_gt in E. apply Nat.leb_gt. lia.
Qed.

Lemma expand_head (runs : list (N * nat)) (c : N) : StringsSpec.runs_ok runs -> match runs with (d, _) :: _ => c <> d | [] => True end ->
  match StringsSpec.expand runs with d :: _ => d <> c | [] => True end.
Proof.
  destruct runs as [|[d n] runs]; cbn; [auto|]. intros [Hn _] Hc. destruct n; [lia|]. cbn. congruence.
Qed.

Lemma reduce_runs letter runs : StringsSpec.runs_ok runs ->
  reduce_lenghtening letter (StringsSpec.expand runs) = flat_map (shorten letter) runs.
Proof.
  unfold reduce_lenghtening. induction runs as [|[c n] runs IH]; intros H; [reflexivity|].
  change (StringsSpec.expand ((c, n) :: runs)) with (repeat c n ++ StringsSpec.expand runs).
  cbn [StringsSpec.runs_ok] in H. destruct H as (Hn & Hd & Hr).
  rewrite reduce_run; [cbn [flat_map]; rewrite IH by exact Hr; reflexivity|].
  apply expand_head; [exact Hr|]. destruct runs as [|[d m] runs]; [exact Logic.I|]. exact Hd.
Qed.

Definition short_run (letter : N -> bool) (r : N * nat) : N * nat := (fst r, if letter (fst r) && Nat.leb 5 (snd r) then 3 else snd r).

Lemma shorten_expand letter runs : flat_map (shorten letter) runs = StringsSpec.expand (map (short_run letter) runs).
Proof. unfold StringsSpec.expand. induction runs as [|[c n] runs IH]; [reflexivity|]. cbn [flat_map map]. rewrite IH. reflexivity. Qed.

Lemma short_run_ok letter runs : StringsSpec.runs_ok runs -> StringsSpec.runs_ok (map (short_run letter) runs).
Proof.
  induction runs as [|[c n] runs IH]; [auto|]. intros (H1 & H2 & H3). cbn [map StringsSpec.runs_ok]. split; [|split].
  - unfold short_run. cbn [fst snd] in *. destruct (letter c && Nat.leb 5 n); lia.
  - destruct runs as [|[d m] runs]; [exact Logic.I|]. exact H2.
  - apply IH. exact H3.
Qed.

Lemma short_run_idem letter r : short_run letter (short_run letter r) = short_run letter r.
Proof. destruct r as [c n]. unfold short_run. cbn [fst snd]. destruct (letter c) eqn:E; cbn [andb]; [|reflexivity]. destruct (Nat.leb_spec 5 n); [reflexivity|]. destruct (Nat.leb_spec 5 n); [lia | reflexivity]. Qed.

Lemma reduce_idempotent letter s : reduce_lenghtening letter (reduce_lenghtening letter s) = reduce_lenghtening letter s.
Proof.
  destruct (StringsProofs.runs_exist s) as [runs [Hok <-]]. rewrite reduce_runs by exact Hok. rewrite shorten_expand.
  rewrite reduce_runs by (apply short_run_ok; exact Hok). rewrite shorten_expand, map_map.
  f_equal. apply map_ext. apply short_run_idem.
Qed.
