(** Tokenizing a text cut at a space. *)
From Coq Require Import String.
From Verif Require Import Base BaseFacts LevModel StringsModel PhoneticsModel WordsModel WordsSpec WordsProofs WordsKindSpec WordsKindProofs.
Open Scope nat_scope.
Open Scope list_scope.
Notation length := List.length.
Notation concat := List.concat.

(** * A text followed by a space *)
Section Cut.
Variables isspace isalnum isalpha isdigit isupper islower : N -> bool.
Variable lower : str -> str.
Variable emoji : str -> nat.
Variable split_hashtags : bool.
Hypothesis classes : char_classes isspace isalnum isalpha isdigit isupper.
Hypothesis more : more_classes isspace isalnum isupper islower.
Variables (a b : str) (sp : N).
Hypothesis space : isspace sp = true.
Notation full := (a ++ sp :: b).

Lemma sp_ascii c : (33 <= c <= 126)%N -> sp <> c.
Proof. intros H E. subst c. rewrite (mc_space_ascii _ _ _ _ more sp H) in space. discriminate. Qed.
Lemma sp_alnum : isalnum sp = false.
Proof. destruct (isalnum sp) eqn:E; [|reflexivity]. apply (cc_alnum_space _ _ _ _ _ classes) in E. congruence. Qed.
Lemma sp_memb l : Forall (fun c => (33 <= c <= 126)%N) l -> memb sp l = false.
Proof.
  intros F. destruct (memb sp l) eqn:E; [|reflexivity]. rewrite memb_true in E. rewrite Forall_forall in F. exfalso.
  exact (sp_ascii sp (F _ E) eq_refl).
Qed.
Lemma sp_eqb c : (33 <= c <= 126)%N -> (sp =? c)%N = false.
Proof. intros H. apply N.eqb_neq. apply sp_ascii. exact H. Qed.
Lemma sp_apostrophe : memb sp APOSTROPHES = false.
Proof.
  destruct (memb sp APOSTROPHES) eqn:E; [|reflexivity]. rewrite memb_true in E. destruct E as [E|[E|[]]].
  - exfalso. apply (sp_ascii 39); [lia | symmetry; exact E].
  - rewrite <- E, (mc_space_quote _ _ _ _ more) in space. discriminate.
Qed.
Lemma sp_range l h : (33 <= l)%N -> (h <= 126)%N -> ((l <=? sp) && (sp <=? h))%N = false.
Proof.
  intros H1 H2. destruct (N.leb_spec l sp) as [K1|K1]; [|reflexivity]. destruct (N.leb_spec sp h) as [K2|K2]; [|reflexivity].
  exfalso. apply (sp_ascii sp); [lia | reflexivity].
Qed.

Ltac ascii := repeat (constructor; [split; discriminate|]); constructor.
Lemma sp_eyes : eyes sp = false. Proof. apply sp_memb. cbv [codes map list_ascii_of_string]. ascii. Qed.
Lemma sp_nose : nose sp = false. Proof. apply sp_memb. ascii. Qed.
Lemma sp_mouth : mouth sp = false. Proof. apply sp_memb. ascii. Qed.
Lemma sp_dash : dash sp = false. Proof. apply sp_eqb. lia. Qed.
Lemma sp_sigils : memb sp SIGILS = false. Proof. apply sp_memb. ascii. Qed.
Lemma sp_email : email_char sp = false.
Proof. unfold email_char. rewrite !sp_range by lia. apply sp_memb. ascii. Qed.
Lemma sp_twitter : is_valid_twitter_char sp = false.
Proof. unfold is_valid_twitter_char. rewrite !sp_range, sp_eqb by lia. reflexivity. Qed.

(** matchers stop at the space *)
Lemma span_cut p u r : p sp = false -> span p (u ++ sp :: r) = span p u.
Proof. intros H. induction u as [|c u IH]; cbn [app span]; [rewrite H; reflexivity|]. destruct (p c); [rewrite IH|]; reflexivity. Qed.
Lemma head_cut p u r n : p sp = false -> n <= length u -> head_in p (skipn n (u ++ sp :: r)) = head_in p (skipn n u).
Proof.
  intros H L. rewrite skipn_app. replace (n - length u) with 0 by lia. cbn [skipn].
  destruct (skipn n u) as [|c v]; [cbn; exact H | reflexivity].
Qed.
Lemma skip_cut u r n : n <= length u -> skipn n (u ++ sp :: r) = skipn n u ++ sp :: r.
Proof. intros L. rewrite skipn_app. replace (n - length u) with 0 by lia. reflexivity. Qed.
Lemma opt_cut p u r n : p sp = false -> n <= length u -> opt p (skipn n (u ++ sp :: r)) = opt p (skipn n u).
Proof. intros H L. unfold opt. rewrite head_cut by assumption. reflexivity. Qed.
Lemma head0_cut p u r : p sp = false -> head_in p (u ++ sp :: r) = head_in p u.
Proof. intros H. exact (head_cut p u r 0 H (Nat.le_0_l _)). Qed.
Lemma opt0_cut p u r : p sp = false -> opt p (u ++ sp :: r) = opt p u.
Proof. intros H. exact (opt_cut p u r 0 H (Nat.le_0_l _)). Qed.
Lemma opt_le p u : opt p u <= length u.
Proof. unfold opt, head_in. destruct u; [cbn; lia|]. destruct (p n); cbn; lia. Qed.
Lemma head_length p u n : head_in p (skipn n u) = true -> n < length u.
Proof. intros H. destruct (Nat.lt_ge_cases n (length u)) as [L|L]; [exact L|]. rewrite skipn_all2 in H by exact L. discriminate. Qed.
Lemma starts_cut p u r : Forall (fun c => (33 <= c <= 126)%N) p -> starts_with p (u ++ sp :: r) = starts_with p u.
Proof.
  revert u; induction p as [|c p IH]; intros u F; [reflexivity|]. inversion F as [|? ? F1 F2]; subst. destruct u as [|d u]; cbn [app starts_with].
  - rewrite N.eqb_sym, sp_eqb by exact F1. reflexivity.
  - rewrite IH by exact F2. reflexivity.
Qed.

Lemma smiley_cut u r : smiley_end (u ++ sp :: r) = smiley_end u.
Proof.
  unfold smiley_end.
  rewrite (span_cut dash u r sp_dash), (head_cut _ u r (span dash u)) by (try (apply sp_eqb; lia); apply span_le).
  destruct (Nat.leb 1 (span dash u) && _); [reflexivity|].
  rewrite (head0_cut (fun c => c =? 60)%N u r) by (apply sp_eqb; lia).
  destruct u as [|c u].
  { cbn [app head_in andb skipn]. unfold opt. cbn [head_in]. rewrite (sp_memb (codes "<>")) by ascii. cbn [skipn head_in].
    rewrite sp_eyes, sp_mouth, (sp_memb (codes "<:")) by ascii. cbn [andb].
    change (sp :: r) with ([] ++ sp :: r). rewrite (starts_cut (codes "^^") [] r) by ascii. reflexivity. }
  rewrite (skip_cut (c :: u) r 1) by (cbn; lia). rewrite (span_cut dash (skipn 1 (c :: u)) r sp_dash).
  destruct (head_in _ (c :: u) && Nat.leb 1 _); [reflexivity|].
  rewrite (opt0_cut (fun d => memb d (codes "<>")) (c :: u) r) by (apply sp_memb; ascii).
  rewrite (opt0_cut nose (skipn 1 (c :: u)) r sp_nose), (head0_cut mouth (c :: u) r sp_mouth).
  rewrite (head_cut eyes (c :: u) r (1 + opt nose (skipn 1 (c :: u))) sp_eyes) by (pose proof (opt_le nose (skipn 1 (c :: u))) as Ln; cbn [skipn length] in *; lia).
  rewrite (head0_cut (fun d => memb d (codes "<:")) (c :: u) r) by (apply sp_memb; ascii).
  rewrite (head0_cut (fun d => d =? 51)%N (skipn 1 (c :: u)) r) by (apply sp_eqb; lia).
  rewrite (starts_cut (codes "^^") (c :: u) r) by ascii.
  set (o := opt (fun d => memb d (codes "<>")) (c :: u)). assert (Lo : o <= length (c :: u)) by apply opt_le.
  rewrite (head_cut eyes (c :: u) r o sp_eyes Lo).
  destruct (head_in eyes (skipn o (c :: u))) eqn:He; cbn [andb]; [|reflexivity]. apply head_length in He.
  rewrite (opt_cut nose (c :: u) r (o + 1) sp_nose) by lia. rewrite (head_cut mouth); [reflexivity | exact sp_mouth|].
  pose proof (opt_le nose (skipn (o + 1) (c :: u))) as Ln. rewrite skipn_length in Ln. lia.
Qed.

Lemma url_cut u r : starts_as_url (u ++ sp :: r) = starts_as_url u.
Proof. unfold starts_as_url. rewrite !starts_cut by ascii. reflexivity. Qed.
Lemma email_cut u r : email_lookahead (u ++ sp :: r) = email_lookahead u.
Proof.
  unfold email_lookahead. rewrite (span_cut email_char u r sp_email), head_cut; [reflexivity | apply sp_eqb; lia | apply span_le].
Qed.

(** what is read ahead *)
Lemma ahead_cut {A} (f : str -> A) i : (forall u r, f (u ++ sp :: r) = f u) -> i <= length a -> f (slice full i (i + 64)) = f (slice a i (i + 64)).
Proof.
  intros H L. unfold slice. replace (i + 64 - i) with 64 by lia. rewrite skip_cut by exact L. rewrite firstn_app.
  destruct (Nat.le_gt_cases 64 (length (skipn i a))) as [K|K].
  - replace (64 - length (skipn i a)) with 0 by lia. rewrite firstn_O, app_nil_r. reflexivity.
  - destruct (64 - length (skipn i a)) as [|n] eqn:E; [lia|]. cbn [firstn]. apply H.
Qed.

Lemma slice_cut' i j : j <= length a -> slice full i j = slice a i j.
Proof.
  intros L. unfold slice. destruct (Nat.le_gt_cases i j) as [K|K].
  - rewrite skip_cut by lia. rewrite firstn_app, skipn_length. replace (j - i - (length a - i)) with 0 by lia. rewrite firstn_O, app_nil_r. reflexivity.
  - replace (j - i) with 0 by lia. reflexivity.
Qed.
Lemma nth_cut j : j < length a -> nth_error full j = nth_error a j.
Proof. intros L. apply nth_error_app1. exact L. Qed.
Lemma nth_cut' j : j < length a -> nth j full 0%N = nth j a 0%N.
Proof. intros L. apply app_nth1. exact L. Qed.
Lemma scan_cut p j : p sp = false -> j <= length a -> scan p full j = scan p a j.
Proof. intros H L. unfold scan. rewrite skip_cut by exact L. rewrite span_cut by exact H. reflexivity. Qed.
Lemma nth_end : nth_error full (length a) = Some sp.
Proof. rewrite nth_error_app2, Nat.sub_diag by lia. reflexivity. Qed.

Lemma numeric_cut u r : forall lc ch t j, numeric_loop isspace isalpha isdigit (u ++ sp :: r) lc ch t j = numeric_loop isspace isalpha isdigit u lc ch t j.
Proof.
  induction u as [|n u IH]; intros lc ch t j; cbn [app numeric_loop]; [rewrite space; reflexivity|]. rewrite !IH. reflexivity.
Qed.
Lemma alnum_cut could u r : forall prev j acr, alnum_loop isspace isalnum isupper could (u ++ sp :: r) prev j acr = alnum_loop isspace isalnum isupper could u prev j acr.
Proof.
  induction u as [|n u IH]; intros prev j acr; cbn [app alnum_loop]; [rewrite space; reflexivity|]. rewrite !IH.
  destruct u as [|m u]; cbn [app]; [rewrite space; reflexivity | reflexivity].
Qed.

(** the same result, or an abbreviation before a point at the end of [a] *)
Definition agree (rf ra : res (list token * nat)) : Prop :=
  rf = ra \/ exists pre t x j, ra = Ok (pre ++ [(t, x)], j) /\ j + 1 = length a /\ nth_error a j = Some 46%N /\ In (lower x) ABBREVIATIONS.
Hypothesis lower_marks : forall c x, c = 45%N \/ c = 35%N \/ c = 36%N -> In c x -> In c (lower x).

Lemma abbreviation_plain x c : In (lower x) ABBREVIATIONS -> c = 45%N \/ c = 35%N \/ c = 36%N -> ~ In c x.
Proof.
  intros H Hc Hin. apply (lower_marks c x Hc) in Hin.
  assert (F : forallb (fun w => forallb (fun d => (97 <=? d)%N) w) ABBREVIATIONS = true) by (vm_compute; reflexivity).
  rewrite forallb_forall in F. specialize (F _ H). rewrite forallb_forall in F. specialize (F _ Hin). apply N.leb_le in F. lia.
Qed.

Lemma finish_word_cut i j t acr before : j <= length a -> before = slice a i j -> (t = Hashtag -> exists c r, before = c :: r /\ (c = 35%N \/ c = 36%N)) ->
  agree (finish_word isalnum isdigit isupper islower lower split_hashtags full i j t acr before)
        (finish_word isalnum isdigit isupper islower lower split_hashtags a i j t acr before).
Proof.
  intros L Hb Hh. unfold finish_word. destruct acr; [left; reflexivity|].
  destruct (Nat.eq_dec j (length a)) as [E|E].
  { subst j. rewrite nth_end. rewrite (proj2 (nth_error_None a (length a)) (le_n _)). rewrite sp_apostrophe, sp_eqb, andb_false_r by lia. left. reflexivity. }
  rewrite nth_cut by lia. destruct (nth_error a j) as [d|] eqn:Ej; [|left; reflexivity].
  destruct (memb d APOSTROPHES) eqn:Ap.
  - left. rewrite scan_cut by (try (rewrite sp_alnum, sp_sigils; reflexivity); lia).
    set (k := scan _ a (j + 1)). assert (Lk : k <= length a) by (apply scan_bounds; unfold str in *; lia).
    rewrite !slice_cut' by exact Lk. reflexivity.
  - destruct (Nat.eq_dec (j + 1) (length a)) as [E1|E1].
    + destruct ((d =? 46)%N && memb (lower before) ABBREVIATIONS) eqn:Eb.
      * right. apply andb_prop in Eb. destruct Eb as [Eb1 Eb2]. apply N.eqb_eq in Eb1. subst d. rewrite memb_true in Eb2.
        rewrite E1, Nat.ltb_irrefl. cbn [andb].
        assert (Er : regular_word isdigit isupper islower split_hashtags t before = Ok [(t, before)]).
        { destruct t; cbn [regular_word]; try reflexivity.
          - assert (Ec : count 45 before = 0).
            { destruct (count 45 before) eqn:Ec; [reflexivity|]. exfalso. apply (abbreviation_plain before 45 Eb2); [auto|]. apply count_In. lia. }
            rewrite Ec. reflexivity.
          - exfalso. destruct (Hh eq_refl) as (c & r & Er & Hc). apply (abbreviation_plain before c Eb2); [destruct Hc; auto | rewrite Er; left; reflexivity]. }
        rewrite Er. cbn [bind]. exists [], t, before, j. auto.
      * left. rewrite <- !andb_assoc, Eb, !andb_false_r. reflexivity.
    + left. assert (E2 : Nat.ltb (j + 1) (length full) = Nat.ltb (j + 1) (length a)).
      { rewrite app_length. pose proof (nth_error_lt _ _ _ Ej). destruct (Nat.ltb_spec (j + 1) (length a)); destruct (Nat.ltb_spec (j + 1) (length a + length (sp :: b))); try reflexivity; unfold str in *; lia. }
      rewrite E2. reflexivity.
Qed.

Lemma agree_prefix p rf ra : agree rf ra ->
  agree (let! (ts, i') := rf in Ok (p :: ts, i')) (let! (ts, i') := ra in Ok (p :: ts, i')).
Proof.
  intros [-> | (pre & t & x & j & -> & H)]; [left; reflexivity|]. right. cbn [bind]. exists (p :: pre), t, x, j. split; [reflexivity | exact H].
Qed.

Lemma finish_cut i j t acr : j <= length a -> (t = Hashtag -> exists c r, slice a i j = c :: r /\ (c = 35%N \/ c = 36%N)) ->
  agree (finish isalnum isdigit isupper islower lower split_hashtags full i j t acr)
        (finish isalnum isdigit isupper islower lower split_hashtags a i j t acr).
Proof.
  intros L Hh. unfold finish. rewrite slice_cut' by exact L. destruct (slice a i j) as [|c tail] eqn:E; [left; reflexivity|].
  destruct (memb c APOSTROPHES && _) eqn:Eq.
  - destruct (Nat.eqb (i + 1) j); [left; reflexivity|]. apply agree_prefix. apply finish_word_cut; [exact L | |].
    + destruct (nth_error a i) as [c'|] eqn:Ei.
      * destruct (Nat.le_gt_cases j i) as [K|K]; [unfold slice in E; replace (j - i) with 0 in E by lia; discriminate|].
        rewrite (slice_cons a i j c' Ei K) in E. injection E as _ E. symmetry. exact E.
      * apply nth_error_None in Ei. unfold slice in E. rewrite skipn_all2, firstn_nil in E by (unfold str in *; lia). discriminate.
    + intros Ht. destruct (Hh Ht) as (c' & r & Er & Hc). injection Er as -> _. apply andb_prop in Eq. destruct Eq as [Eq _].
      exfalso. destruct Hc as [-> | ->]; vm_compute in Eq; discriminate.
  - apply finish_word_cut; [exact L | symmetry; exact E | exact Hh].
Qed.

Lemma alphanumerical_cut i j t : i <= length a -> 1 <= j <= length a -> t <> Hashtag ->
  agree (alphanumerical isspace isalnum isdigit isupper islower lower split_hashtags full (slice full i (i + 64)) i j t)
        (alphanumerical isspace isalnum isdigit isupper islower lower split_hashtags a (slice a i (i + 64)) i j t).
Proof.
  intros Li Lj Ht. unfold alphanumerical. rewrite (ahead_cut starts_as_url i url_cut Li), (ahead_cut email_lookahead i email_cut Li).
  rewrite skip_cut, nth_cut', alnum_cut by lia.
  destruct (alnum_loop _ _ _ _ (skipn j a) _ _ _) as [j' acr] eqn:E.
  assert (Lj' : j' <= length a).
  { apply (alnum_loop_ok isspace isalnum isalpha isdigit isupper) in E. destruct E as (L & _). rewrite skipn_length in L. unfold str in *. lia. }
  apply finish_cut; [exact Lj'|]. destruct (starts_as_url _); [discriminate|]. destruct (email_lookahead _); [discriminate|]. intros E2. contradiction.
Qed.

Lemma numeric_loop_bounds rest : forall lc ch t j j' c t',
  numeric_loop isspace isalpha isdigit rest lc ch t j = (j', c, t') -> j - 1 <= j' <= j + length rest /\ (memb lc DECIMALS = false -> j <= j') /\ (c = false -> j <= j') /\ (t <> Hashtag -> t' <> Hashtag).
Proof.
  clear. induction rest as [|n rest IH]; intros lc ch t j j' c t' H; cbn [numeric_loop] in H.
  - injection H as <- <- <-. cbn. repeat split; try lia. auto.
  - assert (G : forall lc' ch', numeric_loop isspace isalpha isdigit rest lc' ch' Number (j + 1) = (j', c, t') -> j - 1 <= j' <= j + length (n :: rest) /\ (memb lc DECIMALS = false -> j <= j') /\ (c = false -> j <= j') /\ (t <> Hashtag -> t' <> Hashtag)).
    { intros lc' ch' E. apply IH in E. destruct E as (E1 & E2 & E4 & E3). cbn [length]. repeat split; try lia. intros _. apply E3. discriminate. }
    repeat match type of H with
    | (if ?b then _ else _) = _ => destruct b eqn:?
    | match ?b with _ => _ end = _ => destruct b eqn:?
    end; try (apply G in H; exact H); injection H as <- <- <-; cbn [length]; repeat split; try lia; try discriminate; auto.
Qed.

Lemma consume_cut i c : nth_error a i = Some c ->
  agree (consume isspace isalnum isalpha isdigit isupper islower lower split_hashtags full (slice full i (i + 64)) i c)
        (consume isspace isalnum isalpha isdigit isupper islower lower split_hashtags a (slice a i (i + 64)) i c).
Proof.
  intros Hc. pose proof (nth_error_lt _ _ _ Hc) as Li. assert (Li1 : i + 1 <= length a) by (unfold str in *; lia). unfold consume.
  destruct (memb c (codes "#$")) eqn:Eh.
  { destruct (Nat.eq_dec (i + 1) (length a)) as [E|E].
    - rewrite E, nth_end. rewrite (proj2 (nth_error_None a (length a)) (le_n _)).
      assert (Al : isalpha sp = false) by (destruct (isalpha sp) eqn:X; [apply (cc_alpha_alnum _ _ _ _ _ classes) in X; rewrite sp_alnum in X; discriminate | reflexivity]).
      rewrite Al. left. reflexivity.
    - rewrite nth_cut by lia. destruct (nth_error a (i + 1)) as [n|] eqn:En; [|left; reflexivity]. destruct (isalpha n) eqn:Al; cbn [negb]; [|left; reflexivity].
      rewrite scan_cut by (try apply sp_alnum; lia).
      pose proof (scan_gt isalnum a (i + 1) n En (cc_alpha_alnum _ _ _ _ _ classes n Al)) as Lg.
      apply finish_cut; [apply scan_bounds; lia|]. intros _. exists c. eexists. split; [apply slice_cons; [exact Hc | lia]|].
      rewrite memb_true in Eh. destruct Eh as [<-|[<-|[]]]; auto. }
  destruct (c =? 64)%N.
  { destruct (Nat.eq_dec (i + 1) (length a)) as [E|E].
    - rewrite E, nth_end. rewrite (proj2 (nth_error_None a (length a)) (le_n _)). rewrite sp_twitter. left. reflexivity.
    - rewrite nth_cut by lia. destruct (nth_error a (i + 1)) as [n|] eqn:En; [|left; reflexivity]. destruct (negb (is_valid_twitter_char n)); [left; reflexivity|].
      rewrite scan_cut by (try apply sp_twitter; lia). apply finish_cut; [apply scan_bounds; lia | discriminate]. }
  destruct (isdigit c || (c =? 45)%N) eqn:Ed.
  - rewrite skip_cut, numeric_cut by lia.
    destruct (numeric_loop isspace isalpha isdigit (skipn (i + 1) a) c None Punct (i + 1)) as [[j consumed] t] eqn:En.
    apply numeric_loop_bounds in En. destruct En as (L1 & L2 & _ & Ht). rewrite skipn_length in L1.
    assert (Hdec : memb c DECIMALS = false).
    { destruct (memb c DECIMALS) eqn:E; [|reflexivity]. exfalso. apply memb_char in E. apply orb_prop in Ed. destruct Ed as [Ed|Ed].
      - apply (decimal_not_digit _ _ _ _ _ classes) in E. congruence.
      - apply N.eqb_eq in Ed. subst c. destruct E as [E|[E|[]]]; discriminate. }
    specialize (L2 Hdec). specialize (Ht ltac:(discriminate)). destruct consumed.
    + rewrite nth_cut' by (unfold str in *; lia). apply finish_cut; [destruct (_ && _); unfold str in *; lia | intros X; contradiction].
    + apply alphanumerical_cut; [lia | unfold str in *; lia | exact Ht].
  - apply alphanumerical_cut; [lia | lia | discriminate].
Qed.

Lemma step_cut i c : nth_error a i = Some c ->
  agree (step isspace isalnum isalpha isdigit isupper islower lower emoji split_hashtags full i c)
        (step isspace isalnum isalpha isdigit isupper islower lower emoji split_hashtags a i c).
Proof.
  intros Hc. pose proof (nth_error_lt _ _ _ Hc) as Li. assert (Li1 : i + 1 <= length a) by (unfold str in *; lia). unfold step.
  destruct (isspace c || is_ascii_junk c); [left; reflexivity|].
  rewrite (ahead_cut smiley_end i smiley_cut) by lia.
  destruct (smiley_end (slice a i (i + 64))) as [e|] eqn:Es.
  { left. apply (smiley_end_bounds isspace lower emoji) in Es. unfold slice in Es. rewrite firstn_length, skipn_length in Es. rewrite slice_cut' by (unfold str in *; lia). reflexivity. }
  destruct (memb c (codes "@#$")); [apply consume_cut; exact Hc|].
  destruct (negb (isalnum c) && negb (c =? 45)%N); [|apply consume_cut; exact Hc].
  set (p := fun n => negb (isspace n || isalnum n || is_ascii_junk n || (n =? 35)%N || (n =? 64)%N)).
  rewrite (scan_cut p) by (try (unfold p; rewrite space; reflexivity); lia).
  pose proof (scan_bounds p a (i + 1) Li1) as Lb. rewrite slice_cut' by lia.
  match goal with |- agree (if ?b then _ else _) _ => destruct b end; [apply consume_cut; exact Hc | left; reflexivity].
Qed.
End Cut.

(** * A text after another one *)
Section Shift.
Variables isspace isalnum isalpha isdigit isupper islower : N -> bool.
Variable lower : str -> str.
Variable emoji : str -> nat.
Variable split_hashtags : bool.
Variables (p s : str).
Notation k := (length p).

Definition shifted (r : res (list token * nat)) : res (list token * nat) := let! (ts, i) := r in Ok (ts, k + i).

Lemma skipn_shift i : skipn (k + i) (p ++ s) = skipn i s.
Proof. rewrite skipn_app. rewrite skipn_all2 by lia. replace (k + i - k) with i by lia. reflexivity. Qed.
Lemma slice_shift i j : slice (p ++ s) (k + i) (k + j) = slice s i j.
Proof. unfold slice. rewrite skipn_shift. f_equal. lia. Qed.
Lemma nth_error_shift i : nth_error (p ++ s) (k + i) = nth_error s i.
Proof. rewrite nth_error_app2 by lia. f_equal. lia. Qed.
Lemma nth_shift i : nth (k + i) (p ++ s) 0%N = nth i s 0%N.
Proof. rewrite app_nth2 by lia. f_equal. lia. Qed.
Lemma scan_shift q i : scan q (p ++ s) (k + i) = k + scan q s i.
Proof. unfold scan. rewrite skipn_shift. lia. Qed.
Lemma ltb_shift i j : Nat.ltb (k + i) (k + j) = Nat.ltb i j.
Proof. destruct (Nat.ltb_spec (k + i) (k + j)), (Nat.ltb_spec i j); try reflexivity; lia. Qed.
Lemma eqb_shift i j : Nat.eqb (k + i) (k + j) = Nat.eqb i j.
Proof. destruct (Nat.eqb_spec (k + i) (k + j)), (Nat.eqb_spec i j); try reflexivity; lia. Qed.
Lemma plus_shift i n : k + i + n = k + (i + n). Proof. lia. Qed.

Lemma finish_word_shift i j t acr before :
  finish_word isalnum isdigit isupper islower lower split_hashtags (p ++ s) (k + i) (k + j) t acr before =
  shifted (finish_word isalnum isdigit isupper islower lower split_hashtags s i j t acr before).
Proof.
  unfold finish_word, shifted. rewrite !plus_shift, !nth_error_shift, !scan_shift, !ltb_shift, !slice_shift, !app_length, !ltb_shift.
  destruct acr; [destruct (forallb _ _); reflexivity|].
  destruct (nth_error s j) as [a|]; [|destruct (regular_word _ _ _ _ _ _); reflexivity].
  destruct (memb a APOSTROPHES).
  - destruct (Nat.ltb _ _); [|reflexivity]. destruct (slice s (j + 1) _) as [|a0 al]; [reflexivity|]. destruct (rev before); [reflexivity|].
    repeat match goal with |- (if ?b then _ else _) = _ => destruct b; [reflexivity|] end. reflexivity.
  - match goal with |- (if ?b then _ else _) = _ => destruct b; [reflexivity|] end. destruct (regular_word _ _ _ _ _ _); reflexivity.
Qed.

Lemma finish_shift i j t acr :
  finish isalnum isdigit isupper islower lower split_hashtags (p ++ s) (k + i) (k + j) t acr =
  shifted (finish isalnum isdigit isupper islower lower split_hashtags s i j t acr).
Proof.
  unfold finish. rewrite plus_shift, eqb_shift, slice_shift. destruct (slice s i j) as [|b tail]; [reflexivity|].
  rewrite !finish_word_shift. destruct (_ && _); [|reflexivity]. destruct (Nat.eqb _ _); [reflexivity|].
  destruct (finish_word _ _ _ _ _ _ s _ _ _ _ _) as [[ts i']|]; reflexivity.
Qed.

Lemma alnum_shift could rest : forall prev j acr,
  alnum_loop isspace isalnum isupper could rest prev (k + j) acr =
  (let '(j', acr') := alnum_loop isspace isalnum isupper could rest prev j acr in (k + j', acr')).
Proof.
  induction rest as [|n rest IH]; intros prev j acr; cbn [alnum_loop]; [reflexivity|]. rewrite plus_shift, !IH.
  repeat match goal with |- context [if ?b then _ else _] => destruct b; try reflexivity end. destruct rest; [reflexivity|].
  destruct (isspace n0); reflexivity.
Qed.

Lemma numeric_shift rest : forall lc ch t j, 1 <= j ->
  numeric_loop isspace isalpha isdigit rest lc ch t (k + j) =
  (let '(j', c, t') := numeric_loop isspace isalpha isdigit rest lc ch t j in (k + j', c, t')).
Proof.
  induction rest as [|n rest IH]; intros lc ch t j Hj; cbn [numeric_loop]; [reflexivity|]. rewrite plus_shift, !IH by lia.
  replace (k + j - 1) with (k + (j - 1)) by lia.
  repeat match goal with |- context [if ?b then _ else _] => destruct b; try reflexivity end; destruct ch; reflexivity.
Qed.

Lemma alphanumerical_shift ahead i j t : 1 <= j ->
  alphanumerical isspace isalnum isdigit isupper islower lower split_hashtags (p ++ s) ahead (k + i) (k + j) t =
  shifted (alphanumerical isspace isalnum isdigit isupper islower lower split_hashtags s ahead i j t).
Proof.
  intros Hj. unfold alphanumerical. rewrite skipn_shift. replace (k + j - 1) with (k + (j - 1)) by lia. rewrite nth_shift, alnum_shift.
  destruct (alnum_loop _ _ _ _ _ _ _ _) as [j' acr]. apply finish_shift.
Qed.

Lemma consume_shift ahead i c :
  consume isspace isalnum isalpha isdigit isupper islower lower split_hashtags (p ++ s) ahead (k + i) c =
  shifted (consume isspace isalnum isalpha isdigit isupper islower lower split_hashtags s ahead i c).
Proof.
  unfold consume. rewrite !plus_shift, !nth_error_shift, !scan_shift, !finish_shift, skipn_shift, numeric_shift, alphanumerical_shift by lia.
  destruct (memb c (codes "#$")).
  { destruct (nth_error s (i + 1)) as [n|]; [|reflexivity]. destruct (negb (isalpha n)); reflexivity. }
  destruct (c =? 64)%N.
  { destruct (nth_error s (i + 1)) as [n|]; [|reflexivity]. destruct (negb (is_valid_twitter_char n)); reflexivity. }
  destruct (isdigit c || (c =? 45)%N); [|reflexivity].
  destruct (numeric_loop isspace isalpha isdigit (skipn (i + 1) s) c None Punct (i + 1)) as [[j consumed] t] eqn:E.
  destruct consumed.
  - rewrite ltb_shift. destruct (Nat.ltb_spec (i + 1) j) as [L|L]; cbn [andb]; [|apply finish_shift].
    replace (k + j - 1) with (k + (j - 1)) by lia. rewrite nth_shift. destruct (memb _ _); apply finish_shift.
  - apply alphanumerical_shift. apply numeric_loop_bounds in E. destruct E as (_ & _ & E & _). specialize (E eq_refl). lia.
Qed.

Lemma step_shift i c :
  step isspace isalnum isalpha isdigit isupper islower lower emoji split_hashtags (p ++ s) (k + i) c =
  shifted (step isspace isalnum isalpha isdigit isupper islower lower emoji split_hashtags s i c).
Proof.
  unfold step. rewrite !plus_shift, !slice_shift, !consume_shift, !scan_shift, !slice_shift.
  destruct (isspace c || is_ascii_junk c); [reflexivity|].
  destruct (smiley_end _) as [e|].
  { rewrite !plus_shift, slice_shift. reflexivity. }
  destruct (memb c _); [reflexivity|]. destruct (_ && _); [|reflexivity]. destruct (memb _ _); reflexivity.
Qed.

Lemma loop_shift fuel : forall i,
  tokenize_loop isspace isalnum isalpha isdigit isupper islower lower emoji split_hashtags fuel (p ++ s) (k + i) =
  tokenize_loop isspace isalnum isalpha isdigit isupper islower lower emoji split_hashtags fuel s i.
Proof.
  induction fuel as [|fuel IH]; intros i; cbn [tokenize_loop]; rewrite nth_error_shift; destruct (nth_error s i) as [c|]; try reflexivity.
  rewrite step_shift. unfold shifted. destruct (step _ _ _ _ _ _ _ _ _ s i c) as [[ts i']|]; [|reflexivity]. cbn [bind]. rewrite IH. reflexivity.
Qed.
End Shift.

(** * Both *)
Section Lines.
Variables isspace isalnum isalpha isdigit isupper islower : N -> bool.
Variable lower : str -> str.
Variable emoji : str -> nat.
Variable split_hashtags : bool.
Hypothesis classes : char_classes isspace isalnum isalpha isdigit isupper.
Hypothesis more : more_classes isspace isalnum isupper islower.
Hypothesis lower_marks : forall c x, c = 45%N \/ c = 35%N \/ c = 36%N -> In c x -> In c (lower x).
Notation loop := (tokenize_loop isspace isalnum isalpha isdigit isupper islower lower emoji split_hashtags).
Notation step' := (step isspace isalnum isalpha isdigit isupper islower lower emoji split_hashtags).

Lemma loop_fuel fuel s : forall i ts n, loop fuel s i = Ok ts -> loop (fuel + n) s i = Ok ts.
Proof.
  induction fuel as [|fuel IH]; intros i ts n H; cbn [tokenize_loop Nat.add] in *; destruct (nth_error s i) as [c|] eqn:E; try discriminate; try exact H.
  - destruct n; cbn [tokenize_loop]; rewrite E; exact H.
  - destruct (step' s i c) as [[ts1 i1]|]; [|discriminate]. cbn [bind] in *. destruct (loop fuel s i1) as [rest|] eqn:Er; [|discriminate].
    rewrite (IH _ _ n Er). exact H.
Qed.

(** the tokens do not end with an abbreviation and a point *)
Definition open_end (ts : list token) : Prop := forall pre t x t', ts = pre ++ [(t, x); (t', codes ".")] -> ~ In (lower x) ABBREVIATIONS.

Lemma last_point s i ts fuel : loop fuel s i = Ok ts -> nth_error s i = Some 46%N -> i + 1 = length s -> exists t, ts = [(t, codes ".")].
Proof.
  intros H Hp L. destruct fuel as [|fuel]; cbn [tokenize_loop] in H; rewrite Hp in H; [discriminate|].
  assert (E : step' s i 46 = Ok (punct_emoji_iter emoji (codes "."), i + 1)).
  { unfold step. rewrite (mc_space_ascii _ _ _ _ more 46) by lia. change (is_ascii_junk 46) with false. cbn [orb].
    assert (Es : slice s i (i + 64) = codes ".").
    { rewrite (slice_cons s i _ _ Hp) by lia. unfold slice. rewrite skipn_all2 by (unfold str in *; lia). rewrite firstn_nil. reflexivity. }
    rewrite Es. change (smiley_end (codes ".")) with (@None nat). cbv iota. change (memb 46%N (codes "@#$")) with false. cbv iota.
    rewrite (cc_alnum_point _ _ _ _ _ classes). change (negb false && negb (46 =? 45)%N) with true. cbv iota.
    set (q := fun n => negb (isspace n || isalnum n || is_ascii_junk n || (n =? 35)%N || (n =? 64)%N)).
    assert (Esc : scan q s (i + 1) = i + 1) by (unfold scan; rewrite skipn_all2 by (unfold str in *; lia); cbn; lia).
    rewrite Esc, (slice_one s i _ Hp). change [46%N] with (codes "."). reflexivity. }
  rewrite E in H. cbn [bind] in H.
  assert (En : loop fuel s (i + 1) = Ok []).
  { assert (X : nth_error s (i + 1) = None) by (apply nth_error_None; unfold str in *; lia). destruct fuel; cbn [tokenize_loop]; rewrite X; reflexivity. }
  rewrite En in H. cbn [bind] in H. injection H as <-. rewrite app_nil_r. unfold punct_emoji_iter, codes. cbn [map list_ascii_of_string with_holes].
  destruct (emoji _) as [|[|n]]; cbn; eexists; reflexivity.
Qed.

Lemma loop_cut a sp b rest n : isspace sp = true -> loop n b 0 = Ok rest -> forall fuel i ts, i <= length a ->
  loop fuel a i = Ok ts -> open_end ts -> loop (fuel + S n) (a ++ sp :: b) i = Ok (ts ++ rest).
Proof.
  intros Sp Hr. assert (After : forall m, loop (m + S n) (a ++ sp :: b) (length a) = Ok rest).
  { intros m. rewrite Nat.add_comm. change (S n + m) with (S (n + m)). cbn [tokenize_loop]. rewrite nth_error_app2, Nat.sub_diag by lia. cbn [nth_error].
    assert (E : step' (a ++ sp :: b) (length a) sp = Ok ([], length a + 1)) by (unfold step; rewrite Sp; reflexivity).
    rewrite E. cbn [bind].
    assert (E2 : loop (n + m) (a ++ sp :: b) (length a + 1) = Ok rest).
    { replace (a ++ sp :: b) with ((a ++ [sp]) ++ b) by (rewrite <- app_assoc; reflexivity).
      replace (length a + 1) with (length (a ++ [sp]) + 0) by (rewrite app_length; cbn; lia).
      rewrite loop_shift. apply loop_fuel. exact Hr. }
    rewrite E2. reflexivity. }
  induction fuel as [|fuel IH]; intros i ts Li H Op; cbn [tokenize_loop] in H; destruct (nth_error a i) as [c|] eqn:E; try discriminate.
  - injection H as <-. apply nth_error_None in E. replace i with (length a) by (unfold str in *; lia). exact (After 0).
  - cbn [Nat.add tokenize_loop]. rewrite nth_error_app1 by (apply nth_error_lt in E; unfold str in *; lia). rewrite E.
    destruct (step_ok isspace isalnum isalpha isdigit isupper islower lower emoji split_hashtags classes a i c E) as (ts1 & i1 & Es & Li1 & _).
    rewrite Es in H. cbn [bind] in H. destruct (loop fuel a i1) as [ts2|] eqn:Er; [|discriminate]. cbn [bind] in H. injection H as <-.
    destruct (step_cut isspace isalnum isalpha isdigit isupper islower lower emoji split_hashtags classes more a b sp Sp lower_marks i c E) as [Eq|Bad].
    + rewrite Eq, Es. cbn [bind]. rewrite (IH i1 ts2); [cbn [bind]; rewrite app_assoc; reflexivity | lia | exact Er|].
      intros pre t x t' Hx. apply (Op (ts1 ++ pre) t x t'). rewrite Hx, app_assoc. reflexivity.
    + exfalso. destruct Bad as (pre & t & x & j & Ej & Lj & Hj & Hx). rewrite Es in Ej. injection Ej as -> ->.
      destruct (last_point a j ts2 fuel Er Hj Lj) as [t' ->]. apply (Op pre t x t'); [rewrite <- app_assoc; reflexivity | exact Hx].
  - injection H as <-. apply nth_error_None in E. replace i with (length a) by (unfold str in *; lia). exact (After (S fuel)).
Qed.

Lemma raw_cut a sp b ta tb : isspace sp = true ->
  raw_tokens isspace isalnum isalpha isdigit isupper islower lower emoji split_hashtags a = Ok ta ->
  raw_tokens isspace isalnum isalpha isdigit isupper islower lower emoji split_hashtags b = Ok tb -> open_end ta ->
  raw_tokens isspace isalnum isalpha isdigit isupper islower lower emoji split_hashtags (a ++ sp :: b) = Ok (ta ++ tb).
Proof.
  intros Sp Ha Hb Op. unfold raw_tokens in *. rewrite app_length. cbn [length].
  apply (loop_cut a sp b tb (length b) Sp Hb (length a) 0 ta); [lia | exact Ha | exact Op].
Qed.
End Lines.
