(** Matching tries exactly what the expression means. *)
From Coq Require Import String Ascii Lia.
From Verif Require Import Base BaseFacts LevModel StringsModel RegexModel RegexSpec RegexProofs.
Open Scope nat_scope.
Open Scope list_scope.
Notation length := List.length.

Definition where_ (st : state) : pos := (before st, after st).
(** the text stays, positions do not go back *)
Definition onward (p q : pos) : Prop := rev (fst q) ++ snd q = rev (fst p) ++ snd p /\ length (fst p) <= length (fst q).
Lemma onward_refl p : onward p p. Proof. split; auto. Qed.
Lemma onward_trans p q r : onward p q -> onward q r -> onward p r.
Proof. intros [A B] [C D]. split; [congruence|lia]. Qed.
Lemma onward_length p q : onward p q -> length (fst q) + length (snd q) = length (fst p) + length (snd p).
Proof. intros [E _]. apply (f_equal (@length N)) in E. rewrite !app_length, !rev_length in E. exact E. Qed.
Lemma onward_same p q : onward p q -> length (fst p) = length (fst q) -> p = q.
Proof.
  destruct p as [b a], q as [b' a']. intros [E _] L. cbn in *. assert (H : length (rev b') = length (rev b)) by (rewrite !rev_length; auto).
  assert (X : rev b' = rev b /\ a' = a).
  { revert E H. generalize (rev b') as x, (rev b) as y. induction x as [|c x IH]; intros [|d y] E H; cbn in *; try discriminate; [auto|]. injection E as -> E. injection H as H. destruct (IH y E H) as [-> ->]. auto. }
  destruct X as [X ->]. apply (f_equal (@rev N)) in X. rewrite !rev_involutive in X. subst. reflexivity.
Qed.
Lemma iterated_onward (R : pos -> pos -> Prop) n : (forall p q, R p q -> onward p q) -> forall p q, iterated n R p q -> onward p q.
Proof. intros H. induction n as [|n IH]; intros p q I; cbn in I; [subst; apply onward_refl|]. destruct I as (m & A & B). eapply onward_trans; eauto. Qed.

Section Engine.
Variables is_digit is_space is_word : N -> bool.
Variable same : N -> N -> bool.
Notation ways := (ways is_digit is_space is_word same).
Notation goes := (goes is_digit is_space is_word same).

Lemma goes_onward r : forall p q, goes r p q -> onward p q.
Proof.
  assert (ADV : forall P p q, advances P p q -> onward p q). { intros P p q (c & b & a & -> & -> & _). split; cbn; [rewrite <- app_assoc; reflexivity|lia]. }
  induction r as [|c| |neg items| | |neg|a IHa b IHb|a IHa b IHb|lazy lo hi a IHa|n a IHa|n|neg a IHa]; intros p q H; cbn in H; try destruct neg; eauto; try (rewrite H; apply onward_refl); try (destruct H as [H _]; rewrite H; apply onward_refl).
  - destruct H as (m & A & B). eapply onward_trans; eauto.
  - destruct H as [H|H]; auto.
  - destruct H as (n & _ & _ & H). eapply iterated_onward; eauto.
  - contradiction.
Qed.

Definition reached (l : list state) (q : pos) : Prop := exists st, In st l /\ where_ st = q.
Lemma step_reached p P st q : (forall c, p c = true <-> P c) -> reached (step p st) q <-> advances P (where_ st) q.
Proof.
  intros E. destruct st as [[b [|c a]] g]; unfold where_; cbn.
  - split; [intros (s & [] & _)|intros (c & b' & a' & X & _); cbn in X; congruence].
  - destruct (p c) eqn:C.
    + split.
      * intros (s & [<-|[]] & <-). exists c, b, a. cbn. repeat split. apply E. exact C.
      * intros (c' & b' & a' & X & -> & _). cbn in X. injection X as <- <- <-. exists (c :: b, a, g). cbn. auto.
    + split; [intros (s & [] & _)|]. intros (c' & b' & a' & X & _ & K). cbn in X. injection X as <- <- <-. apply E in K. congruence.
Qed.
Lemma category_spec k c : in_category is_digit is_space is_word k c = true <-> has_category is_digit is_space is_word k c.
Proof. destruct k; cbn; rewrite ?Bool.negb_true_iff; reflexivity. Qed.
Lemma item_spec c i : in_item is_digit is_space is_word same c i = true <-> described is_digit is_space is_word same c i.
Proof. destruct i; cbn; [reflexivity|rewrite Bool.andb_true_iff, !N.leb_le; reflexivity|apply category_spec]. Qed.
Lemma word_spec s : word_at is_word s = true <-> exists c t, s = c :: t /\ is_word c = true.
Proof. destruct s as [|c s]; cbn; [split; [discriminate|intros (c & t & X & _); discriminate]|]. split; [intros H; exists c, s; auto|intros (d & t & X & H); injection X as <- <-; exact H]. Qed.
Lemma boundary_spec p : xorb (word_at is_word (fst p)) (word_at is_word (snd p)) = true <-> at_boundary is_word p.
Proof.
  unfold at_boundary, word_before, word_after. pose proof (word_spec (fst p)) as B. pose proof (word_spec (snd p)) as A.
  destruct (word_at is_word (fst p)), (word_at is_word (snd p)); cbn; split; intros H; try discriminate; try reflexivity.
  - destruct H as [[_ H]|[_ H]]; elim H; [apply A|apply B]; reflexivity.
  - left. split; [apply B; reflexivity|]. intros X. apply A in X. discriminate.
  - right. split; [apply A; reflexivity|]. intros X. apply B in X. discriminate.
  - destruct H as [[H _]|[H _]]; [apply B in H|apply A in H]; discriminate.
Qed.

Section Repetition.
Variable f : state -> list state.
Variable R : pos -> pos -> Prop.
Hypothesis FR : forall st q, reached (f st) q <-> R (where_ st) q.
Hypothesis RO : forall p q, R p q -> onward p q.
Lemma repeats_sound lazy : forall fuel last lo hi st q, match hi with Some h => lo <= h | None => True end ->
  reached (repeats f lazy fuel last lo hi st) q -> exists n, lo <= n /\ match hi with Some h => n <= h | None => True end /\ iterated n R (where_ st) q.
Proof.
  induction fuel as [|fuel IH]; intros last lo hi st q O H; [destruct H as (s & [] & _)|]. cbn [repeats] in H. destruct H as (s & I & W).
  assert (D : In s (if Nat.eqb lo 0 then [st] else []) \/ match hi with Some 0 => False | _ => True end /\ exists s', In s' (f st) /\ In s (repeats f lazy fuel (if Nat.ltb 0 lo then last else Some (length (before st))) (lo - 1) (option_map pred hi) s')).
  { destruct lazy; apply in_app_or in I; destruct I as [I|I]; auto; right;
      (match type of I with In _ (if ?x then _ else _) => destruct x eqn:A end; [|destruct I]; apply andb_prop in A; destruct A as [A _]; split; [destruct hi as [[|h]|]; [discriminate|exact Logic.I|exact Logic.I]|];
       apply in_flat_map in I; exact I). }
  destruct D as [D|[Z (s' & F & D)]].
  - destruct (Nat.eqb_spec lo 0) as [->|]; [|destruct D]. destruct D as [<-|[]]. exists 0. split; [lia|]. split; [destruct hi; [lia|exact Logic.I]|]. exact W.
  - destruct (IH (if Nat.ltb 0 lo then last else Some (length (before st))) (lo - 1) (option_map pred hi) s' q) as (n & N1 & N2 & N3).
    + destruct hi as [[|h]|]; cbn; [contradiction|lia|exact Logic.I].
    + exists s. auto.
    + exists (S n). split; [lia|]. split; [destruct hi as [[|h]|]; cbn in *; [contradiction|lia|exact Logic.I]|]. exists (where_ s'). split; [|exact N3]. apply FR. exists s'. auto.
Qed.
(** iterations that go nowhere can be left out *)
Lemma iterated_strict n : forall p q, iterated n R p q -> exists k, k <= n /\ iterated k (fun p q => R p q /\ length (fst p) < length (fst q)) p q.
Proof.
  induction n as [|n IH]; intros p q H; [exists 0; auto|]. destruct H as (m & A & B). destruct (IH m q B) as (k & K & C). destruct (Nat.eq_dec (length (fst p)) (length (fst m))) as [E|E].
  - rewrite (onward_same p m (RO _ _ A) E). exists k. split; [lia|exact C].
  - exists (S k). split; [lia|]. exists m. split; [|exact C]. split; [exact A|]. destruct (RO _ _ A) as [_ L]. lia.
Qed.
Lemma repeats_strict lazy n : forall fuel last hi st q, length (after st) < fuel -> match last with Some k => k < length (before st) | None => True end ->
  match hi with Some h => n <= h | None => True end -> iterated n (fun p q => R p q /\ length (fst p) < length (fst q)) (where_ st) q -> reached (repeats f lazy fuel last 0 hi st) q.
Proof.
  induction n as [|n IH]; intros fuel last hi st q L La H I; (destruct fuel as [|fuel]; [lia|]); cbn [repeats].
  - cbn in I. exists st. split; [|exact I]. destruct lazy; apply in_or_app; [left|right]; left; reflexivity.
  - destruct I as (m & [A S1] & B). apply FR in A. destruct A as (s & As & Ws). subst m.
    assert (E : eqb last (Some (length (before st))) = false) by (apply eqb_false; destruct last as [k|]; [intros X; injection X; lia|discriminate]). rewrite E. cbn [Nat.ltb Nat.leb orb negb Nat.sub].
    replace (match hi with Some 0 => false | _ => true end) with true by (destruct hi as [[|h]|]; [lia|reflexivity|reflexivity]). cbn [andb].
    assert (ON : onward (where_ st) (where_ s)) by (apply RO, FR; exists s; auto). pose proof (onward_length _ _ ON) as OL. cbn [where_ fst snd] in OL, S1.
    destruct (IH fuel (Some (length (before st))) (option_map pred hi) s q) as (s2 & I2 & W2); [lia|exact S1|destruct hi; cbn; [lia|exact Logic.I]|exact B|].
    exists s2. split; [|exact W2]. assert (X : In s2 (flat_map (repeats f lazy fuel (Some (length (before st))) 0 (option_map pred hi)) (f st))) by (apply in_flat_map; exists s; auto).
    destruct lazy; apply in_or_app; [right|left]; exact X.
Qed.
Lemma iterated_split a b : forall p q, iterated (a + b) R p q -> exists m, iterated a R p m /\ iterated b R m q.
Proof. induction a as [|a IH]; intros p q H; [exists p; cbn; auto|]. destruct H as (m & A & B). destruct (IH m q B) as (m' & C & D). exists m'. split; [exists m; auto|exact D]. Qed.
Lemma repeats_complete lazy : forall lo fuel hi st q n, lo + length (after st) + 1 <= fuel -> lo <= n -> match hi with Some h => n <= h | None => True end -> iterated n R (where_ st) q ->
  reached (repeats f lazy fuel None lo hi st) q.
Proof.
  induction lo as [|lo IH]; intros fuel hi st q n L N1 N2 I.
  - destruct (iterated_strict n _ _ I) as (k & K & C). eapply repeats_strict; [lia|exact Logic.I| |exact C]. destruct hi; [lia|exact Logic.I].
  - destruct n as [|n]; [lia|]. destruct I as (m & A & B). apply FR in A. destruct A as (s & As & Ws). subst m. destruct fuel as [|fuel]; [lia|]. cbn [repeats Nat.ltb Nat.leb orb Nat.eqb]. rewrite Bool.andb_true_r.
    replace (match hi with Some 0 => false | _ => true end) with true by (destruct hi as [[|h]|]; [lia|reflexivity|reflexivity]).
    assert (ON : onward (where_ st) (where_ s)) by (apply RO, FR; exists s; auto). pose proof (onward_length _ _ ON) as OL. destruct ON as [_ OB]. cbn [where_ fst snd] in OL, OB.
    destruct (IH fuel (option_map pred hi) s q n) as (s2 & I2 & W2); [lia|lia|destruct hi; cbn; [lia|exact Logic.I]|exact B|].
    exists s2. split; [|exact W2]. replace (S lo - 1) with lo by lia. assert (X : In s2 (flat_map (repeats f lazy fuel None lo (option_map pred hi)) (f st))) by (apply in_flat_map; exists s; auto).
    destruct lazy; apply in_or_app; [right|left]; exact X.
Qed.
End Repetition.

Lemma ways_goes r : plain r = true -> ordered r = true -> forall st q, reached (ways r st) q <-> goes r (where_ st) q.
Proof.
  induction r as [|c| |neg items| | |neg|a IHa b IHb|a IHa b IHb|lazy lo hi a IHa|n a IHa|n|neg a IHa]; intros P O st q; cbn [plain ordered] in P, O; cbn [RegexModel.ways RegexSpec.goes].
  - split; [intros (s & [<-|[]] & <-); reflexivity|intros <-; exists st; cbn; auto].
  - apply step_reached. reflexivity.
  - apply step_reached. intros c. rewrite Bool.negb_true_iff, N.eqb_neq. reflexivity.
  - destruct neg; apply step_reached; intros c.
    + rewrite Bool.xorb_true_l, Bool.negb_true_iff. split.
      * intros E i I D. apply item_spec in D. assert (X : existsb (in_item is_digit is_space is_word same c) items = true) by (apply existsb_exists; eauto). congruence.
      * intros H. apply Bool.not_true_iff_false. intros X. apply existsb_exists in X. destruct X as (i & I & D). apply item_spec in D. exact (H i I D).
    + rewrite Bool.xorb_false_l, existsb_exists. split; intros (i & I & D); exists i; (split; [exact I|apply item_spec; exact D]).
  - unfold where_ at 2. cbn [fst]. destruct (before st) as [|x b] eqn:B; split.
    + intros (s & [<-|[]] & <-). auto.
    + intros [<- _]. exists st. cbn. auto.
    + intros (s & [] & _).
    + intros [_ X]. discriminate.
  - unfold where_ at 2 3. cbn [snd]. destruct (after st) as [|x [|y a]] eqn:A.
    + split; [intros (s & [<-|[]] & <-); auto|intros [<- _]; exists st; cbn; auto].
    + destruct (N.eqb_spec x 10) as [->|D]; [split; [intros (s & [<-|[]] & <-); auto|intros [<- _]; exists st; cbn; auto]|]. split; [intros (s & [] & _)|intros [_ [X|X]]; congruence].
    + split; [intros (s & [] & _)|intros [_ [X|X]]; discriminate].
  - pose proof (boundary_spec (where_ st)) as BS. cbn [where_ fst snd] in BS.
    assert (E : (match before st, after st with [], [] => [] | b, a => if xorb neg (xorb (word_at is_word b) (word_at is_word a)) then [st] else [] end) =
      if xorb neg (xorb (word_at is_word (before st)) (word_at is_word (after st))) && negb (match before st, after st with [], [] => true | _, _ => false end) then [st] else []).
    { destruct (before st), (after st); cbn [negb]; rewrite ?Bool.andb_true_r, ?Bool.andb_false_r; reflexivity. }
    rewrite E. assert (Z : match before st, after st with [], [] => true | _, _ => false end = true <-> where_ st = ([], [])).
    { unfold where_. destruct (before st), (after st); split; intros X0; first [reflexivity | discriminate X0]. }
    destruct neg; cbn [negb].
    + rewrite Bool.xorb_true_l. destruct (xorb (word_at is_word (before st)) (word_at is_word (after st))); cbn [negb andb].
      * split; [intros (s & [] & _)|]. intros (_ & _ & X). elim X. apply BS. reflexivity.
      * destruct (match before st, after st with [], [] => true | _, _ => false end); cbn [negb].
        -- split; [intros (s & [] & _)|]. intros (_ & X & _). elim X. apply Z. reflexivity.
        -- split; [intros (s & [<-|[]] & <-)|intros [<- _]; exists st; cbn; auto]. split; [reflexivity|]. split; [intros X; apply Z in X; discriminate|]. intros X. apply BS in X. discriminate.
    + rewrite Bool.xorb_false_l. destruct (xorb (word_at is_word (before st)) (word_at is_word (after st))) eqn:W; cbn [andb].
      * destruct (match before st, after st with [], [] => true | _, _ => false end) eqn:ZZ; cbn [negb].
        -- exfalso. destruct (before st), (after st); discriminate.
        -- split; [intros (s & [<-|[]] & <-); split; [reflexivity|apply BS; reflexivity]|intros [<- _]; exists st; cbn; auto].
      * split; [intros (s & [] & _)|]. intros [_ X]. apply BS in X. discriminate.
  - apply andb_prop in P. apply andb_prop in O. destruct P as [P1 P2], O as [O1 O2]. specialize (IHa P1 O1). specialize (IHb P2 O2). split.
    + intros (s & I & W). apply in_flat_map in I. destruct I as (m & A & B). exists (where_ m). split; [apply IHa; exists m; auto|apply IHb; exists s; auto].
    + intros (m & A & B). apply IHa in A. destruct A as (s & A & <-). apply IHb in B. destruct B as (s2 & B & <-). exists s2. split; [|reflexivity]. apply in_flat_map. exists s. auto.
  - apply andb_prop in P. apply andb_prop in O. destruct P as [P1 P2], O as [O1 O2]. rewrite <- (IHa P1 O1), <- (IHb P2 O2). split.
    + intros (s & I & W). apply in_app_or in I. destruct I; [left|right]; exists s; auto.
    + intros [(s & I & W)|(s & I & W)]; exists s; (split; [apply in_or_app; auto|exact W]).
  - apply andb_prop in O. destruct O as [O1 O2]. specialize (IHa P O1).
    assert (OH : match hi with Some h => lo <= h | None => True end) by (destruct hi; [apply Nat.leb_le; exact O2|exact Logic.I]). split.
    + apply (repeats_sound (ways a) (goes a) IHa (goes_onward a) lazy). exact OH.
    + intros (n & N1 & N2 & I). eapply (repeats_complete (ways a) (goes a) IHa); [intros p' q'; apply goes_onward|lia|exact N1|exact N2|exact I].
  - rewrite <- (IHa P O st q). unfold reached. split.
    + intros (s & I & W). apply in_map_iff in I. destruct I as (s' & <- & I). exists s'. auto.
    + intros (s & I & W). eexists. split; [apply in_map; exact I|exact W].
  - discriminate.
  - specialize (IHa P O st). destruct (ways a st) as [|s l] eqn:E.
    + destruct neg; split.
      * intros (s & [<-|[]] & <-). split; [reflexivity|]. intros q' G. apply IHa in G. destruct G as (s & [] & _).
      * intros [<- _]. exists st. cbn. auto.
      * intros (s & [] & _).
      * intros [_ (q' & G)]. apply IHa in G. destruct G as (s & [] & _).
    + destruct neg; split.
      * intros (s' & [] & _).
      * intros [_ H]. elim (H (where_ s)). apply IHa. exists s. cbn. auto.
      * intros (s' & [<-|[]] & <-). split; [reflexivity|]. exists (where_ s). apply IHa. exists s. cbn. auto.
      * intros [<- _]. eexists. split; [left; reflexivity|reflexivity].
Qed.
End Engine.
