(** The loops over the matches: nothing is lost, and the fuel is enough. *)
From Coq Require Import String Ascii Lia.
From Verif Require Import Base BaseFacts LevModel StringsModel PhoneticsModel RegexModel RegexUsesModel RegexUsesSpec RegexSpec RegexProofs RegexUsesProofs RegexEngineProofs RegexFingerprintProofs.
Open Scope nat_scope.
Open Scope string_scope.
Open Scope list_scope.
Notation length := List.length.

Lemma onward_text p q : onward p q -> exists x : str, fst q = rev x ++ fst p /\ snd p = x ++ snd q.
Proof.
  intros [E L]. destruct p as [b a], q as [b' a']. cbn [fst snd] in *.
  assert (E1 : rev b = firstn (length b) (rev b')).
  { transitivity (firstn (length b) (rev b' ++ a')). rewrite E, firstn_app, rev_length, Nat.sub_diag, app_nil_r. rewrite firstn_all2; [reflexivity|rewrite rev_length; lia]. rewrite firstn_app, rev_length. replace (length b - length b') with 0 by lia. cbn. apply app_nil_r. }
  exists (skipn (length b) (rev b')). split.
  - apply (f_equal (@rev N)) in E1. rewrite rev_involutive in E1. rewrite E1 at 2. rewrite <- rev_app_distr, firstn_skipn. symmetry. apply rev_involutive.
  - rewrite <- (firstn_skipn (length b) (rev b')), <- E1, <- app_assoc in E. apply app_inv_head in E. symmetry. exact E.
Qed.
Lemma firstn_before (x a : str) : firstn (length (x ++ a) - length a) (x ++ a) = x.
Proof. rewrite app_length. replace (length x + length a - length a) with (length x) by lia. rewrite firstn_app, Nat.sub_diag, firstn_all, app_nil_r. reflexivity. Qed.

Lemma repeats_moves (f : state -> list state) : (forall st st', In st' (f st) -> onward (where_ st) (where_ st')) ->
  forall lazy fuel last lo hi st st', In st' (repeats f lazy fuel last lo hi st) -> onward (where_ st) (where_ st').
Proof.
  intros F lazy. induction fuel as [|fuel IH]; intros last lo hi st st' H; [contradiction|]. cbn [repeats] in H. cbn zeta in H.
  assert (X : In st' (if match hi with Some O => false | _ => true end && (Nat.ltb 0 lo || negb (eqb last (Some (length (before st))))) then flat_map (repeats f lazy fuel (if Nat.ltb 0 lo then last else Some (length (before st))) (lo - 1) (option_map pred hi)) (f st) else []) \/ In st' (if Nat.eqb lo 0 then [st] else [])).
  { destruct lazy; apply in_app_or in H; tauto. }
  clear H. destruct X as [X|X].
  - destruct (match hi with Some O => false | _ => true end && (Nat.ltb 0 lo || negb (eqb last (Some (length (before st)))))); [|contradiction]. apply in_flat_map in X. destruct X as (m & M1 & M2). eapply onward_trans; [apply F; exact M1|eapply IH; exact M2].
  - destruct (Nat.eqb lo 0); [|contradiction]. destruct X as [<-|[]]. apply onward_refl.
Qed.
(** repetitions: more fuel changes nothing *)
Lemma flat_map_ext_in_ {A B} (f g : A -> list B) l : (forall x, In x l -> f x = g x) -> flat_map f l = flat_map g l.
Proof. induction l as [|x l IH]; intros H; [reflexivity|]. cbn. rewrite (H x) by (left; reflexivity). rewrite IH; [reflexivity|]. intros y Y. apply H. right. exact Y. Qed.
Definition needed (last : option nat) (lo : nat) (st : state) : nat := lo + length (after st) + (if eqb last (Some (length (before st))) then 1 else 2).
Lemma repeats_more (f : state -> list state) : (forall st st', In st' (f st) -> onward (where_ st) (where_ st')) ->
  forall lazy fuel last lo hi st, needed last lo st <= fuel -> repeats f lazy (S fuel) last lo hi st = repeats f lazy fuel last lo hi st.
Proof.
  intros F lazy. induction fuel as [|fuel IH]; intros last lo hi st L.
  - unfold needed in L. destruct (eqb last (Some (length (before st)))); lia.
  - change (repeats f lazy (S (S fuel)) last lo hi st) with (let here := length (before st) in
    let allowed := match hi with Some O => false | _ => true end && (Nat.ltb 0 lo || negb (eqb last (Some here))) in
    let more := if allowed then flat_map (repeats f lazy (S fuel) (if Nat.ltb 0 lo then last else Some here) (lo - 1) (option_map pred hi)) (f st) else [] in
    let stop := if Nat.eqb lo 0 then [st] else [] in
    if lazy then stop ++ more else more ++ stop).
    change (repeats f lazy (S fuel) last lo hi st) with (let here := length (before st) in
    let allowed := match hi with Some O => false | _ => true end && (Nat.ltb 0 lo || negb (eqb last (Some here))) in
    let more := if allowed then flat_map (repeats f lazy fuel (if Nat.ltb 0 lo then last else Some here) (lo - 1) (option_map pred hi)) (f st) else [] in
    let stop := if Nat.eqb lo 0 then [st] else [] in
    if lazy then stop ++ more else more ++ stop).
    cbn zeta. destruct (match hi with Some O => false | _ => true end); cbn [andb]; [|reflexivity].
    destruct (Nat.ltb 0 lo || negb (eqb last (Some (length (before st))))) eqn:A; [|reflexivity].
    assert (X : flat_map (repeats f lazy (S fuel) (if Nat.ltb 0 lo then last else Some (length (before st))) (lo - 1) (option_map pred hi)) (f st) = flat_map (repeats f lazy fuel (if Nat.ltb 0 lo then last else Some (length (before st))) (lo - 1) (option_map pred hi)) (f st)); [|rewrite X; reflexivity].
    apply flat_map_ext_in_. intros st' IN. apply IH. apply F in IN. pose proof (onward_length _ _ IN) as O. destruct IN as [_ IN]. unfold where_ in O, IN. cbn [fst snd] in O, IN. unfold needed in *. destruct (Nat.ltb_spec 0 lo) as [P|P]; cbn [orb] in A.
    + destruct (eqb last (Some (length (before st)))) eqn:E1, (eqb last (Some (length (before st')))) eqn:E2; try lia. apply (proj1 (eqb_true _ _)) in E1. subst last. destruct (Nat.eq_dec (length (before st)) (length (before st'))) as [Q|Q]; [|lia]. apply (proj1 (eqb_false _ _)) in E2. congruence.
    + apply Bool.negb_true_iff in A. rewrite A in L. destruct (eqb (Some (length (before st))) (Some (length (before st')))) eqn:E2; [apply (proj1 (eqb_true _ _)) in E2; injection E2 as E2; lia|]. apply (proj1 (eqb_false _ _)) in E2. assert (length (before st) <> length (before st')) by congruence. lia.
Qed.

Section Loops.
Variables is_digit is_space is_word : N -> bool.
Variable same : N -> N -> bool.
Notation ways := (ways is_digit is_space is_word same).
Notation match_at := (match_at is_digit is_space is_word same).

Lemma step_moves (p : N -> bool) st st' : In st' (step p st) -> onward (where_ st) (where_ st').
Proof. destruct st as [[b [|c a]] g]; cbn; [contradiction|]. destruct (p c); [|contradiction]. intros [<-|[]]. unfold where_, onward. cbn. rewrite <- app_assoc. split; [reflexivity|lia]. Qed.
Lemma step_text_moves w : forall st st', In st' (step_text same w st) -> onward (where_ st) (where_ st').
Proof.
  induction w as [|c w IH]; intros st st' H; [destruct H as [<-|[]]; apply onward_refl|]. cbn [step_text] in H. apply in_flat_map in H. destruct H as (m & M1 & M2). eapply onward_trans; [eapply step_moves; exact M1|apply IH; exact M2].
Qed.
Lemma ways_moves r : forall st st', In st' (ways r st) -> onward (where_ st) (where_ st').
Proof.
  assert (ST : forall st st', In st' [st] -> onward (where_ st) (where_ st')) by (intros st st' [<-|[]]; apply onward_refl).
  induction r as [|c| |neg items| | |neg|a IHa b IHb|a IHa b IHb|lazy lo hi a IHa|n a IHa|n|neg a IHa]; intros st st' H; cbn [RegexModel.ways] in H.
  - apply ST. exact H.
  - eapply step_moves. exact H.
  - eapply step_moves. exact H.
  - eapply step_moves. exact H.
  - destruct (before st); [apply ST; exact H|contradiction].
  - destruct (after st) as [|c [|d a]]; [apply ST; exact H| |contradiction]. destruct (N.eqb c 10); [apply ST; exact H|contradiction].
  - destruct (before st), (after st); try contradiction; (match type of H with In _ (if ?x then _ else _) => destruct x end; [apply ST; exact H|contradiction]).
  - apply in_flat_map in H. destruct H as (m & M1 & M2). eapply onward_trans; [apply IHa; exact M1|apply IHb; exact M2].
  - apply in_app_or in H. destruct H; auto.
  - eapply repeats_moves; [exact IHa|exact H].
  - apply in_map_iff in H. destruct H as (m & <- & M). exact (IHa _ _ M).
  - destruct (group n st); [|contradiction]. eapply step_text_moves. exact H.
  - destruct (ways a st) as [|s l]; destruct neg; try contradiction; [apply ST; exact H|]. destruct H as [<-|[]]. apply onward_refl.
Qed.
Lemma match_moves r adv b a st : match_at r adv b a = Some st -> exists x : str, before st = rev x ++ b /\ a = x ++ after st /\ (adv = true -> x <> []).
Proof.
  unfold RegexModel.match_at. intros H. pose proof (find_some _ _ H) as [I1 I2]. apply ways_moves in I1. destruct (onward_text _ _ I1) as (x & X1 & X2). exists x. cbn in X1, X2. repeat split; auto.
  intros -> ->. cbn in X2. rewrite X2 in I2. cbn in I2. apply Nat.ltb_lt in I2. lia.
Qed.
(** a pattern in a group: the group is what was matched *)
Lemma match_group r adv b a st : match_at (Group 1 r) adv b a = Some st -> exists x : str, before st = rev x ++ b /\ a = x ++ after st /\ group 1 st = Some x.
Proof.
  intros H. destruct (match_moves _ _ _ _ _ H) as (x & X1 & X2 & _). exists x. repeat split; auto. unfold RegexModel.match_at in H. apply find_some in H. destruct H as [H _]. cbn [RegexModel.ways] in H. apply in_map_iff in H. destruct H as (m & E & _).
  destruct st as [[b' a'] g]. injection E as E1 E2 E3. cbn in X2. subst a'. unfold group, groups. cbn [snd]. rewrite <- E3. cbn.
  f_equal. cbn in X2. rewrite X2. unfold after. cbn [fst snd]. apply firstn_before.
Qed.
(** ** fuel *)
Definition room (adv : bool) (a : str) : nat := 2 * length a + (if adv then 1 else 2).
Lemma room_match r adv b a st : match_at r adv b a = Some st -> S (room (Nat.eqb (length (after st)) (length a)) (after st)) <= room adv a.
Proof.
  intros H. destruct (match_moves _ _ _ _ _ H) as (x & _ & E & K). unfold room. rewrite E, app_length. destruct x as [|c x]; cbn [length Nat.add].
  - rewrite Nat.eqb_refl. destruct adv; [exfalso; apply K; reflexivity|lia].
  - destruct (Nat.eqb_spec (length (after st)) (S (length x + length (after st)))); [lia|]. destruct adv; lia.
Qed.
Lemma sub_more r repl : forall fuel adv b a, room adv a <= fuel -> sub_loop is_digit is_space is_word same r repl (S fuel) adv b a = sub_loop is_digit is_space is_word same r repl fuel adv b a.
Proof.
  induction fuel as [|fuel IH]; intros adv b a L; [unfold room in L; destruct adv; lia|].
  change (sub_loop is_digit is_space is_word same r repl (S (S fuel)) adv b a) with (match match_at r adv b a with
    | Some st => repl st ++ sub_loop is_digit is_space is_word same r repl (S fuel) (Nat.eqb (length (after st)) (length a)) (before st) (after st)
    | None => match a with [] => [] | c :: a => c :: sub_loop is_digit is_space is_word same r repl (S fuel) false (c :: b) a end end).
  change (sub_loop is_digit is_space is_word same r repl (S fuel) adv b a) with (match match_at r adv b a with
    | Some st => repl st ++ sub_loop is_digit is_space is_word same r repl fuel (Nat.eqb (length (after st)) (length a)) (before st) (after st)
    | None => match a with [] => [] | c :: a => c :: sub_loop is_digit is_space is_word same r repl fuel false (c :: b) a end end).
  destruct (match_at r adv b a) as [st|] eqn:M.
  - apply room_match in M. rewrite IH by lia. reflexivity.
  - destruct a as [|c a]; [reflexivity|]. rewrite IH; [reflexivity|]. unfold room in *. cbn in L. destruct adv; lia.
Qed.
Lemma split_more r n : forall fuel adv piece b a, room adv a <= fuel -> split_loop is_digit is_space is_word same r n (S fuel) adv piece b a = split_loop is_digit is_space is_word same r n fuel adv piece b a.
Proof.
  induction fuel as [|fuel IH]; intros adv piece b a L; [unfold room in L; destruct adv; lia|].
  change (split_loop is_digit is_space is_word same r n (S (S fuel)) adv piece b a) with (match match_at r adv b a with
    | Some st => Some (rev piece) :: map (fun k => group k st) (seq 1 n) ++ split_loop is_digit is_space is_word same r n (S fuel) (Nat.eqb (length (after st)) (length a)) [] (before st) (after st)
    | None => match a with [] => [Some (rev piece)] | c :: a => split_loop is_digit is_space is_word same r n (S fuel) false (c :: piece) (c :: b) a end end).
  change (split_loop is_digit is_space is_word same r n (S fuel) adv piece b a) with (match match_at r adv b a with
    | Some st => Some (rev piece) :: map (fun k => group k st) (seq 1 n) ++ split_loop is_digit is_space is_word same r n fuel (Nat.eqb (length (after st)) (length a)) [] (before st) (after st)
    | None => match a with [] => [Some (rev piece)] | c :: a => split_loop is_digit is_space is_word same r n fuel false (c :: piece) (c :: b) a end end).
  destruct (match_at r adv b a) as [st|] eqn:M.
  - apply room_match in M. rewrite IH by lia. reflexivity.
  - destruct a as [|c a]; [reflexivity|]. rewrite IH; [reflexivity|]. unfold room in *. cbn in L. destruct adv; lia.
Qed.
Lemma sub_enough r repl s fuel : 2 * length s + 2 <= fuel -> sub_loop is_digit is_space is_word same r repl fuel false [] s = re_sub is_digit is_space is_word same r repl s.
Proof. intros L. induction L as [|fuel L IH]; [reflexivity|]. rewrite sub_more by exact L. exact IH. Qed.
Lemma split_enough r n s fuel : 2 * length s + 2 <= fuel -> split_loop is_digit is_space is_word same r n fuel false [] [] s = re_split is_digit is_space is_word same r n s.
Proof. intros L. induction L as [|fuel L IH]; [reflexivity|]. rewrite split_more by exact L. exact IH. Qed.
Lemma rep_enough lazy lo hi r st fuel : lo + length (after st) + 2 <= fuel -> repeats (ways r) lazy fuel None lo hi st = ways (Rep lazy lo hi r) st.
Proof. intros L. induction L as [|fuel L IH]; [reflexivity|]. rewrite repeats_more; [exact IH|apply ways_moves|unfold needed; cbn; lia]. Qed.

(** ** nothing is lost *)
Lemma sub_same r : forall fuel adv b a, room adv a <= fuel -> sub_loop is_digit is_space is_word same (Group 1 r) (expand [inr 1]) fuel adv b a = a.
Proof.
  induction fuel as [|fuel IH]; intros adv b a L; [unfold room in L; destruct adv; lia|]. cbn [sub_loop].
  destruct (match_at (Group 1 r) adv b a) as [st|] eqn:M.
  - pose proof (room_match _ _ _ _ _ M) as RM. destruct (match_group _ _ _ _ _ M) as (x & _ & E & G). unfold expand at 1. cbn [flat_map]. rewrite G, app_nil_r, IH by lia. symmetry. exact E.
  - destruct a as [|c a]; [reflexivity|]. rewrite IH; [reflexivity|]. unfold room in *. cbn in L. destruct adv; lia.
Qed.
Lemma split_all r : forall fuel adv piece b a, room adv a <= fuel -> flat_map said (split_loop is_digit is_space is_word same (Group 1 r) 1 fuel adv piece b a) = rev piece ++ a.
Proof.
  induction fuel as [|fuel IH]; intros adv piece b a L; [unfold room in L; destruct adv; lia|]. cbn [split_loop].
  destruct (match_at (Group 1 r) adv b a) as [st|] eqn:M.
  - pose proof (room_match _ _ _ _ _ M) as RM. destruct (match_group _ _ _ _ _ M) as (x & _ & E & G). cbn [seq map flat_map app said]. rewrite G. cbn [said]. rewrite IH by lia. cbn [rev app]. f_equal. symmetry. exact E.
  - destruct a as [|c a]; [cbn; reflexivity|]. rewrite IH; [|unfold room in *; cbn in L; destruct adv; lia]. cbn [rev]. rewrite <- app_assoc. reflexivity.
Qed.
(** where nothing matches, nothing changes *)
Lemma sub_nothing r repl : (forall b a, match_at r false b a = None) -> forall fuel b a, room false a <= fuel -> sub_loop is_digit is_space is_word same r repl fuel false b a = a.
Proof. intros H. induction fuel as [|fuel IH]; intros b a L; [unfold room in L; lia|]. cbn [sub_loop]. rewrite H. destruct a as [|c a]; [reflexivity|]. rewrite IH; [reflexivity|]. unfold room in *. cbn in L. lia. Qed.
(** ** the match of an expression without references *)
Notation goes := (goes is_digit is_space is_word same).
Lemma match_goes r adv b a : plain r = true -> ordered r = true ->
  match match_at r adv b a with
  | Some st => goes r (b, a) (where_ st) /\ (adv = true -> length (after st) < length a)
  | None => forall q, goes r (b, a) q -> adv = true /\ snd q = a
  end.
Proof.
  intros P O. pose proof (ways_goes is_digit is_space is_word same r P O (b, a, [])) as W. unfold RegexModel.match_at. destruct (find _ _) as [st|] eqn:F.
  - apply find_some in F. destruct F as [F1 F2]. split; [apply W; exists st; auto|]. intros ->. apply Nat.ltb_lt. exact F2.
  - intros q G. pose proof G as G'. apply W in G. destruct G as (st & I1 & <-). pose proof (find_none _ _ F _ I1) as N0. cbn beta in N0. apply Bool.orb_false_iff in N0. destruct N0 as [N1 N2]. apply Bool.negb_false_iff in N1. split; [exact N1|].
    apply Nat.ltb_ge in N2. destruct (onward_text _ _ (goes_onward _ _ _ _ _ _ _ G')) as (x & _ & X). unfold where_ in *. cbn [fst snd] in *. rewrite X, app_length in N2. destruct x; [symmetry; exact X|cbn in N2; lia].
Qed.
(** ** escaped texts *)
Lemma parse_escape s : parse (escape s) = Some (fold_right (fun c r => Seq (Lit c) r) Eps s).
Proof.
  unfold parse. assert (T : tokens (escape s) = Some (escaped s)). { pose proof (tokens_escape s [] [] eq_refl) as T. rewrite !app_nil_r in T. exact T. }
  rewrite T. assert (L : length (escaped s) = length s) by (unfold escaped; apply map_length). rewrite L. replace (2 * length s + 2) with (S (length s + S (length s))) by lia. cbn [parse_alt].
  pose proof (parse_lits 1 [] s (S (length s)) Eps 1 [] [] eq_refl eq_refl) as X. rewrite app_nil_r in X. rewrite X. reflexivity.
Qed.
Lemma goes_lits s : (forall c d, same c d = true <-> c = d) -> forall p q, goes (fold_right (fun c r => Seq (Lit c) r) Eps s) p q <-> fst q = rev s ++ fst p /\ snd p = s ++ snd q.
Proof.
  intros SAME. induction s as [|c s IH]; intros [b a] [b' a']; cbn [fold_right RegexSpec.goes fst snd rev app].
  - split; [intros E; injection E as -> ->; auto|intros [-> ->]; reflexivity].
  - split.
    + intros (m & (x & u & v & E1 & -> & X) & G). injection E1 as -> ->. apply SAME in X. subst x. apply IH in G. cbn in G. destruct G as [-> ->]. rewrite <- app_assoc. auto.
    + intros [-> ->]. exists (c :: b, s ++ a'). split; [exists c, b, (s ++ a'); repeat split; apply SAME; reflexivity|]. apply IH. cbn. rewrite <- app_assoc. auto.
Qed.
Lemma lits_plain s : plain (fold_right (fun c r => Seq (Lit c) r) Eps s) = true /\ ordered (fold_right (fun c r => Seq (Lit c) r) Eps s) = true.
Proof. induction s as [|c s [A B]]; cbn; auto. Qed.
End Loops.
