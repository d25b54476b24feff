(** The explicit matchers of the models do what the patterns of the source do. *)
From Coq Require Import String Ascii Lia.
From Verif Require Import Base BaseFacts LevModel SortModel PassJoinModel StringsModel PhoneticsModel FingerprintModel WordsModel RegexModel RegexUsesModel RegexUsesSpec RegexProofs.
Open Scope nat_scope.
Open Scope string_scope.
Open Scope list_scope.
Notation length := List.length.
Notation concat := List.concat.

Section Uses.
Variables is_digit is_space is_word : N -> bool.
Section Same.
Variable same : N -> N -> bool.
Notation ways := (ways is_digit is_space is_word same).

Definition in_set (negate : bool) (items : list item) (c : N) : bool := xorb negate (existsb (in_item is_digit is_space is_word same c) items).
Lemma ways_eps st : ways Eps st = [st]. Proof. reflexivity. Qed.
Lemma ways_seq a b st : ways (Seq a b) st = flat_map (ways b) (ways a st). Proof. reflexivity. Qed.
Lemma ways_seq_eps a st : ways (Seq a Eps) st = ways a st.
Proof. cbn [RegexModel.ways]. induction (ways a st) as [|x l IH]; [reflexivity|]. cbn. rewrite IH. reflexivity. Qed.
Lemma ways_alt a b st : ways (Alt a b) st = ways a st ++ ways b st. Proof. reflexivity. Qed.
Lemma ways_lit c b a g : ways (Lit c) (b, a, g) = step (same c) (b, a, g). Proof. reflexivity. Qed.
Lemma ways_chars n l b a g : ways (Chars n l) (b, a, g) = step (in_set n l) (b, a, g). Proof. reflexivity. Qed.
Lemma ways_start b a g : ways Start (b, a, g) = match b with [] => [(b, a, g)] | _ => [] end. Proof. reflexivity. Qed.
Lemma ways_opt_chars n l b a g : ways (Rep false 0 (Some 1) (Chars n l)) (b, a, g) = step (in_set n l) (b, a, g) ++ [(b, a, g)].
Proof. apply ways_optional. reflexivity. Qed.
Lemma ways_rep_chars n l lo hi b a g : ways (Rep false lo hi (Chars n l)) (b, a, g) = map (fun n => ahead n b a g) (rev (seq lo (capped hi (run (in_set n l) a) + 1 - lo))).
Proof. apply ways_rep_char. reflexivity. Qed.
End Same.

Notation ways := (ways is_digit is_space is_word N.eqb).
Notation match_at := (match_at is_digit is_space is_word N.eqb).
Notation sub := (sub_pattern is_digit is_space is_word N.eqb).
Notation iset := (in_set N.eqb).
Notation re_sub_re := (RegexModel.re_sub is_digit is_space is_word N.eqb).

Lemma singles l c : existsb (in_item is_digit is_space is_word N.eqb c) (map Single l) = memb c l.
Proof.
  unfold memb. induction l as [|x l IH]; [reflexivity|]. cbn [map existsb in_item]. rewrite IH.
  destruct (N.eqb_spec x c) as [->|E]; destruct (in_dec _ c (_ :: l)) as [I|I], (in_dec _ c l) as [J|J]; cbn in *; try reflexivity; try tauto. 
Qed.
Lemma in_singles n l c : iset n (map Single l) c = xorb n (memb c l).
Proof. unfold in_set. rewrite singles. reflexivity. Qed.

(** templates without references *)
Lemma expand_const w st : expand (map inl w) st = w.
Proof. unfold expand. induction w as [|c w IH]; [reflexivity|]. cbn. rewrite IH. reflexivity. Qed.
Lemma sub_ext r f g s : (forall st, f st = g st) -> re_sub_re r f s = re_sub_re r g s.
Proof.
  intros E. unfold RegexModel.re_sub. generalize (2 * length s + 2) as n, false as ad, (@nil N) as b. intros n. revert s.
  induction n as [|n IH]; intros s ad b; [reflexivity|]. cbn. destruct (RegexModel.match_at _ _ _ _ r ad b s) as [st|]; [rewrite E, IH; reflexivity|]. destruct s; [reflexivity|]. rewrite IH. reflexivity.
Qed.
Lemma sub_const p r w s : parse p = Some r -> template w = Some (map inl w) -> sub p w s = Some (re_sub_re r (fun _ => w) s).
Proof. intros P T. unfold sub_pattern. rewrite P, T. f_equal. apply sub_ext. intros st. apply expand_const. Qed.

(** the scan of the models *)
Definition nil_ (b : str) : bool := match b with [] => true | _ => false end.
Lemma phonetics_scan m w : forall s b k, PhoneticsModel.re_sub m w (nil_ b) k s = scan (fun b a => m (nil_ b) a) w b k s.
Proof.
  induction s as [|c s IH]; intros b k; [reflexivity|]. cbn. destruct k as [|k]; [|apply (IH (c :: b))].
  destruct (m (nil_ b) (c :: s)) as [[|k]|]; rewrite <- (IH (c :: b)); reflexivity.
Qed.
Lemma rule_sub p r m w s (good : str -> Prop) : parse p = Some r -> template w = Some (map inl w) -> (forall c a, good (c :: a) -> good a) ->
  (forall b a, good a -> at_length b a (match_at r false b a) (m (nil_ b) a)) -> good s ->
  sub p w s = Some (PhoneticsModel.re_sub m w true 0 s).
Proof.
  intros P T G M Gs. rewrite (sub_const p r w s P T). f_equal. rewrite (re_sub_scan _ _ _ _ r (fun b a => m (nil_ b) a) w (fun _ a => good a)); auto.
  - symmetry. apply (phonetics_scan m w s [] 0).
Qed.

Ltac norm := repeat first [rewrite ways_seq_eps | rewrite ways_opt_chars | rewrite ways_seq | rewrite ways_alt | rewrite ways_lit | rewrite ways_chars | rewrite ways_start | rewrite ways_eps
  | progress cbn [flat_map step app find negb orb before after fst snd length]].
Ltac cases := repeat (norm; try match goal with |- context [if ?x then _ else _] => destruct x eqn:? end).
Ltac done_ := cbn; first [exact Logic.I | split; [lia|auto]].

Lemma one_of_set l c : iset false (map Single (codes l)) c = one_of l c.
Proof. rewrite in_singles. unfold one_of. destruct (memb c (codes l)); reflexivity. Qed.


Definition cset (l : string) : regex := Chars false (map Single (codes l)).
Lemma set_of_one l b a g : ways (cset l) (b, a, g) = step (one_of l) (b, a, g).
Proof. unfold cset. rewrite ways_chars. unfold step. destruct a as [|c a]; [reflexivity|]. rewrite one_of_set. reflexivity. Qed.
Lemma optional_one l b a g : ways (Rep false 0 (Some 1) (cset l)) (b, a, g) = step (one_of l) (b, a, g) ++ [(b, a, g)].
Proof. unfold cset. rewrite ways_opt_chars. unfold step. destruct a as [|c a]; [reflexivity|]. rewrite one_of_set. reflexivity. Qed.

Ltac norm1 := repeat first [rewrite ways_seq_eps | rewrite optional_one | rewrite ways_seq | rewrite ways_alt | rewrite ways_lit | rewrite set_of_one | rewrite ways_start | rewrite ways_eps
  | progress cbn [flat_map step app find negb orb before after fst snd length xorb]].
Ltac cases1 := unfold chr; norm1; repeat (match goal with |- context [N.eqb ?x ?y] => destruct (N.eqb x y) eqn:? | |- context [one_of ?l ?x] => destruct (one_of l x) eqn:? end; cbn [andb]; norm1).
Ltac refl r := transitivity r; [reflexivity|].
Ltac bools := repeat match goal with H : ?x = true |- context [?x] => rewrite H | H : ?x = false |- context [?x] => rewrite H end.
Ltac hit := try discriminate; try (exfalso; congruence); cbn; first [exact Logic.I | split; [lia|split; reflexivity] | idtac].

Lemma rule_literal w b a : forall r, (forall g b a, ways r (b, a, g) = step_text N.eqb w (b, a, g)) -> 0 < length w -> at_length b a (match_at r false b a) (literal w (nil_ b) a).
Proof.
  intros r E L. unfold RegexModel.match_at. rewrite E. unfold literal.
  assert (X : forall w b a, step_text N.eqb w (b, a, []) = if starts_with w a then [ahead (length w) b a []] else []).
  { clear. induction w as [|c w IH]; intros b a; [reflexivity|]. destruct a as [|x a]; [reflexivity|]. cbn [step_text step starts_with].
    destruct (N.eqb c x); [|reflexivity]. cbn [flat_map]. rewrite app_nil_r, IH. cbn [andb length]. rewrite ahead_S. reflexivity. }
  rewrite X. destruct (starts_with w a) eqn:S; [|exact Logic.I]. cbn. split; [|auto]. split; [exact L|].
  clear - S. revert a S. induction w as [|c w IH]; intros a S; cbn; [lia|]. destruct a as [|x a]; [discriminate|]. cbn in *. apply andb_prop in S. specialize (IH a (proj2 S)). lia.
Qed.
Lemma rule_cz b a : at_length b a (match_at (Seq (Lit 99) (Seq (Lit 122) Eps)) false b a) (m_cz (nil_ b) a).
Proof. apply rule_literal; [|cbn; lia]. intros g b' a'. reflexivity. Qed.
Lemma rule_ks b a : at_length b a (match_at (Seq (Lit 107) (Seq (Lit 115) Eps)) false b a) (m_ks (nil_ b) a).
Proof. apply rule_literal; [|cbn; lia]. intros g b' a'. reflexivity. Qed.
Lemma rule_h b a : at_length b a (match_at (Seq (Lit 104) Eps) false b a) (m_h (nil_ b) a).
Proof. apply rule_literal; [|cbn; lia]. intros g b' a'. reflexivity. Qed.
Lemma rule_cg b a : at_length b a (match_at (Seq (cset "cg") Eps) false b a) (m_cg (nil_ b) a).
Proof. unfold RegexModel.match_at, m_cg. destruct a as [|x a]; cases1; hit. Qed.
Lemma rule_f b a : at_length b a (match_at (Alt (Seq (cset "fvw") Eps) (Seq (Lit (chr "p")) (Seq (Lit (chr "h")) Eps))) false b a) (m_f (nil_ b) a).
Proof.
  unfold RegexModel.match_at, m_f, literal. destruct a as [|x [|y a]]; cbn [starts_with codes map list_ascii_of_string length]; cases1; hit. 
Qed.
Lemma rule_e b a : at_length b a (match_at (Seq Start (Seq (Rep false 0 (Some 1) (cset "jy")) (Seq (Lit (chr "e")) Eps))) false b a) (m_e (nil_ b) a).
Proof.
  unfold RegexModel.match_at, m_e. destruct b as [|z b]; [|norm1; exact Logic.I]. destruct a as [|x [|y a]]; cbn [nil_]; norm1; rewrite ?(N.eqb_sym _ (chr "e")); cases1; cbn [andb]; bools; hit.
Qed.
Lemma rule_sh b a : at_length b a (match_at (Alt (Seq (Rep false 0 (Some 1) (cset "dt")) (Seq (cset "cs") (Seq (Lit (chr "h")) Eps))) (Seq (Lit (chr "t")) (Seq (Lit (chr "z")) Eps))) false b a) (m_sh (nil_ b) a).
Proof.
  unfold RegexModel.match_at, m_sh, literal, csh. destruct a as [|x [|y [|z a]]]; cbn [starts_with codes map length]; norm1; rewrite ?(N.eqb_sym _ (chr "h")); cases1; cbn [andb]; bools; hit.
Qed.
Lemma rule_zh b a : at_length b a (match_at (Seq (Rep false 0 (Some 1) (cset "dt")) (Seq (Alt (Seq (Lit (chr "z")) (Seq (Lit (chr "h")) Eps)) (Seq (Lit (chr "j")) Eps)) Eps)) false b a) (m_zh (nil_ b) a).
Proof.
  unfold RegexModel.match_at, m_zh, zh. destruct a as [|x [|y [|z a]]]; cbn [starts_with codes map length]; cases1; cbn [andb]; bools; hit.
Qed.
Lemma ways_look l b a g : ways (Ahead false (Seq (cset l) Eps)) (b, a, g) = match a with c :: _ => if one_of l c then [(b, a, g)] else [] | [] => [] end.
Proof.
  transitivity (match ways (Seq (cset l) Eps) (b, a, g) with [] => [] | st' :: _ => [(b, a, groups st')] end); [reflexivity|].
  rewrite ways_seq_eps, set_of_one. destruct a as [|c a]; [reflexivity|]. cbn. destruct (one_of l c); reflexivity.
Qed.
Lemma ways_end b a g : ~ In 10%N a -> ways End (b, a, g) = match a with [] => [(b, a, g)] | _ => [] end.
Proof. intros NL. destruct a as [|c [|d a]]; try reflexivity. cbn. destruct (N.eqb_spec c 10) as [->|E]; [elim NL; left; reflexivity|reflexivity]. Qed.
Lemma rule_y b a : at_length b a (match_at (Alt (Seq Start (Seq (Lit (chr "y")) (Seq (Ahead false (Seq (cset "aeiou") Eps)) Eps))) (Seq (Lit (chr "i")) (Seq (Lit (chr "o")) (Seq (Lit (chr "u")) Eps)))) false b a) (m_y (nil_ b) a).
Proof.
  unfold RegexModel.match_at, m_y, literal.
  destruct b as [|z0 b]; destruct a as [|x [|y [|z a]]]; cbn [nil_ starts_with codes map length]; rewrite ?(N.eqb_sym _ (chr "y")); cases1; rewrite ?ways_look; cases1; cbn [andb]; bools; hit.
Qed.
Lemma rule_ij b a : ~ In 10%N a -> at_length b a (match_at (Seq (Lit (chr "i")) (Seq (cset "jy") (Seq End Eps))) false b a) (m_ij (nil_ b) a).
Proof.
  intros NL. unfold RegexModel.match_at, m_ij. destruct a as [|x [|y [|z a]]]; rewrite ?(N.eqb_sym _ (chr "i")); cases1; rewrite ?ways_end by (intros X; apply NL; cbn in *; tauto); cases1; hit.
Qed.

(** the rules of rusalka *)
Lemma sub_keeps (P : N -> Prop) m w : Forall P w -> forall s st k, Forall P s -> Forall P (PhoneticsModel.re_sub m w st k s).
Proof.
  intros W. induction s as [|c s IH]; intros st k H; [constructor|]. inversion H as [|x l Hc Hs]; subst. cbn. destruct k; [|apply IH; exact Hs].
  destruct (m st (c :: s)) as [[|k]|]; [constructor; [exact Hc|apply IH; exact Hs]|apply Forall_app; split; [exact W|apply IH; exact Hs]|constructor; [exact Hc|apply IH; exact Hs]].
Qed.
Lemma no_newline_In s : no_newline s -> ~ In 10%N s.
Proof. intros H I. unfold no_newline in H. rewrite Forall_forall in H. exact (H _ I eq_refl). Qed.
Lemma step_rule p r m w s : parse p = Some r -> template w = Some (map inl w) ->
  (forall b a, ~ In 10%N a -> at_length b a (match_at r false b a) (m (nil_ b) a)) -> no_newline s -> sub p w s = Some (PhoneticsModel.re_sub m w true 0 s).
Proof. intros P T M H. apply (rule_sub p r m w s (fun a => ~ In 10%N a) P T); auto; [|apply no_newline_In; exact H]. intros c a NL I. apply NL. right. exact I. Qed.
Lemma rules_re : Forall2 (fun rule rule' => snd rule = snd rule' /\ no_newline (snd rule) /\ forall s, no_newline s -> sub (fst rule) (snd rule) s = Some (PhoneticsModel.re_sub (fst rule') (snd rule') true 0 s)) RULES_re RULES.
Proof.
  unfold RULES_re, RULES. repeat (constructor; [cbn [fst snd]; split; [reflexivity|split; [repeat (constructor; [discriminate|]); constructor|intros s H; (eapply step_rule; [reflexivity|reflexivity| |exact H])]]|]); [..|constructor]; intros b a NL.
  - apply rule_cz.
  - apply rule_ij. exact NL.
  - apply rule_f.
  - apply rule_e.
  - apply rule_sh.
  - apply rule_zh.
  - apply rule_ks.
  - apply rule_y.
  - apply rule_cg.
  - apply rule_h.
Qed.
Lemma apply_rules_re name : no_newline name -> subs is_digit is_space is_word RULES_re name = Some (apply_rules RULES name).
Proof.
  unfold subs, apply_rules. pose proof rules_re as R. revert name. induction R as [|x y l l' (W & K & E) R IH]; intros name H; [reflexivity|].
  cbn [fold_left then_]. rewrite E by exact H. apply IH. apply sub_keeps; [rewrite <- W; exact K|exact H].
Qed.

(** one character *)
Lemma sub_char pat p w s r : parse pat = Some (Seq r Eps) -> template w = Some (map inl w) -> (forall b a, ways r (b, a, []) = step p (b, a, [])) ->
  sub pat w s = Some (flat_map (fun c => if p c then w else [c]) s).
Proof. intros P T E. rewrite (sub_const pat _ w s P T). f_equal. apply re_sub_char. intros b a. rewrite ways_seq_eps. apply E. Qed.
Lemma sub_removed pat p s r : parse pat = Some (Seq r Eps) -> (forall b a, ways r (b, a, []) = step p (b, a, [])) -> sub pat [] s = Some (filter (fun c => negb (p c)) s).
Proof. intros P E. rewrite (sub_char pat p [] s r P); auto. rewrite flat_map_filter. reflexivity. Qed.
Lemma filter_ext_ (p q : N -> bool) s : (forall c, p c = q c) -> filter p s = filter q s.
Proof. intros E. apply filter_ext. exact E. Qed.
Lemma upper_letters s : upper_letters_re is_digit is_space is_word s = Some (filter is_upper_letter s).
Proof.
  unfold upper_letters_re. rewrite (sub_removed _ (iset true [Range 65 90]) s (Chars true [Range 65 90])); [|reflexivity|intros; apply ways_chars]. f_equal. apply filter_ext_.
  intros c. unfold in_set, is_upper_letter. cbn. destruct (65 <=? c)%N, (c <=? 90)%N; reflexivity.
Qed.
Lemma lower_letters s : sub FILTER [] s = Some (filter is_lower_letter s).
Proof.
  rewrite (sub_removed _ (iset true [Range 97 122]) s (Chars true [Range 97 122])); [|reflexivity|intros; apply ways_chars]. f_equal. apply filter_ext_.
  intros c. unfold in_set, is_lower_letter. cbn. destruct (97 <=? c)%N, (c <=? 122)%N; reflexivity.
Qed.
Lemma vowels s : sub VOWELS [] s = Some (filter (fun c => negb (is_vowel c)) s).
Proof. rewrite (sub_removed _ (one_of "aeiouy") s (cset "aeiouy")); [reflexivity|reflexivity|intros; apply set_of_one]. Qed.
Lemma blacklist s : sub BLACKLIST_RE [] s = Some (filter (allowed is_space) s).
Proof.
  rewrite (sub_removed _ (iset true [Range 97 122; Range 48 57; Category Space]) s (Chars true [Range 97 122; Range 48 57; Category Space])); [|reflexivity|intros; apply ways_chars]. f_equal. apply filter_ext_.
  intros c. unfold in_set, allowed. cbn. destruct (97 <=? c)%N, (c <=? 122)%N, (48 <=? c)%N, (c <=? 57)%N, (is_space c); reflexivity.
Qed.
Lemma notation_re s : subs is_digit is_space is_word PHONETIC_NOTATION_RULES s = Some (flat_map notation s).
Proof.
  unfold subs, PHONETIC_NOTATION_RULES. cbn [fold_left then_ fst snd].
  rewrite (sub_char _ (fun c => memb c [269; 353; 349]%N) _ s (Chars false (map Single [269; 353; 349]%N))); [|reflexivity|reflexivity|].
  2: { intros b a. rewrite ways_chars. unfold step. destruct a as [|c a]; [reflexivity|]. rewrite in_singles. destruct (memb c _); reflexivity. }
  cbn [then_]. rewrite (sub_char _ (N.eqb 251) _ _ (Lit 251)); [|reflexivity|reflexivity|reflexivity].
  cbn [then_]. rewrite (sub_char _ (N.eqb 382) _ _ (Lit 382)); [|reflexivity|reflexivity|reflexivity]. f_equal.
  induction s as [|c s IH]; [reflexivity|]. cbn [flat_map]. rewrite !flat_map_app, IH. f_equal. unfold notation.
  destruct (memb c [269; 353; 349]%N); [reflexivity|]. cbn [flat_map]. rewrite app_nil_r. rewrite (N.eqb_sym c 251), (N.eqb_sym c 382). destruct (N.eqb 251 c); [reflexivity|]. cbn [flat_map]. rewrite app_nil_r. reflexivity.
Qed.

(** a character and its repetitions *)
Definition repeated (C : regex) (n : nat) : regex := Seq (Group 1 (Seq C Eps)) (Seq (Rep false n None (Ref 1)) Eps).
Lemma match_repeated C n p b a : (forall b a g, ways C (b, a, g) = step p (b, a, g)) ->
  match_at (repeated C n) false b a =
  match a with
  | c :: a' => if p c && Nat.leb n (run (N.eqb c) a') then Some (ahead (run (N.eqb c) a') (c :: b) a' [(1, [c])]) else None
  | [] => None
  end.
Proof.
  intros E. unfold RegexModel.match_at, repeated. rewrite ways_seq.
  transitivity (find (fun st => negb false || Nat.ltb (length (after st)) (length a)) (flat_map (ways (Seq (Rep false n None (Ref 1)) Eps))
    (map (fun st' => (before st', after st', (1, firstn (length a - length (after st')) a) :: groups st')) (ways (Seq C Eps) (b, a, []))))); [reflexivity|].
  rewrite ways_seq_eps, E. destruct a as [|c a]; [reflexivity|]. cbn [step]. destruct (p c); [|reflexivity]. cbn [map before after groups fst snd flat_map length]. rewrite app_nil_r.
  replace (S (length a) - length a) with 1 by lia. cbn [firstn]. rewrite ways_seq_eps.
  rewrite (ways_rep_char _ _ _ _ (Ref 1) (N.eqb c)).
  2: { intros b' a'. cbn [RegexModel.ways]. unfold group. cbn [groups snd find fst Nat.eqb option_map step_text]. unfold step. destruct a' as [|y a']; [reflexivity|]. destruct (N.eqb c y); reflexivity. }
  cbn [capped andb negb orb]. destruct (Nat.leb_spec n (run (N.eqb c) a)) as [L|L].
  - replace (run (N.eqb c) a + 1 - n) with (S (run (N.eqb c) a - n)) by lia. rewrite seq_S, rev_app_distr. cbn. f_equal. f_equal; lia.
  - replace (run (N.eqb c) a + 1 - n) with 0 by lia. reflexivity.
Qed.
Lemma sub_repeated C n p repl w (F : str -> str) : (forall b a g, ways C (b, a, g) = step p (b, a, g)) -> (forall b a c, repl (b, a, [(1, [c])]) = w c) -> F [] = [] ->
  (forall c s, F (c :: s) = if p c && Nat.leb n (run (N.eqb c) s) then w c ++ F (skipn (run (N.eqb c) s) s) else c :: F s) ->
  forall s, re_sub_re (repeated C n) repl s = F s.
Proof.
  intros E W F0 F1 s. unfold RegexModel.re_sub.
  assert (X : forall fuel s b, length s < fuel -> RegexModel.sub_loop is_digit is_space is_word N.eqb (repeated C n) repl fuel false b s = F s); [|apply X; lia].
  clear s. induction fuel as [|fuel IH]; intros s b L; [lia|]. cbn [RegexModel.sub_loop]. rewrite (match_repeated C n p b s E). destruct s as [|c s]; [rewrite F0; reflexivity|]. rewrite F1.
  cbn [length] in L. destruct (p c && Nat.leb n (run (N.eqb c) s)).
  - unfold ahead at 1. rewrite W. f_equal. unfold ahead. cbn [before after fst snd length]. pose proof (run_le (N.eqb c) s). rewrite skipn_length. replace (length s - run (N.eqb c) s =? S (length s))%nat with false by (symmetry; apply Nat.eqb_neq; lia). apply IH. rewrite skipn_length. lia.
  - f_equal. apply IH. lia.
Qed.
Lemma squeeze_some p c s : squeeze_sub p (Some c) s = squeeze_sub p None (skipn (run (N.eqb c) s) s).
Proof.
  induction s as [|d s IH]; [reflexivity|]. cbn [run]. destruct (N.eqb_spec c d) as [->|D].
  - cbn [skipn]. rewrite <- IH. cbn [squeeze_sub]. destruct (eq_dec (Some d) (Some d)); [reflexivity|congruence].
  - cbn [skipn squeeze_sub]. destruct (eq_dec (Some c) (Some d)); [congruence|]. destruct (eq_dec None (Some d)); [discriminate|reflexivity].
Qed.
Lemma squeeze_repeated C p s : (forall b a g, ways C (b, a, g) = step p (b, a, g)) -> re_sub_re (repeated C 1) (expand [inr 1]) s = squeeze_sub p None s.
Proof.
  intros E. apply (sub_repeated C 1 p _ (fun c => [c])); [exact E|reflexivity|reflexivity|]. clear s. intros c s. cbn [squeeze_sub]. destruct (eq_dec None (Some c)); [discriminate|].
  destruct (p c); cbn [andb]; [|reflexivity]. rewrite squeeze_some. destruct (run (N.eqb c) s) eqn:R; reflexivity.
Qed.
Lemma squeeze_with s keep : squeeze_re is_digit is_space is_word s keep = Some (squeeze s keep).
Proof.
  unfold squeeze_re, squeeze, sub_pattern. destruct keep.
  - transitivity (Some (re_sub_re (repeated (Chars true (map Single (codes "IXCMixcm"))) 1) (expand [inr 1]) s)); [reflexivity|]. f_equal. apply squeeze_repeated.
    intros b a g. rewrite ways_chars. unfold step. destruct a as [|c a]; [reflexivity|]. rewrite in_singles. reflexivity.
  - transitivity (Some (re_sub_re (repeated AnyChar 1) (expand [inr 1]) s)); [reflexivity|]. f_equal. apply squeeze_repeated. reflexivity.
Qed.
Lemma run_span p s : run p s = span p s.
Proof. induction s as [|c s IH]; [reflexivity|]. cbn. rewrite IH. reflexivity. Qed.
Lemma reduce_skip letter s : forall k, reduce_from letter k s = reduce_from letter 0 (skipn k s).
Proof. induction s as [|c s IH]; intros [|k]; try reflexivity. cbn [reduce_from skipn]. apply IH. Qed.
Lemma lengthening_re s : reduce_lenghtening_re is_digit is_space is_word s = Some (reduce_lenghtening (fun c => is_word c && negb (is_digit c)) s).
Proof.
  unfold reduce_lenghtening_re, sub_pattern.
  transitivity (Some (re_sub_re (repeated (Chars true [Category NotWordChar; Category Digit]) 4) (expand [inr 1; inr 1; inr 1]) s)); [reflexivity|]. f_equal.
  apply (sub_repeated _ 4 (iset true [Category NotWordChar; Category Digit]) _ (fun c => [c; c; c])); [intros; apply ways_chars|reflexivity|reflexivity|].
  clear s. intros c s. unfold reduce_lenghtening. cbn [reduce_from span]. rewrite N.eqb_refl. unfold in_set. cbn [existsb in_item in_category]. rewrite Bool.orb_false_r.
  replace (xorb true (negb (is_word c) || is_digit c)) with (is_word c && negb (is_digit c)) by (destruct (is_word c), (is_digit c); reflexivity).
  rewrite <- run_span. change (5 <=? S (run (N.eqb c) s))%nat with (4 <=? run (N.eqb c) s)%nat. destruct (is_word c && negb (is_digit c) && (4 <=? run (N.eqb c) s)%nat); [|reflexivity].
  cbn [app]. f_equal. f_equal. f_equal. rewrite reduce_skip. f_equal. f_equal. lia.
Qed.

(** rusalka *)
Lemma letters_sign s : Forall sign (filter is_lower_letter s).
Proof. apply Forall_forall. intros c I. apply filter_In in I. left. exact (proj2 I). Qed.
Lemma sign_newline s : Forall sign s -> no_newline s.
Proof. intros H. eapply Forall_impl; [|exact H]. intros c [L|[->|[->| ->]]]; try discriminate. intros ->. discriminate. Qed.
Lemma rules_sign s : Forall sign s -> Forall sign (apply_rules RULES s).
Proof.
  unfold apply_rules. assert (R : Forall (fun r => Forall sign (snd r)) RULES).
  { unfold RULES. repeat constructor; first [left; reflexivity | right; left; reflexivity | right; right; left; reflexivity | right; right; right; reflexivity]. }
  revert s. induction R as [|r l Hr R IH]; intros s H; [exact H|]. cbn. apply IH. apply sub_keeps; assumption.
Qed.
Lemma squeeze_incl p : forall s m, incl (squeeze_sub p m s) s.
Proof.
  induction s as [|c s IH]; intros m; [apply incl_refl|]. cbn. destruct (eq_dec m (Some c)); [apply incl_tl, IH|]. intros x [<-|I]; [left; reflexivity|right; eapply IH; exact I].
Qed.
Lemma rusalka_with lower unidecode name : (forall s, Forall sign s -> lower s = map lower_J s) -> rusalka_re is_digit is_space is_word lower unidecode name = Some (rusalka lower unidecode name).
Proof.
  intros LO. unfold rusalka_re, rusalka, rusalka_letters. rewrite notation_re. cbn [then_]. rewrite lower_letters. cbn [then_].
  set (n := filter is_lower_letter _). assert (Sn : Forall sign n) by apply letters_sign. 
  destruct (Nat.ltb (length n) 2).
  - rewrite LO by exact Sn. f_equal. f_equal. rewrite <- (map_id n) at 2. apply map_ext_in. intros c I. unfold n in I. apply filter_In in I. destruct I as [_ I]. unfold lower_J, is_upper_letter, is_lower_letter in *.
    destruct (N.leb_spec 97 c); [|discriminate]. destruct (N.leb_spec c 90); [lia|]. rewrite Bool.andb_false_r. reflexivity.
  - rewrite apply_rules_re by (apply sign_newline; exact Sn). cbn [then_].
    pose proof (squeeze_with (apply_rules RULES n) false) as Q. unfold squeeze_re in Q. change DUPLICATED with SQUEEZE_RE. rewrite Q. cbn [then_]. unfold squeeze.
    rewrite LO. 2: { apply Forall_forall. intros c I. apply squeeze_incl in I. pose proof (rules_sign n Sn) as R. rewrite Forall_forall in R. apply R. exact I. }
    destruct (map lower_J (squeeze_sub dot_matches None (apply_rules RULES n))) as [|c rest]; [reflexivity|]. rewrite vowels. cbn [then_].
    assert (M : match_pattern is_digit is_space is_word N.eqb VOWELS [c] = Some (if is_vowel c then Some 1 else None)).
    { transitivity (Some (option_map (fun st => length (before st)) (match_at (Seq (cset "aeiouy") Eps) false [] [c]))); [reflexivity|]. unfold RegexModel.match_at. rewrite ways_seq_eps, set_of_one. unfold step, is_vowel. destruct (one_of "aeiouy" c); reflexivity. }
    rewrite M. cbn [then_]. destruct (is_vowel c); reflexivity.
Qed.

(** words *)
Lemma consonant_with c : is_consonant_re is_digit is_space is_word c = Some (is_consonant c).
Proof.
  unfold is_consonant_re. transitivity (Some (match option_map (fun st => length (before st)) (match_at (Seq Start (Seq (Chars true (map Single VOWELS_PATTERN)) (Seq End Eps))) false [] [c]) with Some _ => true | None => false end)); [reflexivity|].
  unfold RegexModel.match_at. rewrite ways_seq, ways_start. cbn [flat_map]. rewrite app_nil_r, ways_seq, ways_chars. unfold step. rewrite in_singles. unfold is_consonant. cbn [xorb]. destruct (memb c VOWELS_PATTERN); reflexivity.
Qed.
Lemma skipn_run p s : forall k, k < run p s -> match skipn k s with c :: _ => p c = true | [] => False end.
Proof. induction s as [|c s IH]; cbn; intros k L; [lia|]. destruct (p c) eqn:P; [|lia]. destruct k as [|k]; cbn; [exact P|]. apply IH. lia. Qed.
Lemma skipn_next (s : str) : forall k c a, skipn k s = c :: a -> firstn (k + 1) s = firstn k s ++ [c] /\ skipn (k + 1) s = a.
Proof. induction s as [|x s IH]; intros [|k] c a E; cbn in *; try discriminate; [injection E as -> ->; auto|]. destruct (IH k c a E) as [-> ->]. auto. Qed.
(** a repetition followed by a character that is not repeated *)
Lemma rep_then p q s lo hi : (forall c, p c = true -> q c = false) ->
  flat_map (step q) (map (fun n => ahead n [] s []) (rev (seq lo (capped hi (run p s) + 1 - lo)))) =
  if Nat.leb lo (run p s) && Nat.leb (run p s) (capped hi (run p s)) && head_in q (skipn (run p s) s) then [ahead (run p s + 1) [] s []] else [].
Proof.
  intros D. rewrite flat_map_concat_map, map_map, <- flat_map_concat_map.
  assert (Z : forall l, (forall k, In k l -> k < run p s) -> flat_map (fun n => step q (ahead n [] s [])) l = []).
  { induction l as [|k l IH]; intros H; [reflexivity|]. cbn [flat_map]. rewrite IH by (intros k' I; apply H; right; exact I). rewrite app_nil_r. unfold ahead, step. pose proof (skipn_run p s k (H k (or_introl eq_refl))) as R. destruct (skipn k s); [reflexivity|]. rewrite D by exact R. reflexivity. }
  assert (CL : capped hi (run p s) <= run p s) by (destruct hi; cbn; lia).
  destruct (Nat.leb_spec lo (run p s)) as [L|L]; cbn [andb].
  2: { replace (capped hi (run p s) + 1 - lo) with 0 by lia. reflexivity. }
  destruct (Nat.leb_spec (run p s) (capped hi (run p s))) as [L2|L2]; cbn [andb].
  2: { apply Z. intros k I. apply in_rev in I. apply in_seq in I. lia. }
  replace (capped hi (run p s)) with (run p s) by lia. replace (run p s + 1 - lo) with (S (run p s - lo)) by lia. rewrite seq_S, rev_app_distr. replace (lo + (run p s - lo)) with (run p s) by lia.
  cbn [rev app flat_map]. rewrite Z. 2: { intros k I. apply in_rev in I. apply in_seq in I. lia. }
  rewrite app_nil_r. unfold ahead at 1, step. destruct (skipn (run p s) s) as [|c a] eqn:E; [reflexivity|]. cbn [head_in]. destruct (q c); [|reflexivity]. unfold ahead. f_equal.
  destruct (skipn_next _ _ _ _ E) as [F K].
  rewrite F, K, rev_app_distr. reflexivity.
Qed.
Definition email_items : list item := [Range 65 90; Range 97 122; Range 48 57] ++ map Single (codes "!#$%&*+-/=?^_`{|}~").
Lemma email_set c : iset false email_items c = email_char c.
Proof.
  unfold in_set, email_items. rewrite existsb_app, singles. unfold email_char. cbn [existsb in_item].
  destruct (memb c _); destruct (65 <=? c)%N, (c <=? 90)%N, (97 <=? c)%N, (c <=? 122)%N, (48 <=? c)%N, (c <=? 57)%N; reflexivity.
Qed.
Lemma run_ext p q s : (forall c, p c = q c) -> run p s = run q s.
Proof. intros E. induction s as [|c s IH]; [reflexivity|]. cbn. rewrite E, IH. reflexivity. Qed.
Lemma email_with s : email_lookahead_re is_digit is_space is_word s = Some (email_lookahead s).
Proof.
  unfold email_lookahead_re. transitivity (Some (match option_map (fun st => length (before st)) (match_at (Seq Start (Seq (Rep false 1 (Some 64) (Chars false email_items)) (Seq (Lit 64) Eps))) false [] s) with Some _ => true | None => false end)); [reflexivity|]. f_equal.
  unfold RegexModel.match_at. rewrite ways_seq, ways_start. cbn [flat_map]. rewrite app_nil_r, ways_seq, ways_rep_chars.
  assert (X : forall l, flat_map (ways (Seq (Lit 64) Eps)) l = flat_map (step (N.eqb 64)) l) by (intros l; apply flat_map_ext; intros [[b a] g]; rewrite ways_seq_eps; reflexivity).
  rewrite X. rewrite rep_then. 2: { intros c. rewrite email_set. intros H. destruct (N.eqb_spec 64 c) as [<-|]; [discriminate|reflexivity]. }
  unfold email_lookahead. rewrite (run_ext _ email_char s email_set), run_span. cbn [capped].
  replace (span email_char s <=? Nat.min 64 (span email_char s))%nat with (span email_char s <=? 64)%nat by (destruct (Nat.leb_spec (span email_char s) 64), (Nat.leb_spec (span email_char s) (Nat.min 64 (span email_char s))); lia).
  replace (head_in (fun c => (c =? 64)%N) (skipn (span email_char s) s)) with (head_in (N.eqb 64) (skipn (span email_char s) s)) by (destruct (skipn (span email_char s) s); [reflexivity|apply N.eqb_sym]).
  destruct ((1 <=? span email_char s)%nat && (span email_char s <=? 64)%nat && head_in (N.eqb 64) (skipn (span email_char s) s)); reflexivity.
Qed.

(** smileys: the alternatives one after the other *)
Definition first (r : regex) (s : str) : option nat := option_map (fun st => length (before st)) (hd_error (ways r ([], s, []))).
Lemma first_alt a b s : first (Alt a b) s = match first a s with Some n => Some n | None => first b s end.
Proof. unfold first. rewrite ways_alt. destruct (ways a ([], s, [])) as [|x l]; reflexivity. Qed.
Lemma find_hd {A} (l : list A) : find (fun _ => true) l = hd_error l.
Proof. destruct l; reflexivity. Qed.
Lemma ahead_length n s g : n <= length s -> length (before (ahead n [] s g)) = n.
Proof. intros L. unfold ahead, before. cbn [fst]. rewrite app_nil_r, rev_length. apply firstn_length_le. exact L. Qed.
Lemma dash_set c : iset false [Single 45] c = dash c.
Proof. unfold in_set, dash. cbn [existsb in_item]. rewrite N.eqb_sym. destruct (N.eqb c 45); reflexivity. Qed.
Lemma steps_lit c l : flat_map (ways (Seq (Lit c) Eps)) l = flat_map (step (N.eqb c)) l.
Proof. apply flat_map_ext. intros [[b a] g]. rewrite ways_seq_eps. reflexivity. Qed.
Lemma head_sym k s : head_in (N.eqb k) s = head_in (fun c => (c =? k)%N) s.
Proof. destruct s; [reflexivity|apply N.eqb_sym]. Qed.
Lemma head_length p k s : head_in p (skipn k s) = true -> k + 1 <= length s.
Proof. intros H. assert (skipn k s <> []) by (destruct (skipn k s); discriminate). pose proof (skipn_length k s). destruct (skipn k s); [congruence|cbn in *; lia]. Qed.
Lemma smiley_1 s : first (Seq (Rep false 1 None (Chars false [Single 45])) (Seq (Lit 62) Eps)) s =
  if Nat.leb 1 (span dash s) && head_in (fun c => c =? 62)%N (skipn (span dash s) s) then Some (span dash s + 1) else None.
Proof.
  unfold first. rewrite ways_seq, ways_rep_chars, steps_lit, rep_then. 2: { intros c. rewrite dash_set. unfold dash. intros H. apply N.eqb_eq in H. subst. reflexivity. }
  rewrite (run_ext _ dash s dash_set), run_span. cbn [capped]. rewrite Nat.leb_refl, Bool.andb_true_r, head_sym. destruct (1 <=? span dash s)%nat; cbn [andb]; [|reflexivity].
  destruct (head_in _ (skipn (span dash s) s)) eqn:H; [|reflexivity]. cbn [hd_error option_map]. rewrite ahead_length; [reflexivity|]. eapply head_length. exact H.
Qed.
Lemma smiley_2 s : first (Seq (Lit 60) (Seq (Rep false 1 None (Chars false [Single 45])) Eps)) s =
  if head_in (fun c => c =? 60)%N s && Nat.leb 1 (span dash (skipn 1 s)) then Some (1 + span dash (skipn 1 s)) else None.
Proof.
  unfold first. rewrite ways_seq, ways_lit. destruct s as [|c s]; [reflexivity|]. cbn [step head_in skipn]. rewrite (N.eqb_sym c 60). destruct (N.eqb 60 c); cbn [andb flat_map]; [|reflexivity]. rewrite app_nil_r, ways_seq_eps, ways_rep_chars.
  rewrite (run_ext _ dash s dash_set), run_span. cbn [capped]. destruct (Nat.leb_spec 1 (span dash s)) as [L|L].
  - replace (span dash s + 1 - 1) with (S (span dash s - 1)) by lia. rewrite seq_S, rev_app_distr. cbn [rev app map hd_error option_map]. unfold ahead, before. cbn [fst]. rewrite app_length, rev_length. cbn [length]. 
    rewrite firstn_length_le; [f_equal; lia|]. rewrite <- run_span. pose proof (run_le dash s). rewrite run_span in *. lia.
  - replace (span dash s + 1 - 1) with 0 by lia. reflexivity.
Qed.
Definition EYES := cset ":;=8".
Definition NOSE := Rep false 0 (Some 1) (cset "-o*'").
Definition MOUTH := cset ")]([dDpP/:}{@|\".
Lemma nose_mouth c : nose c = true -> mouth c = false.
Proof. unfold nose, mouth. intros H. assert (I : In c (codes "-o*'")) by (unfold memb in H; destruct (in_dec eq_dec c (codes "-o*'")); [assumption|discriminate]). cbn in I. destruct I as [<-|[<-|[<-|[<-|[]]]]]; reflexivity. Qed.
Lemma nose_eyes c : nose c = true -> eyes c = false.
Proof. unfold nose, eyes. intros H. assert (I : In c (codes "-o*'")) by (unfold memb in H; destruct (in_dec eq_dec c (codes "-o*'")); [assumption|discriminate]). cbn in I. destruct I as [<-|[<-|[<-|[<-|[]]]]]; reflexivity. Qed.
Lemma angle_eyes c : memb c (codes "<>") = true -> eyes c = false.
Proof. unfold eyes. intros H. assert (I : In c (codes "<>")) by (unfold memb in H; destruct (in_dec eq_dec c (codes "<>")); [assumption|discriminate]). cbn in I. destruct I as [<-|[<-|[]]]; reflexivity. Qed.
Lemma ways_eyes b a g : ways EYES (b, a, g) = step eyes (b, a, g). Proof. apply set_of_one. Qed.
Lemma ways_mouth b a g : ways MOUTH (b, a, g) = step mouth (b, a, g). Proof. apply set_of_one. Qed.
Lemma ways_nose b a g : ways NOSE (b, a, g) = step nose (b, a, g) ++ [(b, a, g)]. Proof. apply optional_one. Qed.
Lemma nose_then r p b a : (forall b a g, ways r (b, a, g) = step p (b, a, g)) -> (forall c, nose c = true -> p c = false) ->
  ways (Seq NOSE (Seq r Eps)) (b, a, []) = if head_in p (skipn (opt nose a) a) then [ahead (opt nose a + 1) b a []] else [].
Proof.
  intros E D. rewrite ways_seq, ways_nose. destruct a as [|x a]; [cbn [step app flat_map]; rewrite ways_seq_eps, E; reflexivity|]. unfold opt. cbn [step head_in]. destruct (nose x) eqn:Nx; cbn [app flat_map skipn].
  - rewrite !ways_seq_eps, !E. cbn [step]. rewrite (D x Nx), !app_nil_r. unfold ahead. destruct a as [|y a]; cbn; [reflexivity|]. destruct (p y); reflexivity.
  - rewrite !ways_seq_eps, !E. cbn [step head_in]. rewrite app_nil_r. destruct (p x); reflexivity.
Qed.
Lemma smiley_3 s : first (Seq (Rep false 0 (Some 1) (cset "<>")) (Seq EYES (Seq NOSE (Seq MOUTH Eps)))) s =
  let a := opt (fun c => memb c (codes "<>")) s in
  if head_in eyes (skipn a s) && head_in mouth (skipn (a + 1 + opt nose (skipn (a + 1) s)) s) then Some (a + 1 + opt nose (skipn (a + 1) s) + 1) else None.
Proof.
  assert (X : forall b s, ways (Seq EYES (Seq NOSE (Seq MOUTH Eps))) (b, s, []) = if head_in eyes s && head_in mouth (skipn (1 + opt nose (skipn 1 s)) s) then [ahead (1 + opt nose (skipn 1 s) + 1) b s []] else []).
  { intros b t. rewrite ways_seq, ways_eyes. destruct t as [|x t]; [reflexivity|]. cbn [step head_in]. destruct (eyes x); cbn [andb flat_map]; [|reflexivity]. rewrite app_nil_r, (nose_then _ mouth); [|apply ways_mouth|apply nose_mouth].
    cbn [skipn Nat.add]. rewrite ahead_S. reflexivity. }
  unfold first. rewrite ways_seq, optional_one. destruct s as [|x s]; [reflexivity|]. cbn zeta. change (opt (fun c => memb c (codes "<>")) (x :: s)) with (if memb x (codes "<>") then 1 else 0). cbn [step]. unfold one_of. destruct (memb x (codes "<>")) eqn:A; cbn [app flat_map].
  - rewrite !X. cbn [head_in]. rewrite (angle_eyes x A). cbn [andb]. rewrite !app_nil_r. destruct s as [|y s]; [reflexivity|]. cbn [skipn Nat.add head_in].
    destruct (eyes y) eqn:E; cbn [andb]; [|reflexivity]. destruct (head_in mouth (skipn (opt nose s) s)) eqn:M; [|reflexivity].
    cbn [hd_error option_map]. unfold ahead, before. cbn [fst]. rewrite app_length, rev_length. cbn [length]. apply head_length in M. rewrite firstn_length_le; [f_equal; lia|cbn [length]; lia].
  - rewrite !X, app_nil_r. cbn [skipn head_in Nat.add]. destruct (eyes x); cbn [andb]; [|reflexivity]. destruct (head_in mouth (skipn (opt nose s) s)) eqn:M; [|reflexivity].
    cbn [hd_error option_map]. rewrite ahead_length; [f_equal; lia|]. apply head_length in M. cbn [length]. lia.
Qed.
Lemma smiley_4 s : first (Seq MOUTH (Seq NOSE (Seq EYES Eps))) s = if head_in mouth s && head_in eyes (skipn (1 + opt nose (skipn 1 s)) s) then Some (1 + opt nose (skipn 1 s) + 1) else None.
Proof.
  unfold first. rewrite ways_seq, ways_mouth. destruct s as [|x s]; [reflexivity|]. cbn [step head_in]. destruct (mouth x); cbn [andb flat_map]; [|reflexivity]. rewrite app_nil_r, (nose_then _ eyes); [|apply ways_eyes|apply nose_eyes].
  cbn [skipn Nat.add]. destruct (head_in eyes (skipn (opt nose s) s)) eqn:M; [|reflexivity]. cbn [hd_error option_map]. unfold ahead, before. cbn [fst]. rewrite app_length, rev_length. cbn [length]. rewrite firstn_length_le; [f_equal; lia|]. eapply head_length. exact M.
Qed.
Lemma smiley_5 s : first (Seq (cset "<:") (Seq (Lit 51) Eps)) s = if head_in (fun c => memb c (codes "<:")) s && head_in (fun c => c =? 51)%N (skipn 1 s) then Some 2 else None.
Proof.
  unfold first. rewrite ways_seq, set_of_one. destruct s as [|x s]; [reflexivity|]. cbn [step head_in skipn]. unfold one_of. destruct (memb x (codes "<:")); cbn [andb flat_map]; [|reflexivity].
  rewrite app_nil_r, ways_seq_eps, ways_lit. destruct s as [|y s]; [reflexivity|]. cbn [step head_in]. rewrite (N.eqb_sym y). destruct (N.eqb 51 y); reflexivity.
Qed.
Lemma smiley_6 s : first (Seq (Lit 94) (Seq (Lit 94) Eps)) s = if starts_with (codes "^^") s then Some 2 else None.
Proof.
  change (codes "^^") with [94%N; 94%N]. unfold first. rewrite ways_seq, ways_lit. destruct s as [|x s]; [reflexivity|]. cbn [step starts_with]. destruct (N.eqb 94 x); cbn [andb flat_map]; [|reflexivity].
  rewrite app_nil_r, ways_seq_eps, ways_lit. destruct s as [|y s]; [reflexivity|]. cbn [step starts_with]. destruct (N.eqb 94 y); reflexivity.
Qed.
Lemma smiley_with s : smiley_re is_digit is_space is_word s = Some (smiley_end s).
Proof.
  unfold smiley_re. transitivity (Some (option_map (fun st => length (before st)) (match_at (Seq Start (Seq
    (Alt (Seq (Rep false 1 None (Chars false [Single 45])) (Seq (Lit 62) Eps)) (Alt (Seq (Lit 60) (Seq (Rep false 1 None (Chars false [Single 45])) Eps))
    (Alt (Seq (Rep false 0 (Some 1) (cset "<>")) (Seq EYES (Seq NOSE (Seq MOUTH Eps)))) (Alt (Seq MOUTH (Seq NOSE (Seq EYES Eps)))
    (Alt (Seq (cset "<:") (Seq (Lit 51) Eps)) (Seq (Lit 94) (Seq (Lit 94) Eps))))))) Eps)) false [] s))); [reflexivity|]. f_equal.
  unfold RegexModel.match_at. cbn [negb orb]. rewrite find_hd, ways_seq, ways_start. cbn [flat_map]. rewrite app_nil_r, ways_seq_eps.
  match goal with |- option_map _ (hd_error (ways ?r ([], s, []))) = _ => change (first r s = smiley_end s) end.
  rewrite !first_alt, smiley_1, smiley_2, smiley_3, smiley_4. unfold smiley_end. cbn zeta.
  destruct (_ && _); [reflexivity|]. destruct (_ && _); [reflexivity|]. destruct (_ && _); [reflexivity|]. destruct (_ && _); [reflexivity|].
  rewrite smiley_5, smiley_6. destruct (_ && _); reflexivity.
Qed.

(** splits *)
Notation split_loop := (RegexModel.split_loop is_digit is_space is_word N.eqb).
Lemma split_on_nonempty sep cur s : split_on sep cur s <> [].
Proof. destruct s as [|c s]; cbn; [discriminate|]. destruct (c =? sep)%N; [discriminate|]. revert c cur. induction s as [|d s IH]; intros c cur; cbn; [discriminate|]. destruct (d =? sep)%N; [discriminate|apply (IH d)]. Qed.
Lemma point_loop : forall fuel s piece b, length s < fuel ->
  split_loop (Seq (Group 1 (Seq (Lit 46) Eps)) Eps) 1 fuel false piece b s = map Some (interleave (codes ".") (split_on 46 piece s)).
Proof.
  induction fuel as [|fuel IH]; intros s piece b L; [lia|]. cbn [RegexModel.split_loop].
  assert (M : match_at (Seq (Group 1 (Seq (Lit 46) Eps)) Eps) false b s = match s with c :: s' => if N.eqb 46 c then Some (c :: b, s', [(1, [c])]) else None | [] => None end).
  { unfold RegexModel.match_at. rewrite ways_seq_eps. transitivity (find (fun st => negb false || Nat.ltb (length (after st)) (length s)) (map (fun st' => (before st', after st', (1, firstn (length s - length (after st')) s) :: groups st')) (ways (Seq (Lit 46) Eps) (b, s, [])))); [reflexivity|].
    rewrite ways_seq_eps, ways_lit. destruct s as [|c s]; [reflexivity|]. cbn [step]. destruct (N.eqb 46 c); [|reflexivity]. cbn [map find negb orb before after groups fst snd length]. replace (S (length s) - length s) with 1 by lia. reflexivity. }
  rewrite M. destruct s as [|c s]; [reflexivity|]. cbn [split_on length] in *. rewrite (N.eqb_sym c 46). destruct (N.eqb_spec 46 c) as [<-|D].
  - cbn [before after fst snd length seq map]. replace (length s =? S (length s))%nat with false by (symmetry; apply Nat.eqb_neq; lia). rewrite IH by lia.
    pose proof (split_on_nonempty 46 [] s) as NE. destruct (split_on 46 [] s) as [|x l]; [congruence|]. reflexivity.
  - apply IH. lia.
Qed.
Lemma point_with s : point_split_re is_digit is_space is_word s = Some (map Some (point_split s)).
Proof. unfold point_split_re. transitivity (Some (split_loop (Seq (Group 1 (Seq (Lit 46) Eps)) Eps) 1 (2 * length s + 2) false [] [] s)); [reflexivity|]. f_equal. apply point_loop. lia. Qed.
End Uses.
