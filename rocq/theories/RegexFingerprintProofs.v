(** The patterns of fog/tokenizers/fingerprint.py, three of which are built from the options. *)
From Coq Require Import String Ascii DecimalString DecimalNat Lia.
From Verif Require Import Base BaseFacts LevModel SortModel PassJoinModel StringsModel PhoneticsModel FingerprintModel WordsModel RegexModel RegexUsesModel RegexUsesSpec RegexProofs RegexUsesProofs.
Open Scope nat_scope.
Open Scope string_scope.
Open Scope list_scope.
Notation length := List.length.
Notation concat := List.concat.

(** ** escaped characters *)
Definition escaped (s : str) : list tok := map (fun c => if memb c SPECIAL then Escaped c else Plain c) s.
Lemma special_In c : memb c SPECIAL = true -> In c SPECIAL.
Proof. unfold memb. destruct (in_dec eq_dec c SPECIAL); [auto|discriminate]. Qed.
Lemma plain_not c d : memb c SPECIAL = false -> In d SPECIAL -> N.eqb c d = false.
Proof. intros M I. apply N.eqb_neq. intros ->. unfold memb in M. destruct (in_dec eq_dec d SPECIAL); [discriminate|contradiction]. Qed.
Ltac among := cbn; repeat first [left; reflexivity | right].
Lemma tokens_escape s ts rest : tokens rest = Some ts -> tokens (escape s ++ rest) = Some (escaped s ++ ts).
Proof.
  intros R. induction s as [|c s IH]; [exact R|]. cbn [escape flat_map escaped map]. fold (escape s) (escaped s). destruct (memb c SPECIAL) eqn:M.
  - cbn [app tokens]. rewrite N.eqb_refl. cbn [option_map]. fold (escape s) in *. rewrite IH. reflexivity.
  - cbn [app tokens]. rewrite (plain_not c 92 M) by among. rewrite IH. reflexivity.
Qed.
Lemma set_item_special c : memb c SPECIAL = true -> set_item (Escaped c) = Some (Single c).
Proof. intros M. apply special_In in M. unfold SPECIAL in M. cbn in M. repeat destruct M as [<-|M]; try reflexivity. contradiction. Qed.
Lemma set_item_escaped c : set_item (if memb c SPECIAL then Escaped c else Plain c) = Some (Single c).
Proof. destruct (memb c SPECIAL) eqn:M; [apply set_item_special; exact M|reflexivity]. Qed.
Lemma escape_item_special opened cur ts c : memb c SPECIAL = true -> escape_item opened cur ts c = Some (Lit c, false).
Proof. intros M. apply special_In in M. unfold SPECIAL in M. cbn in M. repeat destruct M as [<-|M]; try reflexivity. contradiction. Qed.

(** ** fingerprint.py:80: the characters to split *)
Lemma parse_set_escaped s : forall acc ts, (acc = [] -> s <> []) -> parse_set acc (escaped s ++ Plain 93 :: ts) = Some (acc ++ map Single s, ts).
Proof.
  induction s as [|c s IH]; intros acc ts NE.
  - destruct acc as [|i acc]; [elim (NE eq_refl); reflexivity|]. cbn. rewrite app_nil_r. reflexivity.
  - assert (N : forall r, match escaped s ++ Plain 93 :: ts with Plain d :: ts1 => if N.eqb d (ch "-") then r ts1 else parse_set (acc ++ [Single c]) (escaped s ++ Plain 93 :: ts) | _ => parse_set (acc ++ [Single c]) (escaped s ++ Plain 93 :: ts) end = parse_set (acc ++ [Single c]) (escaped s ++ Plain 93 :: ts)).
    { intros r. destruct s as [|d s]; [reflexivity|]. cbn [escaped map app]. destruct (memb d SPECIAL) eqn:M; [reflexivity|]. rewrite (plain_not d (ch "-") M) by among. reflexivity. }
    assert (G : parse_set (acc ++ [Single c]) (escaped s ++ Plain 93 :: ts) = Some (acc ++ map Single (c :: s), ts)).
    { rewrite IH; [cbn [map]; rewrite <- app_assoc; reflexivity|]. intros X. destruct acc; discriminate. }
    cbn [escaped map app]. fold (escaped s). pose proof (set_item_escaped c) as SI. destruct (memb c SPECIAL) eqn:M.
    + cbn [parse_set]. rewrite SI. cbn zeta. rewrite N. exact G.
    + cbn [parse_set]. rewrite SI. cbn zeta. rewrite N. rewrite (plain_not c (ch "]") M) by among. destruct acc; exact G.
Qed.
Lemma tokens_split s : tokens (codes "[" ++ escape s ++ codes "]") = Some (Plain 91 :: escaped s ++ [Plain 93]).
Proof. cbn [codes app]. cbn [tokens]. change (N_of_ascii "[" =? 92)%N with false. cbn iota. rewrite (tokens_escape s [Plain 93]) by reflexivity. reflexivity. Qed.
Lemma parse_split split : parse (split_re split) = match concat split with [] => None | s => Some (Seq (Chars false (map Single s)) Eps) end.
Proof.
  unfold parse, split_re. rewrite tokens_split. set (s := concat split). destruct s as [|c s]; [reflexivity|].
  replace (2 * length (Plain 91 :: escaped (c :: s) ++ [Plain 93]) + 2) with (S (S (S (2 * length (escaped (c :: s) ++ [Plain 93]) + 1)))) by (cbn [length]; lia).
  generalize (2 * length (escaped (c :: s) ++ [Plain 93]) + 1). intros f.
  assert (P : parse_chars (escaped (c :: s) ++ [Plain 93]) = Some (Chars false (map Single (c :: s)), [])).
  { unfold parse_chars. assert (X : (match escaped (c :: s) ++ [Plain 93] with Plain c0 :: ts' => if N.eqb c0 (ch "^") then (true, ts') else (false, escaped (c :: s) ++ [Plain 93]) | _ => (false, escaped (c :: s) ++ [Plain 93]) end) = (false, escaped (c :: s) ++ [Plain 93])).
    { cbn [escaped map app]. destruct (memb c SPECIAL) eqn:M; [reflexivity|]. rewrite (plain_not c (ch "^") M) by among. reflexivity. }
    rewrite X. rewrite (parse_set_escaped (c :: s) [] []); [reflexivity|discriminate]. }
  cbn [parse_alt parse_seq]. change (N.eqb 91 (ch "|") || N.eqb 91 (ch ")")) with false. change (N.eqb 91 (ch "[")) with true. cbn iota. rewrite P. reflexivity.
Qed.

(** ** fingerprint.py:73-77: the stopwords *)
Definition bounded_word (w : str) : regex := Seq (Boundary false) (fold_right (fun c r => Seq (Lit c) r) (Seq (Boundary false) Eps) w).
Fixpoint alternatives (ws : list str) : regex :=
  match ws with [] => Eps | [w] => bounded_word w | w :: ws => Alt (bounded_word w) (alternatives ws) end.
Definition word_tokens (w : str) : list tok := Escaped 98 :: escaped w ++ [Escaped 98].
Fixpoint words_tokens (ws : list str) : list tok :=
  match ws with [] => [] | [w] => word_tokens w | w :: ws => word_tokens w ++ Plain 124 :: words_tokens ws end.
Lemma tokens_word w rest ts : tokens rest = Some ts -> tokens (codes "\b" ++ escape w ++ codes "\b" ++ rest) = Some (word_tokens w ++ ts).
Proof.
  intros R. change (codes "\b") with [92%N; 98%N]. cbn [app tokens]. rewrite N.eqb_refl. rewrite (tokens_escape w (Escaped 98 :: ts)).
  - unfold word_tokens. cbn [option_map app]. rewrite <- app_assoc. reflexivity.
  - cbn [tokens]. rewrite N.eqb_refl, R. reflexivity.
Qed.
Lemma tokens_words ws : tokens (stopwords_re ws) = Some (Plain 40 :: Plain 63 :: Plain 58 :: words_tokens ws ++ [Plain 41]).
Proof.
  unfold stopwords_re. change (codes "(?:") with [40%N; 63%N; 58%N]. change (codes ")") with [41%N]. change (codes "|") with [124%N]. cbn [app tokens N.eqb Pos.eqb].
  assert (X : tokens (FingerprintModel.join [124%N] (map (fun s => codes "\b" ++ escape s ++ codes "\b") ws) ++ [41%N]) = Some (words_tokens ws ++ [Plain 41])); [|rewrite X; reflexivity].
  induction ws as [|w ws IH]; [reflexivity|]. cbn [map]. destruct ws as [|w' ws].
  - cbn [FingerprintModel.join map words_tokens]. rewrite <- !app_assoc. apply tokens_word. reflexivity.
  - cbn [FingerprintModel.join]. cbn [map] in *. match type of IH with tokens (?J ++ _) = _ => set (JJ := J) in * end. change (words_tokens (w :: w' :: ws)) with (word_tokens w ++ Plain 124 :: words_tokens (w' :: ws)). rewrite <- !app_assoc. apply tokens_word. cbn [app tokens]. rewrite IH. reflexivity.
Qed.
(** what cannot be a quantifier *)
Definition calm (ts : list tok) : Prop := quantifier ts = Some None.
Lemma calm_escaped s ts : calm ts -> calm (escaped s ++ ts).
Proof.
  intros C. destruct s as [|c s]; [exact C|]. unfold calm. cbn [escaped map app]. destruct (memb c SPECIAL) eqn:M; [reflexivity|]. unfold quantifier.
  rewrite (plain_not c (ch "*") M), (plain_not c (ch "+") M), (plain_not c (ch "?") M), (plain_not c (ch "{") M) by among. reflexivity.
Qed.
Lemma quantify_calm r at_ ts : calm ts -> quantify r at_ ts = Some (r, ts).
Proof. unfold calm, quantify. intros ->. reflexivity. Qed.
Lemma parse_lits opened cur s : forall fuel r o' ts ts', calm ts -> parse_seq fuel opened cur ts = Some (r, o', ts') ->
  parse_seq (length s + fuel) opened cur (escaped s ++ ts) = Some (fold_right (fun c r => Seq (Lit c) r) r s, o', ts').
Proof.
  induction s as [|c s IH]; intros fuel r o' ts ts' C P; [exact P|]. cbn [length Nat.add escaped map app]. fold (escaped s).
  pose proof (calm_escaped s ts C) as CS. specialize (IH fuel r o' ts ts' C P). destruct (memb c SPECIAL) eqn:M.
  - cbn [parse_seq]. rewrite (escape_item_special _ _ _ c M). cbn zeta. rewrite (quantify_calm _ _ _ CS), IH. reflexivity.
  - cbn [parse_seq]. rewrite (plain_not c (ch "|") M), (plain_not c (ch ")") M), (plain_not c (ch "[") M), (plain_not c (ch ".") M), (plain_not c (ch "^") M), (plain_not c (ch "$") M), (plain_not c (ch "(") M) by among. cbn [orb].
    pose proof (calm_escaped (c :: s) ts C) as CC. unfold calm in CC. cbn [escaped map app] in CC. rewrite M in CC. fold (escaped s) in CC. rewrite CC. cbn zeta. rewrite (quantify_calm _ _ _ CS), IH. reflexivity.
Qed.
(** after a word comes a bar or the closing parenthesis *)
Lemma parse_word opened cur w e ts fuel : e = 124%N \/ e = 41%N ->
  parse_seq (S (length w + S (S fuel))) opened cur (word_tokens w ++ Plain e :: ts) = Some (bounded_word w, opened, Plain e :: ts).
Proof.
  intros E. unfold word_tokens. cbn [app parse_seq]. change (escape_item opened cur ((escaped w ++ [Escaped 98]) ++ Plain e :: ts) 98) with (Some (Boundary false, true)). cbn zeta iota.
  assert (C : calm (Escaped 98 :: Plain e :: ts)) by reflexivity. rewrite <- app_assoc. cbn [app]. rewrite (quantify_calm _ _ _ (calm_escaped w _ C)).
  rewrite (parse_lits opened cur w (S (S fuel)) (Seq (Boundary false) Eps) opened _ (Plain e :: ts) C); [reflexivity|].
  destruct E as [->| ->]; reflexivity.
Qed.
Lemma parse_words opened cur ts : forall ws fuel, length (words_tokens ws) < fuel -> parse_alt (S fuel) opened cur (words_tokens ws ++ Plain 41 :: ts) = Some (alternatives ws, opened, Plain 41 :: ts).
Proof.
  induction ws as [|w ws IH]; intros fuel L; [destruct fuel; [lia|]; reflexivity|].
  assert (LW : length (word_tokens w) = length w + 2) by (unfold word_tokens, escaped; cbn [length]; rewrite app_length, map_length; cbn; lia).
  assert (PW : forall e ts fuel, e = 124%N \/ e = 41%N -> length w + 2 < fuel -> parse_seq fuel opened cur (word_tokens w ++ Plain e :: ts) = Some (bounded_word w, opened, Plain e :: ts)).
  { intros e ts' f E F. replace f with (S (length w + S (S (f - length w - 3)))) by lia. apply parse_word. exact E. }
  destruct ws as [|w' ws].
  - cbn [words_tokens alternatives] in *. cbn [parse_alt]. rewrite PW by (auto; lia). reflexivity.
  - change (words_tokens (w :: w' :: ws)) with (word_tokens w ++ Plain 124 :: words_tokens (w' :: ws)) in *. rewrite app_length in L. cbn [length] in L. rewrite <- app_assoc. cbn [app].
    cbn [parse_alt]. fold parse_alt. rewrite PW by (auto; lia). change (N.eqb 124 (ch "|")) with true. cbn iota. destruct fuel as [|fuel]; [lia|]. rewrite IH by lia. reflexivity.
Qed.
Lemma parse_stopwords ws : parse (stopwords_re ws) = Some (Seq (alternatives ws) Eps).
Proof.
  unfold parse. rewrite tokens_words. cbn [length]. rewrite app_length. cbn [length]. set (n := length (words_tokens ws)). replace (2 * S (S (S (n + 1))) + 2) with (S (S (S (2 * n + 7)))) by lia.
  remember (S (2 * n + 7)) as f eqn:F.
  cbn [parse_alt parse_seq]. change (N.eqb 40 (ch "|") || N.eqb 40 (ch ")")) with false. change (N.eqb 40 (ch "[")) with false. change (N.eqb 40 (ch ".")) with false. change (N.eqb 40 (ch "^")) with false. change (N.eqb 40 (ch "$")) with false. change (N.eqb 40 (ch "(")) with true. cbn iota.
  change (group_start (Plain 63 :: Plain 58 :: words_tokens ws ++ [Plain 41])) with (Some (NoCapture, words_tokens ws ++ [Plain 41])). cbn iota zeta. rewrite F at 1. rewrite parse_words by (fold n; lia). change (N.eqb 41 (ch ")")) with true. cbn iota.
  change (quantify (alternatives ws) false []) with (Some (alternatives ws, @nil tok)). cbn iota. rewrite F. reflexivity.
Qed.

(** ** fingerprint.py:82-83: the number in decimal *)
Lemma number_acc : forall u acc, fold_left (fun n d => (10 * n + (d - 48))%N) (codes (NilEmpty.string_of_uint u)) (N.of_nat acc) = N.of_nat (Nat.of_uint_acc u acc).
Proof.
  induction u as [|u IH|u IH|u IH|u IH|u IH|u IH|u IH|u IH|u IH|u IH]; intros acc; [reflexivity|..]; cbn [NilEmpty.string_of_uint codes fold_left Nat.of_uint_acc];
    (rewrite <- IH; f_equal; rewrite Nat.tail_mul_spec; match goal with |- context [N_of_ascii ?a] => let v := eval vm_compute in (N_of_ascii a) in change (N_of_ascii a) with v end; lia).
Qed.
Lemma number_string n : number (codes (NilEmpty.string_of_uint (Nat.to_uint n))) = N.of_nat n.
Proof. unfold number. change 0%N with (N.of_nat 0). rewrite number_acc. change (Nat.of_uint_acc (Nat.to_uint n) 0) with (Nat.of_uint (Nat.to_uint n)). rewrite Unsigned.of_to. reflexivity. Qed.
Lemma string_digits u : Forall (fun c => is_digit_char c = true) (codes (NilEmpty.string_of_uint u)).
Proof. induction u; cbn; constructor; auto. Qed.
Lemma tokens_digits ds rest ts : Forall (fun c => is_digit_char c = true) ds -> tokens rest = Some ts -> tokens (ds ++ rest) = Some (map Plain ds ++ ts).
Proof.
  intros D R. induction D as [|c ds Dc D IH]; [exact R|]. cbn [app tokens map]. assert (E : (c =? 92)%N = false) by (apply N.eqb_neq; intros ->; discriminate). rewrite E, IH. reflexivity.
Qed.
Lemma digits_all ds c ts : Forall (fun c => is_digit_char c = true) ds -> is_digit_char c = false -> digits (map Plain ds ++ Plain c :: ts) = (ds, Plain c :: ts).
Proof. intros D NC. induction D as [|d ds Dd D IH]; cbn [map app digits]; [rewrite NC; reflexivity|]. rewrite Dd, IH. reflexivity. Qed.
Definition small_token (n : nat) : regex := Seq (Boundary false) (Seq (Rep false 1 (Some n) (Chars false [Category NotSpace])) (Seq (Boundary false) Eps)).
Lemma tokens_min n : tokens (min_token_size_re n) =
  Some (Escaped 98 :: Escaped 83 :: Plain 123 :: Plain 49 :: Plain 44 :: map Plain (codes (NilEmpty.string_of_uint (Nat.to_uint n))) ++ [Plain 125; Escaped 98]).
Proof.
  unfold min_token_size_re. change (codes "\b\S{1,") with [92; 98; 92; 83; 123; 49; 44]%N. change (codes "}\b") with [125; 92; 98]%N. cbn [app tokens N.eqb Pos.eqb].
  rewrite (tokens_digits _ [125; 92; 98]%N [Plain 125; Escaped 98]); [reflexivity|apply string_digits|reflexivity].
Qed.
Lemma string_nonempty n : codes (NilEmpty.string_of_uint (Nat.to_uint n)) <> [].
Proof. intros E. pose proof (number_string n) as M. rewrite E in M. destruct n; [discriminate E|discriminate M]. Qed.
Lemma parse_min n : parse (min_token_size_re n) = if (MAXREPEAT <=? N.of_nat n)%N || (N.of_nat n <? 1)%N then None else Some (small_token n).
Proof.
  unfold parse. rewrite tokens_min. pose proof (number_string n) as NS. pose proof (string_digits (Nat.to_uint n)) as D. pose proof (string_nonempty n) as NE. set (ds := codes _) in *. 
  cbn [length]. rewrite app_length, map_length. cbn [length]. replace (2 * S (S (S (S (S (length ds + 2))))) + 2) with (S (S (S (S (S (S (S (2 * length ds + 9)))))))) by lia.
  assert (Q : quantifier (Plain 123 :: Plain 49 :: Plain 44 :: map Plain ds ++ [Plain 125; Escaped 98]) = if (MAXREPEAT <=? N.of_nat n)%N || (N.of_nat n <? 1)%N then None else Some (Some (1, Some n, [Escaped 98]))).
  { unfold quantifier. change (N.eqb 123 (ch "*")) with false. change (N.eqb 123 (ch "+")) with false. change (N.eqb 123 (ch "?")) with false. change (N.eqb 123 (ch "{")) with true. cbn iota.
    assert (B : bounds (Plain 49 :: Plain 44 :: map Plain ds ++ [Plain 125; Escaped 98]) = Some ([49%N], Some ds, [Escaped 98])).
    { unfold bounds. change (closes (Plain 49 :: Plain 44 :: map Plain ds ++ [Plain 125; Escaped 98])) with (@None (list tok)). cbn iota. 
      change (digits (Plain 49 :: Plain 44 :: map Plain ds ++ [Plain 125; Escaped 98])) with ([49%N], Plain 44 :: map Plain ds ++ [Plain 125; Escaped 98]). cbn iota. change (N.eqb 44 (ch ",")) with true. cbn iota.
      rewrite digits_all; [reflexivity|exact D|reflexivity]. }
    rewrite B. cbn zeta iota. change (number [49%N]) with 1%N. change (MAXREPEAT <=? 1)%N with false. cbn iota. destruct ds as [|d ds]; [congruence|]. rewrite NS. destruct ((MAXREPEAT <=? N.of_nat n)%N || (N.of_nat n <? 1)%N); [reflexivity|]. rewrite Nnat.Nat2N.id. reflexivity. }
  remember (Plain 123 :: Plain 49 :: Plain 44 :: map Plain ds ++ [Plain 125; Escaped 98]) as rest eqn:R.
  remember (S (S (S (S (2 * length ds + 9))))) as f eqn:F. cbn [parse_alt parse_seq].
  change (escape_item 1 [] (Escaped 83 :: rest) 98) with (Some (Boundary false, true)). cbn iota zeta. change (quantify (Boundary false) true (Escaped 83 :: rest)) with (Some (Boundary false, Escaped 83 :: rest)). cbn iota.
  change (escape_item 1 [] rest 83) with (Some (Chars false [Category NotSpace], false)). cbn iota zeta. unfold quantify at 1. rewrite Q.
  destruct ((MAXREPEAT <=? N.of_nat n)%N || (N.of_nat n <? 1)%N); [reflexivity|]. cbn iota. rewrite F. reflexivity.
Qed.

(** ** matching *)
Section Matching.
Variables is_digit is_space is_word : N -> bool.
Section Same.
Variable same : N -> N -> bool.
Notation ways := (RegexModel.ways is_digit is_space is_word same).
Notation match_at := (RegexModel.match_at is_digit is_space is_word same).
Notation sub_loop := (RegexModel.sub_loop is_digit is_space is_word same).

(** removing what is matched, when some of it may be empty *)
Lemma sub_removing r m :
  (forall b a, at_length b a (match_at r true b a) (m b a)) ->
  (forall b a, match_at r false b a = match_at r true b a \/ exists g, match_at r false b a = Some (b, a, g)) ->
  forall fuel s ad b, 2 * length s + (if ad : bool then 1 else 2) <= fuel -> sub_loop r (fun _ => []) fuel ad b s = scan m [] b 0 s.
Proof.
  intros M1 M0. induction fuel as [|fuel IH]; intros s ad b L; [destruct ad; lia|]. 
  assert (T : match match_at r true b s with
              | Some st => sub_loop r (fun _ => []) fuel (Nat.eqb (length (after st)) (length s)) (before st) (after st)
              | None => match s with [] => [] | c :: a => c :: sub_loop r (fun _ => []) fuel false (c :: b) a end end = scan m [] b 0 s).
  { pose proof (M1 b s) as A. destruct (match_at r true b s) as [st|], (m b s) as [k|] eqn:E; try contradiction.
    - destruct A as (K & B & A). rewrite B, A. assert (LS : length (skipn k s) = length s - k) by apply skipn_length. rewrite LS. replace (length s - k =? length s)%nat with false by (symmetry; apply Nat.eqb_neq; lia).
      destruct s as [|c s]; [cbn in K; lia|]. cbn [scan]. rewrite E. destruct k as [|k]; [lia|]. cbn [app]. cbn [length] in *. rewrite IH by (rewrite LS; destruct ad; lia). cbn [skipn firstn rev]. rewrite (scan_skip _ _ k) by lia. rewrite <- app_assoc. reflexivity.
    - destruct s as [|c s]; [reflexivity|]. cbn [scan]. rewrite E. f_equal. cbn [length] in *. apply IH. destruct ad; lia. }
  cbn [RegexModel.sub_loop app]. destruct ad; [exact T|]. destruct (M0 b s) as [E|[g E]]; [rewrite E; exact T|]. rewrite E. cbn [before after fst snd]. rewrite Nat.eqb_refl. apply IH. lia.
Qed.
Lemma re_sub_removing r m s :
  (forall b a, at_length b a (match_at r true b a) (m b a)) ->
  (forall b a, match_at r false b a = match_at r true b a \/ exists g, match_at r false b a = Some (b, a, g)) ->
  RegexModel.re_sub is_digit is_space is_word same r (fun _ => []) s = scan m [] [] 0 s.
Proof. intros M1 M0. unfold RegexModel.re_sub. apply (sub_removing r m M1 M0). lia. Qed.
Lemma remove_scan m : forall s b k, re_remove m (hd_error b) k s = scan (fun b a => m (hd_error b) a) [] b k s.
Proof.
  induction s as [|c s IH]; intros b k; [reflexivity|]. cbn. destruct k as [|k]; [|apply (IH (c :: b))].
  destruct (m (hd_error b) (c :: s)) as [[|k]|]; rewrite <- (IH (c :: b)); reflexivity.
Qed.

Definition edge (b a : str) : bool := xorb (word_at is_word b) (word_at is_word a).
Lemma ways_boundary b a g : ways (Boundary false) (b, a, g) = if edge b a then [(b, a, g)] else [].
Proof. cbn [RegexModel.ways before after fst snd]. unfold edge. destruct b as [|x b], a as [|y a]; cbn [word_at]; try reflexivity; repeat match goal with |- context [is_word ?x] => destruct (is_word x) end; reflexivity. Qed.
Lemma ways_lits r w : forall b a, ways (fold_right (fun c r => Seq (Lit c) r) r w) (b, a, []) = if prefix_ci same w a then ways r (ahead (length w) b a []) else [].
Proof.
  induction w as [|c w IH]; intros b a; [reflexivity|]. cbn [fold_right]. rewrite ways_seq, ways_lit. destruct a as [|x a]; [reflexivity|]. cbn [step prefix_ci]. destruct (same c x); cbn [andb flat_map]; [|reflexivity].
  rewrite app_nil_r, IH. cbn [length]. rewrite ahead_S. reflexivity.
Qed.
Lemma prefix_length w : forall a, prefix_ci same w a = true -> length w <= length a.
Proof. induction w as [|c w IH]; intros a P; cbn in *; [lia|]. destruct a as [|x a]; [discriminate|]. apply andb_prop in P. specialize (IH a (proj2 P)). cbn. lia. Qed.
Lemma edge_0 b a : edge b a = boundary is_word (hd_error b) (hd_error a).
Proof. unfold edge, boundary. destruct b, a; reflexivity. Qed.
Lemma hd_rev_firstn n : forall (a b : str), 0 < n <= length a -> hd_error (rev (firstn n a) ++ b) = nth_error a (n - 1).
Proof.
  intros a b L. destruct n as [|n]; [lia|]. replace (S n - 1) with n by lia. revert a b L. induction n as [|n IH]; intros a b L; (destruct a as [|x a]; [cbn in L; lia|]); [reflexivity|].
  cbn [firstn rev]. cbn [firstn rev] in IH. rewrite <- app_assoc. cbn [nth_error]. apply (IH a ([x] ++ b)). cbn in L. lia.
Qed.
Lemma hd_skipn n : forall a : str, hd_error (skipn n a) = nth_error a n.
Proof. induction n as [|n IH]; intros [|x a]; try reflexivity. apply IH. Qed.
Lemma edge_n n b a : 0 < n <= length a -> edge (rev (firstn n a) ++ b) (skipn n a) = boundary is_word (nth_error a (n - 1)) (nth_error a n).
Proof. intros L. rewrite edge_0, hd_rev_firstn, hd_skipn by exact L. reflexivity. Qed.
Lemma ways_word w b a : ways (bounded_word w) (b, a, []) = if edge b a && prefix_ci same w a && edge (rev (firstn (length w) a) ++ b) (skipn (length w) a) then [ahead (length w) b a []] else [].
Proof.
  unfold bounded_word. rewrite ways_seq, ways_boundary. destruct (edge b a); cbn [andb flat_map]; [|reflexivity]. rewrite app_nil_r, ways_lits. destruct (prefix_ci same w a); cbn [andb]; [|reflexivity]. rewrite ways_seq_eps. apply ways_boundary.
Qed.
Definition hits (ws : list str) (b a : str) : list state := flat_map (fun w => ways (bounded_word w) (b, a, [])) ws.
Lemma ways_alternatives ws b a : ways (alternatives ws) (b, a, []) = match ws with [] => [(b, a, [])] | _ => hits ws b a end.
Proof.
  destruct ws as [|w ws]; [reflexivity|]. revert w. induction ws as [|w' ws IH]; intros w; [cbn; rewrite app_nil_r; reflexivity|]. change (alternatives (w :: w' :: ws)) with (Alt (bounded_word w) (alternatives (w' :: ws))). rewrite ways_alt, IH. reflexivity.
Qed.
Lemma hit_word w b a : 0 < length w -> ways (bounded_word w) (b, a, []) = if prefix_ci same w a && bounded is_word (hd_error b) a (length w) then [ahead (length w) b a []] else [].
Proof.
  intros L. rewrite ways_word. unfold bounded. rewrite edge_0. destruct (prefix_ci same w a) eqn:P; cbn [andb]; [|rewrite Bool.andb_false_r; reflexivity]. rewrite Bool.andb_true_r. rewrite edge_n by (split; [exact L|apply prefix_length; exact P]). reflexivity.
Qed.
Lemma stop_true ws b a : at_length b a (match_at (Seq (alternatives ws) Eps) true b a) (stopword_match is_word same ws (hd_error b) a).
Proof.
  unfold RegexModel.match_at. rewrite ways_seq_eps, ways_alternatives. cbn [negb orb].
  assert (H : at_length b a (find (fun st => (length (after st) <? length a)%nat) (hits ws b a)) (stopword_match is_word same ws (hd_error b) a)).
  { unfold stopword_match. induction ws as [|w ws IH]; [exact Logic.I|]. cbn [find hits flat_map]. fold (hits ws b a). destruct (Nat.ltb_spec 0 (length w)) as [L|L]; cbn [andb].
    - rewrite hit_word by exact L. destruct (prefix_ci same w a && bounded is_word (hd_error b) a (length w)) eqn:P; [|exact IH]. apply andb_prop in P. destruct P as [P _]. apply prefix_length in P.
      cbn [app find]. unfold ahead at 1. cbn [after fst snd]. rewrite skipn_length. replace (length a - length w <? length a)%nat with true by (symmetry; apply Nat.ltb_lt; lia). unfold at_length, ahead. cbn [before after fst snd]. auto.
    - destruct w; [|cbn in L; lia]. rewrite ways_word. cbn [length firstn rev app skipn]. destruct (_ && _); [|exact IH]. cbn [app find]. unfold ahead. cbn [after fst snd skipn]. rewrite Nat.ltb_irrefl. exact IH. }
  destruct ws as [|w ws]; [|exact H]. cbn [find after fst snd]. rewrite Nat.ltb_irrefl. exact Logic.I.
Qed.
Lemma stop_false ws b a : match_at (Seq (alternatives ws) Eps) false b a = match_at (Seq (alternatives ws) Eps) true b a \/ exists g, match_at (Seq (alternatives ws) Eps) false b a = Some (b, a, g).
Proof.
  unfold RegexModel.match_at. rewrite ways_seq_eps, ways_alternatives. cbn [negb orb]. rewrite find_hd. destruct ws as [|w0 ws0]; [right; exists []; reflexivity|]. generalize (w0 :: ws0). clear w0 ws0. intros ws.
  induction ws as [|w ws IH]; [left; reflexivity|]. cbn [hits flat_map]. fold (hits ws b a). rewrite ways_word. destruct (edge b a && prefix_ci same w a && edge (rev (firstn (length w) a) ++ b) (skipn (length w) a)) eqn:E; [|exact IH].
  cbn [app hd_error find]. apply andb_prop in E. destruct E as [E _]. apply andb_prop in E. destruct E as [_ E]. apply prefix_length in E. unfold ahead at 2 3. cbn [after fst snd]. rewrite skipn_length. destruct w as [|c w]; [right; exists []; reflexivity|].
  left. replace (length a - length (c :: w) <? length a)%nat with true by (symmetry; apply Nat.ltb_lt; cbn [length] in *; lia). reflexivity.
Qed.
Lemma stopwords_with ws s : sub_pattern is_digit is_space is_word same (stopwords_re ws) [] s = Some (re_remove (stopword_match is_word same ws) None 0 s).
Proof.
  unfold sub_pattern. rewrite parse_stopwords. cbn [template]. f_equal.
  rewrite (remove_scan _ s [] 0). apply (re_sub_removing (Seq (alternatives ws) Eps)); [apply stop_true|apply stop_false].
Qed.
End Same.

Notation ways := (RegexModel.ways is_digit is_space is_word N.eqb).
Notation match_at := (RegexModel.match_at is_digit is_space is_word N.eqb).
Notation sub := (sub_pattern is_digit is_space is_word N.eqb).

(** small tokens *)
Definition not_space (c : N) : bool := negb (is_space c).
Lemma not_space_set c : in_set is_digit is_space is_word N.eqb false [Category NotSpace] c = not_space c.
Proof. unfold in_set, not_space. cbn. destruct (is_space c); reflexivity. Qed.
Lemma run_all p : forall (a : str) m, (Nat.leb m (length a) && forallb p (firstn m a) = true) <-> m <= run p a.
Proof.
  induction a as [|c a IH]; intros m; cbn [run length].
  - rewrite Bool.andb_true_iff, Nat.leb_le. split; [tauto|]. intros L. destruct m; [auto|lia].
  - destruct m as [|m]; [split; [lia|reflexivity]|]. cbn [firstn forallb Nat.leb]. destruct (p c); cbn [andb].
    + rewrite IH. lia.
    + rewrite Bool.andb_false_r. split; [discriminate|lia].
Qed.
Lemma find_app_none {A} (f : A -> bool) l1 l2 : (forall x, In x l1 -> f x = false) -> find f (l1 ++ l2) = find f l2.
Proof. induction l1 as [|x l1 IH]; intros H; [reflexivity|]. cbn. rewrite H by (left; reflexivity). apply IH. intros y I. apply H. right. exact I. Qed.
Lemma small_match n b a : at_length b a (match_at (small_token n) false b a) (small_token_match is_space is_word n (hd_error b) a).
Proof.
  unfold RegexModel.match_at, small_token, small_token_match. cbn [negb orb]. rewrite find_hd, ways_seq, ways_boundary, edge_0. unfold bounded.
  set (e0 := boundary is_word (hd_error b) (hd_error a)). destruct e0; cbn [flat_map andb].
  2: { assert (F : forall l, find (fun m => Nat.leb m (length a) && forallb (fun c => negb (is_space c)) (firstn m a) && false) l = None) by (induction l; [reflexivity|cbn; rewrite Bool.andb_false_r; assumption]). rewrite F. exact Logic.I. }
  rewrite app_nil_r, ways_seq, ways_rep_chars. rewrite (run_ext _ not_space a not_space_set). cbn [capped]. set (k := run not_space a).
  assert (KL : k <= length a) by apply run_le.
  set (f := fun m => Nat.leb m (length a) && forallb (fun c => negb (is_space c)) (firstn m a) && boundary is_word (nth_error a (m - 1)) (nth_error a m)).
  assert (R : find f (rev (seq 1 n)) = find f (rev (seq 1 (Nat.min n k)))).
  { replace n with (Nat.min n k + (n - Nat.min n k)) at 1 by lia. rewrite seq_app, rev_app_distr. apply find_app_none. intros m I. apply in_rev in I. apply in_seq in I. unfold f.
    destruct (Nat.leb m (length a) && forallb (fun c => negb (is_space c)) (firstn m a)) eqn:X; [|reflexivity]. apply (run_all not_space) in X. fold k in X. lia. }
  rewrite R. replace (Nat.min n k + 1 - 1) with (Nat.min n k) by lia.
  assert (IN : forall m, In m (rev (seq 1 (Nat.min n k))) -> 1 <= m <= k) by (intros m I; apply in_rev in I; apply in_seq in I; lia).
  revert IN. generalize (rev (seq 1 (Nat.min n k))). induction l as [|m l IH]; intros IN; [exact Logic.I|]. pose proof (IN m (or_introl eq_refl)) as M. cbn [map flat_map find].
  assert (W : ways (Seq (Boundary false) Eps) (ahead m b a []) = if boundary is_word (nth_error a (m - 1)) (nth_error a m) then [ahead m b a []] else []).
  { rewrite ways_seq_eps. unfold ahead at 1. rewrite ways_boundary, (edge_n N.eqb) by lia. reflexivity. }
  rewrite W. assert (FM : f m = boundary is_word (nth_error a (m - 1)) (nth_error a m)).
  { unfold f. assert (X : Nat.leb m (length a) && forallb not_space (firstn m a) = true) by (apply (run_all not_space); fold k; lia). unfold not_space in X. rewrite X. reflexivity. }
  rewrite FM. destruct (boundary is_word (nth_error a (m - 1)) (nth_error a m)); [|apply IH; intros m' I; apply IN; right; exact I].
  cbn [app hd_error]. unfold at_length, ahead. cbn [before after fst snd]. split; [lia|auto].
Qed.
Lemma small_with n s : 1 <= n -> (N.of_nat n < MAXREPEAT)%N -> sub (min_token_size_re n) [] s = Some (re_remove (small_token_match is_space is_word n) None 0 s).
Proof.
  intros L1 L2. assert (P : parse (min_token_size_re n) = Some (small_token n)).
  { rewrite parse_min. destruct (N.leb_spec MAXREPEAT (N.of_nat n)); [lia|]. destruct (N.ltb_spec (N.of_nat n) 1); [lia|]. reflexivity. }
  rewrite (sub_const is_digit is_space is_word _ (small_token n) [] s P) by reflexivity. f_equal. rewrite (remove_scan _ s [] 0).
  apply (re_sub_scan _ _ _ _ (small_token n) _ [] (fun _ _ => True)); auto. intros b a _. apply small_match.
Qed.

(** runs of characters of a category *)
Lemma match_run p k b a : (forall c, in_set is_digit is_space is_word N.eqb false [Category k] c = p c) ->
  match_at (Seq (Rep false 1 None (Chars false [Category k])) Eps) false b a = match run p a with 0 => None | n => Some (ahead n b a []) end.
Proof.
  intros E. unfold RegexModel.match_at. rewrite ways_seq_eps, ways_rep_chars, (run_ext _ p a E). cbn [capped negb orb]. destruct (run p a) as [|n]; [reflexivity|].
  replace (S n + 1 - 1) with (S n) by lia. rewrite seq_S, rev_app_distr. reflexivity.
Qed.
Lemma scan_run p : forall s b k, k <= run p s -> scan (fun _ a => match run p a with 0 => None | n => Some n end) [] b k s = filter (fun c => negb (p c)) s.
Proof.
  induction s as [|c s IH]; intros b k L; [reflexivity|]. cbn [scan filter]. cbn [run] in L. destruct (p c) eqn:P.
  - cbn [negb]. destruct k as [|k]; [cbn [run]; rewrite P; cbn [app]; apply IH; lia|apply IH; lia].
  - destruct k as [|k]; [|lia]. cbn [run]. rewrite P. cbn [negb]. f_equal. apply IH. lia.
Qed.
Lemma run_removed pat p k s : parse pat = Some (Seq (Rep false 1 None (Chars false [Category k])) Eps) -> (forall c, in_set is_digit is_space is_word N.eqb false [Category k] c = p c) ->
  sub pat [] s = Some (filter (fun c => negb (p c)) s).
Proof.
  intros P E. rewrite (sub_const is_digit is_space is_word pat _ [] s P) by reflexivity. f_equal.
  rewrite (re_sub_scan _ _ _ _ _ (fun _ a => match run p a with 0 => None | n => Some n end) [] (fun _ _ => True)); auto; [apply scan_run; lia|].
  intros b a _. rewrite (match_run p k b a E). pose proof (run_le p a) as L. destruct (run p a) as [|n]; [exact Logic.I|]. unfold at_length, ahead. cbn [before after fst snd]. split; [lia|auto].
Qed.
Lemma digits_removed s : sub DIGITS_RE [] s = Some (filter (fun c => negb (is_digit c)) s).
Proof. apply (run_removed _ is_digit Digit); [reflexivity|]. intros c. unfold in_set. cbn. destruct (is_digit c); reflexivity. Qed.
Lemma space_set c : in_set is_digit is_space is_word N.eqb false [Category Space] c = is_space c.
Proof. unfold in_set. cbn. destruct (is_space c); reflexivity. Qed.
Lemma spaces_removed s : sub WHITESPACE_RE [] s = Some (filter (fun c => negb (is_space c)) s).
Proof. apply (run_removed _ is_space Space); [reflexivity|apply space_set]. Qed.
Lemma split_skip : forall s, FingerprintModel.re_split is_space true [] s = FingerprintModel.re_split is_space false [] (skipn (run is_space s) s).
Proof.
  induction s as [|c s IH]; [reflexivity|]. cbn [FingerprintModel.re_split run]. destruct (is_space c) eqn:E; [exact IH|]. cbn [skipn FingerprintModel.re_split]. rewrite E. reflexivity.
Qed.
Lemma spaces_split s : split_pattern is_digit is_space is_word N.eqb WHITESPACE_RE 0 s = Some (map Some (FingerprintModel.re_split is_space false [] s)).
Proof.
  transitivity (Some (RegexModel.split_loop is_digit is_space is_word N.eqb (Seq (Rep false 1 None (Chars false [Category Space])) Eps) 0 (2 * length s + 2) false [] [] s)); [reflexivity|]. f_equal.
  assert (X : forall fuel s piece b, length s < fuel -> RegexModel.split_loop is_digit is_space is_word N.eqb (Seq (Rep false 1 None (Chars false [Category Space])) Eps) 0 fuel false piece b s = map Some (FingerprintModel.re_split is_space false (rev piece) s)); [|apply (X _ s []); lia].
  clear s. induction fuel as [|fuel IH]; intros s piece b L; [lia|]. cbn [RegexModel.split_loop]. rewrite (match_run is_space Space b s space_set). destruct s as [|c s]; [reflexivity|]. cbn [run FingerprintModel.re_split]. cbn [length] in L. destruct (is_space c) eqn:E.
  - unfold ahead. cbn [before after fst snd seq map app skipn]. rewrite skipn_length. cbn [length]. replace (length s - run is_space s =? S (length s))%nat with false by (symmetry; apply Nat.eqb_neq; lia). f_equal. rewrite IH by (rewrite skipn_length; lia). rewrite split_skip. reflexivity.
  - rewrite IH by lia. reflexivity.
Qed.
Lemma split_chars_with cs s : concat cs <> [] -> sub (split_re cs) (codes " ") s = Some (map (fun c => if memb c (concat cs) then 32%N else c) s).
Proof.
  intros NE. rewrite (sub_char is_digit is_space is_word _ (fun c => memb c (concat cs)) (codes " ") s (Chars false (map Single (concat cs)))).
  - f_equal. induction s as [|c s IH]; [reflexivity|]. cbn [flat_map map]. rewrite IH. destruct (memb c (concat cs)); reflexivity.
  - rewrite parse_split. destruct (concat cs); [congruence|reflexivity].
  - reflexivity.
  - intros b a. rewrite ways_chars. unfold step. destruct a as [|c a]; [reflexivity|]. rewrite in_singles. destruct (memb c (concat cs)); reflexivity.
Qed.

(** the tokenizers *)
Variable same_ci : N -> N -> bool.
Variable set_order : list str -> list str.
Variables lower unidecode : str -> str.
Lemma then_some {A B} (x : option A) (a : A) (f : A -> option B) (r : option B) : x = Some a -> f a = r -> then_ x f = r.
Proof. intros -> <-. reflexivity. Qed.
Lemma normalize_with o s : accepted o -> normalize_re is_digit is_space is_word same_ci lower unidecode o s = Some (normalize is_space is_digit is_word same_ci lower unidecode (options_of o) s).
Proof.
  intros [A1 A2]. destruct o as [kd mts sp sw sq]. unfold normalize_re, normalize, options_of. cbn [re_keep_digits re_min_token_size re_split_chars re_stopwords re_squeeze keep_digits min_token_size FingerprintModel.split stopwords squeeze_tokens option_map] in *.
  apply (then_some _ (match option_map (fun cs => concat cs) sp with Some cs => map (fun c => if memb c cs then 32%N else c) s | None => s end)).
  { destruct sp as [cs|]; [|reflexivity]. apply split_chars_with. exact A1. }
  eapply then_some.
  { match goal with |- match sw with Some _ => _ | None => Some ?x end = Some ?e => unify e (match sw with Some ws => re_remove (stopword_match is_word same_ci ws) None 0 x | None => x end) end.
    destruct sw as [ws|]; [|reflexivity]. apply stopwords_with. }
  eapply then_some.
  { match goal with |- (if kd then Some ?x else _) = Some ?e => unify e (if kd then x else filter (fun c => negb (is_digit c)) x) end. destruct kd; [reflexivity|apply digits_removed]. }
  cbn zeta. eapply then_some.
  { match goal with |- match mts with Some _ => _ | None => Some ?x end = Some ?e => unify e (if Nat.ltb 1 (match mts with Some n => n | None => 0 end) then re_remove (small_token_match is_space is_word (match mts with Some n => n | None => 0 end)) None 0 x else x) end.
    destruct mts as [n|]; [|reflexivity]. destruct (Nat.ltb_spec 1 n); [|reflexivity]. apply small_with; [lia|exact A2]. }
  apply blacklist.
Qed.
Lemma normalize_refused o cs s : re_split_chars o = Some cs -> concat cs = [] -> normalize_re is_digit is_space is_word same_ci lower unidecode o s = None.
Proof. intros E C. unfold normalize_re. rewrite E. unfold sub_pattern. rewrite parse_split, C. reflexivity. Qed.
Lemma trim_with o s : trim_re is_digit is_space is_word o s = Some (trim is_space (options_of o) s).
Proof. unfold trim_re, trim. cbn. destruct (re_squeeze o); [apply squeeze_with|reflexivity]. Qed.
Lemma somes {A} (l : list A) : flat_map (fun t => match t with Some t => [t] | None => [] end) (map Some l) = l.
Proof. induction l as [|x l IH]; [reflexivity|]. cbn. rewrite IH. reflexivity. Qed.
Lemma tokenize_with o s : accepted o ->
  tokenize_re is_digit is_space is_word same_ci set_order lower unidecode o s = Some (FingerprintModel.tokenize set_order is_space is_digit is_word same_ci lower unidecode (options_of o) s).
Proof. intros A. unfold tokenize_re, FingerprintModel.tokenize. rewrite normalize_with by exact A. cbn [then_]. rewrite trim_with. cbn [then_]. rewrite spaces_split. cbn [then_]. rewrite somes. reflexivity. Qed.
Lemma ngrams_with o n s : accepted o ->
  ngrams_tokenize_re is_digit is_space is_word same_ci set_order lower unidecode o n s = Some (ngrams_tokenize set_order is_space is_digit is_word same_ci lower unidecode (options_of o) n s).
Proof. intros A. unfold ngrams_tokenize_re, ngrams_tokenize. rewrite normalize_with by exact A. cbn [then_]. rewrite trim_with. cbn [then_]. rewrite spaces_removed. reflexivity. Qed.
End Matching.
