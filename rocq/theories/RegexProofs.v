(** Facts about matching: repetitions of one character, scans of a text. *)
From Coq Require Import String Ascii Lia.
From Verif Require Import Base BaseFacts LevModel StringsModel RegexModel.
Open Scope nat_scope.
Open Scope list_scope.
Notation length := List.length.

(** number of characters of [p] at the beginning *)
Fixpoint run (p : N -> bool) (s : str) : nat := match s with c :: s => if p c then S (run p s) else 0 | [] => 0 end.
Lemma run_le p s : run p s <= length s.
Proof. induction s as [|c s IH]; cbn; [lia|]. destruct (p c); lia. Qed.
(** [n] characters further *)
Definition ahead (n : nat) (b a : str) (g : list (nat * str)) : state := (rev (firstn n a) ++ b, skipn n a, g).
Lemma ahead_0 b a g : ahead 0 b a g = (b, a, g).
Proof. reflexivity. Qed.
Lemma ahead_S n c b a g : ahead (S n) b (c :: a) g = ahead n (c :: b) a g.
Proof. unfold ahead. cbn. rewrite <- app_assoc. reflexivity. Qed.

(** greedy repetitions of a character *)
Definition capped (hi : option nat) (n : nat) : nat := match hi with Some h => Nat.min h n | None => n end.
Lemma map_ahead_S g b c a l : map (fun n => ahead n b (c :: a) g) (map S l) = map (fun n => ahead n (c :: b) a g) l.
Proof. rewrite map_map. apply map_ext. intros n. apply ahead_S. Qed.
Lemma seq_S_shift lo n : rev (seq (S lo) n) = map S (rev (seq lo n)).
Proof. rewrite <- seq_shift, map_rev. reflexivity. Qed.
Lemma repeats_char f p g : (forall b a, f (b, a, g) = step p (b, a, g)) -> forall a b fuel last lo hi, lo + length a + 2 <= fuel ->
  match last with Some k => k < length b | None => True end ->
  repeats f false fuel last lo hi (b, a, g) = map (fun n => ahead n b a g) (rev (seq lo (capped hi (run p a) + 1 - lo))).
Proof.
  intros F. induction a as [|c a IH]; intros b fuel last lo hi L La; (destruct fuel as [|fuel]; [cbn in L; lia|]).
  - cbn [repeats before fst run after snd length]. rewrite F. cbn [step flat_map].
    assert (C : capped hi 0 = 0) by (destruct hi; cbn; lia). rewrite C.
    match goal with |- context [if ?x then @nil state else []] => destruct x end; (destruct lo; [reflexivity|]); replace (0 + 1 - S lo) with 0 by lia; reflexivity.
  - cbn [repeats before fst run]. rewrite F. cbn [step]. assert (E : eqb last (Some (length b)) = false) by (apply eqb_false; destruct last as [k|]; [intros X; injection X; lia|discriminate]). rewrite E. cbn [negb]. rewrite Bool.orb_true_r, Bool.andb_true_r.
    destruct (p c) eqn:P; cbn [flat_map]; rewrite ?app_nil_r.
    + assert (Z : match hi with Some 0 => True | _ => False end \/ ~ match hi with Some 0 => True | _ => False end) by (destruct hi as [[|h]|]; tauto).
      destruct Z as [Z|Z].
      * destruct hi as [[|h]|]; try contradiction. cbn [capped Nat.min app]. destruct lo; [reflexivity|]. replace (0 + 1 - S lo) with 0 by lia. reflexivity.
      * replace (match hi with Some 0 => false | _ => true end) with true by (destruct hi as [[|h]|]; tauto).
        assert (C : capped hi (S (run p a)) = S (capped (option_map pred hi) (run p a))) by (destruct hi as [[|h]|]; cbn; [tauto|lia|lia]). rewrite C.
        rewrite IH; [|cbn in L; lia|destruct lo; cbn; [lia|destruct last; cbn in *; lia]].
        destruct lo as [|lo].
        -- cbn [Nat.eqb Nat.sub]. replace (S (capped (option_map pred hi) (run p a)) + 1 - 0) with (S (capped (option_map pred hi) (run p a) + 1)) by lia.
           replace (capped (option_map pred hi) (run p a) + 1 - 0) with (capped (option_map pred hi) (run p a) + 1) by lia.
           cbn [seq rev]. rewrite map_app, seq_S_shift, map_ahead_S. reflexivity.
        -- cbn [Nat.eqb]. rewrite app_nil_r, seq_S_shift, map_ahead_S. f_equal. f_equal. f_equal; lia.
    + assert (C : capped hi 0 = 0) by (destruct hi; cbn; lia). rewrite C.
      destruct (match hi with Some 0 => false | _ => true end); (destruct lo; [reflexivity|]); replace (0 + 1 - S lo) with 0 by lia; reflexivity.
Qed.
(** what a pattern does at a position, for patterns whose matches are not empty: their length *)
Definition at_length (b a : str) (m : option state) (n : option nat) : Prop :=
  match m, n with
  | Some st, Some n => 0 < n <= length a /\ before st = rev (firstn n a) ++ b /\ after st = skipn n a
  | None, None => True
  | _, _ => False
  end.
(** a scan by a function that gives the length of the match, of the characters before and after *)
Fixpoint scan (m : str -> str -> option nat) (w : str) (b : str) (skip : nat) (a : str) : str :=
  match a with
  | [] => []
  | c :: a' =>
    match skip with
    | S k => scan m w (c :: b) k a'
    | O => match m b a with Some (S k) => w ++ scan m w (c :: b) k a' | _ => c :: scan m w (c :: b) 0 a' end
    end
  end.
Lemma scan_skip m w n : forall b a, n <= length a -> scan m w b n a = scan m w (rev (firstn n a) ++ b) 0 (skipn n a).
Proof.
  induction n as [|n IH]; intros b a L; [destruct a; reflexivity|]. destruct a as [|c a]; [cbn in L; lia|]. cbn [scan firstn rev skipn]. rewrite IH by (cbn in L; lia). rewrite <- app_assoc. reflexivity.
Qed.
Lemma scan_ext m m' w : (forall b a, m b a = m' b a) -> forall a b k, scan m w b k a = scan m' w b k a.
Proof. intros E. induction a as [|c a IH]; intros b k; [reflexivity|]. cbn. destruct k; [|apply IH]. rewrite E. destruct (m' b (c :: a)) as [[|k]|]; rewrite IH; reflexivity. Qed.

Lemma flat_map_filter (p : N -> bool) s : flat_map (fun c => if p c then [] else [c]) s = filter (fun c => negb (p c)) s.
Proof. induction s as [|c s IH]; [reflexivity|]. cbn. rewrite IH. destruct (p c); reflexivity. Qed.
Section Facts.
Variables is_digit is_space is_word : N -> bool.
Variable same : N -> N -> bool.
Notation ways := (ways is_digit is_space is_word same).
Notation match_at := (match_at is_digit is_space is_word same).
Notation sub_loop := (sub_loop is_digit is_space is_word same).
Notation re_sub := (re_sub is_digit is_space is_word same).

Lemma ways_rep_char r p g : (forall b a, ways r (b, a, g) = step p (b, a, g)) -> forall b a lo hi,
  ways (Rep false lo hi r) (b, a, g) = map (fun n => ahead n b a g) (rev (seq lo (capped hi (run p a) + 1 - lo))).
Proof. intros F b a lo hi. cbn [RegexModel.ways]. apply (repeats_char _ p g F); cbn; [lia|exact Logic.I]. Qed.
Lemma ways_optional r p g : (forall b a, ways r (b, a, g) = step p (b, a, g)) -> forall b a,
  ways (Rep false 0 (Some 1) r) (b, a, g) = step p (b, a, g) ++ [(b, a, g)].
Proof.
  intros F b a. rewrite (ways_rep_char r p g F). destruct a as [|c a]; [reflexivity|]. cbn [run capped step]. destruct (p c); reflexivity.
Qed.

(** the replacement by a constant *)
Lemma sub_scan r m w (good : str -> str -> Prop) :
  (forall b c a, good b (c :: a) -> good (c :: b) a) ->
  (forall b a, good b a -> at_length b a (match_at r false b a) (m b a)) ->
  forall s fuel b, good b s -> length s < fuel -> sub_loop r (fun _ => w) fuel false b s = scan m w b 0 s.
Proof.
  intros G M s. remember (length s) as n eqn:Hn. revert s Hn. induction n as [n IH] using lt_wf_ind. intros s -> fuel b Gs Hf.
  assert (GS : forall k b s, good b s -> good (rev (firstn k s) ++ b) (skipn k s)).
  { induction k as [|k IHk]; intros b' s' H; [exact H|]. destruct s' as [|c s']; [exact H|]. cbn. rewrite <- app_assoc. apply IHk. apply G. exact H. }
  destruct fuel as [|fuel]; [lia|]. cbn [RegexModel.sub_loop]. pose proof (M b s Gs) as A. destruct (match_at r false b s) as [st|], (m b s) as [k|] eqn:E; try contradiction.
  - destruct A as (K & B & A). rewrite B, A. assert (L : length (skipn k s) = length s - k) by apply skipn_length. rewrite L. replace (length s - k =? length s) with false by (symmetry; apply Nat.eqb_neq; lia).
    destruct s as [|c s]; [cbn in K; lia|]. cbn [scan]. rewrite E. destruct k as [|k]; [lia|]. f_equal. cbn [length] in *. rewrite (IH (length (skipn (S k) (c :: s)))); [|rewrite L; lia|reflexivity|apply GS; exact Gs|rewrite L; lia].
    cbn [skipn firstn rev]. rewrite (scan_skip _ _ k) by lia. rewrite <- app_assoc. reflexivity.
  - destruct s as [|c s]; [reflexivity|]. cbn [scan]. rewrite E. f_equal. cbn [length] in *. apply (IH (length s)); [lia|reflexivity|apply G; exact Gs|lia].
Qed.
Lemma re_sub_scan r m w (good : str -> str -> Prop) s :
  (forall b c a, good b (c :: a) -> good (c :: b) a) -> (forall b a, good b a -> at_length b a (match_at r false b a) (m b a)) -> good [] s ->
  re_sub r (fun _ => w) s = scan m w [] 0 s.
Proof. intros G M Gs. unfold RegexModel.re_sub. apply (sub_scan r m w good G M); [exact Gs|lia]. Qed.

(** patterns of one character *)
Lemma match_step p b a r : ways r (b, a, []) = step p (b, a, []) -> match_at r false b a = match a with c :: a' => if p c then Some (c :: b, a', []) else None | [] => None end.
Proof. intros E. unfold RegexModel.match_at. rewrite E. destruct a as [|c a]; [reflexivity|]. cbn. destruct (p c); reflexivity. Qed.
Lemma re_sub_char r p w : (forall b a, ways r (b, a, []) = step p (b, a, [])) -> forall s, re_sub r (fun _ => w) s = flat_map (fun c => if p c then w else [c]) s.
Proof.
  intros E s. rewrite (re_sub_scan r (fun _ a => match a with c :: _ => if p c then Some 1 else None | [] => None end) w (fun _ _ => True)); [|tauto| |exact Logic.I].
  - assert (X : forall b, scan (fun _ a => match a with c :: _ => if p c then Some 1 else None | [] => None end) w b 0 s = flat_map (fun c => if p c then w else [c]) s); [|apply X].
    induction s as [|c s IH]; intros b; [reflexivity|]. cbn. destruct (p c); rewrite IH; reflexivity.
  - intros b a _. rewrite (match_step p b a r) by apply E. destruct a as [|c a]; [exact Logic.I|]. destruct (p c); cbn; [split; [lia|auto]|exact Logic.I].
Qed.
End Facts.
