(** The fuel given to the parser and to the loops is enough; the bounds that the parser reads are in order; escaped texts match themselves. *)
From Coq Require Import String Ascii Lia.
From Verif Require Import Base BaseFacts LevModel StringsModel PhoneticsModel RegexModel RegexSpec RegexProofs RegexUsesProofs RegexEngineProofs RegexFingerprintProofs.
Open Scope nat_scope.
Open Scope string_scope.
Open Scope list_scope.
Notation length := List.length.

(** ** the parser *)
Lemma digits_rest ts : length (snd (digits ts)) <= length ts.
Proof. induction ts as [|[c|c] ts IH]; cbn; [lia| |lia]. destruct (is_digit_char c); [|cbn; lia]. destruct (digits ts). cbn in *. lia. Qed.
Lemma closes_rest ts ts' : closes ts = Some ts' -> length ts' < length ts.
Proof. unfold closes. destruct ts as [|[c|c] ts]; try discriminate. destruct (N.eqb c (ch "}")); [|discriminate]. intros E. injection E as <-. cbn. lia. Qed.
Lemma bounds_rest ts lo hi ts' : bounds ts = Some (lo, hi, ts') -> length ts' < length ts.
Proof.
  unfold bounds. destruct (closes ts); [discriminate|]. pose proof (digits_rest ts) as D. destruct (digits ts) as [l ts1]. cbn in D. destruct ts1 as [|[c|c] ts1]; try discriminate. destruct (N.eqb c (ch ",")).
  - pose proof (digits_rest ts1) as D1. destruct (digits ts1) as [h ts2]. cbn in D1. destruct (closes ts2) eqn:C; [|discriminate]. apply closes_rest in C. intros E. injection E as _ _ <-. cbn in *. lia.
  - destruct (closes (Plain c :: ts1)) eqn:C; [|discriminate]. apply closes_rest in C. intros E. injection E as _ _ <-. lia.
Qed.
Lemma quantifier_rest ts lo hi ts' : quantifier ts = Some (Some (lo, hi, ts')) -> length ts' < length ts /\ match hi with Some h => lo <= h | None => True end.
Proof.
  unfold quantifier. destruct ts as [|[c|c] ts]; try discriminate.
  destruct (N.eqb c (ch "*")); [intros E; injection E as <- <- <-; cbn; lia|]. destruct (N.eqb c (ch "+")); [intros E; injection E as <- <- <-; cbn; lia|].
  destruct (N.eqb c (ch "?")); [intros E; injection E as <- <- <-; cbn; lia|]. destruct (N.eqb c (ch "{")); [|discriminate].
  destruct (bounds ts) as [[[l h] ts1]|] eqn:B; [|discriminate]. apply bounds_rest in B. cbn zeta. destruct (N.leb MAXREPEAT (number l)); [discriminate|].
  match goal with |- match ?x with _ => _ end = _ -> _ => destruct x as [m|] end.
  - destruct (N.leb MAXREPEAT m || N.ltb m (number l)) eqn:O; [discriminate|]. apply Bool.orb_false_iff in O. destruct O as [_ O]. apply N.ltb_ge in O. intros E. injection E as <- <- <-. cbn. split; [lia|]. lia.
  - intros E. injection E as <- <- <-. cbn. lia.
Qed.
Lemma quantify_rest a at_ ts r ts' : quantify a at_ ts = Some (r, ts') -> length ts' <= length ts /\ (ordered a = true -> ordered r = true).
Proof.
  unfold quantify. destruct (quantifier ts) as [[[[lo hi] t1]|]|] eqn:Q; try discriminate.
  - apply quantifier_rest in Q. destruct Q as [L O]. destruct at_; [discriminate|].
    assert (OR : forall b, ordered a = true -> ordered (Rep b lo hi a) = true) by (intros b H; cbn; rewrite ?H; destruct hi; cbn; rewrite ?Bool.andb_true_r; [try (apply Bool.andb_true_iff; split; auto); apply Nat.leb_le; exact O|auto]).
    destruct t1 as [|[c|c] t1].
    + intros E. injection E as <- <-. split; [cbn in *; lia|apply OR].
    + destruct (N.eqb c (ch "?")); [intros E; injection E as <- <-; cbn in L; split; [cbn in *; lia|apply OR]|]. destruct (N.eqb c (ch "+")); [discriminate|]. intros E. injection E as <- <-. split; [cbn in *; lia|apply OR].
    + intros E. injection E as <- <-. split; [cbn in *; lia|apply OR].
  - intros E. injection E as <- <-. auto.
Qed.
Lemma parse_set_rest : forall ts acc l ts', parse_set acc ts = Some (l, ts') -> length ts' < length ts.
Proof.
  intros ts. remember (length ts) as n eqn:Hn. revert ts Hn. induction n as [n IH] using lt_wf_ind. intros ts -> acc l ts' H. destruct ts as [|t ts]; [discriminate|]. cbn [parse_set] in H.
  assert (REC : forall u acc, length u <= length ts -> parse_set acc u = Some (l, ts') -> length ts' < length (t :: ts)).
  { intros u acc' L E. apply (IH (length u)) in E; [cbn; lia|cbn; lia|reflexivity]. }
  set (go := match set_item t with Some i => _ | None => None end) in H.
  assert (G : go = Some (l, ts') -> length ts' < length (t :: ts)).
  { unfold go. destruct (set_item t) as [i|]; [|discriminate]. destruct ts as [|[d|d] ts1]; [discriminate| |].
    - destruct (N.eqb d (ch "-")); [|intros E; eapply REC; [|exact E]; lia]. destruct ts1 as [|t2 ts2]; [discriminate|]. cbn zeta.
      assert (RG : match i, set_item t2 with Single lo, Some (Single hi) => if N.ltb hi lo then None else parse_set (acc ++ [Range lo hi]) ts2 | _, _ => None end = Some (l, ts') -> length ts' < length (t :: Plain d :: t2 :: ts2)).
      { destruct i; try discriminate. destruct (set_item t2) as [[hi| |]|]; try discriminate. destruct (N.ltb hi c); [discriminate|]. intros E. eapply REC; [|exact E]. cbn. lia. }
      destruct t2 as [e|e]; [|exact RG]. destruct (N.eqb e (ch "]")); [|exact RG]. intros E. injection E as _ <-. cbn. lia.
    - intros E. eapply REC; [|exact E]. lia. }
  destruct t as [e|e]; [|exact (G H)]. destruct acc as [|i acc]; [exact (G H)|]. destruct (N.eqb e (ch "]")); [|exact (G H)]. injection H as _ <-. cbn. lia.
Qed.
Lemma parse_chars_rest ts r ts' : parse_chars ts = Some (r, ts') -> length ts' < length ts /\ ordered r = true.
Proof.
  unfold parse_chars. intros H. assert (X : exists b u, (match ts with Plain c :: ts0 => if N.eqb c (ch "^") then (true, ts0) else (false, ts) | _ => (false, ts) end) = (b, u) /\ length u <= length ts).
  { destruct ts as [|[c|c] ts0]; [eauto| |eauto]. destruct (N.eqb c (ch "^")); eexists; eexists; (split; [reflexivity|cbn; lia]). }
  destruct X as (b & u & E & L). rewrite E in H. destruct (parse_set [] u) as [[items t1]|] eqn:P; [|discriminate]. apply parse_set_rest in P. injection H as <- <-. split; [lia|reflexivity].
Qed.
Lemma escape_ordered o cur ts c r at_ : escape_item o cur ts c = Some (r, at_) -> ordered r = true.
Proof.
  unfold escape_item. repeat match goal with
  | |- (if ?x then _ else _) = _ -> _ => destruct x
  | |- match ?x with _ => _ end = _ -> _ => destruct x
  end; try discriminate; intros E; injection E as <- _; reflexivity.
Qed.
Lemma group_start_rest ts k ts' : group_start ts = Some (k, ts') -> length ts' <= length ts.
Proof.
  unfold group_start. destruct ts as [|[q|q] ts]; [intros E; injection E as _ <-; cbn; lia| |intros E; injection E as _ <-; lia].
  destruct (N.eqb q (ch "?")); [|intros E; injection E as _ <-; lia]. destruct ts as [|[e|e] ts]; try discriminate.
  destruct (N.eqb e (ch ":")); [intros E; injection E as _ <-; cbn; lia|]. destruct (N.eqb e (ch "=")); [intros E; injection E as _ <-; cbn; lia|]. destruct (N.eqb e (ch "!")); [intros E; injection E as _ <-; cbn; lia|discriminate].
Qed.
(** the body of parse_seq, for any way to read what follows *)
Definition seq_body (alt : nat -> list nat -> list tok -> option (regex * nat * list tok)) (sq : nat -> list tok -> option (regex * nat * list tok)) (opened : nat) (current : list nat) (ts : list tok) : option (regex * nat * list tok) :=
  match ts with
  | [] => Some (Eps, opened, [])
  | t :: rest =>
    let next (a : regex) (at_ : bool) (opened : nat) (ts : list tok) :=
      match quantify a at_ ts with
      | None => None
      | Some (a, ts) => match sq opened ts with Some (b, opened, ts) => Some (Seq a b, opened, ts) | None => None end
      end in
    match t with
    | Escaped c => match escape_item opened current rest c with Some (a, at_) => next a at_ opened rest | None => None end
    | Plain c =>
      if N.eqb c (ch "|") || N.eqb c (ch ")") then Some (Eps, opened, ts)
      else if N.eqb c (ch "[") then match parse_chars rest with Some (a, rest) => next a false opened rest | None => None end
      else if N.eqb c (ch ".") then next AnyChar false opened rest
      else if N.eqb c (ch "^") then next Start true opened rest
      else if N.eqb c (ch "$") then next End true opened rest
      else if N.eqb c (ch "(") then
        match group_start rest with
        | None => None
        | Some (k, ts) =>
          let '(opened', current') := match k with Capture => (opened + 1, opened :: current) | _ => (opened, current) end in
          match alt opened' current' ts with
          | Some (a, opened', Plain e :: ts) =>
            if N.eqb e (ch ")") then
              next (match k with Capture => Group opened a | NoCapture => a | Look negate => Ahead negate a end) false opened' ts
            else None
          | _ => None
          end
        end
      else match quantifier ts with
           | Some None => next (Lit c) false opened rest
           | _ => None
           end
    end
  end.
Lemma seq_S fuel o cur ts : parse_seq (S fuel) o cur ts = seq_body (parse_alt fuel) (fun o ts => parse_seq fuel o cur ts) o cur ts.
Proof. destruct ts as [|[c|c] ts]; reflexivity. Qed.
Definition fine (n : nat) (x : option (regex * nat * list tok)) : Prop := match x with Some (r, _, ts') => length ts' <= n /\ ordered r = true | None => True end.
Lemma body_fine alt sq o cur ts : (forall o cur ts, fine (length ts) (alt o cur ts)) -> (forall o ts, fine (length ts) (sq o ts)) -> fine (length ts) (seq_body alt sq o cur ts).
Proof.
  intros HA HS. destruct ts as [|t rest]; [cbn; auto|]. unfold seq_body.
  set (next := fun (a : regex) (at_ : bool) (opened : nat) (ts : list tok) => match quantify a at_ ts with None => None | Some (a, ts) => match sq opened ts with Some (b, opened, ts) => Some (Seq a b, opened, ts) | None => None end end).
  assert (NX : forall a at_ o ts, ordered a = true -> length ts <= length rest -> fine (length (t :: rest)) (next a at_ o ts)).
  { intros a at_ o' ts O L. unfold next. destruct (quantify a at_ ts) as [[a' t1]|] eqn:Q; [|exact Logic.I]. apply quantify_rest in Q. destruct Q as [L1 O1]. pose proof (HS o' t1) as F. destruct (sq o' t1) as [[[b o2] t2]|]; [|exact Logic.I]. cbn in F. cbn. destruct F as [F1 F2]. split; [lia|]. rewrite (O1 O), F2. reflexivity. }
  cbn zeta. fold next. destruct t as [c|c].
  - destruct (N.eqb c (ch "|") || N.eqb c (ch ")")); [cbn; auto|]. destruct (N.eqb c (ch "[")).
    { destruct (parse_chars rest) as [[a r1]|] eqn:P; [|exact Logic.I]. apply parse_chars_rest in P. destruct P. apply NX; [assumption|lia]. }
    destruct (N.eqb c (ch ".")); [apply NX; auto|]. destruct (N.eqb c (ch "^")); [apply NX; auto|]. destruct (N.eqb c (ch "$")); [apply NX; auto|]. destruct (N.eqb c (ch "(")).
    + destruct (group_start rest) as [[k t1]|] eqn:G; [|exact Logic.I]. apply group_start_rest in G. destruct (match k with Capture => (o + 1, o :: cur) | _ => (o, cur) end) as [o' cur']. pose proof (HA o' cur' t1) as F. destruct (alt o' cur' t1) as [[[a o2] [|[e|e] t2]]|]; try exact Logic.I.
      destruct (N.eqb e (ch ")")); [|exact Logic.I]. cbn in F. destruct F as [F1 F2]. apply NX; [destruct k; exact F2|lia].
    + destruct (quantifier (Plain c :: rest)) as [[q|]|]; try exact Logic.I. apply NX; auto.
  - destruct (escape_item o cur rest c) as [[a at_]|] eqn:E; [|exact Logic.I]. apply escape_ordered in E. apply NX; auto.
Qed.
Lemma parse_fine fuel : (forall o cur ts, fine (length ts) (parse_alt fuel o cur ts)) /\ (forall o cur ts, fine (length ts) (parse_seq fuel o cur ts)).
Proof.
  induction fuel as [|fuel [IA IS]]; [split; intros; exact Logic.I|]. split.
  - intros o cur ts. cbn [parse_alt]. pose proof (IS o cur ts) as F. destruct (parse_seq fuel o cur ts) as [[[a o1] t1]|]; [|exact Logic.I]. destruct t1 as [|[c|c] t1]; [exact F| |exact F]. destruct (N.eqb c (ch "|")); [|exact F].
    pose proof (IA o1 cur t1) as F1. destruct (parse_alt fuel o1 cur t1) as [[[b o2] t2]|]; [|exact Logic.I]. cbn in *. destruct F, F1. split; [lia|]. rewrite Bool.andb_true_iff. auto.
  - intros o cur ts. rewrite seq_S. apply body_fine; [exact IA|intros; apply IS].
Qed.
Lemma parse_ordered p r : parse p = Some r -> ordered r = true.
Proof.
  unfold parse. destruct (tokens p) as [ts|]; [|discriminate]. pose proof (proj1 (parse_fine (2 * length ts + 2)) 1 [] ts) as F. destruct (parse_alt (2 * length ts + 2) 1 [] ts) as [[[r' o] [|t t1]]|]; try discriminate. intros E. injection E as <-. exact (proj2 F).
Qed.
(** more fuel changes nothing *)
Lemma body_ext alt alt' sq sq' o cur ts : (forall o cur u, length u < length ts -> alt o cur u = alt' o cur u) -> (forall o u, length u < length ts -> sq o u = sq' o u) ->
  (forall o cur u, fine (length u) (alt o cur u)) -> seq_body alt sq o cur ts = seq_body alt' sq' o cur ts.
Proof.
  intros HA HS HF. destruct ts as [|t rest]; [reflexivity|]. unfold seq_body.
  set (next := fun (a : regex) (at_ : bool) (opened : nat) (ts : list tok) => match quantify a at_ ts with None => None | Some (a, ts) => match sq opened ts with Some (b, opened, ts) => Some (Seq a b, opened, ts) | None => None end end).
  set (next' := fun (a : regex) (at_ : bool) (opened : nat) (ts : list tok) => match quantify a at_ ts with None => None | Some (a, ts) => match sq' opened ts with Some (b, opened, ts) => Some (Seq a b, opened, ts) | None => None end end).
  assert (NX : forall a at_ o ts, length ts <= length rest -> next a at_ o ts = next' a at_ o ts).
  { intros a at_ o' ts L. unfold next, next'. destruct (quantify a at_ ts) as [[a' t1]|] eqn:Q; [|reflexivity]. apply quantify_rest in Q. destruct Q as [L1 _]. rewrite HS by (cbn; lia). reflexivity. }
  cbn zeta. destruct t as [c|c].
  - destruct (N.eqb c (ch "|") || N.eqb c (ch ")")); [reflexivity|]. destruct (N.eqb c (ch "[")).
    { destruct (parse_chars rest) as [[a r1]|] eqn:P; [|reflexivity]. apply parse_chars_rest in P. destruct P. apply NX. lia. }
    destruct (N.eqb c (ch ".")); [apply NX; lia|]. destruct (N.eqb c (ch "^")); [apply NX; lia|]. destruct (N.eqb c (ch "$")); [apply NX; lia|]. destruct (N.eqb c (ch "(")).
    + destruct (group_start rest) as [[k t1]|] eqn:G; [|reflexivity]. apply group_start_rest in G. destruct (match k with Capture => (o + 1, o :: cur) | _ => (o, cur) end) as [o' cur']. pose proof (HF o' cur' t1) as F. rewrite <- HA by (cbn; lia). destruct (alt o' cur' t1) as [[[a o2] [|[e|e] t2]]|]; try reflexivity.
      destruct (N.eqb e (ch ")")); [|reflexivity]. cbn in F. destruct F as [F1 F2]. apply NX. lia.
    + destruct (quantifier (Plain c :: rest)) as [[q|]|]; try reflexivity. apply NX. lia.
  - destruct (escape_item o cur rest c) as [[a at_]|]; [|reflexivity]. apply NX. lia.
Qed.
Lemma parse_more fuel : (forall o cur ts, 2 * length ts + 2 <= fuel -> parse_alt (S fuel) o cur ts = parse_alt fuel o cur ts) /\ (forall o cur ts, 2 * length ts + 1 <= fuel -> parse_seq (S fuel) o cur ts = parse_seq fuel o cur ts).
Proof.
  induction fuel as [|fuel [IA IS]]; [split; intros; lia|]. split.
  - intros o cur ts L. change (parse_alt (S (S fuel)) o cur ts) with (match parse_seq (S fuel) o cur ts with None => None | Some (a, opened, ts) => match ts with Plain c :: ts' => if N.eqb c (ch "|") then match parse_alt (S fuel) opened cur ts' with Some (b, opened, ts) => Some (Alt a b, opened, ts) | None => None end else Some (a, opened, ts) | _ => Some (a, opened, ts) end end).
    change (parse_alt (S fuel) o cur ts) with (match parse_seq fuel o cur ts with None => None | Some (a, opened, ts) => match ts with Plain c :: ts' => if N.eqb c (ch "|") then match parse_alt fuel opened cur ts' with Some (b, opened, ts) => Some (Alt a b, opened, ts) | None => None end else Some (a, opened, ts) | _ => Some (a, opened, ts) end end).
    rewrite IS by lia. pose proof (proj2 (parse_fine fuel) o cur ts) as F. destruct (parse_seq fuel o cur ts) as [[[a o1] t1]|]; [|reflexivity]. cbn in F. destruct F as [F _]. destruct t1 as [|[c|c] t1]; try reflexivity. destruct (N.eqb c (ch "|")); [|reflexivity].
    cbn in F. rewrite IA by lia. reflexivity.
  - intros o cur ts L. rewrite !seq_S. apply body_ext.
    + intros o' cur' u H. apply IA. lia.
    + intros o' u H. apply IS. lia.
    + apply parse_fine.
Qed.
Lemma parse_enough ts fuel : 2 * length ts + 2 <= fuel -> parse_alt fuel 1 [] ts = parse_alt (2 * length ts + 2) 1 [] ts.
Proof. intros L. induction L as [|fuel L IH]; [reflexivity|]. rewrite (proj1 (parse_more fuel)) by exact L. exact IH. Qed.
