(** The parser of patterns reads the grammar of RegexGrammarSpec. *)
From Coq Require Import String Ascii Lia NArith.
From Verif Require Import Base BaseFacts LevModel StringsModel PhoneticsModel RegexModel RegexParseProofs RegexGrammarSpec.
Open Scope nat_scope.
Open Scope list_scope.
Notation length := List.length.

(** ** signs *)
Lemma tokens_spells s ts : tokens s = Some ts <-> spells ts s.
Proof.
  unfold spells. split.
  - remember (length s) as n eqn:Hn. assert (L : length s <= n) by lia. clear Hn. revert s ts L. induction n as [|n IH]; intros [|c s] ts L; cbn in L; try lia.
    1,2: cbn; intros E; injection E as <-; cbn; auto.
    cbn [tokens]. destruct (N.eqb_spec c 92) as [->|NE].
    + destruct s as [|e s]; [discriminate|]. destruct (tokens s) as [l|] eqn:T; [|discriminate]. cbn. intros E. injection E as <-. destruct (IH s l ltac:(cbn in L; lia) T) as [-> F]. cbn. split; [reflexivity|]. constructor; [discriminate|exact F].
    + destruct (tokens s) as [l|] eqn:T; [|discriminate]. cbn. intros E. injection E as <-. destruct (IH s l ltac:(lia) T) as [-> F]. cbn. split; [reflexivity|]. constructor; [congruence|exact F].
  - intros [-> F]. induction F as [|t ts H F IH]; [reflexivity|]. destruct t as [c|c]; cbn [flat_map sign_text app tokens].
    + destruct (N.eqb_spec c 92); [congruence|]. rewrite IH. reflexivity.
    + cbn. rewrite IH. reflexivity.
Qed.

(** ** characters *)
Lemma digit_iff c : is_digit_char c = true <-> a_digit c.
Proof. unfold is_digit_char, a_digit. rewrite Bool.andb_true_iff, !N.leb_le. reflexivity. Qed.
Lemma alnum_iff c : is_letter_char c || is_digit_char c = true <-> alphanumeric c.
Proof. unfold is_letter_char, alphanumeric. rewrite Bool.orb_true_iff, digit_iff, Bool.orb_true_iff, !Bool.andb_true_iff, !N.leb_le. tauto. Qed.
Lemma alnum_false c : is_letter_char c || is_digit_char c = false <-> ~ alphanumeric c.
Proof. rewrite <- alnum_iff. destruct (is_letter_char c || is_digit_char c); split; congruence. Qed.
Lemma control_iff c d : control_of c = Some d <-> In (c, d) CONTROLS.
Proof.
  split.
  - unfold control_of. repeat match goal with |- context [N.eqb c ?k] => destruct (N.eqb_spec c k) as [->|]; [intros E; injection E as <-; cbn; tauto|] end. discriminate.
  - cbn. intros H. repeat (destruct H as [H|H]; [injection H as <- <-; reflexivity|]). contradiction H.
Qed.
Lemma category_iff c k : category_of c = Some k <-> In (c, k) CATEGORIES.
Proof.
  split.
  - unfold category_of. repeat match goal with |- context [N.eqb c ?k] => destruct (N.eqb_spec c k) as [->|]; [intros E; injection E as <-; cbn; tauto|] end. discriminate.
  - cbn. intros H. repeat (destruct H as [H|H]; [injection H as <- <-; reflexivity|]). contradiction H.
Qed.
Lemma not_alnum c : ~ alphanumeric c -> control_of c = None /\ category_of c = None /\ (c =? ch "b")%N = false /\ (c =? ch "B")%N = false /\ is_digit_char c = false /\ is_letter_char c = false /\ (c =? 48)%N = false.
Proof.
  intros H. pose proof H as H'. apply alnum_false in H'. apply Bool.orb_false_iff in H'. destruct H' as [H1 H2].
  assert (X : forall k, alphanumeric k -> (c =? k)%N = false) by (intros k K; apply N.eqb_neq; intros ->; exact (H K)).
  assert (AL : forall k, is_letter_char k || is_digit_char k = true -> (c =? k)%N = false) by (intros k K; apply X, alnum_iff, K).
  unfold control_of, category_of. rewrite !AL by reflexivity. auto 10.
Qed.
Lemma set_item_iff t i : set_item t = Some i <-> in_set t i.
Proof.
  split.
  - destruct t as [c|c]; cbn [set_item]; [intros E; injection E as <-; constructor|].
    destruct (control_of c) as [d|] eqn:C; [intros E; injection E as <-; apply set_control; apply control_iff; exact C|].
    destruct (N.eqb_spec c (ch "b")) as [->|]; [intros E; injection E as <-; apply set_backspace|].
    destruct (category_of c) as [k|] eqn:K; [intros E; injection E as <-; apply set_category; apply category_iff; exact K|].
    destruct (is_letter_char c || is_digit_char c) eqn:A; [discriminate|]. intros E. injection E as <-. apply set_escaped. apply alnum_false. exact A.
  - intros H. destruct H as [c|c d H| |c k H|c H]; cbn [set_item]; [reflexivity| |reflexivity| |].
    + apply control_iff in H. rewrite H. reflexivity.
    + cbn in H. repeat (destruct H as [H|H]; [injection H as <- <-; reflexivity|]). contradiction H.
    + destruct (not_alnum c H) as (H1 & H2 & H3 & H4 & H5 & H6 & H7). rewrite H1, H2, H3, H5, H6. reflexivity.
Qed.

(** ** sets *)
Definition close_set : tok := Plain (ch "]").
Definition set_go (acc : list item) (t : tok) (ts : list tok) : option (list item * list tok) :=
  match set_item t with
  | None => None
  | Some i =>
    match ts with
    | Plain d :: ts1 =>
      if N.eqb d (ch "-") then
        match ts1 with
        | [] => None
        | t2 :: ts2 =>
          let range := match i, set_item t2 with Single lo, Some (Single hi) => if N.ltb hi lo then None else parse_set (acc ++ [Range lo hi]) ts2 | _, _ => None end in
          match t2 with Plain e => if N.eqb e (ch "]") then Some (acc ++ [i; Single (ch "-")], ts2) else range | Escaped _ => range end
        end
      else parse_set (acc ++ [i]) ts
    | _ => parse_set (acc ++ [i]) ts
    end
  end.
Lemma parse_set_cons acc t ts : parse_set acc (t :: ts) = match t, acc with Plain e, _ :: _ => if N.eqb e (ch "]") then Some (acc, ts) else set_go acc t ts | _, _ => set_go acc t ts end.
Proof. reflexivity. Qed.
Lemma parse_set_go (first : bool) acc t ts : first = true \/ t <> Plain (ch "]") -> (first = true <-> acc = []) -> parse_set acc (t :: ts) = set_go acc t ts.
Proof.
  intros H A. rewrite parse_set_cons. destruct t as [e|e]; [|reflexivity]. destruct acc as [|i acc]; [reflexivity|]. destruct (N.eqb_spec e (ch "]")) as [->|]; [|reflexivity].
  destruct H as [H|H]; [apply A in H; discriminate|congruence].
Qed.
Lemma members_some first ts l : members first ts l -> ts <> [].
Proof. intros []; discriminate. Qed.
Lemma members_read first ts l : members first ts l -> forall acc rest, (first = true <-> acc = []) -> parse_set acc (ts ++ rest) = Some (acc ++ l, rest).
Proof.
  intros M. induction M as [|first t i B S|first t t' lo hi ts l B S1 N2 S2 L M IH|first t i ts l B S NH M IH]; intros acc rest A.
  - rewrite app_nil_r. destruct acc as [|i acc]; [destruct A as [_ A]; specialize (A eq_refl); discriminate|]. reflexivity.
  - cbn [app]. rewrite (parse_set_go first) by assumption. unfold set_go. apply set_item_iff in S. rewrite S. reflexivity.
  - cbn [app]. rewrite (parse_set_go first) by assumption. unfold set_go. apply set_item_iff in S1, S2. rewrite S1. cbn [plain_of]. unfold plain_of. rewrite N.eqb_refl. cbn zeta. rewrite S2.
    replace (N.ltb hi lo) with false by (symmetry; apply N.ltb_ge; exact L). rewrite IH by (split; [discriminate|intros E; destruct acc; discriminate]). rewrite <- app_assoc. cbn [app].
    destruct t' as [e|e]; [|reflexivity]. destruct (N.eqb_spec e (ch "]")) as [->|]; [exfalso; apply N2; reflexivity|reflexivity].
  - cbn [app]. rewrite (parse_set_go first) by assumption. unfold set_go. apply set_item_iff in S. rewrite S.
    assert (R : parse_set (acc ++ [i]) (ts ++ rest) = Some (acc ++ i :: l, rest)) by (rewrite IH by (split; [discriminate|intros E; destruct acc; discriminate]); rewrite <- app_assoc; reflexivity).
    pose proof (members_some _ _ _ M) as NE. destruct ts as [|[d|d] ts]; [congruence| |exact R]. cbn [app] in *. destruct (N.eqb_spec d (ch "-")) as [->|]; [|exact R]. exfalso. apply NH. reflexivity.
Qed.
Lemma members_found : forall ts acc l rest, parse_set acc ts = Some (l, rest) -> exists pre l', ts = pre ++ rest /\ l = acc ++ l' /\ members (match acc with [] => true | _ => false end) pre l'.
Proof.
  intros ts. remember (length ts) as n eqn:Hn. revert ts Hn. induction n as [n IH] using lt_wf_ind. intros ts -> acc l rest H. destruct ts as [|t ts]; [discriminate|]. rewrite parse_set_cons in H.
  set (first := match acc with [] => true | _ => false end).
  assert (NX : forall u i, length u < length (t :: ts) -> parse_set (acc ++ [i]) u = Some (l, rest) -> exists pre l', u = pre ++ rest /\ l = acc ++ i :: l' /\ members false pre l').
  { intros u i L E. destruct (IH _ L u eq_refl _ _ _ E) as (pre & l' & -> & -> & M). exists pre, l'. rewrite <- app_assoc. split; [reflexivity|]. split; [reflexivity|]. destruct acc; exact M. }
  assert (G : first = true \/ t <> Plain (ch "]") -> set_go acc t ts = Some (l, rest) -> exists pre l', t :: ts = pre ++ rest /\ l = acc ++ l' /\ members first pre l').
  { intros B E. unfold set_go in E. destruct (set_item t) as [i|] eqn:S; [|discriminate]. apply set_item_iff in S.
    assert (ONE : hd_error ts <> Some (Plain (ch "-")) -> parse_set (acc ++ [i]) ts = Some (l, rest) -> exists pre l', t :: ts = pre ++ rest /\ l = acc ++ l' /\ members first pre l').
    { intros NH E1. destruct (NX ts i ltac:(cbn; lia) E1) as (pre & l' & -> & -> & M). exists (t :: pre), (i :: l'). split; [reflexivity|]. split; [reflexivity|]. constructor; [exact B|exact S| |exact M].
      intros HD. apply NH. destruct pre; [|exact HD]. exfalso. exact (members_some _ _ _ M eq_refl). }
    destruct ts as [|[d|d] ts1]; [apply ONE; [discriminate|exact E]| |apply ONE; [discriminate|exact E]].
    destruct (N.eqb_spec d (ch "-")) as [->|ND]; [|apply ONE; [intros HD; injection HD as HD; exact (ND HD)|exact E]].
    destruct ts1 as [|t2 ts2]; [discriminate|]. cbn zeta in E.
    assert (RG : t2 <> Plain (ch "]") -> match i, set_item t2 with Single lo, Some (Single hi) => if N.ltb hi lo then None else parse_set (acc ++ [Range lo hi]) ts2 | _, _ => None end = Some (l, rest) ->
      exists pre l', t :: Plain (ch "-") :: t2 :: ts2 = pre ++ rest /\ l = acc ++ l' /\ members first pre l').
    { intros B2 E1. destruct i as [lo| |]; try discriminate. destruct (set_item t2) as [[hi| |]|] eqn:S2; try discriminate. apply set_item_iff in S2. destruct (N.ltb_spec hi lo) as [|L]; [discriminate|].
      destruct (NX ts2 (Range lo hi) ltac:(cbn; lia) E1) as (pre & l' & -> & -> & M). exists (t :: Plain (ch "-") :: t2 :: pre), (Range lo hi :: l'). split; [reflexivity|]. split; [reflexivity|].
      apply (members_range first t t2 lo hi pre l'); assumption. }
    destruct t2 as [e|e]; [|apply RG; [discriminate|exact E]]. destruct (N.eqb_spec e (ch "]")) as [->|NE]; [|apply RG; [intros E2; injection E2 as E2; exact (NE E2)|exact E]].
    injection E as <- <-. exists [t; Plain (ch "-"); Plain (ch "]")], [i; Single (ch "-")]. split; [reflexivity|]. split; [reflexivity|]. apply (members_hyphen first t i); assumption. }
  destruct t as [e|e]; [|apply G; [right; discriminate|exact H]]. destruct acc as [|i acc]; [apply G; [left; reflexivity|exact H]|].
  destruct (N.eqb_spec e (ch "]")) as [->|NE]; [|apply G; [right; intros E2; injection E2 as E2; exact (NE E2)|exact H]].
  injection H as <- <-. exists [Plain (ch "]")], []. split; [reflexivity|]. split; [symmetry; apply app_nil_r|]. apply members_end.
Qed.

(** ** repetitions *)
Definition no_digit (ts : list tok) : Prop := match ts with Plain c :: _ => ~ a_digit c | _ => True end.
Lemma digits_read ds ts : Forall a_digit ds -> no_digit ts -> digits (map Plain ds ++ ts) = (ds, ts).
Proof.
  intros F N. induction F as [|d ds H F IH]; cbn [map app digits].
  - destruct ts as [|[c|c] ts]; try reflexivity. cbn in *. destruct (is_digit_char c) eqn:E; [|reflexivity]. apply digit_iff in E. contradiction.
  - apply digit_iff in H. rewrite H, IH. reflexivity.
Qed.
Lemma digits_found ts ds r : digits ts = (ds, r) -> ts = map Plain ds ++ r /\ Forall a_digit ds.
Proof.
  revert ds r. induction ts as [|[c|c] ts IH]; intros ds r; cbn [digits]; try (intros E; injection E as <- <-; split; [reflexivity|constructor]).
  destruct (is_digit_char c) eqn:D; [|intros E; injection E as <- <-; split; [reflexivity|constructor]]. destruct (digits ts) as [l r'] eqn:E'. intros E. injection E as <- <-. destruct (IH _ _ eq_refl) as [-> F]. split; [reflexivity|]. constructor; [apply digit_iff; exact D|exact F].
Qed.
Lemma number_value ds : number ds = value ds.
Proof.
  unfold number. assert (H : forall n, fold_left (fun n d => (10 * n + (d - 48))%N) ds n = (n * 10 ^ N.of_nat (length ds) + value ds)%N); [|rewrite H; lia].
  induction ds as [|d ds IH]; intros n; cbn [fold_left length value]; [cbn; lia|]. rewrite IH, Nat2N.inj_succ, N.pow_succ_r'. lia.
Qed.
Definition closing : tok := Plain (ch "}").
Lemma bounds_one ds r : Forall a_digit ds -> ds <> [] -> bounds (map Plain ds ++ closing :: r) = Some (ds, None, r).
Proof.
  intros F NE. unfold bounds. assert (C : closes (map Plain ds ++ closing :: r) = None).
  { destruct F as [|d ds H F]; [congruence|]. cbn [map app closes]. destruct (N.eqb_spec d (ch "}")) as [->|]; [destruct H as [_ H]; vm_compute in H; congruence|reflexivity]. }
  rewrite C, digits_read by (try exact F; cbn; intros [_ H]; vm_compute in H; congruence). reflexivity.
Qed.
Lemma bounds_two ds es r : Forall a_digit ds -> Forall a_digit es -> bounds (map Plain ds ++ Plain (ch ",") :: map Plain es ++ closing :: r) = Some (ds, Some es, r).
Proof.
  intros F G. unfold bounds. assert (C : closes (map Plain ds ++ Plain (ch ",") :: map Plain es ++ closing :: r) = None).
  { destruct F as [|d ds H F]; [reflexivity|]. cbn [map app closes]. destruct (N.eqb_spec d (ch "}")) as [->|]; [destruct H as [_ H]; vm_compute in H; congruence|reflexivity]. }
  rewrite C, digits_read; [|exact F|cbn; intros [H _]; vm_compute in H; congruence]. rewrite N.eqb_refl, digits_read; [reflexivity|exact G|]. cbn; intros [_ H]; vm_compute in H; congruence.
Qed.
Lemma bounds_found ts lo hi r : bounds ts = Some (lo, hi, r) -> Forall a_digit lo /\
  match hi with None => lo <> [] /\ ts = map Plain lo ++ closing :: r | Some hi => Forall a_digit hi /\ ts = map Plain lo ++ Plain (ch ",") :: map Plain hi ++ closing :: r end.
Proof.
  assert (CL : forall ts ts', closes ts = Some ts' -> ts = closing :: ts').
  { intros [|[c|c] u] u'; try discriminate. cbn [closes]. destruct (N.eqb_spec c (ch "}")) as [->|]; [|discriminate]. intros E. injection E as <-. reflexivity. }
  unfold bounds. destruct (closes ts) eqn:C; [discriminate|]. destruct (digits ts) as [l ts1] eqn:D. apply digits_found in D. destruct D as [-> F]. destruct ts1 as [|[c|c] ts1]; try discriminate.
  destruct (N.eqb_spec c (ch ",")) as [->|].
  - destruct (digits ts1) as [h ts2] eqn:D. apply digits_found in D. destruct D as [-> G]. destruct (closes ts2) as [u|] eqn:C2; [|discriminate]. apply CL in C2. subst ts2. intros E. injection E as <- <- <-. auto.
  - destruct (closes (Plain c :: ts1)) as [u|] eqn:C2; [|discriminate]. intros E. injection E as <- <- <-. pose proof (CL _ _ C2) as EC. rewrite EC in *. split; [exact F|]. split; [|reflexivity]. intros ->. cbn [map app] in C. discriminate.
Qed.
Lemma braces_iff ts : bounds ts = None <-> ~ braces ts.
Proof.
  split.
  - intros B (ds & es & rest & F & G & [[NE ->]| ->]).
    + pose proof (bounds_one ds rest F NE) as E. unfold closing in E. unfold plain_of in B. congruence.
    + pose proof (bounds_two ds es rest F G) as E. unfold closing in E. unfold plain_of in B. congruence.
  - intros NB. destruct (bounds ts) as [[[lo hi] r]|] eqn:B; [|reflexivity]. exfalso. apply NB. apply bounds_found in B. destruct B as [F B]. destruct hi as [hi|].
    + destruct B as [G ->]. exists lo, hi, r. auto.
    + destruct B as [NE ->]. exists lo, [], r. split; [exact F|]. split; [constructor|]. left. auto.
Qed.
Lemma numeral_value ds n : numeral ds n <-> Forall a_digit ds /\ (N.leb MAXREPEAT (number ds) = false) /\ n = N.to_nat (number ds).
Proof.
  unfold numeral. rewrite number_value, N.leb_gt. change MAXREPEAT with (2 ^ 32 - 1)%N. split.
  - intros (F & E & L). rewrite <- E. split; [exact F|]. split; [exact L|]. symmetry. apply Nat2N.id.
  - intros (F & L & ->). rewrite N2Nat.id. auto.
Qed.
Lemma quantifier_brace ts : quantifier (Plain (ch "{") :: ts) =
  match bounds ts with
  | None => Some None
  | Some (lo, hi, ts) =>
    let lo' := number lo in
    let hi' := match hi with None => match lo with [] => None | _ => Some lo' end | Some [] => None | Some ds => Some (number ds) end in
    if N.leb MAXREPEAT lo' then None
    else match hi' with
         | None => Some (Some (N.to_nat lo', None, ts))
         | Some h => if N.leb MAXREPEAT h || N.ltb h lo' then None else Some (Some (N.to_nat lo', Some (N.to_nat h), ts))
         end
  end.
Proof. reflexivity. Qed.
Lemma repetition_read qs lo hi rest : repetition qs lo hi -> quantifier (qs ++ rest) = Some (Some (lo, hi, rest)).
Proof.
  intros R. destruct R as [| | |ds n NE H|ds n H|ds n es m NE H1 H2 L]; try reflexivity.
  - apply numeral_value in H. destruct H as (F & L & ->). cbn [app]. rewrite <- app_assoc. unfold plain_of. pose proof (bounds_one ds rest F NE) as B. unfold closing in B. rewrite quantifier_brace; cbn [app]; rewrite B; cbn zeta; rewrite L. destruct ds; [congruence|]. rewrite L, N.ltb_irrefl. reflexivity.
  - apply numeral_value in H. destruct H as (F & L & ->). cbn [app]. rewrite <- app_assoc. unfold plain_of. pose proof (bounds_two ds [] rest F (Forall_nil _)) as B. unfold closing in B. cbn [map app] in B. rewrite quantifier_brace; cbn [app]; rewrite B; cbn zeta; rewrite L. reflexivity.
  - apply numeral_value in H1, H2. destruct H1 as (F & L1 & ->), H2 as (G & L2 & ->). cbn [app]. rewrite <- app_assoc. cbn [app]. rewrite <- app_assoc. unfold plain_of. pose proof (bounds_two ds es rest F G) as B. unfold closing in B. rewrite quantifier_brace; cbn [app]; rewrite B; cbn zeta; rewrite L1. destruct es; [congruence|]. rewrite L2.
    replace (N.ltb (number (n :: es)) (number ds)) with false by (symmetry; apply N.ltb_ge; lia). reflexivity.
Qed.
Lemma repetition_found ts lo hi rest : quantifier ts = Some (Some (lo, hi, rest)) -> exists qs, ts = qs ++ rest /\ repetition qs lo hi.
Proof.
  unfold quantifier. destruct ts as [|[c|c] ts]; try discriminate.
  destruct (N.eqb_spec c (ch "*")) as [->|_]; [intros E; injection E as <- <- <-; exists [Plain (ch "*")]; split; [reflexivity|apply rep_star]|].
  destruct (N.eqb_spec c (ch "+")) as [->|_]; [intros E; injection E as <- <- <-; exists [Plain (ch "+")]; split; [reflexivity|apply rep_plus]|].
  destruct (N.eqb_spec c (ch "?")) as [->|_]; [intros E; injection E as <- <- <-; exists [Plain (ch "?")]; split; [reflexivity|apply rep_maybe]|].
  destruct (N.eqb_spec c (ch "{")) as [->|_]; [|discriminate]. destruct (bounds ts) as [[[l h] u]|] eqn:B; [|discriminate]. apply bounds_found in B. destruct B as [F B]. cbn zeta.
  destruct (N.leb MAXREPEAT (number l)) eqn:L; [discriminate|]. assert (NL : numeral l (N.to_nat (number l))) by (apply numeral_value; auto).
  destruct h as [h|].
  - destruct B as [G ->]. destruct h as [|d h].
    + intros E. injection E as <- <- <-. exists (Plain (ch "{") :: map Plain l ++ [Plain (ch ","); closing]). split; [cbn [app]; rewrite <- app_assoc; reflexivity|]. apply rep_at_least. exact NL.
    + destruct (N.leb MAXREPEAT (number (d :: h)) || N.ltb (number (d :: h)) (number l)) eqn:O; [discriminate|]. apply Bool.orb_false_iff in O. destruct O as [O1 O2]. apply N.ltb_ge in O2. intros E. injection E as <- <- <-.
      exists (Plain (ch "{") :: map Plain l ++ Plain (ch ",") :: map Plain (d :: h) ++ [closing]). split; [cbn [app]; rewrite <- app_assoc; cbn [app]; rewrite <- app_assoc; reflexivity|]. apply rep_between; [discriminate|exact NL|apply numeral_value; auto|lia].
  - destruct B as [NE ->]. destruct l as [|d l]; [congruence|]. rewrite L, N.ltb_irrefl. cbn [orb]. intros E. injection E as <- <- <-.
    exists (Plain (ch "{") :: map Plain (d :: l) ++ [closing]). split; [cbn [app]; rewrite <- app_assoc; reflexivity|]. apply rep_exactly; [discriminate|exact NL].
Qed.

(** ** from the grammar to the parser *)
Definition stops (u : list tok) : Prop := u = [] \/ exists u', u = Plain (ch "|") :: u' \/ u = Plain (ch ")") :: u'.
Definition ends (u : list tok) : Prop := u = [] \/ exists u', u = Plain (ch ")") :: u'.
Lemma ends_stops u : ends u -> stops u.
Proof. intros [->|[u' ->]]; [left; reflexivity|right; eauto]. Qed.
Lemma prefix_stays (P : tok -> Prop) pre rest us u : pre ++ rest = us ++ u -> Forall P pre -> match u with t :: _ => ~ P t | [] => True end -> exists rest', us = pre ++ rest'.
Proof.
  revert us. induction pre as [|t pre IH]; intros us E F H; [exists us; reflexivity|]. destruct us as [|t' us].
  - cbn in E. destruct u as [|x u]; [discriminate|]. injection E as <- _. inversion F. contradiction.
  - injection E as <- E. inversion F. destruct (IH us E) as [r ->]; try assumption. exists r. reflexivity.
Qed.
Definition brace_sign (t : tok) : Prop := exists c, t = Plain c /\ (a_digit c \/ c = ch "," \/ c = ch "}").
Lemma brace_signs ds : Forall a_digit ds -> Forall brace_sign (map Plain ds).
Proof. intros F. induction F as [|d ds H F IH]; constructor; [exists d; auto|exact IH]. Qed.
Lemma braces_app us u : stops u -> braces (us ++ u) -> braces us.
Proof.
  intros S (ds & es & rest & F & G & H).
  assert (U : match u with t :: _ => ~ brace_sign t | [] => True end).
  { destruct S as [->|[u' [->| ->]]]; [exact Logic.I| |]; intros (c & E & B); injection E as <-; destruct B as [[B1 B2]|[B|B]]; vm_compute in *; congruence. }
  destruct H as [[NE E]|E].
  - destruct (prefix_stays brace_sign (map Plain ds ++ [closing]) rest us u) as [r ->]; [rewrite <- app_assoc; symmetry; exact E| |exact U|].
    + apply Forall_app. split; [apply brace_signs; exact F|]. constructor; [exists (ch "}"); auto|constructor].
    + exists ds, es, r. split; [exact F|]. split; [exact G|]. left. split; [exact NE|]. rewrite <- app_assoc. reflexivity.
  - destruct (prefix_stays brace_sign (map Plain ds ++ Plain (ch ",") :: map Plain es ++ [closing]) rest us u) as [r ->]; [rewrite <- app_assoc; cbn [app]; rewrite <- app_assoc; symmetry; exact E| |exact U|].
    + apply Forall_app. split; [apply brace_signs; exact F|]. constructor; [exists (ch ","); auto|]. apply Forall_app. split; [apply brace_signs; exact G|]. constructor; [exists (ch "}"); auto|constructor].
    + exists ds, es, r. split; [exact F|]. split; [exact G|]. right. rewrite <- app_assoc. cbn [app]. rewrite <- app_assoc. reflexivity.
Qed.
(** how items start *)
Definition starter (t : tok) (ts : list tok) : Prop :=
  match t with Escaped _ => True | Plain c => c <> ch "*" /\ c <> ch "+" /\ c <> ch "?" /\ (c = ch "{" -> ts = []) end.
Lemma itself_not c k : itself c -> In k (codes "|)[.^$(*+?") -> (c =? k)%N = false.
Proof. intros H I. apply N.eqb_neq. intros ->. exact (H I). Qed.
Lemma atom_starts n op ts r at_ m : atom n op ts r at_ m -> exists t ts', ts = t :: ts' /\ starter t ts'.
Proof.
  assert (X : forall c k, itself c -> In k (codes "|)[.^$(*+?") -> c <> k) by (intros c k H I; apply N.eqb_neq; apply itself_not; assumption).
  intros H. destruct H; eexists; eexists; (split; [reflexivity|]); cbn [starter]; try exact Logic.I; try (repeat split; vm_compute; congruence).
  repeat split; try (apply X; [assumption|vm_compute; tauto]).
Qed.
Lemma starter_quantifier t ts : starter t ts -> t <> Plain (ch "{") -> quantifier (t :: ts) = Some None.
Proof.
  destruct t as [c|c]; [|reflexivity]. intros (H1 & H2 & H3 & _) NB. unfold quantifier. rewrite (proj2 (N.eqb_neq _ _) H1), (proj2 (N.eqb_neq _ _) H2), (proj2 (N.eqb_neq _ _) H3).
  destruct (N.eqb_spec c (ch "{")) as [->|]; [congruence|reflexivity].
Qed.
Lemma bounds_repetition qs lo hi rest : repetition qs lo hi -> bounds (qs ++ rest) = None.
Proof. intros []; reflexivity. Qed.
Lemma seq_opens n op ts r m u : sequence n op ts r m -> stops u -> quantifier (ts ++ u) = Some None.
Proof.
  intros H S.
  assert (X : forall n op ts r at_ m rest, atom n op ts r at_ m -> (ts = [Plain (ch "{")] -> bounds rest = None) -> quantifier (ts ++ rest) = Some None).
  { clear. intros n op ts r at_ m rest A B. destruct (atom_starts _ _ _ _ _ _ A) as (t & ts' & -> & ST). cbn [app]. destruct t as [c|c]; [|reflexivity].
    destruct (N.eq_dec c (ch "{")) as [->|NE].
    - destruct ST as (_ & _ & _ & E). rewrite (E eq_refl) in *. cbn [app]. rewrite quantifier_brace, B by reflexivity. reflexivity.
    - apply starter_quantifier; [|congruence]. destruct ST as (H1 & H2 & H3 & _). split; [exact H1|]. split; [exact H2|]. split; [exact H3|]. intros E. contradiction (NE E). }
  destruct H as [n op|n op ts r at_ m us s k A Q NB NR|n op ts r m us s k qs lo hi A R Q|n op ts r m us s k qs lo hi A R Q].
  - destruct S as [->|[u' [->| ->]]]; reflexivity.
  - rewrite <- app_assoc. apply (X _ _ _ _ _ _ _ A). intros E. apply braces_iff. intros B. apply (NB E). exact (braces_app us u S B).
  - rewrite <- !app_assoc. apply (X _ _ _ _ _ _ _ A). intros E. exact (bounds_repetition _ _ _ _ R).
  - rewrite <- !app_assoc. apply (X _ _ _ _ _ _ _ A). intros E. exact (bounds_repetition _ _ _ _ R).
Qed.
Lemma no_quantifier ts : quantifier ts = Some None -> match ts with Plain c :: _ => (c =? ch "?")%N = false /\ (c =? ch "+")%N = false | _ => True end.
Proof. destruct ts as [|[c|c] ts]; [auto| |auto]. unfold quantifier. destruct (c =? ch "*")%N; [discriminate|]. destruct (c =? ch "+")%N; [discriminate|]. destruct (c =? ch "?")%N; [discriminate|auto]. Qed.
Lemma quantify_none a at_ ts : quantifier ts = Some None -> quantify a at_ ts = Some (a, ts).
Proof. intros Q. unfold quantify. rewrite Q. reflexivity. Qed.
Lemma quantify_greedy a qs lo hi ts : repetition qs lo hi -> quantifier ts = Some None -> quantify a false (qs ++ ts) = Some (Rep false lo hi a, ts).
Proof.
  intros R Q. unfold quantify. rewrite (repetition_read _ _ _ _ R). apply no_quantifier in Q. destruct ts as [|[c|c] ts]; try reflexivity. destruct Q as [-> ->]. reflexivity.
Qed.
Lemma quantify_lazy a qs lo hi ts : repetition qs lo hi -> quantify a false (qs ++ Plain (ch "?") :: ts) = Some (Rep true lo hi a, ts).
Proof. intros R. unfold quantify. rewrite (repetition_read _ _ _ _ R). reflexivity. Qed.

Definition nx (f : nat) (op : list nat) (a : regex) (at_ : bool) (n : nat) (ts : list tok) : option (regex * nat * list tok) :=
  match quantify a at_ ts with
  | None => None
  | Some (a, ts) => match parse_seq f n op ts with Some (b, n, ts) => Some (Seq a b, n, ts) | None => None end
  end.
Scheme alternatives_min := Minimality for alternatives Sort Prop
  with sequence_min := Minimality for sequence Sort Prop
  with atom_min := Minimality for atom Sort Prop.
Combined Scheme grammar_min from alternatives_min, sequence_min, atom_min.
Definition alt_reads (n : nat) (op : list nat) (ts : list tok) (r : regex) (m : nat) : Prop :=
  alternatives n op ts r m /\ forall u, ends u -> exists f0, forall f, f0 <= f -> parse_alt f n op (ts ++ u) = Some (r, m, u).
Definition seq_reads (n : nat) (op : list nat) (ts : list tok) (r : regex) (m : nat) : Prop :=
  sequence n op ts r m /\ forall u, stops u -> exists f0, forall f, f0 <= f -> parse_seq f n op (ts ++ u) = Some (r, m, u).
Definition atom_reads (n : nat) (op : list nat) (ts : list tok) (r : regex) (at_ : bool) (m : nat) : Prop :=
  atom n op ts r at_ m /\ forall rest, (ts = [Plain (ch "{")] -> bounds rest = None) -> (forall i, r = Ref i -> no_digit rest) -> exists f0, forall f, f0 <= f -> parse_seq (S f) n op (ts ++ rest) = nx f op r at_ m rest.
Lemma alt_opens n op ts r m u : alternatives n op ts r m -> stops u -> quantifier (ts ++ u) = Some None.
Proof.
  intros H S. destruct H as [n op ts r m H|n op ts r m us s k H A].
  - exact (seq_opens _ _ _ _ _ _ H S).
  - rewrite <- app_assoc. apply (seq_opens _ _ _ _ _ _ H). right. eexists. left. reflexivity.
Qed.
Lemma group_capture ts : quantifier ts = Some None -> group_start ts = Some (Capture, ts).
Proof. intros Q. apply no_quantifier in Q. unfold group_start. destruct ts as [|[c|c] ts]; try reflexivity. destruct Q as [-> _]. reflexivity. Qed.
Lemma grammar_reads : (forall n op ts r m, alternatives n op ts r m -> alt_reads n op ts r m) /\ (forall n op ts r m, sequence n op ts r m -> seq_reads n op ts r m) /\
  (forall n op ts r at_ m, atom n op ts r at_ m -> atom_reads n op ts r at_ m).
Proof.
  apply grammar_min.
  - (* the last alternative *) intros n op ts r m H [_ IH]. split; [apply alt_last; exact H|]. intros u E. destruct (IH u (ends_stops u E)) as [f0 F]. exists (S f0). intros f L. destruct f as [|f]; [lia|]. cbn [parse_alt]. rewrite F by lia. destruct E as [->|[u' ->]]; reflexivity.
  - intros n op ts r m us s k H [_ IH] A [_ IA]. split; [eapply alt_more; eassumption|]. intros u E. destruct (IA u E) as [f1 F1]. destruct (IH (Plain (ch "|") :: us ++ u)) as [f0 F0]; [right; eexists; left; reflexivity|].
    exists (S (f0 + f1)). intros f L. destruct f as [|f]; [lia|]. cbn [parse_alt]. rewrite <- app_assoc. cbn [app]. unfold plain_of. rewrite F0 by lia. rewrite N.eqb_refl, F1 by lia. reflexivity.
  - intros n op. split; [constructor|]. intros u ST. exists 1. intros f L. destruct f as [|f]; [lia|]. destruct ST as [->|[u' [->| ->]]]; reflexivity.
  - intros n op ts r at_ m us s k A [_ IA] Q [_ IQ] NB NR. split; [eapply seq_once; eassumption|]. intros u ST. destruct (IQ u ST) as [f1 F1]. destruct (IA (us ++ u)) as [f0 F0].
    { intros E. apply braces_iff. intros B. exact (NB E (braces_app us u ST B)). }
    { intros i E. specialize (NR i E). destruct us as [|[c|c] us]; cbn; [|exact (NR _ _ eq_refl)|exact Logic.I]. destruct ST as [->|[u' [->| ->]]]; [exact Logic.I| |]; intros [H1 H2]; vm_compute in H1, H2; congruence. }
    exists (S (f0 + f1)). intros f L. destruct f as [|f]; [lia|]. rewrite <- app_assoc, F0 by lia. unfold nx. rewrite (quantify_none _ _ _ (seq_opens _ _ _ _ _ _ Q ST)), F1 by lia. reflexivity.
  - intros n op ts r m us s k qs lo hi A [_ IA] R Q [_ IQ]. split; [eapply seq_repeated; eassumption|]. intros u ST. destruct (IQ u ST) as [f1 F1]. destruct (IA (qs ++ us ++ u)) as [f0 F0].
    { intros E. exact (bounds_repetition _ _ _ _ R). }
    { intros i E. destruct R; cbn; intros [G1 G2]; vm_compute in G1, G2; congruence. }
    exists (S (f0 + f1)). intros f L. destruct f as [|f]; [lia|]. rewrite <- !app_assoc, F0 by lia. unfold nx. rewrite (quantify_greedy _ _ _ _ _ R (seq_opens _ _ _ _ _ _ Q ST)), F1 by lia. reflexivity.
  - intros n op ts r m us s k qs lo hi A [_ IA] R Q [_ IQ]. split; [eapply seq_lazy; eassumption|]. intros u ST. destruct (IQ u ST) as [f1 F1]. destruct (IA (qs ++ Plain (ch "?") :: us ++ u)) as [f0 F0].
    { intros E. exact (bounds_repetition _ _ _ _ R). }
    { intros i E. destruct R; cbn; intros [G1 G2]; vm_compute in G1, G2; congruence. }
    exists (S (f0 + f1)). intros f L. destruct f as [|f]; [lia|]. rewrite <- !app_assoc. cbn [app]. unfold plain_of. rewrite F0 by lia. unfold nx. rewrite (quantify_lazy _ _ _ _ _ R), F1 by lia. reflexivity.
  - (* a character *) intros n op c I. split; [apply atom_itself; exact I|]. intros rest B _. exists 0. intros f _. cbn [app]. rewrite seq_S. unfold seq_body. cbn zeta. rewrite !(itself_not c) by (try exact I; vm_compute; tauto). cbn [orb].
    assert (Q : quantifier (Plain c :: rest) = Some None); [|rewrite Q; reflexivity].
    destruct (N.eq_dec c (ch "{")) as [->|NE]; [rewrite quantifier_brace, B by reflexivity; reflexivity|].
    unfold quantifier. rewrite !(itself_not c) by (try exact I; vm_compute; tauto). rewrite (proj2 (N.eqb_neq _ _) NE). reflexivity.
  - intros n op. split; [constructor|]. intros rest _ _. exists 0. intros f _. reflexivity.
  - intros n op. split; [constructor|]. intros rest _ _. exists 0. intros f _. reflexivity.
  - intros n op. split; [constructor|]. intros rest _ _. exists 0. intros f _. reflexivity.
  - intros n op ts l NH M. split; [apply atom_set; assumption|]. intros rest _ _. exists 0. intros f _.
    assert (P : parse_chars (ts ++ rest) = Some (Chars false l, rest)).
    { unfold parse_chars. pose proof (members_read _ _ _ M [] rest ltac:(split; auto)) as MR. pose proof (members_some _ _ _ M) as NE. destruct ts as [|[c|c] ts]; [congruence| |]; cbn [app] in *; [|rewrite MR; reflexivity].
      destruct (N.eqb_spec c (ch "^")) as [->|]; [exfalso; apply NH; reflexivity|]. rewrite MR. reflexivity. }
    cbn [app]. unfold plain_of. rewrite seq_S. unfold seq_body. cbn zeta.
    change (N.eqb (ch "[") (ch "|") || N.eqb (ch "[") (ch ")")) with false. rewrite N.eqb_refl, P. reflexivity.
  - intros n op ts l M. split; [apply atom_not_set; assumption|]. intros rest _ _. exists 0. intros f _.
    assert (P : parse_chars (Plain (ch "^") :: ts ++ rest) = Some (Chars true l, rest)).
    { unfold parse_chars. rewrite N.eqb_refl. rewrite (members_read _ _ _ M [] rest ltac:(split; auto)). reflexivity. }
    cbn [app]. unfold plain_of. rewrite seq_S. unfold seq_body. cbn zeta.
    change (N.eqb (ch "[") (ch "|") || N.eqb (ch "[") (ch ")")) with false. rewrite N.eqb_refl, P. reflexivity.
  - intros n op c k I. split; [apply atom_category; exact I|]. intros rest _ _. exists 0. intros f _. cbn [app]. rewrite seq_S. unfold seq_body. cbn zeta. unfold escape_item. apply category_iff in I. rewrite I. reflexivity.
  - intros n op. split; [apply atom_boundary|]. intros rest _ _. exists 0. intros f _. reflexivity.
  - intros n op. split; [apply atom_no_boundary|]. intros rest _ _. exists 0. intros f _. reflexivity.
  - intros n op c d I. split; [apply atom_control; exact I|]. intros rest _ _. exists 0. intros f _. cbn in I. repeat (destruct I as [I|I]; [injection I as <- <-; reflexivity|]). contradiction I.
  - intros n op c NA. split; [apply atom_escaped; exact NA|]. intros rest _ _. exists 0. intros f _. cbn [app]. rewrite seq_S. unfold seq_body. cbn zeta. unfold escape_item. destruct (not_alnum c NA) as (H1 & H2 & H3 & H4 & H5 & H6 & H7). rewrite H1, H2, H3, H4, H5, H6, H7. reflexivity.
  - intros n op i B L NI. split; [apply atom_ref; assumption|]. intros rest _ ND. exists 0. intros f _. specialize (ND i eq_refl). cbn [app]. rewrite seq_S. unfold seq_body. cbn zeta.
    assert (E : escape_item n op rest (N.of_nat i + 48) = Some (Ref i, false)).
    { assert (X : (if Nat.ltb i n && negb (memb i op) then Some (Ref i, false) else None) = Some (Ref i, false)) by (rewrite (proj2 (Nat.ltb_lt _ _) L), (proj2 (memb_false _ _) NI); reflexivity).
      destruct i as [|[|[|[|[|[|[|[|[|[|i]]]]]]]]]]; try lia; cbn -[Nat.ltb memb is_digit_char] in X |- *; (destruct rest as [|[d|d] rest]; try exact X; destruct (is_digit_char d) eqn:D; [exfalso; apply ND, digit_iff; exact D|exact X]). }
    rewrite E. reflexivity.
  - intros n op ts r m H [_ IH]. split; [apply atom_group; exact H|]. intros rest _ _. destruct (IH (Plain (ch ")") :: rest)) as [f0 F]; [right; eauto|]. exists f0. intros f L. cbn [app]. rewrite <- app_assoc. cbn [app]. unfold plain_of. rewrite seq_S. unfold seq_body. cbn zeta.
    rewrite group_capture by (apply (alt_opens _ _ _ _ _ _ H); right; eauto). rewrite F by exact L. reflexivity.
  - intros n op ts r m H [_ IH]. split; [apply atom_parentheses; exact H|]. intros rest _ _. destruct (IH (Plain (ch ")") :: rest)) as [f0 F]; [right; eauto|]. exists f0. intros f L. cbn [app]. rewrite <- app_assoc. cbn [app]. unfold plain_of. rewrite seq_S. unfold seq_body. cbn zeta.
    change (group_start (Plain (ch "?") :: Plain (ch ":") :: ts ++ Plain (ch ")") :: rest)) with (Some (NoCapture, ts ++ Plain (ch ")") :: rest)). cbv beta iota. rewrite F by exact L. reflexivity.
  - intros n op ts r m H [_ IH]. split; [apply atom_ahead; exact H|]. intros rest _ _. destruct (IH (Plain (ch ")") :: rest)) as [f0 F]; [right; eauto|]. exists f0. intros f L. cbn [app]. rewrite <- app_assoc. cbn [app]. unfold plain_of. rewrite seq_S. unfold seq_body. cbn zeta.
    change (group_start (Plain (ch "?") :: Plain (ch "=") :: ts ++ Plain (ch ")") :: rest)) with (Some (Look false, ts ++ Plain (ch ")") :: rest)). cbv beta iota. rewrite F by exact L. reflexivity.
  - intros n op ts r m H [_ IH]. split; [apply atom_not_ahead; exact H|]. intros rest _ _. destruct (IH (Plain (ch ")") :: rest)) as [f0 F]; [right; eauto|]. exists f0. intros f L. cbn [app]. rewrite <- app_assoc. cbn [app]. unfold plain_of. rewrite seq_S. unfold seq_body. cbn zeta.
    change (group_start (Plain (ch "?") :: Plain (ch "!") :: ts ++ Plain (ch ")") :: rest)) with (Some (Look true, ts ++ Plain (ch ")") :: rest)). cbv beta iota. rewrite F by exact L. reflexivity.
Qed.
Lemma grammar_parse s r : pattern s r -> parse s = Some r.
Proof.
  intros (ts & n & SP & A). apply tokens_spells in SP. unfold parse. rewrite SP. destruct (proj1 grammar_reads _ _ _ _ _ A) as [_ H]. destruct (H [] (or_introl eq_refl)) as [f0 F]. rewrite app_nil_r in F.
  rewrite <- (parse_enough ts (f0 + 2 * length ts + 2)) by lia. rewrite F by lia. reflexivity.
Qed.

(** ** from the parser to the grammar *)
Lemma braces_more us u : braces us -> braces (us ++ u).
Proof.
  intros (ds & es & rest & F & G & H). exists ds, es, (rest ++ u). split; [exact F|]. split; [exact G|]. destruct H as [[NE ->]| ->]; [left; split; [exact NE|]|right]; rewrite <- app_assoc; cbn [app]; rewrite <- ?app_assoc; reflexivity.
Qed.
Lemma nx_found f op : (forall o ts r o' u, parse_seq f o op ts = Some (r, o', u) -> exists pre, ts = pre ++ u /\ sequence o op pre r o') ->
  forall o pre0 a at_ n ts r m u, atom o op pre0 a at_ n -> (pre0 = [Plain (ch "{")] -> quantifier (Plain (ch "{") :: ts) = Some None) -> (forall i, a = Ref i -> no_digit ts) ->
  nx f op a at_ n ts = Some (r, m, u) -> exists pre, pre0 ++ ts = pre ++ u /\ sequence o op pre r m.
Proof.
  intros IS o pre0 a at_ n ts r m u A HB HR E. unfold nx, quantify in E. destruct (quantifier ts) as [[[[lo hi] t1]|]|] eqn:Q; try discriminate.
  - apply repetition_found in Q. destruct Q as (qs & -> & R). destruct at_; [discriminate|].
    assert (G : match parse_seq f n op t1 with Some (b, n, ts) => Some (Seq (Rep false lo hi a) b, n, ts) | None => None end = Some (r, m, u) -> exists pre, pre0 ++ qs ++ t1 = pre ++ u /\ sequence o op pre r m).
    { destruct (parse_seq f n op t1) as [[[b n'] t2]|] eqn:P; [|discriminate]. intros E1. injection E1 as <- <- <-. apply IS in P. destruct P as (pre & -> & SQ). exists (pre0 ++ qs ++ pre). split; [rewrite <- !app_assoc; reflexivity|]. eapply seq_repeated; eassumption. }
    destruct t1 as [|[c|c] t1]; [exact (G E)| |exact (G E)]. destruct (N.eqb_spec c (ch "?")) as [->|_].
    + destruct (parse_seq f n op t1) as [[[b n'] t2]|] eqn:P; [|discriminate]. injection E as <- <- <-. apply IS in P. destruct P as (pre & -> & SQ). exists (pre0 ++ qs ++ Plain (ch "?") :: pre). split; [rewrite <- !app_assoc; reflexivity|]. eapply seq_lazy; eassumption.
    + destruct (N.eqb c (ch "+")); [discriminate|]. exact (G E).
  - destruct (parse_seq f n op ts) as [[[b n'] t2]|] eqn:P; [|discriminate]. injection E as <- <- <-. apply IS in P. destruct P as (pre & -> & SQ). exists (pre0 ++ pre). split; [rewrite <- app_assoc; reflexivity|]. eapply seq_once; [exact A|exact SQ| |].
    + intros E B. specialize (HB E). rewrite quantifier_brace in HB. apply (braces_more pre t2) in B. destruct (bounds (pre ++ t2)) as [[[lo hi] x]|] eqn:BD; [|apply braces_iff in BD; contradiction].
      cbn zeta in HB. destruct (N.leb MAXREPEAT (number lo)); [discriminate|]. destruct (match hi with None => _ | Some _ => _ end); [|discriminate]. match type of HB with (if ?x then _ else _) = _ => destruct x; discriminate end.
    + intros i E c us' ->. exact (HR i E).
Qed.
Lemma escape_found o cur rest c r at_ : escape_item o cur rest c = Some (r, at_) -> atom o cur [Escaped c] r at_ o /\ forall i, r = Ref i -> no_digit rest.
Proof.
  unfold escape_item. destruct (category_of c) as [k|] eqn:K; [intros E; injection E as <- <-; split; [apply atom_category, category_iff, K|discriminate]|].
  destruct (N.eqb_spec c (ch "b")) as [->|]; [intros E; injection E as <- <-; split; [apply atom_boundary|discriminate]|].
  destruct (N.eqb_spec c (ch "B")) as [->|]; [intros E; injection E as <- <-; split; [apply atom_no_boundary|discriminate]|].
  destruct (control_of c) as [d|] eqn:C; [intros E; injection E as <- <-; split; [apply atom_control, control_iff, C|discriminate]|].
  destruct (N.eqb_spec c 48) as [|NZ]; [discriminate|]. destruct (is_digit_char c) eqn:D.
  - assert (X : no_digit rest -> (let n := N.to_nat (c - 48) in if Nat.ltb n o && negb (memb n cur) then Some (Ref n, false) else None) = Some (r, at_) -> atom o cur [Escaped c] r at_ o /\ forall i, r = Ref i -> no_digit rest).
    { intros ND. cbn zeta. destruct (Nat.ltb_spec (N.to_nat (c - 48)) o) as [L|]; [|discriminate]. destruct (memb (N.to_nat (c - 48)) cur) eqn:M; [discriminate|]. cbn [andb negb]. intros E. injection E as <- <-. split; [|auto].
      apply digit_iff in D. destruct D as [D1 D2]. replace c with (N.of_nat (N.to_nat (c - 48)) + 48)%N at 1 by lia. apply atom_ref; [lia|exact L|apply memb_false; exact M]. }
    destruct rest as [|[d|d] rest]; [exact (X Logic.I)| |exact (X Logic.I)]. destruct (is_digit_char d) eqn:D2; [discriminate|]. apply X. cbn. rewrite <- digit_iff. congruence.
  - destruct (is_letter_char c) eqn:L; [discriminate|]. intros E. injection E as <- <-. split; [|discriminate]. apply atom_escaped. apply alnum_false. rewrite L, D. reflexivity.
Qed.
Lemma chars_found o cur ts a rest : parse_chars ts = Some (a, rest) -> exists pre, ts = pre ++ rest /\ atom o cur (Plain (ch "[") :: pre) a false o /\ forall i, a <> Ref i.
Proof.
  unfold parse_chars. intros E.
  assert (X : forall b u, match parse_set [] u with Some (items, ts) => Some (Chars b items, ts) | None => None end = Some (a, rest) -> exists pre l, u = pre ++ rest /\ members true pre l /\ a = Chars b l).
  { intros b u H. destruct (parse_set [] u) as [[l t1]|] eqn:P; [|discriminate]. injection H as <- <-. apply members_found in P. destruct P as (pre & l' & -> & -> & M). exists pre, l'. auto. }
  assert (N : forall u, match u with Plain c :: _ => c <> ch "^" | _ => True end -> match parse_set [] u with Some (items, ts) => Some (Chars false items, ts) | None => None end = Some (a, rest) -> exists pre, u = pre ++ rest /\ atom o cur (Plain (ch "[") :: pre) a false o /\ forall i, a <> Ref i).
  { intros u H H1. destruct (X _ _ H1) as (pre & l & -> & M & ->). exists pre. split; [reflexivity|]. split; [|discriminate]. apply atom_set; [|exact M]. pose proof (members_some _ _ _ M) as NE. destruct pre as [|[c|c] pre]; [congruence| |discriminate]. cbn in *. intros E1. injection E1 as E1. exact (H E1). }
  destruct ts as [|[c|c] ts]; [apply N; [exact Logic.I|exact E]| |apply N; [exact Logic.I|exact E]].
  destruct (N.eqb_spec c (ch "^")) as [->|NE]; [|apply N; [exact NE|exact E]].
  destruct (X _ _ E) as (pre & l & -> & M & ->). exists (Plain (ch "^") :: pre). split; [reflexivity|]. split; [|discriminate]. apply atom_not_set. exact M.
Qed.
Lemma group_found ts k ts' : group_start ts = Some (k, ts') ->
  match k with Capture => ts' = ts | NoCapture => ts = Plain (ch "?") :: Plain (ch ":") :: ts' | Look false => ts = Plain (ch "?") :: Plain (ch "=") :: ts' | Look true => ts = Plain (ch "?") :: Plain (ch "!") :: ts' end.
Proof.
  unfold group_start. destruct ts as [|[q|q] ts]; try (intros E; injection E as <- <-; reflexivity). destruct (N.eqb_spec q (ch "?")) as [->|]; [|intros E; injection E as <- <-; reflexivity].
  destruct ts as [|[c|c] ts]; try discriminate. destruct (N.eqb_spec c (ch ":")) as [->|]; [intros E; injection E as <- <-; reflexivity|]. destruct (N.eqb_spec c (ch "=")) as [->|]; [intros E; injection E as <- <-; reflexivity|].
  destruct (N.eqb_spec c (ch "!")) as [->|]; [intros E; injection E as <- <-; reflexivity|discriminate].
Qed.
Lemma alt_not_ref n op ts r m i : alternatives n op ts r m -> r <> Ref i.
Proof. intros [? ? ? ? ? []|]; discriminate. Qed.
Lemma parser_found f : (forall o cur ts r o' u, parse_alt f o cur ts = Some (r, o', u) -> exists pre, ts = pre ++ u /\ alternatives o cur pre r o') /\
  (forall o cur ts r o' u, parse_seq f o cur ts = Some (r, o', u) -> exists pre, ts = pre ++ u /\ sequence o cur pre r o').
Proof.
  induction f as [|f [IA IS]]; [split; discriminate|]. split.
  - intros o cur ts r o' u. cbn [parse_alt]. destruct (parse_seq f o cur ts) as [[[a o1] t1]|] eqn:P; [|discriminate]. apply IS in P. destruct P as (pre & -> & SQ).
    assert (X : Some (a, o1, t1) = Some (r, o', u) -> exists pre0, pre ++ t1 = pre0 ++ u /\ alternatives o cur pre0 r o') by (intros E; injection E as <- <- <-; exists pre; split; [reflexivity|apply alt_last; exact SQ]).
    destruct t1 as [|[c|c] t1]; try exact X. destruct (N.eqb_spec c (ch "|")) as [->|]; [|exact X]. destruct (parse_alt f o1 cur t1) as [[[b o2] t2]|] eqn:PA; [|discriminate]. intros E. injection E as <- <- <-.
    apply IA in PA. destruct PA as (pre2 & -> & A). exists (pre ++ Plain (ch "|") :: pre2). split; [rewrite <- app_assoc; reflexivity|]. eapply alt_more; eassumption.
  - intros o cur ts r o' u. rewrite seq_S. unfold seq_body. destruct ts as [|t rest]; [intros E; injection E as <- <- <-; exists []; split; [reflexivity|constructor]|]. cbn zeta.
    change (fun (a : regex) (at_ : bool) (opened : nat) (ts : list tok) => match quantify a at_ ts with Some (a0, ts0) => match parse_seq f opened cur ts0 with Some (b, opened0, ts1) => Some (Seq a0 b, opened0, ts1) | None => None end | None => None end) with (nx f cur).
    pose proof (nx_found f cur (fun o ts r o' u => IS o cur ts r o' u) o) as NX. clear IS.
    assert (SIMPLE : forall t a at_, atom o cur [t] a at_ o -> t <> Plain (ch "{") -> (forall i, a = Ref i -> no_digit rest) -> nx f cur a at_ o rest = Some (r, o', u) -> exists pre, t :: rest = pre ++ u /\ sequence o cur pre r o').
    { intros t' a at_ A NB NR E. apply (NX [t'] a at_ o rest r o' u A); [congruence|exact NR|exact E]. }
    destruct t as [c|c].
    2:{ destruct (escape_item o cur rest c) as [[a at_]|] eqn:E; [|discriminate]. apply escape_found in E. destruct E as [A NR]. apply SIMPLE; [exact A|discriminate|exact NR]. }
    destruct (N.eqb_spec c (ch "|")) as [->|H1]; [cbn [orb]; intros E; injection E as <- <- <-; exists []; split; [reflexivity|constructor]|].
    destruct (N.eqb_spec c (ch ")")) as [->|H2]; [cbn [orb]; intros E; injection E as <- <- <-; exists []; split; [reflexivity|constructor]|]. cbn [orb].
    destruct (N.eqb_spec c (ch "[")) as [->|H3].
    { destruct (parse_chars rest) as [[a t1]|] eqn:PC; [|discriminate]. apply (chars_found o cur) in PC. destruct PC as (pre & -> & A & NR). intros E. destruct (NX _ _ _ _ _ _ _ _ A ltac:(discriminate) ltac:(intros i Ei; contradiction (NR i Ei)) E) as (p & Ep & SQ). exists p. split; [exact Ep|exact SQ]. }
    destruct (N.eqb_spec c (ch ".")) as [->|H4]; [apply SIMPLE; [apply atom_any|discriminate|discriminate]|].
    destruct (N.eqb_spec c (ch "^")) as [->|H5]; [apply SIMPLE; [apply atom_start|discriminate|discriminate]|].
    destruct (N.eqb_spec c (ch "$")) as [->|H6]; [apply SIMPLE; [apply atom_end|discriminate|discriminate]|].
    destruct (N.eqb_spec c (ch "(")) as [->|H7].
    { destruct (group_start rest) as [[k t1]|] eqn:GS; [|discriminate]. apply group_found in GS.
      set (oc := match k with Capture => (o + 1, o :: cur) | _ => (o, cur) end). destruct oc as [o1 cur1] eqn:OC. unfold oc in OC. clear oc.
      destruct (parse_alt f o1 cur1 t1) as [[[a o2] [|[e|e] t2]]|] eqn:PA; try discriminate. destruct (N.eqb_spec e (ch ")")) as [->|]; [|discriminate]. apply IA in PA. destruct PA as (pre & -> & A).
      intros E. destruct k as [| |[]]; injection OC as <- <-; subst rest.
      - destruct (NX (Plain (ch "(") :: pre ++ [Plain (ch ")")]) _ _ _ _ _ _ _ (atom_group _ _ _ _ _ A) ltac:(discriminate) ltac:(discriminate) E) as (p & Ep & SQ). exists p. split; [|exact SQ]. rewrite <- Ep. cbn [app]. rewrite <- app_assoc. reflexivity.
      - destruct (NX (Plain (ch "(") :: Plain (ch "?") :: Plain (ch ":") :: pre ++ [Plain (ch ")")]) _ _ _ _ _ _ _ (atom_parentheses _ _ _ _ _ A) ltac:(discriminate) ltac:(intros i ->; exfalso; exact (alt_not_ref _ _ _ _ _ i A eq_refl)) E) as (p & Ep & SQ). exists p. split; [|exact SQ]. rewrite <- Ep. cbn [app]. rewrite <- app_assoc. reflexivity.
      - destruct (NX (Plain (ch "(") :: Plain (ch "?") :: Plain (ch "!") :: pre ++ [Plain (ch ")")]) _ _ _ _ _ _ _ (atom_not_ahead _ _ _ _ _ A) ltac:(discriminate) ltac:(discriminate) E) as (p & Ep & SQ). exists p. split; [|exact SQ]. rewrite <- Ep. cbn [app]. rewrite <- app_assoc. reflexivity.
      - destruct (NX (Plain (ch "(") :: Plain (ch "?") :: Plain (ch "=") :: pre ++ [Plain (ch ")")]) _ _ _ _ _ _ _ (atom_ahead _ _ _ _ _ A) ltac:(discriminate) ltac:(discriminate) E) as (p & Ep & SQ). exists p. split; [|exact SQ]. rewrite <- Ep. cbn [app]. rewrite <- app_assoc. reflexivity. }
    destruct (quantifier (Plain c :: rest)) as [[q|]|] eqn:Q; try discriminate. intros E.
    assert (I : itself c).
    { unfold itself. intros I. assert (QN := Q). unfold quantifier in QN. destruct (N.eqb_spec c (ch "*")); [discriminate|]. destruct (N.eqb_spec c (ch "+")); [discriminate|]. destruct (N.eqb_spec c (ch "?")); [discriminate|]. clear QN.
      assert (J : In c [ch "|"; ch ")"; ch "["; ch "."; ch "^"; ch "$"; ch "("; ch "*"; ch "+"; ch "?"]) by exact I. repeat (destruct J as [J|J]; [congruence|]). exact J. }
    apply (NX [Plain c] _ _ _ _ _ _ _ (atom_itself _ _ _ I)) in E; [exact E| |discriminate]. intros E1. injection E1 as ->. exact Q.
Qed.
Lemma parse_grammar s r : parse s = Some r -> pattern s r.
Proof.
  unfold parse. destruct (tokens s) as [ts|] eqn:T; [|discriminate]. destruct (parse_alt (2 * length ts + 2) 1 [] ts) as [[[r' o] [|t u]]|] eqn:P; try discriminate. intros E. injection E as <-.
  apply parser_found in P. destruct P as (pre & -> & A). rewrite app_nil_r in T. exists pre, o. split; [apply tokens_spells; exact T|exact A].
Qed.
