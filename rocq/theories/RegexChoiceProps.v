(** C171: which match is found, for all the patterns. *)
From Coq Require Import String Ascii Lia Sorted.
From Verif Require Import Base BaseFacts LevModel SortModel PassJoinModel StringsModel PhoneticsModel FingerprintModel WordsModel
  RegexModel RegexSpec RegexParseProofs RegexEngineProofs RegexLoopProofs RegexChoiceSpec RegexChoiceProofs RegexProps.
Open Scope nat_scope.
Open Scope string_scope.
Open Scope list_scope.
Notation length := List.length.

(** the ways of an expression are those of its meaning, each once, by priority *)
Theorem C171_ways : forall is_digit is_space is_word same r st, exists ps,
  length ps = length (ways is_digit is_space is_word same r st) /\ StronglySorted prefers ps /\
  (forall p st', In (p, st') (combine ps (ways is_digit is_space is_word same r st)) <-> leads is_digit is_space is_word same r st p st').
Proof. exact ways_leads. Qed.

(** the match is the preferred way; [match_at] finds none only when there is none *)
Theorem C171_match : forall is_digit is_space is_word same r adv b a,
  match match_at is_digit is_space is_word same r adv b a with
  | Some st => best is_digit is_space is_word same r adv b a st
  | None => no_match is_digit is_space is_word same r adv b a
  end.
Proof. exact match_best. Qed.
Theorem C171_best : forall is_digit is_space is_word same r adv b a st,
  best is_digit is_space is_word same r adv b a st <-> match_at is_digit is_space is_word same r adv b a = Some st.
Proof. exact best_match. Qed.

(** of two ways, one is preferred; the preference is an order *)
Theorem C171_total : forall is_digit is_space is_word same r st p s q s',
  leads is_digit is_space is_word same r st p s -> leads is_digit is_space is_word same r st q s' -> (p = q /\ s = s') \/ prefers p q \/ prefers q p.
Proof. exact leads_total. Qed.
Theorem C171_order : (forall p q, prefers p q -> ~ prefers q p) /\ (forall p q r, prefers p q -> prefers q r -> prefers p r).
Proof. split; [intros p q H H'; exact (prefers_asym p q H H')|exact prefers_trans]. Qed.

(** a group gives what it matched last *)
Theorem C171_group : forall n st w, group n st = Some w <-> matched_last n (groups st) w.
Proof. exact group_last. Qed.

(** without references, the places reached are those of C156 *)
Theorem C171_plain : forall is_digit is_space is_word same p r st q, parse p = Some r -> plain r = true ->
  (exists c st', leads is_digit is_space is_word same r st c st' /\ (before st', after st') = q) <-> goes is_digit is_space is_word same r (before st, after st) q.
Proof. intros is_digit is_space is_word same p r st q HP PL. apply leads_goes; [exact PL|exact (parse_ordered p r HP)]. Qed.

(** replacing and splitting read the text once, from left to right *)
Theorem C171_scan : forall is_digit is_space is_word same r s, exists l,
  scanned is_digit is_space is_word same r false [] s l /\ (forall l', scanned is_digit is_space is_word same r false [] s l' -> l' = l) /\
  (forall repl, re_sub is_digit is_space is_word same r repl s = flat_map (fun x => match x with inl c => [c] | inr st => repl st end) l) /\
  (forall n, re_split is_digit is_space is_word same r n s = pieces n [] l).
Proof. exact scan_sub_split. Qed.

(** ** examples, given by python 3.11 too *)
Definition found (p s : str) (n : nat) : option (option (nat * list (option str))) :=
  match parse p with
  | Some r => Some (match re_match digit space word N.eqb r s with Some st => Some (length s - length (after st), map (fun k => group k st) (seq 1 n)) | None => None end)
  | None => None
  end.
Example first_alternative : found (codes "(a|ab)(c|bcd)(d*)") (codes "abcd") 3 = Some (Some (4, map Some [codes "a"; codes "bcd"; codes ""])).
Proof. vm_compute. reflexivity. Qed.
Example lazy_and_reference : found (codes "(a*?)(a*)(b?)\1") (codes "aab") 3 = Some (Some (3, map Some [codes ""; codes "aa"; codes "b"])).
Proof. vm_compute. reflexivity. Qed.
Example group_ahead : found (codes "(?=(a+))\1b") (codes "aab") 1 = Some (Some (3, [Some (codes "aa")])).
Proof. vm_compute. reflexivity. Qed.
Example empty_turn : found (codes "(a|(b?))*") (codes "abc") 2 = Some (Some (2, [Some []; Some []])) /\ found (codes "(a?)*?$") (codes "aa") 1 = Some (Some (2, [Some (codes "a")])).
Proof. vm_compute. auto. Qed.
Example last_turn : found (codes "(?:(a)|b)*\1") (codes "aba") 1 = Some (Some (3, [Some (codes "a")])) /\ found (codes "(?:a|(b))*") (codes "ba") 1 = Some (Some (2, [Some (codes "b")])).
Proof. vm_compute. auto. Qed.
Example preferred_some : prefers [false] [true] /\ ~ prefers [true] [false] /\ ~ prefers [false] [false].
Proof.
  split; [exists [], [], []; auto|]. split; intros (c & x & y & E1 & E2); (destruct c as [|c0 [|c1 c]]; cbn in E1, E2; congruence).
Qed.
Example scanned_some : exists l, scanned digit space word N.eqb (Lit 120%N) false [] (codes "axb") l /\ length l = 3.
Proof.
  destruct (scan_sub_split digit space word N.eqb (Lit 120%N) (codes "axb")) as (l & S & U & E & _). exists l. split; [exact S|].
  pose proof (E (fun _ => [121%N])) as E1. cbn in E1. assert (L : length (flat_map (fun x : N + state => match x with inl c => [c] | inr _ => [121%N] end) l) = length l).
  { clear. induction l as [|[c|s] l IH]; cbn; congruence. }
  rewrite <- L, <- E1. reflexivity.
Qed.

Print Assumptions C171_ways.
Print Assumptions C171_match.
Print Assumptions C171_best.
Print Assumptions C171_total.
Print Assumptions C171_order.
Print Assumptions C171_group.
Print Assumptions C171_plain.
Print Assumptions C171_scan.
