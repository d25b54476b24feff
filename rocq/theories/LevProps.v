(** C01 - C04: edit distances (cfog/metrics/levenshtein.pyx). *)
From Verif Require Import Base BaseFacts EditSpec EditFacts LevModel LevProofs.

(** "abc" and the like: code points of latin letters *)
Definition a_ : N := 97%N.
Definition b_ : N := 98%N.
Definition c_ : N := 99%N.
Definition d_ : N := 100%N.

(** C01 asks for [forall A B, is_lev A B (levenshtein_distance A B)].  It is false of the code:
    levenshtein_distance("aa", "ab") is 0, but no chain of no edits relates both. *)
Theorem C01_shortcut_refuted : exists A B, bmp A /\ bmp B /\ ~ is_lev A B (levenshtein_distance A B).
Proof. exact levenshtein_shortcut_refuted. Qed.

(** It is false as well because of code points beyond U+FFFF, compared modulo 2^16. *)
Theorem C01_astral_refuted : exists A B,
  ~ shortcut_case A B /\ ~ shortcut_case B A /\ ~ is_lev A B (levenshtein_distance A B).
Proof. exact levenshtein_astral_refuted. Qed.

(** C01 for strings of the basic multilingual plane: right, but in [shortcut_case], where it is
    one less than the distance.  Missing from C01: those cases, where the code is wrong. *)
Theorem C01_distance_partial (A B : str) : bmp A -> bmp B ->
  let (A', B') := if Nat.ltb (length B) (length A) then (B, A) else (A, B) in
  (~ shortcut_case A' B' -> is_lev A B (levenshtein_distance A B)) /\
  (shortcut_case A' B' -> is_lev A B (levenshtein_distance A B + 1)).
Proof. exact (levenshtein_distance_exact A B). Qed.

(** C57: whatever happens, the distance is not overestimated, and is off by at most one *)
Theorem C57_bounds (A B : str) n : bmp A -> bmp B -> is_lev A B n ->
  levenshtein_distance A B <= n <= levenshtein_distance A B + 1.
Proof. exact (levenshtein_distance_bounds A B n). Qed.

(** C57: right as soon as the strings have no letter twice *)
Theorem C57_distinct_letters (A B : str) : bmp A -> bmp B -> NoDup A -> NoDup B ->
  is_lev A B (levenshtein_distance A B).
Proof. exact (levenshtein_distance_nodup A B). Qed.

(** C57: symmetric unless both strings have the same length *)
Theorem C57_symmetric (A B : str) : length A <> length B ->
  levenshtein_distance A B = levenshtein_distance B A.
Proof. exact (levenshtein_distance_sym A B). Qed.

(** ... not in general (a consequence of C01 that fails) *)
Theorem C01_symmetric_refuted : exists A B, levenshtein_distance A B <> levenshtein_distance B A.
Proof. exact levenshtein_distance_sym_refuted. Qed.

Example C01_ex : bmp [a_; b_; c_; a_] /\ bmp [b_; d_; c_; c_; a_] /\
  levenshtein_distance [a_; b_; c_; a_] [b_; d_; c_; c_; a_] = 3 /\
  levenshtein_distance [a_; b_; c_; d_] [b_; c_; d_; a_; a_] = 3 /\
  levenshtein_distance [a_; a_] [a_; b_] = 0 /\ shortcut_case [a_; a_] [a_; b_].
Proof.
  assert (H : forall l, forallb (fun c => N.ltb c 65536) l = true -> bmp l).
  { intros l Hl. apply Forall_forall. intros x Hx. rewrite forallb_forall in Hl.
    apply N.ltb_lt, Hl, Hx. }
  repeat split; try (apply H; reflexivity).
  exists [a_], a_, [b_], []. repeat split; try discriminate; simpl; [|auto].
  intros [E|[]]. discriminate.
Qed.

(** C02 asks for all strings; the code compares full code points of A with truncated ones of B. *)
Theorem C02_astral_refuted : exists k A B n, is_lev A B n /\ n <= k /\ limited_levenshtein_distance k A B <> n.
Proof. exact limited_astral_refuted. Qed.

(** C02 for strings of the basic multilingual plane *)
Theorem C02_limited_partial (k : nat) (A B : str) n : bmp A -> bmp B -> is_lev A B n ->
  limited_levenshtein_distance k A B = if Nat.leb n k then n else k + 1.
Proof. exact (limited_exact k A B n). Qed.

Example C02_ex :
  limited_levenshtein_distance 3 [a_; b_; c_; a_; d_] [b_; d_; c_; c_; a_] = 4 /\
  limited_levenshtein_distance 4 [a_; b_; c_; a_; d_] [b_; d_; c_; c_; a_] = 4 /\
  limited_levenshtein_distance 9 [a_; b_; c_; a_; d_] [b_; d_; c_; c_; a_] = 4 /\
  limited_levenshtein_distance 1 [a_; b_; c_; a_] [b_; d_; c_; c_; a_] = 2.
Proof. vm_compute. auto. Qed.

(** C03.  [same] is [A is B]: two distinct objects may hold the same string, but never the empty
    string, which CPython keeps unique. *)
Theorem C03_lte1 (same : bool) (A B : str) :
  (same = true -> A = B) -> (A = [] -> B = [] -> same = true) ->
  exists r, levenshtein_distance_lte1 same A B = Ok r /\ (r = true <-> lev_le 1 A B).
Proof. exact (lte1_exact same A B). Qed.

(** C03: symmetry, whatever the identities *)
Theorem C03_symmetric (same : bool) (A B : str) :
  (same = true -> A = B) -> levenshtein_distance_lte1 same A B = levenshtein_distance_lte1 same B A.
Proof. exact (lte1_symmetric same A B). Qed.

Example C03_ex :
  levenshtein_distance_lte1 false [a_; a_; b_] [a_; b_] = Ok true /\
  levenshtein_distance_lte1 false [a_; a_; b_] [a_; a_; b_] = Ok true /\
  levenshtein_distance_lte1 false [a_; c_; b_] [a_; b_; b_] = Ok true /\
  levenshtein_distance_lte1 false [a_; b_] [b_; a_] = Ok false /\
  levenshtein_distance_lte1 false [] [a_] = Ok true.
Proof. repeat split. Qed.

(** C04 *)
Theorem C04_damerau (same : bool) (A B : str) :
  (same = true -> A = B) -> (A = [] -> B = [] -> same = true) ->
  exists r, damerau_levenshtein_distance_lte1 same A B = Ok r /\ (r = true <-> damerau_le 1 A B).
Proof. exact (damerau_exact same A B). Qed.

Example C04_ex :
  damerau_levenshtein_distance_lte1 false [a_; b_; c_] [b_; a_; c_] = Ok true /\
  damerau_levenshtein_distance_lte1 false [a_; b_; c_] [b_; a_; d_] = Ok false /\
  damerau_levenshtein_distance_lte1 false [a_; b_; c_; d_] [b_; a_; d_; c_] = Ok false /\
  damerau_levenshtein_distance_lte1 false [a_; b_; b_] [a_; b_] = Ok true.
Proof. repeat split. Qed.

Print Assumptions C01_shortcut_refuted.
Print Assumptions C01_astral_refuted.
Print Assumptions C01_distance_partial.
Print Assumptions C57_bounds.
Print Assumptions C57_distinct_letters.
Print Assumptions C57_symmetric.
Print Assumptions C01_symmetric_refuted.
Print Assumptions C02_astral_refuted.
Print Assumptions C02_limited_partial.
Print Assumptions C03_lte1.
Print Assumptions C03_symmetric.
Print Assumptions C04_damerau.
