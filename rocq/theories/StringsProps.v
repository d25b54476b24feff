(** C35-C38, C61: squeeze, n-grams and n-gram keys, omission and skeleton keys *)
From Coq Require Import String Ascii QArith Sorting.Sorted.
From Verif Require Import Base LevModel LevKeysSpec StringsModel StringsSpec StringsProofs.
Open Scope nat_scope.
Open Scope list_scope.
Notation length := List.length.
Notation concat := List.concat.

(** C35: a result may have two equal adjacent characters: the runs of line breaks are kept *)
Theorem C35_adjacent_refuted : exists s, has_double (squeeze s false).
Proof. exists [97; 10; 10; 98]%N, [97%N], 10%N, [98%N]. vm_compute. reflexivity. Qed.

Theorem C35_idempotent s roman : squeeze (squeeze s roman) roman = squeeze s roman.
Proof. exact (squeeze_idem s roman). Qed.

(** partial: for strings without line breaks *)
Theorem C35_adjacent_partial s : ~ In 10%N s -> ~ has_double (squeeze s false).
Proof. exact (squeeze_no_newline s). Qed.

(** C61: every maximal run is reduced to one occurrence, except the runs of line breaks, or those of the roman
    digits when these are kept *)
Theorem C61_runs runs (roman : bool) : runs_ok runs ->
  exists ns, squeeze (expand runs) roman = expand (combine (map fst runs) ns) /\
    Forall2 (fun r n => (if roman then roman_digit (fst r) else fst r = 10%N) /\ n = snd r
                     \/ (if roman then ~ roman_digit (fst r) else fst r <> 10%N) /\ n = 1) runs ns.
Proof. exact (squeeze_expand runs roman). Qed.

Theorem C61_runs_exist (s : str) : exists runs, runs_ok runs /\ expand runs = s.
Proof. exact (runs_exist s). Qed.

Theorem C61_doubles s p c q : squeeze s false = p ++ c :: c :: q -> c = 10%N.
Proof. exact (squeeze_no_double s p c q). Qed.

Theorem C61_doubles_roman s p c q : squeeze s true = p ++ c :: c :: q -> roman_digit c.
Proof. exact (squeeze_no_double_roman s p c q). Qed.

Example C35_ex :
  squeeze (codes "aabbbc") false = codes "abc" /\ squeeze (codes "XXIIbbb") true = codes "XXIIb" /\
  squeeze (codes "XXIIbbb") false = codes "XIb".
Proof. repeat split; vm_compute; reflexivity. Qed.
Example C61_ex : exists runs, runs_ok runs /\ expand runs = codes "aab" /\ length runs = 2.
Proof. exists [(97%N, 2); (98%N, 1)]. cbn. repeat split; auto. discriminate. Qed.

Section Ngrams.
Context {A : Type}.

(** C36 *)
Theorem C36_count n (s : list A) : 1 <= n -> length (ngrams n s) = Nat.max 1 (length s + 1 - n).
Proof. exact (ngrams_length n s). Qed.

Theorem C36_short n (s : list A) : length s < n -> ngrams n s = [s].
Proof. exact (ngrams_short n s). Qed.

Theorem C36_windows n (s : list A) i g : 1 <= n <= length s -> nth_error (ngrams n s) i = Some g ->
  length g = n /\ window s i g.
Proof. exact (ngrams_nth n s i g). Qed.

Theorem C36_join n (s : list A) : 1 <= n -> join_ngrams (ngrams n s) = Ok s.
Proof. exact (join_ngrams_ngrams n s). Qed.

(** any list of grams: the first one and the last element of the others, which must have one *)
Theorem C36_join_any (g : list A) grams s :
  join_ngrams (g :: grams) = Ok s <-> exists lasts, s = g ++ lasts /\ Forall2 (fun h x => exists p, h = p ++ [x]) grams lasts.
Proof. exact (join_ngrams_any g grams s). Qed.

Theorem C36_join_fails (grams : list (list A)) e :
  join_ngrams grams = Err e <-> grams = [] /\ e = RuntimeError \/ In [] (tl grams) /\ e = IndexError.
Proof. exact (join_ngrams_fails grams e). Qed.
End Ngrams.

Example C36_ex : ngrams 2 (codes "abcd") = [codes "ab"; codes "bc"; codes "cd"] /\ ngrams 5 (codes "ab") = [codes "ab"].
Proof. split; vm_compute; reflexivity. Qed.

(** C37: positions of the joined grams, each choice once, largest first *)
Theorem C37_enumeration n s t : 1 <= n -> (0 <= t <= 1)%Q ->
  exists ps, ngram_keys n s t = map (fun p => concat (map (fun i => nth i (ngrams n s) []) p)) ps /\
    (forall p, In p ps <-> positions_of (length (ngrams n s)) p /\ least_grams n s t <= length p) /\
    NoDup ps /\ StronglySorted (fun p q => length q <= length p) ps.
Proof. exact (ngram_keys_enum n s t). Qed.

Theorem C37_keys n s t key : 1 <= n -> (0 <= t <= 1)%Q ->
  In key (ngram_keys n s t) <->
  exists c, subseq c (ngrams n s) /\ least_grams n s t <= length c /\ key = concat c.
Proof. exact (ngram_keys_In n s t key). Qed.

Theorem C37_collision n s s' t c : 1 <= n -> (0 <= t <= 1)%Q ->
  subseq c (ngrams n s) -> subseq c (ngrams n s') ->
  least_grams n s t <= length c -> least_grams n s' t <= length c ->
  share (ngram_keys n s t) (ngram_keys n s' t).
Proof. exact (ngram_keys_share n s s' t c). Qed.

Example C37_ex : ngram_keys 2 (codes "abcd") (1 # 2) =
  map codes ["abbccd"; "abbc"; "abcd"; "bccd"; "ab"; "bc"; "cd"]%string.
Proof. vm_compute. reflexivity. Qed.
Example C37_ex_least : least_grams 2 (codes "abcdef") (8 # 10) = 4 /\ ngram_keys 3 (codes "ab") (8 # 10) = [codes "ab"].
Proof. split; vm_compute; reflexivity. Qed.

Section PollockZamora.
Variable unidecode : str -> str.
Variable upper : str -> str.

(** C38 *)
Theorem C38_omission s : let w := clean unidecode upper s in
  omission_key unidecode upper s = filter (fun c => memb c w) rarity ++ firsts (filter vowel w).
Proof. exact (omission_form unidecode upper s). Qed.

Theorem C38_skeleton s : skeleton_key unidecode upper s =
  match clean unidecode upper s with
  | [] => []
  | a :: w =>
    a :: firsts (filter (fun c => negb (N.eqb c a) && negb (vowel c)) w)
      ++ firsts (filter (fun c => negb (N.eqb c a) && vowel c) w)
  end.
Proof. exact (skeleton_form unidecode upper s). Qed.

Theorem C38_no_repetition s :
  NoDup (omission_key unidecode upper s) /\ NoDup (skeleton_key unidecode upper s).
Proof. exact (conj (omission_NoDup unidecode upper s) (skeleton_NoDup unidecode upper s)). Qed.

(** both keys have exactly the letters of the string *)
Theorem C38_letters s c :
  (In c (omission_key unidecode upper s) <-> letter c /\ In c (upper (unidecode s))) /\
  (In c (skeleton_key unidecode upper s) <-> letter c /\ In c (upper (unidecode s))).
Proof. exact (keys_letters unidecode upper s c). Qed.

(** repetitions are ignored *)
Theorem C38_first_appearances s s' : firsts (clean unidecode upper s) = firsts (clean unidecode upper s') ->
  omission_key unidecode upper s = omission_key unidecode upper s' /\
  skeleton_key unidecode upper s = skeleton_key unidecode upper s'.
Proof. exact (fun E => conj (omission_firsts unidecode upper s s' E) (skeleton_firsts unidecode upper s s' E)). Qed.

(** idempotent when the transliteration and the change of case leave the letters A to Z unchanged *)
Theorem C38_idempotent s : (forall s, Forall letter s -> upper (unidecode s) = s) ->
  omission_key unidecode upper (omission_key unidecode upper s) = omission_key unidecode upper s /\
  skeleton_key unidecode upper (skeleton_key unidecode upper s) = skeleton_key unidecode upper s.
Proof. exact (fun H => conj (omission_idem unidecode upper H s) (skeleton_idem unidecode upper H s)). Qed.
End PollockZamora.

Example C38_ex :
  omission_key id id (codes "MICROELECTRONICS") = codes "MCLNTSRIOE" /\
  skeleton_key id id (codes "MICROELECTRONICS") = codes "MCRLTNSIOE" /\
  firsts (codes "ABBAC") = codes "ABC".
Proof. repeat split; vm_compute; reflexivity. Qed.

Print Assumptions C35_adjacent_refuted.
Print Assumptions C35_idempotent.
Print Assumptions C35_adjacent_partial.
Print Assumptions C61_runs.
Print Assumptions C61_runs_exist.
Print Assumptions C61_doubles.
Print Assumptions C61_doubles_roman.
Print Assumptions C36_count.
Print Assumptions C36_short.
Print Assumptions C36_windows.
Print Assumptions C36_join.
Print Assumptions C36_join_any.
Print Assumptions C36_join_fails.
Print Assumptions C37_enumeration.
Print Assumptions C37_keys.
Print Assumptions C37_collision.
Print Assumptions C38_omission.
Print Assumptions C38_skeleton.
Print Assumptions C38_no_repetition.
Print Assumptions C38_letters.
Print Assumptions C38_first_appearances.
Print Assumptions C38_idempotent.
