(** C40, C41, C63, C64: phonetic codes *)
From Coq Require Import String.
From Verif Require Import Base LevModel StringsModel PhoneticsModel PhoneticsSpec PhoneticsProofs.
Open Scope nat_scope.
Open Scope list_scope.
Notation length := List.length.
Notation concat := List.concat.

Section Phonetics.
Variable upper lower unidecode : str -> str.

(** C40: only the digits 0 to 8, 0 only first, the case is ignored *)
Theorem C40_digits name : Forall (fun d => (48 <= d <= 56)%N) (cologne upper unidecode name).
Proof. exact (cologne_digits upper unidecode name). Qed.

Theorem C40_zero name a r : cologne upper unidecode name = a :: r -> ~ In 48%N r.
Proof. exact (cologne_zero upper unidecode name a r). Qed.

Theorem C40_case name name' : upper name = upper name' -> cologne upper unidecode name = cologne upper unidecode name'.
Proof. exact (cologne_case upper unidecode name name'). Qed.

(** C63: the first code, then the others with one occurrence per run, then without zeros *)
Theorem C63_form name : let w := cologne_letters upper unidecode name in
  cologne upper unidecode name =
  match context_codes None w with
  | [] => []
  | code0 :: rest => code0 ++ filter (fun c => negb (N.eqb c 48)) (dedupe (concat rest))
  end.
Proof. exact (cologne_form upper unidecode name). Qed.

(** the letters that are coded: those of the transliteration of the name, once spelled out *)
Theorem C63_letters name : cologne_letters upper unidecode name =
  filter (fun c => N.leb 65 c && N.leb c 90) (unidecode (germanic (upper name))).
Proof. exact (cologne_letters_germanic upper unidecode name). Qed.

Theorem C63_no_double l p c q : dedupe l <> p ++ c :: c :: q.
Proof. exact (dedupe_double l p c q). Qed.

(** C64: the names rusalka cannot encode are those with at least two letters, all silent *)
Theorem C64_error name e : rusalka lower unidecode name = Err e <->
  e = IndexError /\ 2 <= length (rusalka_letters lower unidecode name) /\ silent (rusalka_letters lower unidecode name).
Proof. exact (rusalka_error lower unidecode name e). Qed.

Theorem C64_short name : length (rusalka_letters lower unidecode name) < 2 ->
  rusalka lower unidecode name = Ok (rusalka_letters lower unidecode name).
Proof. exact (rusalka_short lower unidecode name). Qed.

Theorem C64_vowels name a r : 2 <= length (rusalka_letters lower unidecode name) ->
  rusalka lower unidecode name = Ok (a :: r) ->
  (is_vowel a = true -> a = 97%N) /\ Forall (fun c => is_vowel c = false) r.
Proof. exact (rusalka_vowels lower unidecode name a r). Qed.

Theorem C64_nonempty name code : 2 <= length (rusalka_letters lower unidecode name) ->
  rusalka lower unidecode name = Ok code -> code <> [].
Proof. exact (rusalka_nonempty lower unidecode name code). Qed.

(** C64: the letters c, g, h, v and w never remain *)
Theorem C64_letters name code x : 2 <= length (rusalka_letters lower unidecode name) ->
  rusalka lower unidecode name = Ok code -> In x code -> ~ In x (codes "cghvw").
Proof. exact (rusalka_dropped lower unidecode name code x). Qed.
End Phonetics.

(** C40: the first two letters of a name can give the same code twice *)
Theorem C40_adjacent_refuted : cologne id id (codes "MM") = codes "66".
Proof. vm_compute. reflexivity. Qed.

(** C40: characters outside A-Z matter between P and H *)
Theorem C40_outside_refuted : exists name name',
  filter is_upper_letter name = filter is_upper_letter name' /\ cologne id id name <> cologne id id name'.
Proof. exists (codes "P-H"), (codes "PH"). split; vm_compute; [reflexivity|discriminate]. Qed.

(** C41: some names raise *)
Theorem C41_defined_refuted : exists name, rusalka id id name = Err IndexError.
Proof. exists (codes "hh"). vm_compute. reflexivity. Qed.

(** C41: a single vowel is its own code *)
Theorem C41_vowel_refuted : exists name, rusalka id id name = Ok (codes "e").
Proof. exists (codes "e"). vm_compute. reflexivity. Qed.

Example C40_ex :
  cologne id id (codes "BRESCHNEW") = codes "17863" /\ cologne id id (codes "MUELLERLUEDENSCHEIDT") = codes "65752682" /\
  cologne id id (codes "XAVER") = codes "4837" /\ cologne id id (codes "ABC") = codes "018".
Proof. repeat split; vm_compute; reflexivity. Qed.
Example C63_ex : context_codes None (codes "CHX") = map codes ["4"; "48"]%string /\ context_codes None (codes "SCAX") = map codes ["8"; "8"; "0"; "48"]%string.
Proof. split; vm_compute; reflexivity. Qed.
Example C64_ex :
  rusalka id id (codes "alexeievitch") = Ok (codes "alxf" ++ [ESH]) /\ rusalka id id (codes "yevgeniy") = Ok (codes "jfkn") /\
  rusalka id id (codes "hhij") = Err IndexError /\ silent (codes "hhij").
Proof. repeat split; try (vm_compute; reflexivity). exists 2. right. left. reflexivity. Qed.

(** the cases of test/phonetics of the repository, already transliterated (and in capital letters for cologne) *)
Example C40_repository_tests :
  forallb (fun t => eqb (cologne id id (snd t)) (fst t))
    [(codes "65752682", codes "MULLER-LUDENSCHEIDT");
     (codes "17863", codes "BRESCHNEW");
     (codes "3412", codes "WIKIPEDIA");
     (codes "4837", codes "XAVIER");
     (codes "478237", codes "CHRISTOPHER");
     (codes "3556", codes "WILHELM");
     (codes "351", codes "PHILIP");
     (codes "1274", codes "PATRICK");
     (codes "051742", codes "ALBRECHT");
     (codes "68", codes "MAC");
     (codes "64", codes "MACK");
     (codes "6", codes "M");
     (codes "8", codes "C");
     (codes "8", codes "C.");
     (codes "", codes "45639")] = true.
Proof. vm_compute. reflexivity. Qed.
Example C64_repository_tests :
  forallb (fun t => match rusalka id id (fst t) with Ok c => eqb c (snd t) | Err _ => false end)
    [(codes "", codes "");
     (codes "b", codes "b");
     (codes "h", codes "h");
     (codes "tchekov", [643; 107; 102]%N);
     (codes "chekhow", [643; 107; 102]%N);
     (codes "tchekof", [643; 107; 102]%N);
     (codes "tchekoff", [643; 107; 102]%N);
     (codes "chekkoph", [643; 107; 102]%N);
     ([269; 101; 107; 111; 118]%N, [643; 107; 102]%N);
     (codes "dzhugashvili", [658; 107; 643; 102; 108]%N);
     (codes "dzhougachvili", [658; 107; 643; 102; 108]%N);
     (codes "djougachvili", [658; 107; 643; 102; 108]%N);
     (codes "dimitrij", codes "dmtr");
     (codes "dimitri", codes "dmtr");
     (codes "dimitry", codes "dmtr");
     (codes "dimitriy", codes "dmtr");
     (codes "dmitri", codes "dmtr");
     (codes "d'mitr", codes "dmtr");
     (codes "dmitr", codes "dmtr");
     (codes "alexei", codes "alx");
     (codes "alexey", codes "alx");
     (codes "sergei", codes "srk");
     (codes "sergey", codes "srk");
     (codes "ekaterina", codes "jktrn");
     (codes "yekaterina", codes "jktrn");
     (codes "jekaterina", codes "jktrn");
     (codes "moussorgsky", codes "msrksk");
     (codes "musorkgski", codes "msrksk");
     (codes "mousorgskiy", codes "msrksk");
     (codes "moussorgsky", codes "msrksk");
     (codes "manovich", [109; 110; 102; 643]%N);
     (codes "manovitz", [109; 110; 102; 643]%N);
     (codes "manovitch", [109; 110; 102; 643]%N);
     (codes "yeltsin", codes "jltsn");
     (codes "eltsine", codes "jltsn");
     (codes "konstantine", codes "knstntn");
     (codes "constantine", codes "knstntn");
     (codes "poutine", codes "ptn");
     (codes "putin", codes "ptn");
     (codes "diaghilev", codes "dklf");
     (codes "diaghileff", codes "dklf");
     (codes "diagilef", codes "dklf");
     (codes "plushchenko", [112; 108; 643; 110; 107]%N);
     (codes "plushchenko", [112; 108; 643; 110; 107]%N);
     (codes "rusalka", codes "rslk");
     (codes "roussalka", codes "rslk");
     (codes "piotr", codes "ptr");
     (codes "pyotr", codes "ptr");
     (codes "pyter", codes "ptr");
     (codes "gagarin", codes "kkrn");
     (codes "gagarine", codes "kkrn");
     (codes "illich", [97; 108; 643]%N);
     (codes "ilitch", [97; 108; 643]%N);
     (codes "vladimir", codes "fldmr");
     (codes "wladimir", codes "fldmr");
     (codes "mikhail", codes "mkl");
     (codes "oneguine", codes "ankn");
     (codes "onieguine", codes "ankn");
     (codes "onegin", codes "ankn");
     (codes "bakhtin", codes "bktn");
     (codes "youri", codes "jr");
     (codes "yuri", codes "jr");
     (codes "iouri", codes "jr");
     ([251; 114; 105]%N, codes "jr");
     (codes "aleksandr", codes "alxndr");
     (codes "alexander", codes "alxndr");
     ([382; 97; 110; 110; 97]%N, [658; 110]%N);
     (codes "chaliapine", [643; 108; 112; 110]%N);
     (codes "chaliapin", [643; 108; 112; 110]%N);
     ([353; 97; 108; 97; 112; 105; 110]%N, [643; 108; 112; 110]%N);
     ([349; 101; 100; 114; 105; 106]%N, [643; 100; 114]%N);
     ([349; 101; 114; 98; 97; 107; 111; 118]%N, [643; 114; 98; 107; 102]%N);
     (codes "chtcherbakov", [643; 114; 98; 107; 102]%N);
     ([114; 117; 382; 101; 110; 97]%N, [114; 658; 110]%N);
     (codes "czarevna", codes "tsrfn");
     (codes "tsarevna", codes "tsrfn")] = true.
Proof. vm_compute. reflexivity. Qed.

Print Assumptions C40_digits.
Print Assumptions C40_zero.
Print Assumptions C40_case.
Print Assumptions C40_adjacent_refuted.
Print Assumptions C40_outside_refuted.
Print Assumptions C41_defined_refuted.
Print Assumptions C41_vowel_refuted.
Print Assumptions C63_letters.
Print Assumptions C63_form.
Print Assumptions C63_no_double.
Print Assumptions C64_error.
Print Assumptions C64_short.
Print Assumptions C64_vowels.
Print Assumptions C64_nonempty.
Print Assumptions C64_letters.
