(** Model of squeeze (fog/utils.py), of the n-grams (fog/tokenizers/ngrams.py), of ngram_keys
    (fog/key/misc.py) and of the omission and skeleton keys (fog/key/omission.py, fog/key/skeleton.py).
    A python [str] is the list of its code points. *)
From Coq Require Import String Ascii QArith Qround.
From Verif Require Import Base LevModel.
Open Scope nat_scope.
Open Scope list_scope.
Notation length := List.length.
Notation concat := List.concat.

(** code points of an ASCII literal *)
Fixpoint codes (s : string) : str :=
  match s with
  | EmptyString => []
  | String a s' => N_of_ascii a :: codes s'
  end.

(** ** fog/utils.py *)

(** utils.py:10: in SQUEEZE_RE, [.] is any character but the newline *)
Definition dot_matches (c : N) : bool := negb (N.eqb c 10).
(** utils.py:11: in SQUEEZE_ROMAN_RE, [^IXCMixcm] *)
Definition not_roman (c : N) : bool := negb (memb c (codes "IXCMixcm")).

(** utils.py:27, re.sub of [(group)\1+] by its group.  [matched]: the character of the group whose
    repetitions are being consumed. *)
Fixpoint squeeze_sub (group : N -> bool) (matched : option N) (s : str) : str :=
  match s with
  | [] => []
  | c :: rest =>
    if eq_dec matched (Some c) then squeeze_sub group matched rest
    else c :: squeeze_sub group (if group c then Some c else None) rest
  end.

(** utils.py:14-27 squeeze *)
Definition squeeze (s : str) (keep_roman_numerals : bool) : str :=
  squeeze_sub (if keep_roman_numerals then not_roman else dot_matches) None s.

(** ** fog/tokenizers/ngrams.py *)
Section Ngrams.
Context {A : Type}.

(** ngrams.py:11-32 ngrams; [range(limit)] is empty for a negative limit *)
Definition ngrams (n : nat) (tokens : list A) : list (list A) :=
  let lt := length tokens in
  (if Nat.ltb lt n then [tokens] else []) ++
  map (fun i => slice i (i + n) tokens) (seq 0 (lt + 1 - n)).

(** ngrams.py:43-44: [g[-1]] of each gram *)
Fixpoint last_letters (grams : list (list A)) : res (list A) :=
  match grams with
  | [] => Ok []
  | g :: grams' =>
    match rev g with
    | [] => Err IndexError
    | c :: _ => let! rest := last_letters grams' in Ok (c :: rest)
    end
  end.

(** ngrams.py:40-48 join_ngrams, given an iterator; [next] on an exhausted one raises StopIteration,
    which a generator turns into RuntimeError *)
Definition join_ngrams (grams : list (list A)) : res (list A) :=
  match grams with
  | [] => Err RuntimeError
  | g :: grams' => let! rest := last_letters grams' in Ok (g ++ rest)
  end.
End Ngrams.

(** ** fog/key/misc.py *)

(** itertools.combinations *)
Fixpoint combinations {A} (l : list A) (s : nat) : list (list A) :=
  match s, l with
  | O, _ => [[]]
  | S _, [] => []
  | S s', x :: l' => map (cons x) (combinations l' s') ++ combinations l' s
  end.

(** misc.py:28-62 ngram_keys (lines of the file).  [k] may be negative; sizes go from k - 1 down to l. *)
Definition ngram_keys (n : nat) (string : str) (threshold : Q) : list str :=
  let k := (Z.of_nat (length string) - (Z.of_nat n - 1))%Z in
  let l := Z.max 1 (Qfloor (inject_Z k * threshold)) in
  let grams := ngrams n string in
  concat grams ::
  map (@concat N)
    (flat_map (fun t => combinations grams (Z.to_nat (k - 1 - Z.of_nat t))) (seq 0 (Z.to_nat (k - l)))).

(** ** fog/key/omission.py, fog/key/skeleton.py *)
Section PollockZamora.
(** unidecode (external) and str.upper *)
Variable unidecode : str -> str.
Variable upper : str -> str.

Definition CONSONANTS : str := codes "JKQXZVWYBFMGPDHCLNTSR".
Definition VOWELS : str := codes "AEIOU".
Definition is_upper_letter (c : N) : bool := (65 <=? c)%N && (c <=? 90)%N.

(** omission.py:43-50, skeleton.py:41-48 *)
Definition clean (string : str) : str := filter is_upper_letter (upper (unidecode string)).

(** omission.py:61-65 *)
Definition omission_step (st : list N * list N) (letter : N) : list N * list N :=
  let '(letters, vowels) := st in
  if memb letter VOWELS && negb (memb letter vowels) then (letters, vowels ++ [letter])
  else (sadd letters letter, vowels).

(** omission.py:23-72 omission_key *)
Definition omission_key (string : str) : str :=
  let string := clean string in
  if Nat.eqb (length string) 0 then []
  else
    let '(letters, vowels) := fold_left omission_step string ([], []) in
    filter (fun consonant => memb consonant letters) CONSONANTS ++ vowels.

(** skeleton.py:60-73 *)
Definition skeleton_step (first_letter : N) (st : list N * list N * list N) (letter : N) : list N * list N * list N :=
  let '(key, consonants, vowels) := st in
  if N.eqb letter first_letter then st
  else if memb letter VOWELS then
    if memb letter vowels then st else (key ++ [letter], consonants, vowels ++ [letter])
  else
    if memb letter consonants then st
    else
      let at_ := length key - length vowels in
      (firstn at_ key ++ [letter] ++ skipn at_ key, consonants ++ [letter], vowels).

(** skeleton.py:22-75 skeleton_key *)
Definition skeleton_key (string : str) : str :=
  match clean string with
  | [] => []
  | first_letter :: rest =>
    fst (fst (fold_left (skeleton_step first_letter) rest ([first_letter], [], [])))
  end.
End PollockZamora.
