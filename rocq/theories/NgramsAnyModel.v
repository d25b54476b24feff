(** Model of ngrams (fog/tokenizers/ngrams.py) and ngram_keys (fog/key/misc.py) for sizes that are any integers. *)
From Coq Require Import QArith Qround.
From Verif Require Import Base LevModel StringsModel.
Open Scope nat_scope.

Section Ngrams.
Context {A : Type}.

(** tokens[i:e] of python, i not being negative: an end below 0 is counted from the length, and not below 0 *)
Definition slice_to (i : nat) (e : Z) (tokens : list A) : list A :=
  let lt := Z.of_nat (length tokens) in
  let stop := if Z.ltb e 0 then Z.max 0 (lt + e) else Z.min e lt in
  firstn (Z.to_nat (stop - Z.of_nat i)) (skipn i tokens).

(** ngrams.py:11-32 *)
Definition ngrams_any (n : Z) (tokens : list A) : list (list A) :=
  let lt := Z.of_nat (length tokens) in
  (if Z.ltb lt n then [tokens] else []) ++
  map (fun i => slice_to i (Z.of_nat i + n) tokens) (seq 0 (Z.to_nat (lt - n + 1))).
End Ngrams.

(** misc.py:28-62; s goes from k - 1 down to l *)
Definition ngram_keys_any (n : Z) (string : str) (threshold : Q) : list str :=
  let k := (Z.of_nat (length string) - (n - 1))%Z in
  let l := Z.max 1 (Qfloor (inject_Z k * threshold)) in
  let grams := ngrams_any n string in
  concat grams ::
  map (@concat N)
    (flat_map (fun t => combinations grams (Z.to_nat (k - 1 - Z.of_nat t))) (seq 0 (Z.to_nat (k - l)))).
