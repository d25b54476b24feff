(** Model of fog/key/levenshtein.py.  A python [str] is the list of its code points; the flags are
    single characters (the code accepts any string there). *)
From Verif Require Import Base LevModel.

(** levenshtein.py:76-100: the keys yielded by one turn of the loop *)
Definition keys_at (string : str) (transpositions : bool) (flag : N) (i : nat) : list str :=
  let doubled := Nat.ltb 0 i && N.eqb (nth (i - 1) string 0%N) (nth i string 0%N) in
  [firstn i string ++ flag :: skipn (i + 1) string] ++
  (if Nat.ltb 0 i && transpositions then
     if doubled then []
     else [firstn (i - 1) string ++ nth i string 0%N :: nth (i - 1) string 0%N :: skipn (i + 1) string]
   else []) ++
  (if doubled then [] else [firstn i string ++ flag :: skipn i string]).

(** levenshtein.py:37-103 levenshtein_1d_keys.  [continue] at line 84 and the one at line 98 are
    taken under the same condition, hence the shape of [keys_at]. *)
Definition levenshtein_1d_keys (string : str) (transpositions : bool) (flag : N) : list str :=
  string :: flat_map (keys_at string transpositions flag) (seq 0 (length string)) ++ [string ++ [flag]].

(** levenshtein.py:114-180 levenshtein_1d_blocks.  When the string is empty [string[:h - 1]] is
    [string[:-1]], empty as well. *)
Definition levenshtein_1d_blocks (string : str) (transpositions : bool) (flag : N) : list str :=
  let n := length string in
  if Nat.eqb n 1 then [flag :: string; string ++ [flag]; [flag]]
  else
    let h := Nat.div n 2 in
    if Nat.eqb (Nat.modulo n 2) 0 then
      let first_half := flag :: firstn h string in
      let second_half := skipn h string ++ [flag] in
      if transpositions then
        let first_transposed_half := flag :: firstn (h - 1) string ++ [nth 0 second_half 0%N] in
        let second_transposed_half := last first_half 0%N :: skipn (h + 1) string ++ [flag] in
        [first_half; second_half; first_transposed_half; second_transposed_half]
      else [first_half; second_half]
    else
      let h1 := h + 1 in
      [flag :: firstn h string; skipn h string ++ [flag];
       flag :: firstn h1 string; skipn h1 string ++ [flag]].

(** [string[i]] for i >= 0; [string[-1]] of the empty string (the only negative index, h1 = -1 at
    line 221, comes after string[0] on the same empty string has raised) is not needed. *)
Definition char_at (string : str) (i : nat) : res N :=
  match nth_error string i with Some c => Ok c | None => Err IndexError end.

(** levenshtein.py:187-257 levenshtein_2d_blocks *)
Definition levenshtein_2d_blocks (string : str) (transpositions : bool) (flag1 flag2 flag3 : N)
    : res (list str) :=
  let n := length string in
  let q := Nat.modulo n 3 in
  if Nat.eqb q 0 then
    let h := Nat.div n 3 in
    let basic := [flag1 :: firstn h string; flag2 :: slice h (h * 2) string; flag3 :: skipn (h * 2) string] in
    if transpositions then
      let h1 := h - 1 in
      let! c1 := char_at string h in
      let! c2 := char_at string h1 in
      let! c3 := char_at string (h * 2 - 1) in
      Ok (basic ++ [flag1 :: firstn h1 string ++ [c1];
                    flag2 :: c2 :: slice (h + 1) (h * 2) string;
                    flag3 :: c3 :: skipn (h * 2 + 1) string])
    else Ok basic
  else if Nat.eqb q 2 then
    let h1 := Nat.div n 3 in
    let h := h1 + 1 in
    Ok [flag1 :: firstn h string;
        flag2 :: slice h (h * 2) string;
        flag3 :: skipn (h * 2) string;
        flag1 :: firstn h1 string;
        flag2 :: slice h1 (h + h1) string;
        flag3 :: skipn (h + h1) string;
        flag2 :: slice h (h + h1) string]
  else
    let h1 := Nat.div n 3 in
    let h := h1 + 1 in
    Ok [flag1 :: firstn h string;
        flag2 :: slice h (h + h1) string;
        flag3 :: skipn (h + h1) string;
        flag1 :: firstn h1 string;
        flag2 :: slice h1 (h1 + h) string;
        flag2 :: slice h1 (h1 * 2) string;
        flag3 :: skipn (h1 * 2) string].
