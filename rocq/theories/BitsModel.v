(** Model of fog/lsh/utils.py and fog/lsh/simhash.py.  Integers are natural numbers of type N. *)
From Coq Require Import QArith.
From Verif Require Import Base LevModel.
Open Scope N_scope.
Open Scope list_scope.

(** utils.py:10-13: the table of the first [size] numbers; [i] is always a position of the table *)
Definition popcount_table (size : nat) : list N :=
  fold_left (fun table i => upd table i (N.land (N.of_nat i) 1 + nth (Nat.div2 i) table 0)) (seq 0 size) (repeat 0 size).
Definition POPCOUNT_TABLE16 : list N := popcount_table (Nat.pow 2 16).

(** utils.py:16-17, used as a truth value *)
Definition is_power_of_two (x : N) : bool := negb (N.land x (N.pred x) =? 0).

(** utils.py:24-25: the ones of the binary digits *)
Fixpoint ones (p : positive) : N :=
  match p with xH => 1 | xO p => ones p | xI p => 1 + ones p end.
Definition popcount (x : N) : N := match x with N0 => 0 | Npos p => ones p end.

(** utils.py:28-29 *)
Definition popcount16 (x : N) : N := nth (N.to_nat (N.land x 0xFFFF)) POPCOUNT_TABLE16 0.
(** utils.py:32-35 *)
Definition popcount32 (x : N) : N :=
  nth (N.to_nat (N.land x 0xFFFF)) POPCOUNT_TABLE16 0 + nth (N.to_nat (N.land (N.shiftr x 16) 0xFFFF)) POPCOUNT_TABLE16 0.
(** utils.py:38-42; the subtraction is never negative for a natural number *)
Definition popcount64 (x : N) : N :=
  let x := x - N.land (N.shiftr x 1) 0x5555555555555555 in
  let x := N.land x 0x3333333333333333 + N.land (N.shiftr x 2) 0x3333333333333333 in
  let x := N.land (x + N.shiftr x 4) 0x0f0f0f0f0f0f0f0f in
  N.shiftr (N.land (x * 0x0101010101010101) 0xffffffffffffffff) 56.

(** ** simhash.py *)
Section Simhash.
Context {T : Type}.
(** the hexadecimal digits of the three digests of a token *)
Variable md5 sha256 sha512 : T -> list N.

(** int(digits, 16), which refuses an empty string *)
Definition int16 (digits : list N) : res N :=
  match digits with [] => Err ValueError | _ => Ok (fold_left (fun acc d => 16 * acc + d) digits 0) end.

(** simhash.py:48-55 *)
Definition add_token (h : N) (histogram : list Z) : list Z :=
  map (fun '(i, c) => let r := Z.b2z (N.testbit_nat h i) in (c + (r - Z.lxor r 1))%Z) (combine (seq 0 (length histogram)) histogram).
Fixpoint add_tokens (hash_func : T -> list N) (l : nat) (tokens : list T) (histogram : list Z) : res (list Z) :=
  match tokens with
  | [] => Ok histogram
  | token :: tokens => let! h := int16 (firstn l (hash_func token)) in add_tokens hash_func l tokens (add_token h histogram)
  end.

(** simhash.py:57-61 *)
Definition signature_of (histogram : list Z) : N :=
  fold_left (fun signature '(i, c) => if Z.ltb 0 c then N.lor signature (N.shiftl 1 (N.of_nat i)) else signature) (combine (seq 0 (length histogram)) histogram) 0.

(** simhash.py:34-63 *)
Definition simhash (tokens : list T) (f : nat) : res N :=
  if andb (Nat.leb f 512) (negb (is_power_of_two (N.of_nat f))) then
    let hash_func := if Nat.eqb f 256 then sha256 else if Nat.eqb f 512 then sha512 else md5 in
    let! histogram := add_tokens hash_func (Nat.div f 4) tokens (repeat 0%Z f) in
    Ok (signature_of histogram)
  else Err AssertionError.
End Simhash.

(** simhash.py:66-67 *)
Definition simhash_distance (A B : N) (f : nat) : res Q :=
  if Nat.eqb f 0 then Err ZeroDivisionError else Ok (inject_Z (Z.of_N (popcount (N.lxor A B))) / inject_Z (Z.of_nat f))%Q.
(** simhash.py:70-71 *)
Definition simhash_similarity (A B : N) (f : nat) : res Q :=
  let! d := simhash_distance A B f in Ok (1 - d)%Q.
