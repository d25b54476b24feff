(** Model of fog/lsh/utils.py: the crc32 of a token, with str.encode (UTF-8) and binascii.crc32 written out, and of the
    functions that use it. *)
From Coq Require Import String QArith.
From Verif Require Import Base LevModel PairwiseModel PassJoinModel BitsModel MinHashModel PPJoinModel.
Open Scope N_scope.
Open Scope list_scope.

(** str.encode(): a surrogate raises UnicodeEncodeError, which is a ValueError *)
Definition encode_char (c : N) : res (list N) :=
  if c <? 128 then Ok [c]
  else if c <? 2048 then Ok [192 + c / 64; 128 + c mod 64]
  else if (55296 <=? c) && (c <=? 57343) then Err ValueError
  else if c <? 65536 then Ok [224 + c / 4096; 128 + (c / 64) mod 64; 128 + c mod 64]
  else Ok [240 + c / 262144; 128 + (c / 4096) mod 64; 128 + (c / 64) mod 64; 128 + c mod 64].
Definition encode (s : str) : res (list N) := let! l := mapM encode_char s in Ok (concat l).

(** binascii.crc32: the table of 256 words, and one step per byte *)
Definition POLYNOMIAL : N := 3988292384.
Definition shift_once (c : N) : N := if N.odd c then N.lxor POLYNOMIAL (N.shiftr c 1) else N.shiftr c 1.
Definition table_entry (n : N) : N := Nat.iter 8 shift_once n.
Definition crc_table : list N := map (fun n => table_entry (N.of_nat n)) (seq 0 256).
Definition crc_byte (crc b : N) : N := N.lxor (nth (N.to_nat (N.land (N.lxor crc b) 255)) crc_table 0) (N.shiftr crc 8).
Definition crc32_bytes (bytes : list N) : N := N.lxor (fold_left crc_byte bytes 4294967295) 4294967295.

(** lsh/utils.py:9, 20-21 *)
Definition UINT32_MASK : N := 4294967295.
Definition crc32 (x : str) : res N := let! bytes := encode x in Ok (N.land (crc32_bytes bytes) UINT32_MASK).
(** its value for the tokens that have one *)
Definition checksum (x : str) : N := match crc32 x with Ok n => n | Err _ => 0 end.

(** lsh/minhash.py:92-134: the tokens of a sequence that is not a string are encoded first *)
Definition signature_of (set_order : list N -> list N) (params : list (N * N)) (h : nat) (x : sequence str) : res (list N) :=
  let! _ := match x with Text _ => Ok [] | Tokens l => mapM crc32 l end in
  create_signature checksum set_order params h x.

(** clustering/ppjoin.py:251-426: as [ppjoin], tokens being strings; they are encoded once the arguments have been checked *)
Definition ppjoin_of {R : Type} (items : R -> list str) (records : list R) (threshold : Q) (metric : string) (tokenizer : option (R -> list str))
    (algo : algorithm) (token_ordering : option string) : res (list (R * R)) :=
  let tokens := match tokenizer with Some f => f | None => items end in
  let! _ := match token_ordering with
            | Some o => if string_dec o "crc32" then let! _ := make_helper metric threshold in mapM crc32 (flat_map tokens records) else Ok []
            | None => Ok [] end in
  ppjoin str_le checksum items records threshold metric tokenizer algo token_ordering.
