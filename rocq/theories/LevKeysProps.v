(** C05 - C08: collision keys and blocks (fog/key/levenshtein.py). *)
From Verif Require Import Base BaseFacts EditSpec EditFacts LevModel LevProofs
  LevKeysModel LevKeysSpec LevKeysProofs.

(** "abc..." *)
Definition word (l : list nat) : str := map (fun c => N.of_nat (c + 96)) l.

(** C05 asks that strings at distance at most 1 always share a key.  False of the code: "aa" and "aba"
    share no key. *)
Theorem C05_complete_refuted : exists A B, lev_le 1 A B /\ forall tr,
  ~ share (levenshtein_1d_keys A tr 0%N) (levenshtein_1d_keys B tr 0%N).
Proof. exact keys_complete_refuted. Qed.

(** C05 with its exact exception: the insertion of another letter inside a doubled letter.  For
    Levenshtein distances, whatever [transpositions]. *)
Theorem C05_levenshtein_partial A B tr flag : lev_le 1 A B -> ~ splits_double A B -> ~ splits_double B A ->
  share (levenshtein_1d_keys A tr flag) (levenshtein_1d_keys B tr flag).
Proof. exact (keys_complete_lev' A B tr flag). Qed.

(** ... and for Damerau-Levenshtein distances *)
Theorem C05_damerau_partial A B flag : damerau_le 1 A B -> ~ splits_double A B -> ~ splits_double B A ->
  share (levenshtein_1d_keys A true flag) (levenshtein_1d_keys B true flag).
Proof. exact (keys_complete_damerau' A B flag). Qed.

(** The excepted pairs are always missed: the hypothesis above is the weakest one. *)
Theorem C05_exception_exact (A B : str) tr flag : ~ In flag A -> ~ In flag B -> splits_double A B ->
  lev_le 1 A B /\
  ~ share (levenshtein_1d_keys A tr flag) (levenshtein_1d_keys B tr flag) /\
  ~ share (levenshtein_1d_keys B tr flag) (levenshtein_1d_keys A tr flag).
Proof. exact (keys_exception A B tr flag). Qed.

Example C05_ex : lev_le 1 (word [1; 2; 2; 3]) (word [1; 2; 2; 2; 3]) /\
  share (levenshtein_1d_keys (word [1; 2; 2; 3]) false 0) (levenshtein_1d_keys (word [1; 2; 2; 2; 3]) false 0).
Proof.
  split.
  - rewrite lev_le_lev. vm_compute. lia.
  - exists [97; 0; 98; 98; 99]%N. vm_compute. tauto.
Qed.

(** C06, without transpositions *)
Theorem C06_sound (A B : str) flag : ~ In flag A -> ~ In flag B ->
  share (levenshtein_1d_keys A false flag) (levenshtein_1d_keys B false flag) -> lev_le 1 A B.
Proof. exact (keys_sound_lev A B flag). Qed.

(** C06, with transpositions: false of the code, "abcd" and "badc" share the key "bacd" *)
Theorem C06_damerau_refuted : exists A B, ~ In 0%N A /\ ~ In 0%N B /\
  share (levenshtein_1d_keys A true 0%N) (levenshtein_1d_keys B true 0%N) /\ ~ damerau_le 1 A B.
Proof. exact keys_sound_refuted. Qed.

(** C06, with transpositions: a shared key still means at most two edits or swaps *)
Theorem C06_damerau_partial (A B : str) flag : ~ In flag A -> ~ In flag B ->
  share (levenshtein_1d_keys A true flag) (levenshtein_1d_keys B true flag) -> damerau_le 2 A B.
Proof. exact (keys_sound_damerau A B flag). Qed.

(** C06: number of keys *)
Theorem C06_count string (transpositions : bool) flag :
  length (levenshtein_1d_keys string transpositions flag) <=
    2 * length string + 2 + if transpositions then length string - 1 else 0.
Proof. exact (keys_length string transpositions flag). Qed.

(** C58: without transpositions, sharing a key is decided by the strings alone *)
Theorem C58_share_iff (A B : str) flag : ~ In flag A -> ~ In flag B ->
  (share (levenshtein_1d_keys A false flag) (levenshtein_1d_keys B false flag) <->
   lev_le 1 A B /\ ~ splits_double A B /\ ~ splits_double B A).
Proof. exact (share_key_iff A B flag). Qed.

Example C06_ex : levenshtein_1d_keys (word [1; 2]) true 0%N =
  [[97; 98]; [0; 98]; [0; 97; 98]; [97; 0]; [98; 97]; [97; 0; 98]; [97; 98; 0]]%N.
Proof. reflexivity. Qed.

(** C07 *)
Theorem C07_levenshtein A B tr flag : lev_le 1 A B ->
  share (levenshtein_1d_blocks A tr flag) (levenshtein_1d_blocks B tr flag).
Proof. exact (blocks_complete_lev A B tr flag). Qed.

Theorem C07_damerau A B flag : damerau_le 1 A B ->
  share (levenshtein_1d_blocks A true flag) (levenshtein_1d_blocks B true flag).
Proof. exact (blocks_complete_damerau A B flag). Qed.

Theorem C07_count string tr flag : length (levenshtein_1d_blocks string tr flag) <= 4.
Proof. exact (blocks_count string tr flag). Qed.

Example C07_ex :
  levenshtein_1d_blocks (word [1; 2; 3]) false 0 = [[0; 97]; [98; 99; 0]; [0; 97; 98]; [99; 0]]%N /\
  levenshtein_1d_blocks (word [1; 2; 2; 3]) true 0 = [[0; 97; 98]; [98; 99; 0]; [0; 97; 98]; [98; 99; 0]]%N /\
  levenshtein_1d_blocks (word [1; 2; 4; 3]) true 0 = [[0; 97; 98]; [100; 99; 0]; [0; 97; 100]; [98; 99; 0]]%N.
Proof. repeat split. Qed.

(** C08 asks for all pairs of strings at distance at most 2.  False: "abcdef" and "bcdefg". *)
Theorem C08_complete_refuted : exists A B l m, lev_le 2 A B /\
  levenshtein_2d_blocks A false 0 1 2 = Ok l /\ levenshtein_2d_blocks B false 0 1 2 = Ok m /\ ~ share l m.
Proof. exact blocks2_complete_refuted. Qed.

(** ... nor with transpositions: "abcd" and "badc" *)
Theorem C08_damerau_refuted : exists A B l m, damerau_le 2 A B /\
  levenshtein_2d_blocks A true 0 1 2 = Ok l /\ levenshtein_2d_blocks B true 0 1 2 = Ok m /\ ~ share l m.
Proof. exact blocks2_damerau_refuted. Qed.

(** ... and the empty string raises with transpositions *)
Theorem C08_total_refuted : levenshtein_2d_blocks [] true 0 1 2 = Err IndexError.
Proof. exact eq_refl. Qed.

(** C08, but for pairs of strings of the same length, multiple of 3, that are not at most two
    replacements apart.  [transpositions] may be set, Levenshtein distance is meant. *)
Theorem C08_levenshtein_partial (A B : str) tr f1 f2 f3 l m : lev_le 2 A B ->
  (length A <> length B \/ length A mod 3 <> 0 \/ hamming_le 2 A B) ->
  levenshtein_2d_blocks A tr f1 f2 f3 = Ok l -> levenshtein_2d_blocks B tr f1 f2 f3 = Ok m -> share l m.
Proof. exact (blocks2_complete A B tr f1 f2 f3 l m). Qed.

Theorem C08_total_partial string (tr : bool) f1 f2 f3 : (tr = true -> string <> []) ->
  exists l, levenshtein_2d_blocks string tr f1 f2 f3 = Ok l /\ length l <= 7.
Proof. exact (blocks2_total_count string tr f1 f2 f3). Qed.

Example C08_ex : lev_le 2 (word [1; 2; 3; 4; 5]) (word [2; 3; 4; 5; 6]) /\
  length (word [1; 2; 3; 4; 5]) mod 3 <> 0 /\
  levenshtein_2d_blocks (word [1; 2; 3; 4; 5]) false 0 1 2 =
    Ok [[0; 97; 98]; [1; 99; 100]; [2; 101]; [0; 97]; [1; 98; 99]; [2; 100; 101]; [1; 99]]%N /\
  levenshtein_2d_blocks (word [2; 3; 4; 5; 6]) false 0 1 2 =
    Ok [[0; 98; 99]; [1; 100; 101]; [2; 102]; [0; 98]; [1; 99; 100]; [2; 101; 102]; [1; 100]]%N.
Proof.
  split; [rewrite lev_le_lev; vm_compute; lia|]. split; [vm_compute; discriminate|]. split; reflexivity.
Qed.

Print Assumptions C05_complete_refuted.
Print Assumptions C05_levenshtein_partial.
Print Assumptions C05_damerau_partial.
Print Assumptions C05_exception_exact.
Print Assumptions C06_sound.
Print Assumptions C06_damerau_refuted.
Print Assumptions C06_damerau_partial.
Print Assumptions C06_count.
Print Assumptions C58_share_iff.
Print Assumptions C07_levenshtein.
Print Assumptions C07_damerau.
Print Assumptions C07_count.
Print Assumptions C08_complete_refuted.
Print Assumptions C08_damerau_refuted.
Print Assumptions C08_total_refuted.
Print Assumptions C08_levenshtein_partial.
Print Assumptions C08_total_partial.
