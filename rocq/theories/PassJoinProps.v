(** C09 - C11: PassJoin (fog/clustering/passjoin.py). *)
From Coq Require Import String.
From Verif Require Import Base BaseFacts EditSpec EditFacts LevModel LevProofs ClustersModel ClustersSpec
  ClustersProofs PassJoinModel PassJoinSpec PassJoinProofs.
Notation length := List.length.
Notation concat := List.concat.
Open Scope nat_scope.
Open Scope list_scope.

(** [distance] decides "at most k edits apart" on the strings of the data *)
Definition decides (k : nat) (distance : str -> str -> nat) (data : list str) : Prop :=
  forall a b, In a data -> In b data -> (distance a b <= k <-> lev_le k a b).

Lemma decides_good data : Forall (fun a : str => In a data) data.
Proof. apply Forall_forall. auto. Qed.

(** C09: a pair is emitted iff its strings are read one after the other and at most k edits apart.
    [passjoin_pairs] reads [sorted data] if sort is set. *)
Theorem C09_pairs k distance data sort A B : decides k distance data ->
  (In (A, B) (passjoin_pairs k distance sort (if sort then sorted data else data) []) <->
   before (if sort then sorted data else data) B A /\ lev_le k A B).
Proof.
  exact (fun H => passjoin_pairs_exact k distance (fun a => In a data) H sort data A B (decides_good data)).
Qed.

(** C09: whichever the order, no pair of different strings is missed *)
Theorem C09_complete k distance data sort A B : decides k distance data -> close_strings k data A B ->
  neighbour (passjoin_pairs k distance sort (if sort then sorted data else data) []) A B.
Proof.
  exact (fun H => passjoin_pairs_complete k distance (fun a => In a data) H sort data A B (decides_good data)).
Qed.

Theorem C09_sound k distance data sort A B : decides k distance data ->
  In (A, B) (passjoin_pairs k distance sort (if sort then sorted data else data) []) ->
  In A data /\ In B data /\ lev_le k A B.
Proof.
  exact (fun H => passjoin_pairs_sound k distance (fun a => In a data) H sort data A B (decides_good data)).
Qed.

(** the distances of the library qualify: limited_levenshtein_distance, on the BMP *)
Theorem C09_limited_distance k data : Forall bmp data -> decides k (limited_levenshtein_distance k) data.
Proof.
  exact (fun Hb a b Ha Hb' => limited_decides k a b (proj1 (Forall_forall _ _) Hb a Ha) (proj1 (Forall_forall _ _) Hb b Hb')).
Qed.

Example C09_ex : passjoin_pairs 1 (limited_levenshtein_distance 1) true
  (sorted [[97; 98; 99]; [97; 98]; [120; 98; 99]; []; [99]]%N) [] =
  [([120; 98; 99], [97; 98; 99]); ([97; 98], [97; 98; 99]); ([], [99])]%N.
Proof. vm_compute. reflexivity. Qed.

(** C10 *)
Theorem C10_components set_order k distance data sort lo hi :
  (forall l : list str, Permutation (set_order l) l) -> decides k distance data -> 2 <= lo ->
  exists out, passjoin k distance set_order data sort lo hi "connected_components" = Ok out /\
    is_components (fun x => In x data) (close_strings k data) lo hi out.
Proof.
  exact (fun Hp Hd => passjoin_components k distance (fun a => In a data) Hd set_order Hp data sort lo hi (decides_good data)).
Qed.

(** C10: neither sort nor the order of the sets matter *)
Theorem C10_sort set_order set_order' k distance data sort sort' lo hi out out' :
  (forall l : list str, Permutation (set_order l) l) -> (forall l : list str, Permutation (set_order' l) l) ->
  decides k distance data -> 2 <= lo ->
  passjoin k distance set_order data sort lo hi "connected_components" = Ok out ->
  passjoin k distance set_order' data sort' lo hi "connected_components" = Ok out' ->
  same_clusters out out'.
Proof.
  exact (fun Hp Hp' Hd => passjoin_sort_independent k distance (fun a => In a data) Hd set_order Hp set_order' Hp'
    data sort sort' lo hi out out' (decides_good data)).
Qed.

Example C10_ex : passjoin 1 (limited_levenshtein_distance 1) (fun l => l)
  [[97; 98; 99]; [97; 98]; [120; 98; 99]; []; [100; 100; 100]; [99]]%N true 2 None "connected_components" =
  Ok [[[120; 98; 99]; [97; 98; 99]; [97; 98]]; [[]; [99]]]%N.
Proof. vm_compute. reflexivity. Qed.

(** C11: k + 1 pieces, in order, that make up the string *)
Theorem C11_tiles k (s : str) :
  map fst (segments k s) = seq 0 (k + 1) /\ concat (map snd (segments k s)) = s.
Proof. exact (conj (segments_index k s) (segments_concat k s)). Qed.

Theorem C11_balanced k (s : str) : balanced (map (fun x => length (snd x)) (segments k s)).
Proof. exact (segments_balanced k s). Qed.

(** C11: what partition announces *)
Theorem C11_partition k (s : str) t i sg i' start len :
  length (partition k (length s)) = k + 1 /\
  (nth_error (segments k s) t = Some (i, sg) -> nth_error (partition k (length s)) t = Some (i', start, len) ->
   i = t /\ i' = t /\ start = length (concat (map snd (firstn t (segments k s)))) /\ len = length sg).
Proof. exact (conj (partition_length k (length s)) (segments_partition k s t i sg i' start len)). Qed.

(** C11: number of substrings looked up for a string and a length of the index *)
Theorem C11_count (k : nat) (s : str) (l : nat) :
  (Z.abs (Z.of_nat (length s) - Z.of_nat l) <= Z.of_nat k)%Z ->
  (Z.of_nat (length (flat_map (fun '(i, start, len) => multi_match_aware_substrings k s l i start len)
      (partition k l))) <= count_substrings_l (Z.of_nat k) (Z.of_nat (length s)) (Z.of_nat l))%Z.
Proof. exact (substrings_count k s l). Qed.

Example C11_ex :
  segments 2 [97; 98; 99; 100; 101; 102; 103; 104]%N = [(0%nat, [97; 98]); (1%nat, [99; 100; 101]); (2%nat, [102; 103; 104])]%N /\
  segments 2 [97]%N = [(0%nat, []); (1%nat, []); (2%nat, [97])]%N /\
  count_substrings_l 2 8 7 = 4%Z /\
  multi_match_aware_substrings 2 [97; 98; 99; 100; 101; 102; 103; 104]%N 7 1 2 2 = [[99; 100]; [100; 101]]%N.
Proof. repeat split. Qed.

Print Assumptions C09_pairs.
Print Assumptions C09_complete.
Print Assumptions C09_sound.
Print Assumptions C09_limited_distance.
Print Assumptions C10_components.
Print Assumptions C10_sort.
Print Assumptions C11_tiles.
Print Assumptions C11_balanced.
Print Assumptions C11_partition.
Print Assumptions C11_count.
