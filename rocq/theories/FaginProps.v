(** C55, C76, C77, C78: pairs of sparse vectors *)
From Coq Require Import QArith.
From Verif Require Import Base FaginModel FaginSpec FaginProofs.
Open Scope nat_scope.

Section Fagin.
Context {D : Type} `{EqDec D}.
Implicit Types vectors : list (vector D).

(** C55: each pair of vectors that share a dimension comes exactly once, with the larger position first *)
Theorem C55_pairs vectors : well_formed vectors ->
  NoDup (naive_cosine_pairs vectors) /\
  forall i j, In (i, j) (naive_cosine_pairs vectors) <-> i < length vectors /\ j < i /\ share_dimension vectors i j.
Proof. exact (naive_cosine_pairs_spec vectors). Qed.

(** C76: for each vector, another one that shares a dimension with it is found, or the vector itself when there is none *)
Theorem C76_sound_partial similarity vectors : well_formed vectors ->
  exists out, threshold_algorithm_k1 similarity vectors = Ok out /\ map fst out = seq 0 (length vectors) /\
  forall i j, In (i, j) out ->
    ((j <> i /\ j < length vectors /\ share_dimension vectors i j) \/
     (j = i /\ forall k, k < length vectors -> k <> i -> ~ share_dimension vectors i k)).
Proof. exact (threshold_spec similarity vectors). Qed.

(** C77: each vector is paired with the most similar leader, the first in case of a tie, and with the earlier vectors that have
    the same leader *)
Theorem C77_leaders similarity indices vectors : Permutation indices (seq 0 (length vectors)) ->
  exists leader,
    sqrt_indexation_pairs similarity indices vectors =
      Ok (flat_map (fun i => (i, leader i) :: map (fun j => (i, j)) (filter (fun j => Nat.eqb (leader j) (leader i)) (seq 0 i))) (seq 0 (length vectors))) /\
    forall i v, nth_error vectors i = Some v -> exists l1 l2, firstn (Nat.sqrt (length vectors)) indices = l1 ++ leader i :: l2 /\
      (forall x, In x (firstn (Nat.sqrt (length vectors)) indices) -> (similarity v (nth x vectors []) <= similarity v (nth (leader i) vectors []))%Q) /\
      forall x, In x l1 -> (similarity v (nth x vectors []) < similarity v (nth (leader i) vectors []))%Q.
Proof. exact (sqrt_spec similarity indices vectors). Qed.

(** C78: candidates are given exactly for the vectors whose dimensions are all in another vector, and such a vector is one of
    the candidates *)
Theorem C78_candidates vectors : well_formed vectors -> exists out, fagin_k1 vectors = Ok out /\ NoDup (map fst out) /\
  (forall i cands, In (i, cands) out -> i < length vectors /\ fagin_candidates vectors i cands) /\
  (forall i, In i (map fst out) <-> i < length vectors /\ dims vectors i <> [] /\ exists j, j < length vectors /\ j <> i /\ incl (dims vectors i) (dims vectors j)).
Proof. exact (fagin_k1_spec vectors). Qed.
End Fagin.

(** the square of the cosine, which ranks vectors of non-negative weights like the cosine *)
Definition dot (u v : dict nat Q) : Q := fold_left (fun s dw => (s + snd dw * match dget v (fst dw) with Some w => w | None => 0 end)%Q) u 0%Q.
Definition cosine2 (u v : dict nat Q) : Q := Qred (dot u v * dot u v / (dot u u * dot v v))%Q.

Definition three : list (vector nat) := [[(1, 2%Q)]; [(0, 1%Q); (1, 1%Q)]; [(0, 1%Q); (1, 3%Q)]].
Example three_well_formed : well_formed three.
Proof. repeat constructor; cbn; intuition discriminate. Qed.

Example naive_three : naive_cosine_pairs three = [(1, 0); (2, 1); (2, 0)].
Proof. vm_compute. reflexivity. Qed.

(** C76: the vector found is not the most similar one: the third vector is closer to the first than to the second *)
Theorem C76_nearest_refuted :
  threshold_algorithm_k1 cosine2 three = Ok [(0, 2); (1, 2); (2, 1)] /\
  (cosine2 (nth 2 three []) (nth 1 three []) < cosine2 (nth 2 three []) (nth 0 three []))%Q.
Proof. split; vm_compute; reflexivity. Qed.

Example sqrt_three : sqrt_indexation_pairs cosine2 [2; 0; 1] three = Ok [(0, 2); (1, 2); (1, 0); (2, 2); (2, 0); (2, 1)].
Proof. vm_compute. reflexivity. Qed.

Example fagin_three : fagin_k1 three = Ok [(0, [1]); (1, [2; 0]); (2, [1; 0])].
Proof. vm_compute. reflexivity. Qed.

(** a vector with a dimension of its own gets no candidates *)
Example fagin_alone : fagin_k1 [[(0, 1%Q); (1, 1%Q)]; [(0, 1%Q)]] = Ok [(1, [0])].
Proof. vm_compute. reflexivity. Qed.

Print Assumptions C55_pairs.
Print Assumptions C76_sound_partial.
Print Assumptions C77_leaders.
Print Assumptions C78_candidates.
Print Assumptions C76_nearest_refuted.
