(** C47, C69: hashjoin *)
From Verif Require Import Base HashJoinModel HashJoinSpec HashJoinProofs.

Section HashJoin.
Context {T K : Type} `{EqDec K}.
Variable key : T -> K.
Variable keys : T -> list K.

(** C47: exactly the pairs with the same key, the left item first, provided that the right side is not an iterator *)
Theorem C47_key_partial (left right : iterable T) : reiterable right = true ->
  Permutation (hashjoin left right (Some key) None) (matching_pairs (fun a b => eqb (key a) (key b)) (items left) (items right)).
Proof. exact (hashjoin_key key left right). Qed.

(** C69: with several keys, each pair sharing a key comes once *)
Theorem C69_keys (left right : iterable T) : reiterable right = true ->
  exists m, (forall a b, m a b = true <-> shares_key keys a b) /\
    Permutation (hashjoin left right None (Some keys)) (matching_pairs m (items left) (items right)).
Proof. exact (fun Hr => ex_intro _ (common_key keys) (conj (common_key_true keys) (hashjoin_keys keys left right Hr))). Qed.

(** C69: with an iterator on the right, only the first left item is joined *)
Theorem C69_iterator (left : iterable T) right :
  hashjoin left (Iterator right) (Some key) None = matching_pairs (fun a b => eqb (key a) (key b)) (firstn 1 (items left)) right /\
  hashjoin left (Iterator right) None (Some keys) = matching_pairs (common_key keys) (firstn 1 (items left)) right.
Proof. exact (hashjoin_iterator key keys left right). Qed.

(** C69: with both functions, the two joins follow each other *)
Theorem C69_both (left right : iterable T) : reiterable left = true -> reiterable right = true ->
  hashjoin left right (Some key) (Some keys) = hashjoin left right (Some key) None ++ hashjoin left right None (Some keys).
Proof. exact (hashjoin_both key keys left right). Qed.

(** C69: what a list of matching pairs holds *)
Theorem C69_pairs (m : T -> T -> bool) l r a b : In (a, b) (matching_pairs m l r) <-> In a l /\ In b r /\ m a b = true.
Proof. exact (matching_In m l r a b). Qed.
End HashJoin.

(** C47: two shared keys give one pair *)
Theorem C47_one_per_key_refuted : exists (left right : list nat) (keys : nat -> list nat) k k',
  k <> k' /\ (forall a, In a (left ++ right) -> In k (keys a) /\ In k' (keys a)) /\
  hashjoin (Collection left) (Collection right) None (Some keys) = [(1, 2)].
Proof. exists [1], [2], (fun _ => [7; 8]), 7, 8. split; [lia|]. split; [intros; simpl; auto|]. vm_compute. reflexivity. Qed.

(** C47: a generator on the right loses pairs *)
Theorem C47_iterables_refuted : exists (left right : list nat) (key : nat -> nat) a b,
  In a left /\ In b right /\ key a = key b /\
  ~ In (a, b) (hashjoin (Collection left) (Iterator right) (Some key) None) /\
  In (a, b) (hashjoin (Collection left) (Collection right) (Some key) None).
Proof. exists [1; 2], [1; 2], (fun x => x), 2, 2. vm_compute. intuition discriminate. Qed.

(* ---- tests of the repository (test/join/hashjoin_test.py); an item is the list of its words:
   john 0, doe 1, ron 2, wisley 3, clark 4, kent 5, britney 6, spears 7, spartan 8, & 9, barby 10, the 11, turtel 12, mirage 13 ---- *)
Definition names_a : list (list nat) := [[8; 7]; [5; 9; 10]; [1; 0]; [2; 11; 12]; [5; 1]; [0; 13]; [13]].
Definition names_b : list (list nat) := [[0; 1]; [2; 3]; [4; 5]; [6; 7]].

Example C47_repository_tests :
  hashjoin (Collection names_a) (Collection names_b) (Some (fun n => hd 0 n)) None = [([0; 13], [0; 1]); ([2; 11; 12], [2; 3])] /\
  hashjoin (Iterator names_b) (Collection names_a) None (Some (fun n => n)) =
    [([0; 1], [1; 0]); ([0; 1], [5; 1]); ([0; 1], [0; 13]); ([2; 3], [2; 11; 12]); ([4; 5], [5; 9; 10]); ([4; 5], [5; 1]); ([6; 7], [8; 7])].
Proof. vm_compute. auto. Qed.

Print Assumptions C47_key_partial.
Print Assumptions C47_one_per_key_refuted.
Print Assumptions C47_iterables_refuted.
Print Assumptions C69_keys.
Print Assumptions C69_iterator.
Print Assumptions C69_both.
Print Assumptions C69_pairs.
