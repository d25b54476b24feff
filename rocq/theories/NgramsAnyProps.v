(** C203: n-grams of any integer size *)
From Coq Require Import String QArith Lqa.
From Verif Require Import Base BaseFacts LevModel StringsModel StringsProofs NgramsAnyModel NgramsAnyProofs.
Open Scope nat_scope.
Open Scope list_scope.
Notation length := List.length.

Section Ngrams.
Context {A : Type}.

(** sizes that are not negative are those of C36 and C37 *)
Theorem C203_natural n (s : list A) : ngrams_any (Z.of_nat n) s = ngrams n s.
Proof. exact (ngrams_any_nat n s). Qed.
(** grams of size 0: as many empty ones as there are places between the tokens *)
Theorem C203_zero (s : list A) : ngrams_any 0 s = repeat [] (length s + 1).
Proof. exact (ngrams_zero s). Qed.
(** a negative size takes the grams that lack so many tokens, but for the last one, then empty grams *)
Theorem C203_negative m (s : list A) : 0 < m ->
  ngrams_any (- Z.of_nat m) s =
    if Nat.ltb m (length s) then removelast (ngrams_any (Z.of_nat (length s - m)) s) ++ repeat [] (length s + 1) else repeat [] (length s + m + 1).
Proof.
  intros Hm. rewrite (ngrams_negative m s Hm). destruct (Nat.ltb_spec m (length s)) as [L|L].
  - f_equal. rewrite ngrams_any_nat. unfold ngrams. destruct (Nat.ltb_spec (length s) (length s - m)); [lia|]. cbn [app].
    replace (length s + 1 - (length s - m)) with (m + 1) by lia. rewrite seq_app, map_app, removelast_app by discriminate. cbn. rewrite app_nil_r. reflexivity.
  - replace (length s - m) with 0 by lia. replace (length s + m + 1) with (m + (length s + 1)) by lia. rewrite (repeat_app [] m (length s + 1)). f_equal.
    transitivity (map (fun _ => [] : list A) (seq 0 m)); [|rewrite map_same, seq_length; reflexivity].
    apply map_ext. intros i. unfold slice. replace (i + 0 - i) with 0 by lia. reflexivity.
Qed.
(** the grams of positive sizes alone can be joined again, or the only gram of an empty sequence *)
Theorem C203_join n (s : list A) : join_ngrams (ngrams_any n s) =
  if Z.ltb 0 n || (Z.eqb n 0 && Nat.eqb (length s) 0) then Ok s else Err IndexError.
Proof.
  destruct (Z.ltb_spec 0 n) as [L|L]; cbn [orb].
  - rewrite <- (Z2Nat.id n) by lia. rewrite ngrams_any_nat. apply join_ngrams_ngrams. lia.
  - destruct (Z.eqb_spec n 0) as [->|N]; cbn [andb].
    + destruct s as [|x s]; [reflexivity|]. cbn [length Nat.eqb]. apply join_zero. discriminate.
    + replace n with (- Z.of_nat (Z.to_nat (- n)))%Z by lia. apply join_negative. lia.
Qed.
End Ngrams.

(** keys: the same for sizes that are not negative *)
Theorem C203_keys n (s : str) t : ngram_keys_any (Z.of_nat n) s t = ngram_keys n s t.
Proof. exact (keys_any_nat n s t). Qed.
(** a threshold of 1 or more leaves the only key made of all the grams; one below 0 is 0 *)
Theorem C203_threshold n (s : str) t :
  ((1 <= t)%Q -> ngram_keys_any n s t = [concat (ngrams_any n s)]) /\ ((t <= 0)%Q -> ngram_keys_any n s t = ngram_keys_any n s 0).
Proof. split; [exact (keys_above n s t) | exact (keys_below n s t)]. Qed.
(** with grams of size 0 all the strings collide: every key is empty *)
Theorem C203_collide (s : str) t : exists keys, ngram_keys_any 0 s t = [] :: keys /\ forall key, In key keys -> key = [].
Proof.
  destruct (ngram_keys_any 0 s t) as [|key keys] eqn:E; [discriminate|]. exists keys.
  pose proof (keys_zero s t) as K. rewrite E in K. split; [f_equal; apply K; left; reflexivity|]. intros x Hx. apply K. right. exact Hx.
Qed.

Example C203_ex : ngrams_any (-1) (codes "abc") = [codes "ab"; []; []; []; []] /\ ngrams_any 0 (codes "ab") = [[]; []; []] /\
  ngrams_any (-2) (codes "abcd") = [codes "ab"; codes "bc"; []; []; []; []; []] /\ ngrams_any (-3) (codes "ab") = [[]; []; []; []; []; []] /\
  ngrams_any 2 (codes "abc") = [codes "ab"; codes "bc"].
Proof. vm_compute. repeat split. Qed.
Example C203_keys_ex : ngram_keys_any 0 (codes "a") (1 # 2) = [[]; []; []] /\ ngram_keys_any 2 (codes "abc") 1 = [codes "abbc"] /\
  ngram_keys_any 2 (codes "abc") (-3) = [codes "abbc"; codes "ab"; codes "bc"].
Proof. vm_compute. repeat split. Qed.

Print Assumptions C203_natural.
Print Assumptions C203_zero.
Print Assumptions C203_negative.
Print Assumptions C203_join.
Print Assumptions C203_keys.
Print Assumptions C203_threshold.
Print Assumptions C203_collide.
