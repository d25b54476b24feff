From Coq Require Import String QArith Qround Lqa NArith Nnat Ndigits.
From Verif Require Import Base BaseFacts LevModel LevProofs PairwiseModel PairwiseProofs MetricsModel ClustersModel ClustersSpec BitsModel BitsSpec BitsProofs MinHashModel MinHashSpec.
Open Scope N_scope.
Open Scope list_scope.
Notation length := List.length.
Notation concat := List.concat.

(** ** slots *)
Lemma min_hash_spec param tokens : least_hash NEXT_PRIME (fst param) (snd param) (fun t => In t tokens) (min_hash param tokens).
Proof.
  unfold min_hash, least_hash. change (2 ^ 32 - 1) with MAX_UINT32. set (step := fun m token => _).
  assert (G : forall l m0, let m := fold_left step l m0 in
     (m = m0 \/ exists t, In t l /\ m = universal_hash param t) /\ m <= m0 /\ forall t, In t l -> m <= universal_hash param t).
  { induction l as [|t l IH]; intros m0; cbn [fold_left].
    - split; [left; reflexivity|]. split; [lia|]. intros t [].
    - destruct (IH (step m0 t)) as [A [B C]]. set (m := fold_left step l (step m0 t)) in *. clearbody m.
      assert (S1 : step m0 t <= m0 /\ step m0 t <= universal_hash param t /\ (step m0 t = m0 \/ step m0 t = universal_hash param t)).
      { unfold step. destruct (N.ltb_spec (universal_hash param t) m0); [split; [lia|split; [lia|right; reflexivity]]|split; [lia|split; [lia|left; reflexivity]]]. }
      destruct S1 as [S1 [S2 S3]]. split; [|split].
      + destruct A as [A|[u [U A]]]; [destruct S3 as [S3|S3]; [left; congruence|right; exists t; split; [left; reflexivity|congruence]]|
          right; exists u; split; [right; exact U|exact A]].
      + lia.
      + intros u [<-|U]; [lia|apply C; exact U]. }
  exact (G tokens MAX_UINT32).
Qed.

Lemma least_hash_unique p a b (S S' : N -> Prop) v v' : (forall t, S t <-> S' t) ->
  least_hash p a b S v -> least_hash p a b S' v' -> v = v'.
Proof.
  intros E [A [B C]] [A' [B' C']].
  assert (v <= v').
  { destruct A' as [->|[t [T ->]]]; [exact B|]. apply C, E, T. }
  assert (v' <= v).
  { destruct A as [->|[t [T ->]]]; [exact B'|]. apply C', E, T. }
  lia.
Qed.

Lemma least_hash_union p a b (S S' : N -> Prop) v v' :
  least_hash p a b S v -> least_hash p a b S' v' -> least_hash p a b (fun t => S t \/ S' t) (N.min v v').
Proof.
  intros [A [B C]] [A' [B' C']]. split; [|split; [lia|]].
  - destruct (N.min_spec v v') as [[_ ->]|[_ ->]].
    + destruct A as [A|[t [T A]]]; [left; exact A|right; exists t; split; [left; exact T|exact A]].
    + destruct A' as [A2|[t [T A2]]]; [left; exact A2|right; exists t; split; [right; exact T|exact A2]].
  - intros t [T|T]; [specialize (C t T)|specialize (C' t T)]; lia.
Qed.

(** ** sets *)
Lemma draw_params_ok draws h : forall fuel params n out, draw_params fuel draws h params n = Ok out ->
  NoDup params -> (length params <= h)%nat ->
  NoDup out /\ length out = h /\ (forall p, In p out -> In p params \/ exists i, p = draws i).
Proof.
  induction fuel as [|fuel IH]; intros params n out; cbn [draw_params]; destruct (Nat.ltb_spec (length params) h) as [L|L]; intros E ND Le; try discriminate E.
  - injection E as <-. repeat split; [exact ND|lia|intros p P; left; exact P].
  - apply IH in E as [D [Ln F]].
    + repeat split; [exact D|exact Ln|]. intros p P. destruct (F p P) as [Q|Q]; [|right; exact Q].
      apply sadd_In in Q. destruct Q as [Q|Q]; [left; exact Q|right; exists n; exact Q].
    + apply sadd_NoDup, ND.
    + unfold sadd. destruct (in_dec eq_dec _ _); [lia|]. rewrite app_length. cbn. lia.
  - injection E as <-. repeat split; [exact ND|lia|intros p P; left; exact P].
Qed.

(** enough different draws are found *)
Lemma draw_params_enough draws h : forall fuel params n, NoDup params -> (length params <= h)%nat ->
  (exists l, NoDup (params ++ l) /\ (h <= length params + length l)%nat /\ forall p, In p l -> exists i, (n <= i < n + fuel)%nat /\ p = draws i) ->
  exists out, draw_params fuel draws h params n = Ok out.
Proof.
  induction fuel as [|fuel IH]; intros params n ND Le [l [Nl [Hl Fl]]]; cbn [draw_params]; destruct (Nat.ltb_spec (length params) h) as [L|L]; try (eexists; reflexivity).
  - destruct l as [|p l]; [cbn in Hl; lia|]. destruct (Fl p (or_introl eq_refl)) as [i [Hi _]]. lia.
  - apply IH.
    + apply sadd_NoDup, ND.
    + unfold sadd. destruct (in_dec eq_dec _ _); [lia|]. rewrite app_length. cbn. lia.
    + destruct (in_dec eq_dec (draws n) l) as [I|I].
      * destruct (in_split _ _ I) as [l1 [l2 ->]]. exists (l1 ++ l2).
        assert (NI : ~ In (draws n) params).
        { intros J. apply NoDup_app_iff in Nl. destruct Nl as [_ [_ K]]. apply (K _ J). apply in_or_app. right. left. reflexivity. }
        unfold sadd. destruct (in_dec eq_dec (draws n) params) as [J|_]; [contradiction|].
        split; [|split].
        -- eapply Permutation_NoDup; [|exact Nl]. rewrite <- (app_assoc params [_]). apply Permutation_app_head. symmetry. exact (Permutation_middle l1 l2 (draws n)).
        -- rewrite !app_length in *. cbn in *. lia.
        -- intros p P. assert (P2 : In p (l1 ++ draws n :: l2)) by (apply in_app_iff in P; apply in_or_app; destruct P; [left|right; right]; assumption).
           destruct (Fl p P2) as [i [Hi E]]. exists i. split; [|exact E]. assert (i <> n); [|lia]. intros ->.
           apply NoDup_app_iff in Nl. destruct Nl as [_ [Nl _]]. apply NoDup_remove_2 in Nl. apply Nl. rewrite <- E. exact P.
      * exists l. unfold sadd. destruct (in_dec eq_dec (draws n) params) as [J|J].
        -- split; [exact Nl|]. split; [exact Hl|]. intros p P. destruct (Fl p P) as [i [Hi E]]. exists i. split; [|exact E].
           assert (i <> n); [|lia]. intros ->. apply I. rewrite <- E. exact P.
        -- split; [|split].
           ++ apply (Permutation_NoDup (l := draws n :: params ++ l)); [rewrite <- (app_assoc params [_]); exact (Permutation_middle params l (draws n))|].
              constructor; [|exact Nl]. intros K. apply in_app_iff in K. destruct K; contradiction.
           ++ rewrite app_length. cbn. lia.
           ++ intros p P. destruct (Fl p P) as [i [Hi E]]. exists i. split; [|exact E].
              assert (i <> n); [|lia]. intros ->. apply I. rewrite <- E. exact P.
Qed.

Lemma mapM_nth {X Y} (f : X -> res Y) l out : mapM f l = Ok out -> forall i x, nth_error l i = Some x -> exists y, nth_error out i = Some y /\ f x = Ok y.
Proof.
  revert out. induction l as [|a l IH]; intros out E [|i] x Hx; cbn in *; try discriminate Hx.
  - injection Hx as <-. destruct (f a) as [y|] eqn:F; [|discriminate E]. cbn in E. destruct (mapM f l) as [ys|]; [|discriminate E]. injection E as <-.
    exists y. auto.
  - destruct (f a) as [y|] eqn:F; [|discriminate E]. cbn in E. destruct (mapM f l) as [ys|]; [|discriminate E]. injection E as <-.
    destruct (IH ys eq_refl i x Hx) as [z [Hz Fz]]. exists z. auto.
Qed.
Lemma mapM_len {X Y} (f : X -> res Y) l out : mapM f l = Ok out -> length out = length l.
Proof.
  revert out. induction l as [|a l IH]; intros out E; cbn in *; [injection E as <-; reflexivity|].
  destruct (f a); [|discriminate E]. cbn in E. destruct (mapM f l); [|discriminate E]. injection E as <-. cbn. f_equal. apply IH. reflexivity.
Qed.
Lemma mapM_map_ok {X Y} (f : X -> res Y) (g : X -> Y) l : (forall x, In x l -> f x = Ok (g x)) -> mapM f l = Ok (map g l).
Proof. induction l as [|a l IH]; intros F; cbn; [reflexivity|]. rewrite F by (left; reflexivity). cbn. rewrite IH by (intros; apply F; right; assumption). reflexivity. Qed.
Lemma nth_error_seq n i : (i < n)%nat -> nth_error (seq 0 n) i = Some i.
Proof. intros L. rewrite (nth_error_nth' _ 0%nat) by (rewrite seq_length; exact L). rewrite seq_nth by exact L. reflexivity. Qed.
Lemma map_nth_seq {X} (l : list X) d : map (fun i => nth i l d) (seq 0 (length l)) = l.
Proof.
  induction l as [|a l IH]; cbn; [reflexivity|]. f_equal. rewrite <- seq_shift, map_map. exact IH.
Qed.

Section Sets.
Context {T : Type}.
Variable crc32 : T -> N.
Variable set_order : list N -> list N.
Hypothesis set_order_perm : forall l, Permutation (set_order l) l.
Notation token_set := (token_set crc32 set_order).
Notation numbers := (numbers crc32).

Lemma token_set_In x t : In t (token_set x) <-> In t (numbers x).
Proof.
  unfold MinHashModel.token_set. split; intros I.
  - apply set_of_In. eapply Permutation_in; [apply set_order_perm|exact I].
  - eapply Permutation_in; [symmetry; apply set_order_perm|]. apply set_of_In. exact I.
Qed.
Lemma token_set_empty x : Nat.eqb (length (token_set x)) 0 = true <-> numbers x = [].
Proof.
  rewrite Nat.eqb_eq. pose proof (token_set_In x) as I. split; intros E.
  - destruct (numbers x) as [|t l]; [reflexivity|]. exfalso. assert (J : In t (token_set x)) by (apply I; left; reflexivity). destruct (token_set x); [exact J|discriminate E].
  - destruct (token_set x) as [|t l]; [reflexivity|]. exfalso. assert (J : In t (numbers x)) by (apply I; left; reflexivity). rewrite E in J. exact J.
Qed.

Definition slot (params : list (N * N)) (x : sequence T) (s : nat) : N :=
  match numbers x with [] => 0 | _ => min_hash (nth s params (0, 0)) (token_set x) end.

Lemma create_signature_eq params h x : (h <= length params)%nat ->
  create_signature crc32 set_order params h x = Ok (map (slot params x) (seq 0 h)).
Proof.
  intros L. unfold create_signature, slot. destruct (numbers x) as [|t l] eqn:E.
  - apply token_set_empty in E. rewrite E. f_equal. clear. generalize 0%nat. induction h as [|h IH]; intros n; cbn; [reflexivity|]. f_equal. apply IH.
  - destruct (Nat.eqb (length (token_set x)) 0) eqn:Z; [apply token_set_empty in Z; congruence|].
    apply mapM_map_ok. intros s Hs. apply in_seq in Hs. unfold index. rewrite (nth_error_nth' _ (0, 0)) by lia. reflexivity.
Qed.

Lemma slot_spec params x s : numbers x <> [] ->
  least_hash NEXT_PRIME (fst (nth s params (0, 0))) (snd (nth s params (0, 0))) (fun t => In t (numbers x)) (slot params x s).
Proof.
  intros N. unfold slot. destruct (numbers x) as [|t l] eqn:E; [contradiction|]. rewrite <- E.
  destruct (min_hash_spec (nth s params (0, 0)) (token_set x)) as [A [B C]]. split; [|split; [exact B|]].
  - destruct A as [A|[u [U A]]]; [left; exact A|]. right. exists u. split; [apply token_set_In, U|exact A].
  - intros u U. apply C, token_set_In, U.
Qed.

Lemma slot_set params x y s : (forall t, In t (numbers x) <-> In t (numbers y)) -> slot params x s = slot params y s.
Proof.
  intros E. destruct (numbers x) as [|t l] eqn:X.
  - unfold slot. rewrite X. destruct (numbers y) as [|t l] eqn:Y; [reflexivity|]. exfalso. apply (E t). left. reflexivity.
  - destruct (numbers y) as [|t' l'] eqn:Y; [exfalso; apply (E t); left; reflexivity|].
    eapply least_hash_unique; [|apply slot_spec; rewrite X; discriminate|apply slot_spec; rewrite Y; discriminate].
    intros u. cbn beta. rewrite X, Y. apply E.
Qed.

Lemma slot_union params x y z s : numbers x <> [] -> numbers y <> [] -> (forall t, In t (numbers z) <-> In t (numbers x) \/ In t (numbers y)) ->
  slot params z s = N.min (slot params x s) (slot params y s).
Proof.
  intros NX NY E. assert (NZ : numbers z <> []).
  { intros Z. destruct (numbers x) as [|t l]; [contradiction|]. rewrite Z in E. apply (E t). left. left. reflexivity. }
  eapply least_hash_unique; [|apply slot_spec, NZ|apply least_hash_union; apply slot_spec; assumption]. exact E.
Qed.

Lemma slot_bound params x s : slot params x s <= 2 ^ 32 - 1.
Proof.
  destruct (numbers x) as [|t l] eqn:E; [unfold slot; rewrite E; lia|].
  apply (slot_spec params x s). rewrite E. discriminate.
Qed.
End Sets.

(** ** similarity *)
Lemma hamming_sum A B : length A = length B ->
  mapM (fun i => let! a := index A i in let! b := index B i in Ok (if a =? b then 0%nat else 1%nat)) (seq 0 (length A)) =
  Ok (map (fun ab => if fst ab =? snd ab then 0%nat else 1%nat) (combine A B)).
Proof.
  intros L. erewrite mapM_map_ok with (g := fun i => if fst (nth i (combine A B) (0, 0)) =? snd (nth i (combine A B) (0, 0)) then 0%nat else 1%nat).
  - f_equal. pose proof (f_equal (map (fun ab => if fst ab =? snd ab then 0%nat else 1%nat)) (map_nth_seq (combine A B) (0, 0))) as E.
    rewrite map_map, combine_length, <- L, Nat.min_id in E. exact E.
  - intros i Hi. apply in_seq in Hi. unfold index. rewrite (nth_error_nth' A 0) by lia. cbn. rewrite (nth_error_nth' B 0) by lia. cbn.
    rewrite combine_nth by exact L. reflexivity.
Qed.
Lemma hamming_count l : list_sum (map (fun ab : N * N => if fst ab =? snd ab then 0%nat else 1%nat) l) =
  length (filter (fun ab => negb (N.eqb (fst ab) (snd ab))) l).
Proof. unfold list_sum. induction l as [|[a b] l IH]; [reflexivity|]. cbn [map filter fst snd fold_right]. rewrite IH. destruct (a =? b); reflexivity. Qed.

Lemma minhash_similarity_eq A B : length A = length B -> A <> [] ->
  minhash_similarity A B = Ok (1 - Qnat (hamming A B) / Qnat (length A))%Q.
Proof.
  intros L NE. unfold minhash_similarity. rewrite hamming_sum by exact L. cbn. rewrite hamming_count.
  destruct A; [contradiction|]. reflexivity.
Qed.
Lemma hamming_sym A B : hamming A B = hamming B A.
Proof.
  unfold hamming. revert B. induction A as [|a A IH]; intros [|b B]; cbn; try reflexivity.
  rewrite N.eqb_sym. destruct (b =? a); cbn; rewrite IH; reflexivity.
Qed.
Lemma hamming_le A B : (hamming A B <= length A)%nat.
Proof. unfold hamming. revert B. induction A as [|a A IH]; intros [|b B]; cbn; try lia. destruct (a =? b); cbn; specialize (IH B); lia. Qed.
Lemma hamming_zero A B : length A = length B -> (hamming A B = 0%nat <-> A = B).
Proof.
  unfold hamming. revert B. induction A as [|a A IH]; intros [|b B] L; cbn in *; try discriminate L; [split; reflexivity|].
  destruct (N.eqb_spec a b) as [->|N]; cbn.
  - rewrite IH by lia. split; congruence.
  - split; [discriminate|congruence].
Qed.
Lemma hamming_full A B : length A = length B -> (hamming A B = length A <-> forall i, (i < length A)%nat -> nth i A 0 <> nth i B 0).
Proof.
  unfold hamming. revert B. induction A as [|a A IH]; intros [|b B] L; cbn [combine length filter fst snd] in *; try discriminate L.
  - cbn. split; [intros _ i Hi; lia|reflexivity].
  - injection L as L. destruct (N.eqb_spec a b) as [->|N]; cbn [negb].
    + pose proof (hamming_le A B) as Le. unfold hamming in Le. split; [lia|]. intros F. exfalso. apply (F 0%nat); [lia|reflexivity].
    + cbn [length]. split; intros E.
      * intros [|i] Hi; cbn; [exact N|]. apply (IH B L); lia.
      * f_equal. apply (IH B L). intros i Hi. apply (E (S i)). lia.
Qed.

(** ** NEXT_PRIME is prime, so that a hash function does not merge two tokens *)
Fixpoint no_divisor (n : nat) (d p : Z) : bool :=
  match n with O => true | S n => negb (Z.eqb (p mod d) 0) && no_divisor n (d + 1) p end.
Lemma no_divisor_spec n : forall d p, no_divisor n d p = true -> forall x, (d <= x < d + Z.of_nat n)%Z -> (p mod x <> 0)%Z.
Proof.
  induction n as [|n IH]; intros d p E x Hx; [lia|]. cbn [no_divisor] in E. apply andb_true_iff in E. destruct E as [E1 E2].
  destruct (Z.eq_dec x d) as [->|N].
  - intros Z. rewrite Z in E1. discriminate E1.
  - apply (IH (d + 1)%Z p E2). lia.
Qed.
Lemma next_prime : Znumtheory.prime (Z.of_N NEXT_PRIME).
Proof.
  apply Znumtheory.prime_alt. change (Z.of_N NEXT_PRIME) with 4294967311%Z. split; [lia|]. intros n Hn [q E].
  assert (K : no_divisor (Nat.pow 2 16) 2 4294967311 = true) by (vm_compute; reflexivity).
  assert (B : Z.of_nat (Nat.pow 2 16) = 65536%Z) by (vm_compute; reflexivity).
  pose proof (no_divisor_spec _ _ _ K) as D. rewrite B in D. clear K B.
  assert (Q : (1 < q)%Z) by nia.
  destruct (Z_le_gt_dec n 65537) as [L|L].
  - apply (D n); [lia|]. rewrite E. apply Z_mod_mult.
  - apply (D q); [nia|]. rewrite E, Z.mul_comm. apply Z_mod_mult.
Qed.
Lemma universal_hash_inj param t u : 0 < fst param < NEXT_PRIME -> t < NEXT_PRIME -> u < NEXT_PRIME ->
  universal_hash param t = universal_hash param u -> t = u.
Proof.
  unfold universal_hash. destruct param as [a b]. cbn [fst snd]. intros Ha Ht Hu E.
  apply (f_equal Z.of_N) in E. rewrite !N2Z.inj_mod in E. rewrite !N2Z.inj_add, !N2Z.inj_mul in E.
  pose proof next_prime as P. set (p := Z.of_N NEXT_PRIME) in *.
  assert (Pp : (0 < p)%Z) by (subst p; unfold NEXT_PRIME; lia).
  assert (D : (p | Z.of_N a * (Z.of_N t - Z.of_N u))%Z).
  { apply Znumtheory.Zmod_divide; [lia|].
    replace (Z.of_N a * (Z.of_N t - Z.of_N u))%Z with ((Z.of_N a * Z.of_N t + Z.of_N b) - (Z.of_N a * Z.of_N u + Z.of_N b))%Z by ring.
    rewrite Zminus_mod, E, Z.sub_diag. apply Z.mod_0_l. lia. }
  apply Znumtheory.prime_mult in D; [|exact P]. destruct D as [D|D].
  - apply Z.divide_pos_le in D; [|lia]. subst p. lia.
  - destruct (N.eq_dec t u) as [->|N]; [reflexivity|]. exfalso.
    assert (Q : (p | Z.abs (Z.of_N t - Z.of_N u))%Z) by (apply Z.divide_abs_r; exact D).
    apply Z.divide_pos_le in Q; [|lia]. subst p. lia.
Qed.

Lemma least_hash_shared a b (S S' : N -> Prop) v : 0 < a < NEXT_PRIME -> (forall t, S t \/ S' t -> t < NEXT_PRIME) -> v <> 2 ^ 32 - 1 ->
  least_hash NEXT_PRIME a b S v -> least_hash NEXT_PRIME a b S' v -> exists t, S t /\ S' t.
Proof.
  intros Ha B N [A _] [A' _]. destruct A as [A|[t [T A]]]; [contradiction|]. destruct A' as [A'|[u [U A']]]; [contradiction|].
  exists t. split; [exact T|]. replace t with u; [exact U|]. apply (universal_hash_inj (a, b)); cbn; [exact Ha|apply B; right; exact U|apply B; left; exact T|].
  unfold universal_hash. cbn. congruence.
Qed.

(** ** bits of LSBMinHash *)
Lemma testbit_lor x y n : N.testbit_nat (N.lor x y) n = orb (N.testbit_nat x n) (N.testbit_nat y n).
Proof. rewrite <- !Ntestbit_Nbit. apply N.lor_spec. Qed.
Lemma testbit_fold {X} (f : X -> N) n : forall l z, N.testbit_nat (fold_left N.lor (map f l) z) n = orb (N.testbit_nat z n) (existsb (fun i => N.testbit_nat (f i) n) l).
Proof.
  induction l as [|a l IH]; intros z; cbn; [symmetry; apply orb_false_r|]. rewrite IH, testbit_lor, orb_assoc. reflexivity.
Qed.
Lemma testbit_shifted x i n : N.testbit_nat (N.shiftl (N.land x 1) (N.of_nat i)) n = andb (Nat.eqb i n) (N.odd x).
Proof.
  replace (N.land x 1) with (N.b2n (N.odd x)) by (destruct x as [|[?|?|]]; reflexivity).
  destruct (N.odd x); cbn [N.b2n].
  - rewrite shiftl_bit, andb_true_r. reflexivity.
  - rewrite N.shiftl_0_l, andb_false_r, <- Ntestbit_Nbit. apply N.bits_0.
Qed.

Section Lsb.
Context {T : Type}.
Variable crc32 : T -> N.
Variable set_order : list N -> list N.
Hypothesis set_order_perm : forall l, Permutation (set_order l) l.
Notation token_set := (token_set crc32 set_order).
Notation numbers := (numbers crc32).
Notation slot := (slot crc32 set_order).

Definition lsb_word (params : list (N * N)) (x : sequence T) (s : nat) : N :=
  fold_left N.lor (map (fun i => N.shiftl (N.land (slot params x (s * 64 + i)) 1) (N.of_nat i)) (seq 0 64)) 0.

Lemma lsb_word_bit params x s i : N.testbit_nat (lsb_word params x s) i = if Nat.ltb i 64 then N.odd (slot params x (s * 64 + i)) else false.
Proof.
  unfold lsb_word. rewrite testbit_fold. rewrite <- Ntestbit_Nbit, N.bits_0. cbn [orb].
  destruct (Nat.ltb_spec i 64) as [L|L].
  - destruct (N.odd (slot params x (s * 64 + i))) eqn:O.
    + apply existsb_exists. exists i. split; [apply in_seq; lia|]. rewrite testbit_shifted, Nat.eqb_refl, O. reflexivity.
    + apply not_true_is_false. intros E. apply existsb_exists in E. destruct E as [j [_ E]]. rewrite testbit_shifted in E. apply andb_true_iff in E.
      destruct E as [E O']. apply Nat.eqb_eq in E. subst j. congruence.
  - apply not_true_is_false. intros E. apply existsb_exists in E. destruct E as [j [J E]]. rewrite testbit_shifted in E. apply andb_true_iff in E.
    destruct E as [E _]. apply Nat.eqb_eq in E. apply in_seq in J. lia.
Qed.
Lemma lsb_word_bound params x s : lsb_word params x s < 2 ^ 64.
Proof. apply (high_bits 64). intros i L. rewrite lsb_word_bit. destruct (Nat.ltb_spec i 64); [lia|reflexivity]. Qed.

Lemma lsb_word_empty params x s : numbers x = [] -> lsb_word params x s = 0.
Proof. intros E. unfold lsb_word, MinHashProofs.slot. rewrite E. reflexivity. Qed.

Lemma lsb_signature_eq params precision x : (precision * 64 <= length params)%nat ->
  lsb_signature crc32 set_order params precision x = Ok (map (lsb_word params x) (seq 0 precision)).
Proof.
  intros L. unfold lsb_signature. destruct (Nat.eqb (length (token_set x)) 0) eqn:Z.
  - apply token_set_empty in Z; [|exact set_order_perm]. f_equal. clear L. generalize 0%nat.
    induction precision as [|n IH]; intros k; cbn [repeat seq map]; [reflexivity|]. rewrite lsb_word_empty by exact Z. f_equal. apply IH.
  - apply mapM_map_ok. intros s Hs. apply in_seq in Hs. unfold lsb_integer.
    erewrite mapM_map_ok; [unfold bind, lsb_word; reflexivity|].
    intros i Hi. apply in_seq in Hi. cbn beta. unfold index. rewrite (nth_error_nth' _ (0, 0)) by lia. cbn [bind]. unfold MinHashProofs.slot.
    destruct (numbers x) eqn:N; [|reflexivity]. apply (token_set_empty crc32 set_order set_order_perm) in N. congruence.
Qed.
End Lsb.

Definition words_apart (A B : list N) : nat := list_sum (map (fun ab => bits_apart 64 (fst ab) (snd ab)) (combine A B)).
Lemma lsb_similarity_eq A B : length A = length B -> A <> [] -> Forall (fun x => x < 2 ^ 64) A -> Forall (fun x => x < 2 ^ 64) B ->
  lsb_minhash_similarity A B = Ok (1 - 2 * Qnat (words_apart A B) / (Qnat (length A) * 64))%Q.
Proof.
  intros L NE FA FB. unfold lsb_minhash_similarity.
  erewrite mapM_map_ok with (g := fun i => N.of_nat (bits_apart 64 (fst (nth i (combine A B) (0, 0))) (snd (nth i (combine A B) (0, 0))))).
  - cbn [bind]. destruct A as [|a A]; [contradiction|]. cbn [Nat.eqb length]. do 5 f_equal. unfold Qnat. f_equal.
    set (A' := a :: A) in *.
    pose proof (f_equal (map (fun ab => N.of_nat (bits_apart 64 (fst ab) (snd ab)))) (map_nth_seq (combine A' B) (0, 0))) as E.
    rewrite map_map, combine_length, <- L, Nat.min_id in E. change (S (length A)) with (length A'). rewrite E. unfold words_apart.
    clear. induction (combine A' B) as [|ab l IH]; [reflexivity|]. unfold list_sum in *. cbn [map fold_right]. lia.
  - intros i Hi. apply in_seq in Hi. unfold index. rewrite (nth_error_nth' A 0) by lia. cbn [bind]. rewrite (nth_error_nth' B 0) by lia. cbn [bind].
    rewrite combine_nth by exact L. cbn [fst snd]. f_equal.
    assert (a1 : nth i A 0 < 2 ^ 64) by (rewrite Forall_forall in FA; apply FA, nth_In; lia).
    assert (b1 : nth i B 0 < 2 ^ 64) by (rewrite Forall_forall in FB; apply FB, nth_In; lia).
    rewrite popcount64_ok by (apply (lxor_bound 64); assumption). apply (popcount_xor 64); assumption.
Qed.
