(** C172 - C175: the C code of the distances. *)
From Coq Require Import String Ascii Lia.
From Verif Require Import Base BaseFacts EditSpec EditFacts LevModel LevProofs LevCModel LevCSpec LevCProofs LevCTopProofs LevCLeakProofs.
Open Scope nat_scope.
Open Scope string_scope.
Open Scope list_scope.
Notation length := List.length.

(** ** C172: no undefined behaviour, and the results of the model *)
(** what is undefined: exactly the accesses outside of a block that is still there, or to a cell never written *)
Theorem C172_undefined : forall (h : heap),
  (forall p i, read p i h = Undefined <-> ~ exists k w cells x, p = Some k /\ nth_error h k = Some (Some (w, cells)) /\ nth_error cells (N.to_nat i) = Some (Some x)) /\
  (forall p i x, write p i x h = Undefined <-> ~ exists k w cells, p = Some k /\ nth_error h k = Some (Some (w, cells)) /\ (i < N.of_nat (length cells))%N) /\
  (forall p, free p h = Undefined <-> exists k, p = Some k /\ ~ exists b, nth_error h k = Some (Some b)) /\
  (forall s i, char s i h = Undefined <-> (N.of_nat (length s) <= i)%N).
Proof.
  intros h. repeat split.
  - intros E (k & w & cells & x & -> & HK & HX). unfold read, block_at in E. rewrite HK, HX in E. discriminate.
  - intros E. unfold read, block_at. destruct p as [k|]; [|reflexivity]. destruct (nth_error h k) as [[[w cells]|]|] eqn:HK; [|reflexivity|reflexivity].
    destruct (nth_error cells (N.to_nat i)) as [[x|]|] eqn:HX; [|reflexivity|reflexivity]. exfalso. apply E. exists k, w, cells, x. auto.
  - intros E (k & w & cells & -> & HK & HX). unfold write, block_at in E. rewrite HK in E. apply N.ltb_lt in HX. rewrite HX in E. discriminate.
  - intros E. unfold write, block_at. destruct p as [k|]; [|reflexivity]. destruct (nth_error h k) as [[[w cells]|]|] eqn:HK; [|reflexivity|reflexivity].
    destruct (N.ltb_spec i (N.of_nat (length cells))) as [HX|HX]; [|reflexivity]. exfalso. apply E. exists k, w, cells. auto.
  - intros E. unfold free, block_at in E. destruct p as [k|]; [|discriminate]. exists k. split; [reflexivity|]. intros (b & HB). rewrite HB in E. discriminate.
  - intros (k & -> & E). unfold free, block_at. destruct (nth_error h k) as [[b|]|] eqn:HK; [|reflexivity|reflexivity]. exfalso. apply E. eauto.
  - intros E. unfold char in E. destruct (nth_error s (N.to_nat i)) eqn:HX; [discriminate|]. apply nth_error_None in HX. unfold str in *. lia.
  - intros E. unfold char. destruct (nth_error s (N.to_nat i)) eqn:HX; [|reflexivity]. exfalso. assert (N.to_nat i < length s) by (apply nth_error_Some; rewrite HX; discriminate). unfold str in *. lia.
Qed.

(** levenshtein_distance ends without undefined behaviour on all the strings, even those whose length is cut; it frees what it takes *)
Theorem C172_safe : forall granted A B h, generous granted -> exists n l, levenshtein_c granted A B h = Done n (h ++ l) /\ Forall (fun b => b = None) l.
Proof.
  intros granted A B h G. destruct (lev_safe granted A B h G) as (n & l & HL & E). exists n, l. split; [exact E|]. destruct HL as [-> | ->]; repeat constructor.
Qed.
(** so does limited_levenshtein_distance, when [max_distance] is an unsigned int *)
Theorem C172_limited_safe : forall granted k A B h, generous granted ->
  match limited_c granted k A B h with Done _ _ => (0 <= k < 2 ^ 32)%Z | Overflow => ~ (0 <= k < 2 ^ 32)%Z | _ => False end.
Proof. intros granted k A B h G. exact (limited_safe granted k A B h G). Qed.
(** with lengths below 2^32, no number wraps around: the results are those over natural numbers *)
Theorem C172_distance : forall granted A B h, generous granted -> fits A -> fits B ->
  exists l, levenshtein_c granted A B h = Done (N.of_nat (levenshtein_distance A B)) (h ++ l).
Proof. intros granted A B h G HA HB. destruct (lev_refines granted A B h G HA HB) as (l & _ & E). exists l. exact E. Qed.
(** [max_distance] = 2^32 - 1 included, though max_distance + 1 is then 0 *)
Theorem C172_limited : forall granted k A B h, generous granted -> (N.of_nat k < 2 ^ 32)%N -> fits A -> fits B -> chars A -> chars B ->
  exists l, limited_c granted (Z.of_nat k) A B h = Done (N.of_nat (limited_levenshtein_distance k A B)) (h ++ l).
Proof.
  intros granted k A B h G HK HA HB CA CB. destruct (limited_refines granted k A B h G HK HA HB) as (l & E & _); [intros x Hx; specialize (CA x Hx); lia|intros x Hx; specialize (CB x Hx); lia|].
  exists l. exact E.
Qed.
(** hence the right distances, with characters below 2^16 *)
Theorem C172_exact : forall granted k A B n h, generous granted -> (N.of_nat k < 2 ^ 32)%N -> fits A -> fits B -> bmp A -> bmp B -> is_lev A B n ->
  exists l, limited_c granted (Z.of_nat k) A B h = Done (N.of_nat (if Nat.leb n k then n else k + 1)) (h ++ l).
Proof.
  intros granted k A B n h G HK HA HB CA CB HN. rewrite <- (limited_exact k A B n CA CB HN). apply C172_limited; auto; intros x Hx; [unfold bmp in CA; rewrite Forall_forall in CA; specialize (CA x Hx)|unfold bmp in CB; rewrite Forall_forall in CB; specialize (CB x Hx)]; lia.
Qed.

(** ** C173: is all the memory freed? *)
(** not when limited_levenshtein_distance gives up in the matrix (line 257) *)
Theorem C173_refuted : exists k A B n l, fits A /\ fits B /\ chars A /\ chars B /\ limited_c (fun _ => true) k A B [] = Done n l /\ ~ Forall (fun b => b = None) l.
Proof.
  exists 1%Z, [97; 98]%N, [99; 100]%N. do 2 eexists. split; [reflexivity|]. split; [reflexivity|]. split; [intros x [<-|[<-|[]]]; discriminate|]. split; [intros x [<-|[<-|[]]]; discriminate|].
  split; [vm_compute; reflexivity|]. intros F. inversion F. discriminate.
Qed.

(** ** C174: what is left *)
(** memory is lost exactly when the distance is above [max_distance] and the lengths do not show it; 6 bytes by character of what is left of the longer string *)
Theorem C174_exact : forall granted k A B h, generous granted -> (N.of_nat k < 2 ^ 32)%N -> fits A -> fits B -> chars A -> chars B ->
  exists l, limited_c granted (Z.of_nat k) A B h = Done (N.of_nat (limited_levenshtein_distance k A B)) (h ++ l) /\
    ((apart A B <= k /\ limited_levenshtein_distance k A B = k + 1 /\ exists n, 0 < n <= Nat.max (length A) (length B) /\ held l = (6 * N.of_nat n)%N) \/
     (~ (apart A B <= k /\ limited_levenshtein_distance k A B = k + 1) /\ held l = 0%N)).
Proof.
  intros granted k A B h G HK HA HB CA CB. destruct (limited_refines granted k A B h G HK HA HB) as (l & E & H); [intros x Hx; specialize (CA x Hx); lia|intros x Hx; specialize (CB x Hx); lia|].
  exists l. split; [exact E|]. destruct H as [(H1 & H2 & n & cs & vs & H3 & H4 & -> & H5 & H6)|(H1 & H2)].
  - left. split; [exact H1|]. split; [exact H2|]. exists n. split; [lia|]. cbn [held]. rewrite H5, H6. lia.
  - right. split; [exact H1|]. destruct H2 as [-> | ->]; reflexivity.
Qed.
(** with a distance that is not above [max_distance], nothing is lost *)
Theorem C174_near : forall granted k A B n h, generous granted -> (N.of_nat k < 2 ^ 32)%N -> fits A -> fits B -> bmp A -> bmp B -> is_lev A B n -> n <= k ->
  exists l, limited_c granted (Z.of_nat k) A B h = Done (N.of_nat n) (h ++ l) /\ held l = 0%N.
Proof.
  intros granted k A B n h G HK HA HB CA CB HN L.
  assert (C1 : chars A) by (intros x Hx; unfold bmp in CA; rewrite Forall_forall in CA; specialize (CA x Hx); lia).
  assert (C2 : chars B) by (intros x Hx; unfold bmp in CB; rewrite Forall_forall in CB; specialize (CB x Hx); lia).
  destruct (C174_exact granted k A B h G HK HA HB C1 C2) as (l & E & H). exists l. pose proof (limited_exact k A B n CA CB HN) as X.
  destruct (Nat.leb_spec n k); [|lia]. rewrite X in *. split; [exact E|]. destruct H as [(_ & H & _)|[_ H]]; [lia|exact H].
Qed.

(** ** C175: is the code right for all strings and with all systems? *)
(** a string of 2^32 characters is taken for an empty one *)
Theorem C175_long_refuted : exists A B n, is_lev A B n /\ n <> 0 /\ forall granted h, levenshtein_c granted A B h = Done 0%N h.
Proof.
  set (B := repeat 97%N (N.to_nat 4294967296)). assert (L : N.of_nat (length B) = 4294967296%N) by (unfold B; rewrite repeat_length, Nnat.N2Nat.id; reflexivity). clearbody B.
  exists [], B, (lev [] B). split; [apply lev_is_lev|]. split.
  - destruct B as [|b B]; [discriminate|]. cbn. discriminate.
  - intros granted h. unfold levenshtein_c. rewrite L. destruct B as [|b B]; [discriminate|]. reflexivity.
Qed.
(** NULL is written to when malloc fails *)
Theorem C175_null_refuted : exists granted A B, fits A /\ fits B /\ levenshtein_c granted A B [] = Undefined /\ limited_c granted 2 A B [] = Undefined.
Proof. exists (fun _ => false), [97; 98]%N, [99; 100]%N. repeat split. Qed.

(** ** examples *)
Fixpoint text (s : string) : str := match s with EmptyString => [] | String a s => N.of_nat (nat_of_ascii a) :: text s end.
Definition given (m : outcome N) : option (N * N) := match m with Done n h => Some (n, held h) | _ => None end.
Notation distance_c A B := (given (levenshtein_c (fun _ => true) (text A) (text B) [])).
Notation limited_c2 A B := (given (limited_c (fun _ => true) 2 (text A) (text B) [])).
(** test/metrics/levenshtein_test.py:10-46, 94-100 *)
Example tests_distance : map (fun '(A, B) => distance_c A B) [("book", "back"); ("hello", "helo"); ("good sir", "baal"); ("say", "shiver"); ("example", "samples"); ("sturgeon", "urgently"); ("a", ""); ("", "")] =
  map (fun n => Some (n, 0%N)) [2; 1; 8; 5; 3; 6; 1; 0]%N.
Proof. vm_compute. reflexivity. Qed.
Example tests_limited : map (fun '(A, B) => limited_c2 A B) [("book", "back"); ("hello", "helo"); ("good sir", "baal"); ("say", "shiver"); ("example", "samples"); ("sturgeon", "urgently"); ("a", ""); ("", "")] =
  [Some (2, 0); Some (1, 0); Some (3, 0); Some (3, 0); Some (3, 42); Some (3, 48); Some (1, 0); Some (0, 0)]%N.
Proof. vm_compute. reflexivity. Qed.
Example largest_bound : limited_c (fun _ => true) 4294967295 (text "example") (text "samples") [] = Done 3%N [None; None] /\ limited_c (fun _ => true) 4294967296 (text "a") (text "b") [] = Overflow /\
  limited_c (fun _ => true) (-1) (text "a") (text "a") [] = Overflow.
Proof. vm_compute. auto. Qed.
Example undefined_reads : read None 0 [] = Undefined /\ read (Some 0) 1 [Some (2%N, [Some 1%N])] = Undefined /\ read (Some 0) 0 [Some (2%N, [None])] = Undefined /\ read (Some 0) 0 [None] = Undefined /\
  free (Some 0) [None] = Undefined /\ write (Some 0) 1 0 [Some (2%N, [None])] = Undefined.
Proof. repeat split. Qed.

Print Assumptions C172_undefined.
Print Assumptions C172_safe.
Print Assumptions C172_limited_safe.
Print Assumptions C172_distance.
Print Assumptions C172_limited.
Print Assumptions C172_exact.
Print Assumptions C173_refuted.
Print Assumptions C174_exact.
Print Assumptions C174_near.
Print Assumptions C175_long_refuted.
Print Assumptions C175_null_refuted.
