(** C137, C138: the functions that take a seed, with python's generator. *)
From Coq Require Import QArith Qround Lqa Lia String.
From Verif Require Import Base BaseFacts ClustersModel ClustersSpec PairwiseModel PairwiseSpec LevModel StringsModel BitsModel MinHashModel MinHashSpec MinHashProofs MinHashProps
  QuickJoinModel QuickJoinSpec QuickJoinProps NNDescentModel NNDescentSpec NNDescentProofs NNDescentProps SpaceModel SpaceSpec SpaceProps
  DigestModel DigestSpec DigestEndProofs DigestProps RandomModel RandomSpec RandomProps SeededModel SeededProofs.
Open Scope nat_scope.
Open Scope list_scope.
Notation length := List.length.

(** ** C137: MinHash(h, seed) and LSBMinHash(precision, seed) have h different parameters in range *)
Theorem C137_params params_order tries fuel a h params : (forall l, Permutation (params_order l) l) -> seeded_params params_order tries fuel a h = Ok params ->
  length params = h /\ NoDup params /\ forall p q, In (p, q) params -> (0 < p < 2 ^ 32 /\ q < 2 ^ 32)%N.
Proof.
  intros P E. apply seeded_params_ok in E as (E1 & E2 & E3); [|exact P]. split; [exact E2|]. split; [exact E1|]. intros p q I. rewrite Forall_forall in E3. exact (E3 _ I).
Qed.
(** the sign of the seed does not matter *)
Theorem C137_sign params_order tries fuel a h : seeded_params params_order tries fuel (- a) h = seeded_params params_order tries fuel a h.
Proof. unfold seeded_params. rewrite C136_sign. reflexivity. Qed.
(** uniform tokens: disjoint sets have similarity 0, but for clipped values; the same sets have the same signature *)
Theorem C137_disjoint params_order set_order tries fuel a h lx ly sx sy : (forall l, Permutation (params_order l) l) -> (forall l, Permutation (set_order l) l) -> h <> 0 ->
  uniform (lx ++ ly) -> lx <> [] -> ly <> [] -> (forall w, ~ (In w lx /\ In w ly)) ->
  seeded_signature params_order set_order tries fuel a h (Tokens lx) = Ok sx -> seeded_signature params_order set_order tries fuel a h (Tokens ly) = Ok sy ->
  ~ In (2 ^ 32 - 1)%N sx -> exists q, minhash_similarity sx sy = Ok q /\ (q == 0)%Q.
Proof.
  intros P O Hh U NX NY D. unfold seeded_signature. destruct (seeded_params params_order tries fuel a h) as [params|] eqn:E; cbn [bind]; [|discriminate].
  apply C137_params in E as (L & _ & R); [|exact P].
  destruct (C132_disjoint set_order params h lx ly O L Hh (fun p q I => proj1 (R p q I)) U NX NY D) as (sx' & sy' & Ex & Ey & Q). rewrite Ex, Ey. intros X Y. injection X as <-. injection Y as <-. exact Q.
Qed.
(** SuperMinHash with python's floats as they are drawn (the sums and products being exact) *)
Theorem C137_super set_order m l : (forall k, Permutation (set_order k) k) -> 0 < m -> l <> [] -> Forall (Forall scalar) l ->
  exists sig, seeded_super set_order m (Tokens l) = Ok sig /\ length sig = m /\
    forall y v, nth_error sig y = Some v -> (0 <= v < Z.of_nat m)%Z /\ least_place token_draw m (fun t => exists w, In w l /\ crc32 w = Ok t) y (Z.to_nat v).
Proof.
  intros P Hm Hl F. unfold seeded_super.
  assert (C : forall w, In w l -> crc32 w = Ok (checksum w)).
  { intros w Hw. rewrite Forall_forall in F. destruct (C129_number w (F w Hw)) as (b & n & _ & E & _). unfold checksum. rewrite E. reflexivity. }
  assert (M : mapM crc32 l = Ok (map checksum l)) by (clear -C; induction l as [|w l IH]; [reflexivity|]; cbn [mapM map]; rewrite (C w) by (left; reflexivity); cbn [bind]; rewrite IH by (intros; apply C; right; assumption); reflexivity).
  rewrite M. cbn [bind].
  destruct (C30_least_place checksum set_order P token_draw token_draw_unit m (Tokens l) Hm) as (sig & E & L & G); [cbn [numbers]; destruct l; [contradiction|discriminate]|].
  exists sig. split; [exact E|]. split; [exact L|]. intros y v H. destruct (G y v H) as [G1 G2]. split; [exact G1|].
  assert (I : forall t, In t (numbers checksum (Tokens l)) <-> exists w, In w l /\ crc32 w = Ok t).
  2: { destruct G2 as [(t & T1 & T2) T3]. split; [exists t; split; [apply I; exact T1|exact T2]|]. intros u n Hu. apply T3. apply I. exact Hu. }
  intros t. cbn [numbers]. rewrite in_map_iff. split.
  - intros (w & <- & Hw). exists w. split; [exact Hw|apply C; exact Hw].
  - intros (w & Hw & E'). exists w. split; [rewrite C in E' by exact Hw; injection E' as ->; reflexivity|exact Hw].
Qed.

(** the characters of a string are the tokens, whatever they are *)
Theorem C137_super_text set_order m s : (forall k, Permutation (set_order k) k) -> 0 < m -> s <> [] ->
  exists sig, seeded_super set_order m (Text s) = Ok sig /\ length sig = m /\
    forall y v, nth_error sig y = Some v -> (0 <= v < Z.of_nat m)%Z /\ least_place token_draw m (fun t => In t s) y (Z.to_nat v).
Proof.
  intros P Hm Hs. unfold seeded_super. cbn [bind].
  destruct (C30_least_place checksum set_order P token_draw token_draw_unit m (Text s) Hm) as (sig & E & L & G); [exact Hs|].
  exists sig. split; [exact E|]. split; [exact L|]. exact G.
Qed.

(** ** C138: nn_descent, quickjoin and laesa with a seed do what their models do for some draws *)
Theorem C138_draws {A} set_order heapify heapreplace (similarity distance : option (A -> A -> Q)) V tries fuel turns a k radius lo hi mode :
  exists draws, (forall r, In r draws -> r < length V) /\
    nn_descent_seeded set_order heapify heapreplace similarity distance V tries fuel turns a k radius lo hi mode =
      nn_descent set_order heapify heapreplace similarity distance V turns draws k radius lo hi mode.
Proof.
  destruct (nn_descent_seeded_is set_order heapify heapreplace similarity distance V tries fuel turns a k radius lo hi mode) as (draws & F & E). exists draws. split; [|exact E].
  intros r I. rewrite Forall_forall in F. apply F. exact I.
Qed.
Theorem C138_nn_descent {A} `{EqDec A} set_order heapify heapreplace is_heap (similarity : option (A -> A -> Q)) (distance : A -> A -> Q) V tries fuel turns a k radius lo hi out :
  (forall l, Permutation (set_order l) l) -> heap_module is_heap heapify heapreplace ->
  nn_descent_seeded set_order heapify heapreplace similarity (Some distance) V tries fuel turns a k radius lo hi "connected_components" = Ok out ->
  exists pairs clusters, (forall i j, In (i, j) pairs -> i <> j /\ exists x y, nth_error V i = Some x /\ nth_error V j = Some y /\ (distance x y <= radius)%Q) /\
    is_components (fun i => exists j, In (i, j) pairs \/ In (j, i) pairs) (fun i j => In (i, j) pairs) lo hi clusters /\ reads V clusters out.
Proof.
  intros P Hh E. destruct (C138_draws set_order heapify heapreplace similarity (Some distance) V tries fuel turns a k radius lo hi "connected_components") as (draws & D & E'). rewrite E' in E.
  exact (C53_links_distance set_order P heapify heapreplace is_heap Hh V draws D similarity distance turns k radius lo hi out E).
Qed.
Theorem C138_quickjoin {A} `{EqDec A} (distance : A -> A -> Q) set_order neighbors identity unordered tries fuel a data radius size lo hi processes beta out :
  (forall l, Permutation (set_order l) l) -> (forall l, Permutation (unordered l) l) -> semimetric distance ->
  quickjoin_seeded set_order neighbors identity unordered tries fuel a data radius (Distance distance) size lo hi "connected_components" processes beta false = Ok out ->
  is_components (pair_vertex (close_pairs distance radius data)) (pair_link (close_pairs distance radius data)) lo hi out.
Proof.
  intros P U M E. destruct (quickjoin_seeded_is set_order neighbors identity unordered tries fuel a data radius (Distance distance) size lo hi "connected_components" processes beta false) as (draws & E').
  rewrite E' in E. eapply C23_components; eauto.
Qed.
Theorem C138_quickjoin_draws {A} `{EqDec A} set_order neighbors identity unordered tries fuel a (data : list A) radius m size lo hi mode processes beta vp_tree : exists draws,
  quickjoin_seeded set_order neighbors identity unordered tries fuel a data radius m size lo hi mode processes beta vp_tree =
    quickjoin set_order neighbors identity unordered fuel draws data radius m size lo hi mode processes beta vp_tree.
Proof. apply quickjoin_seeded_is. Qed.
Theorem C138_laesa {A} `{EqDec A} (distance : A -> A -> Q) set_order pivot_order tries a data radius pivots lo hi mode :
  data <> [] -> laesa_seeded set_order pivot_order distance tries a data radius pivots lo hi mode <> Err OutOfFuel ->
  exists draw, draw < length data /\ laesa_seeded set_order pivot_order distance tries a data radius pivots lo hi mode = laesa set_order pivot_order distance draw data radius pivots lo hi mode.
Proof.
  intros Hd Hf. destruct (laesa_seeded_is set_order pivot_order distance tries a data radius pivots lo hi mode) as [[E _]|(draw & [D|D] & E)]; [contradiction|eauto|contradiction].
Qed.
Theorem C138_laesa_empty {A} `{EqDec A} (distance : A -> A -> Q) set_order pivot_order tries a radius pivots lo hi mode :
  laesa_seeded set_order pivot_order distance tries a [] radius pivots lo hi mode = Err ValueError.
Proof. destruct pivots; reflexivity. Qed.

Print Assumptions C137_params.
Print Assumptions C137_sign.
Print Assumptions C137_disjoint.
Print Assumptions C137_super.
Print Assumptions C137_super_text.
Print Assumptions C138_draws.
Print Assumptions C138_nn_descent.
Print Assumptions C138_quickjoin.
Print Assumptions C138_quickjoin_draws.
Print Assumptions C138_laesa.
Print Assumptions C138_laesa_empty.

(** ** test/lsh/minhash_test.py, with the seed of the tests *)
Definition TESTS : list (string * string * Q) := [("abc", "", 0); ("", "abc", 0); ("", "", 1); ("abc", "abc", 1); ("abc", "xyz", 0);
  ("night", "nacht", 3 # 7); ("context", "contact", 4 # 7); ("ht", "nacht", 2 # 5)]%string%Q.
Definition close_to (j : Q) (x : res Q) : bool := match x with Ok q => Qle_bool (j - (1 # 10)) q && Qle_bool q (j + (1 # 10)) | Err _ => false end.
Definition all_close {S} (sign : str -> res S) (similarity : S -> S -> res Q) : bool :=
  forallb (fun '(A, B, j) => close_to j (let! sA := sign (codes A) in let! sB := sign (codes B) in similarity sA sB)) TESTS.
Definition with_params (r : res (list (N * N))) (f : list (N * N) -> bool) : bool := match r with Ok params => f params | Err _ => false end.
Example test_basics : with_params (seeded_params (fun l => l) 100 1000 123 512) (fun params => all_close (fun s => signature_of (fun l => l) params 512 (Text s)) minhash_similarity) = true.
Proof. vm_compute. reflexivity. Qed.
Example test_lsb : with_params (seeded_params (fun l => l) 100 2000 123 1024) (fun params => all_close (fun s => lsb_signature checksum (fun l => l) params 16 (Text s)) lsb_minhash_similarity) = true.
Proof. vm_compute. reflexivity. Qed.
(** SuperMinHash, the draws of the letters being computed once *)
Fixpoint floats (n : nat) (g : rng) : list Q := match n with O => [] | S n => let p := random g in fst p :: floats n (snd p) end.
Lemma floats_nth n : forall j g, j < n -> nth j (floats n g) 0%Q = fst (random (Nat.iter j (fun g => snd (random g)) g)).
Proof.
  induction n as [|n IH]; intros j g Hj; [lia|]. cbn [floats]. cbv zeta. destruct j as [|j]; [reflexivity|]. cbn [nth]. rewrite IH by lia. f_equal. f_equal.
  clear. induction j as [|j IH]; [reflexivity|]. change (Nat.iter (S j) (fun g => snd (random g)) (snd (random g))) with (snd (random (Nat.iter j (fun g => snd (random g)) (snd (random g))))). rewrite IH. reflexivity.
Qed.
Definition tables (m : nat) (l : list N) : list (N * list Q) := map (fun t => (t, floats m (seed (Z.of_N t)))) l.
Definition lookup (tabs : list (N * list Q)) (t : N) (j : nat) : Q := match find (fun p => N.eqb (fst p) t) tabs with Some (_, l) => nth j l 0%Q | None => 0%Q end.
Lemma lookup_draw m l t j : In t l -> j < m -> lookup (tables m l) t j = token_draw t j.
Proof.
  intros I Hj. unfold lookup, tables. induction l as [|u l IH]; [contradiction|]. cbn [map find fst]. destruct (N.eqb_spec u t) as [->|N]; [apply floats_nth; exact Hj|].
  apply IH. destruct I as [->|I]; [contradiction|exact I].
Qed.
Section Same.
Variables r r' : N -> nat -> Q.
Lemma super_loop_same m i t fuel : forall j st, j + fuel = m -> (forall j, j < m -> r t j = r' t j) -> super_loop r fuel m i t j st = super_loop r' fuel m i t j st.
Proof.
  induction fuel as [|fuel IH]; intros j st E F; cbn [super_loop]; [reflexivity|]. destruct (Nat.leb j (sa st)); [|reflexivity].
  assert (S : super_step r m i t j st = super_step r' m i t j st) by (unfold super_step; rewrite (F j) by lia; reflexivity). rewrite S.
  destruct (super_step r' m i t j st) as [st'|]; cbn [bind]; [apply IH; [lia|exact F]|reflexivity].
Qed.
Lemma super_tokens_same m tokens : forall i st, (forall t j, In t tokens -> j < m -> r t j = r' t j) -> super_tokens r m i tokens st = super_tokens r' m i tokens st.
Proof.
  induction tokens as [|t tokens IH]; intros i st F; cbn [super_tokens]; [reflexivity|]. rewrite (super_loop_same m i t m 0 st) by (intros; try apply F; try (left; reflexivity); lia).
  destruct (super_loop r' m m i t 0 st) as [st'|]; cbn [bind]; [apply IH; intros; apply F; [right; assumption|assumption]|reflexivity].
Qed.
End Same.
Lemma super_same letters m s : forallb (fun c => existsb (N.eqb c) letters) s = true ->
  seeded_super (fun l => l) m (Text s) = super_signature checksum (fun l => l) (lookup (tables m letters)) m (Text s).
Proof.
  intros I'. assert (I : forall c, In c s -> In c letters) by (intros c Hc; rewrite forallb_forall in I'; specialize (I' c Hc); apply existsb_exists in I' as (d & Hd & E); apply N.eqb_eq in E as ->; exact Hd).
  unfold seeded_super, super_signature. cbn [bind]. destruct m as [|m]; [reflexivity|]. rewrite (super_tokens_same token_draw (lookup (tables (S m) letters))); [reflexivity|].
  intros t j Ht Hj. symmetry. apply lookup_draw; [apply I; unfold token_set in Ht; cbn [numbers] in Ht; apply (proj1 (set_of_In _ _)) in Ht; exact Ht|exact Hj].
Qed.
Definition letters : str := codes "abcxyznighteo".
Definition super_similarity (A B : list Z) : res Q := minhash_similarity (map Z.to_N A) (map Z.to_N B).
Definition super_test : bool := let tabs := tables 512 letters in all_close (fun s => super_signature checksum (fun l => l) (lookup tabs) 512 (Text s)) super_similarity.
Lemma super_test_true : super_test = true.
Proof. vm_compute. reflexivity. Qed.
Example test_super_minhash : all_close (fun s => seeded_super (fun l => l) 512 (Text s)) super_similarity = true.
Proof.
  rewrite <- super_test_true. unfold super_test, all_close. cbv zeta. assert (G : forallb (fun '(A, B, j) => forallb (fun c => existsb (N.eqb c) letters) (codes A ++ codes B)) TESTS = true) by reflexivity.
  revert G. generalize TESTS. induction l as [|[[A B] j] l IH]; [reflexivity|]. cbn [forallb]. rewrite forallb_app. intros G. apply andb_prop in G as [G1 G2]. apply andb_prop in G1 as [G1 G3].
  rewrite (super_same letters 512 (codes A) G1), (super_same letters 512 (codes B) G3), IH by exact G2. reflexivity.
Qed.

(** ** test/clustering/nn_descent_test.py: the draws of Random(123) *)
Example nn_seeded : nn_descent_seeded (fun l => l) sort_entries replace_least None (Some lev_distance) nn_data 100 100 10 123 (Some 1) 1 2 None "connected_components" =
  Ok [[codes "Mister Hide"; codes "Mister Hyde"]; [codes "Claudia Loc"; codes "Cladia Loc"]].
Proof. vm_compute. reflexivity. Qed.
Fixpoint positions (n N : nat) (g : rng) : list nat := match n with O => [] | S n => match draw_position 100 N g with Ok (r, g) => r :: positions n N g | Err _ => [] end end.
Example nn_positions : positions 12 4 (seed 123) = [0; 2; 0; 3; 2; 0; 0; 3; 2; 2; 0; 1].
Proof. vm_compute. reflexivity. Qed.
(** nn_descent_full draws nothing more with one neighbor, and the test passes thanks to the first draws *)
Example nn_full_seeded : full_run 10 (positions 12 4 (seed 123)) (fun _ => 0) (Some 1) = Ok [[codes "Mister Hide"; codes "Mister Hyde"]; [codes "Claudia Loc"; codes "Cladia Loc"]].
Proof. vm_compute. reflexivity. Qed.
(** quickjoin and laesa on numbers *)
Definition gap (x y : nat) : Q := inject_Z (Z.abs (Z.of_nat x - Z.of_nat y)).
Example quickjoin_some : quickjoin_seeded (fun l => l) (fun _ _ _ _ => []) (fun x => x) (fun l => l) 100 100 123 [1; 20; 2; 10; 21; 11; 30] 1 (Distance gap) 2 2 None "connected_components" 1 (1 # 2) false =
  Ok [[1; 2]; [20; 21]; [10; 11]].
Proof. vm_compute. reflexivity. Qed.
Example laesa_some : laesa_seeded (fun l => l) (fun l => l) gap 100 123 [0; 1; 5; 9; 10] 1 None 2 None "connected_components" = Ok [] /\
  laesa_seeded (fun l => l) (fun l => l) gap 100 0 [0; 1; 5; 9; 10] 1 None 2 None "connected_components" = Ok [[9; 10]].
Proof. vm_compute. split; reflexivity. Qed.
Example tries_out : laesa_seeded (fun l => l) (fun l => l) gap 0 123 [0; 1; 5; 9; 10] 1 None 2 None "connected_components" = Err OutOfFuel.
Proof. vm_compute. reflexivity. Qed.
