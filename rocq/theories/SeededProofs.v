(** The functions with a seed are those with arbitrary draws, for the draws of the generator. *)
From Coq Require Import QArith Nnat Permutation Lia String.
From Verif Require Import Base BaseFacts ClustersModel PairwiseModel LevModel GraphModel MinHashModel MinHashSpec QuickJoinModel NNDescentModel SpaceModel
  DigestModel DigestProofs RandomModel RandomSpec RandomProofs RandomStreamProofs RandomDrawProofs SeededModel.
Open Scope nat_scope.
Open Scope list_scope.
Notation length := List.length.

(** ** parameters *)
Definition in_range (p : N * N) : Prop := (0 < fst p < 2 ^ 32 /\ snd p < 2 ^ 32)%N.
Lemma draw_pair_range tries g p g' : sound g -> draw_pair tries g = Ok (p, g') -> in_range p /\ sound g'.
Proof.
  intros H. unfold draw_pair. change (Z.of_N MAX_UINT32) with 4294967295%Z.
  destruct (RandomModel.randint tries 1 4294967295 g) as [[a g1]|] eqn:E1; cbn [bind]; [|discriminate]. apply randint_range in E1 as [R1 S1]; [|exact H].
  destruct (RandomModel.randint tries 0 4294967295 g1) as [[b g2]|] eqn:E2; cbn [bind]; [|discriminate]. apply randint_range in E2 as [R2 S2]; [|exact S1].
  intros X. injection X as <- <-. split; [|exact S2]. unfold in_range. cbn [fst snd]. change (2 ^ 32)%N with 4294967296%N. lia.
Qed.
Lemma seeded_loop_ok tries h fuel : forall params g out, sound g -> seeded_loop tries fuel h params g = Ok out -> NoDup params -> length params <= h -> Forall in_range params ->
  NoDup out /\ length out = h /\ Forall in_range out.
Proof.
  induction fuel as [|fuel IH]; intros params g out Hg E Nd L F; cbn [seeded_loop] in E; destruct (Nat.ltb_spec (length params) h) as [Q|Q]; try discriminate E;
    try (injection E as <-; split; [exact Nd|]; split; [lia|exact F]).
  destruct (draw_pair tries g) as [[p g1]|] eqn:D; cbn [bind] in E; [|discriminate]. apply draw_pair_range in D as [R S1]; [|exact Hg].
  apply (IH _ _ _ S1 E).
  - apply sadd_NoDup. exact Nd.
  - unfold sadd. destruct (in_dec eq_dec p params); [lia|]. rewrite app_length. cbn. lia.
  - apply Forall_forall. intros q Hq. apply sadd_In in Hq. rewrite Forall_forall in F. destruct Hq as [Hq| ->]; auto.
Qed.
Lemma seeded_params_ok params_order tries fuel a h params : (forall l, Permutation (params_order l) l) -> seeded_params params_order tries fuel a h = Ok params ->
  NoDup params /\ length params = h /\ Forall in_range params.
Proof.
  intros P. unfold seeded_params. destruct (seeded_loop tries fuel h [] (seed a)) as [out|] eqn:E; cbn [bind]; [|discriminate]. intros X. injection X as <-.
  apply seeded_loop_ok in E as (E1 & E2 & E3); [|apply sound_seed|constructor|cbn; lia|constructor].
  split; [eapply Permutation_NoDup; [symmetry; apply P|exact E1]|]. split; [rewrite (Permutation_length (P out)); exact E2|].
  apply Forall_forall. intros p Hp. apply (Permutation_in _ (P out)) in Hp. rewrite Forall_forall in E3. auto.
Qed.

(** ** SuperMinHash *)
Lemma iter_random j g : sound g -> Nat.iter j (fun g => snd (random g)) g = after (2 * j) g.
Proof.
  intros H. induction j as [|j IH]; [reflexivity|]. change (Nat.iter (S j) (fun g => snd (random g)) g) with (snd (random (Nat.iter j (fun g => snd (random g)) g))). rewrite IH.
  destruct (random_spec (after (2 * j) g)) as (m & _ & _ & E); [apply sound_after, H|]. rewrite E, after_plus. f_equal. lia.
Qed.
Lemma token_draw_unit t : unit_draws (token_draw t).
Proof.
  intros j. unfold token_draw. rewrite iter_random by apply sound_seed. destruct (random_spec (after (2 * j) (seed (Z.of_N t)))) as (m & M1 & M2 & _); [apply sound_after, sound_seed|].
  rewrite M2. change (2 ^ 53)%N with 9007199254740992%N in M1. change (2 ^ 53)%positive with 9007199254740992%positive. unfold Qle, Qlt. cbn. lia.
Qed.

(** ** positions *)
Lemma draw_position_lt tries n g i g' : sound g -> draw_position tries n g = Ok (i, g') -> i < n /\ sound g'.
Proof.
  intros H. unfold draw_position. destruct (RandomModel.randint tries 0 (Z.of_nat n - 1) g) as [[r g1]|] eqn:E; cbn [bind]; [|discriminate].
  apply randint_range in E as [R S1]; [|exact H]. intros X. injection X as <- <-. split; [lia|exact S1].
Qed.
Lemma draw_position_err tries n g e : sound g -> draw_position tries n g = Err e -> n = 0 /\ e = ValueError \/ n <> 0 /\ e = OutOfFuel.
Proof.
  intros H. unfold draw_position, RandomModel.randint. destruct (Z.ltb_spec 0 (Z.of_nat n - 1 + 1 - 0)) as [L|L].
  - pose proof (randbelow_spec tries (Z.to_N (Z.of_nat n - 1 + 1 - 0)) g H) as R. destruct (randbelow tries _ g) as [[r g1]|e']; cbn [bind]; [discriminate|].
    intros X. injection X as <-. right. split; [lia|apply R].
  - cbn [bind]. intros X. injection X as <-. left. split; [lia|reflexivity].
Qed.

(** ** nn_descent *)
Lemma sample_seeded_is tries N k i fuel : forall S g, 0 < N -> sound g -> exists ds, Forall (fun d => d < N) ds /\
  match sample_seeded tries fuel N k i S g with
  | Ok (out, g') => sound g' /\ forall rest, sample_loop (ds ++ rest) k i S = Ok (out, rest)
  | Err e => e = OutOfFuel /\ sample_loop ds k i S = Err OutOfFuel
  end.
Proof.
  induction fuel as [|fuel IH]; intros S g HN H; cbn [sample_seeded]; destruct (Nat.leb k (length S)) eqn:L.
  - exists []. split; [constructor|]. split; [exact H|]. intros rest. cbn [app]. destruct rest; cbn [sample_loop]; rewrite L; reflexivity.
  - exists []. split; [constructor|]. split; [reflexivity|]. cbn [sample_loop]. rewrite L. reflexivity.
  - exists []. split; [constructor|]. split; [exact H|]. intros rest. cbn [app]. destruct rest; cbn [sample_loop]; rewrite L; reflexivity.
  - destruct (draw_position tries N g) as [[r g1]|e] eqn:D; cbn [bind].
    + apply draw_position_lt in D as [R S1]; [|exact H].
      destruct (IH (if Nat.eqb r i then S else sadd S r) g1 HN S1) as (ds & F & B). exists (r :: ds). split; [constructor; assumption|].
      destruct (Nat.eqb r i) eqn:Er; [destruct (sample_seeded tries fuel N k i S g1) as [[out g']|e]|destruct (sample_seeded tries fuel N k i (sadd S r) g1) as [[out g']|e]];
        (destruct B as [B1 B2]; split; [exact B1|]); [intros rest| |intros rest|]; cbn [app sample_loop]; rewrite L, Er; apply B2.
    + apply draw_position_err in D as [[D _]|[_ ->]]; [lia| |exact H]. exists []. split; [constructor|]. split; [reflexivity|]. cbn [sample_loop]. rewrite L. reflexivity.
Qed.
Section Descent.
Context {A : Type} `{EqDec A}.
Variable set_order : list nat -> list nat.
Variable heapify : list entry -> list entry.
Variable heapreplace : list entry -> entry -> list entry.
Variable similarity : A -> A -> Q.
Variable V : list A.
Lemma initial_seeded_is tries fuel k items : forall g, V <> [] \/ items = [] -> sound g -> exists ds, Forall (fun d => d < length V) ds /\
  match initial_seeded set_order heapify similarity V tries fuel k items g with
  | Ok B => forall rest, initial_loop set_order heapify similarity V (ds ++ rest) k items = Ok B
  | Err e => initial_loop set_order heapify similarity V ds k items = Err e
  end.
Proof.
  induction items as [|i items IH]; intros g Hv H1; cbn [initial_seeded]; [exists []; split; [constructor|reflexivity]|].
  destruct Hv as [Hv|Hv]; [|discriminate]. assert (HN : 0 < length V) by (destruct V; [contradiction|cbn; lia]).
  destruct (sample_seeded_is tries (length V) k i fuel [] g HN H1) as (ds & F & B). destruct (sample_seeded tries fuel (length V) k i [] g) as [[out g']|e]; cbn [bind].
  - destruct B as [S1 B]. destruct (IH g' (or_introl Hv) S1) as (ds2 & F2 & B2). exists (ds ++ ds2). split; [apply Forall_app; auto|].
    destruct (mapM _ (set_order out)) as [neighbors|e] eqn:M; cbn [bind].
    + destruct (initial_seeded set_order heapify similarity V tries fuel k items g') as [B'|e]; cbn [bind].
      * intros rest. cbn [initial_loop]. rewrite <- app_assoc, B. cbn [bind]. rewrite M. cbn [bind]. rewrite B2. reflexivity.
      * cbn [initial_loop]. rewrite B. cbn [bind]. rewrite M. cbn [bind]. rewrite B2. reflexivity.
    + cbn [initial_loop]. rewrite B. cbn [bind]. rewrite M. reflexivity.
  - destruct B as [-> B]. exists ds. split; [exact F|]. cbn [initial_loop]. rewrite B. reflexivity.
Qed.
Lemma descent_seeded_is tries fuel turns a k radius lo hi mode : exists draws, Forall (fun d => d < length V) draws /\
  descent_seeded set_order heapify heapreplace similarity V tries fuel turns a k radius lo hi mode =
    nn_descent_with set_order heapify heapreplace similarity V turns draws k radius lo hi mode.
Proof.
  unfold descent_seeded, nn_descent_with, nn_descent_graph. set (ko := match k with Some k => Ok k | None => _ end). clearbody ko.
  destruct ko as [k'|e]; cbn [bind]; [|exists []; split; [constructor|reflexivity]].
  destruct (initial_seeded_is tries fuel k' (seq 0 (length V)) (seed a)) as (ds & F & B); [destruct V; [right; reflexivity|left; discriminate]|apply sound_seed|].
  exists ds. split; [exact F|]. destruct (initial_seeded set_order heapify similarity V tries fuel k' (seq 0 (length V)) (seed a)) as [B0|e]; cbn [bind].
  - specialize (B []). rewrite app_nil_r in B. rewrite B. reflexivity.
  - rewrite B. reflexivity.
Qed.
End Descent.
Lemma call_none_is {A X} (V : list A) tries fuel a k (never : res X) never' :
  (exists draws, Forall (fun d => d < length V) draws /\ never = never' draws) ->
  exists draws, Forall (fun d => d < length V) draws /\ call_none_seeded V tries fuel a k never = call_none V draws k (never' draws).
Proof.
  intros (ds & F & E). unfold call_none_seeded, call_none. set (ko := match k with Some k => Ok k | None => _ end). clearbody ko.
  destruct ko as [k'|e]; cbn [bind]; [|exists []; split; [constructor|reflexivity]].
  destruct (Nat.eqb_spec (length V * k') 0) as [Z|Z]; [exists ds; auto|].
  destruct (sample_seeded_is tries (length V) k' 0 fuel [] (seed a)) as (ds' & F' & B); [nia|apply sound_seed|].
  exists ds'. split; [exact F'|]. destruct (sample_seeded _ _ _ _ _ _ _) as [[out g]|e]; cbn [bind].
  - destruct B as [_ B]. specialize (B []). rewrite app_nil_r in B. rewrite B. reflexivity.
  - destruct B as [-> ->]. reflexivity.
Qed.
Lemma nn_descent_seeded_is {A} set_order heapify heapreplace (similarity distance : option (A -> A -> Q)) V tries fuel turns a k radius lo hi mode :
  exists draws, Forall (fun d => d < length V) draws /\
    nn_descent_seeded set_order heapify heapreplace similarity distance V tries fuel turns a k radius lo hi mode =
      nn_descent set_order heapify heapreplace similarity distance V turns draws k radius lo hi mode.
Proof.
  unfold nn_descent_seeded, nn_descent. destruct distance as [d|]; [apply descent_seeded_is|]. destruct similarity as [s|]; [apply descent_seeded_is|].
  apply call_none_is. apply descent_seeded_is.
Qed.

(** ** quickjoin *)
Lemma other_seeded_is tries n p1 fuel : forall g, 0 < n -> sound g -> exists ds,
  match other_seeded tries fuel n p1 g with
  | Ok (p2, g') => sound g' /\ forall rest, draw_other n p1 (ds ++ rest) = Ok (p2, rest)
  | Err e => draw_other n p1 ds = Err e
  end.
Proof.
  induction fuel as [|fuel IH]; intros g Hn H; cbn [other_seeded]; [exists []; reflexivity|].
  destruct (draw_position tries n g) as [[r g1]|e] eqn:D; cbn [bind].
  - apply draw_position_lt in D as [R S1]; [|exact H]. destruct (IH g1 Hn S1) as (ds & B). destruct (Nat.eqb p1 r) eqn:Er.
    + exists (r :: ds). destruct (other_seeded tries fuel n p1 g1) as [[p2 g']|e]; [destruct B as [B1 B]; split; [exact B1|]; intros rest; cbn [app]|]; cbn [draw_other]; rewrite Nat.mod_small, Er by exact R; apply B.
    + exists [r]. split; [exact S1|]. intros rest. cbn [app draw_other]. rewrite Nat.mod_small, Er by exact R. reflexivity.
  - apply draw_position_err in D as [[D _]|[_ ->]]; [lia| |exact H]. exists []. reflexivity.
Qed.
Lemma randint_head n i rest : i < n -> QuickJoinModel.randint n (i :: rest) = Ok (i, rest).
Proof. intros R. destruct n as [|n']; [lia|]. unfold QuickJoinModel.randint. rewrite Nat.mod_small by exact R. reflexivity. Qed.
Section Quick.
Context {A : Type} `{EqDec A}.
Variable distance : A -> A -> Q.
Variable radius : Q.
Notation partition := (partition distance radius).
Lemma blocks_seeded_is tries beta block_size fuel : forall stack g, sound g -> exists ds,
  match blocks_seeded distance radius tries beta block_size fuel stack g with
  | Ok (out, g') => forall rest, blocks distance radius beta block_size fuel stack (ds ++ rest) = Ok (out, rest)
  | Err e => blocks distance radius beta block_size fuel stack ds = Err e
  end.
Proof.
  induction fuel as [|fuel IH]; intros stack g Hg; [destruct stack as [|[items|S1 S2] stack]; exists []; [intros rest|..]; reflexivity|].
  destruct stack as [|[items|S1 S2] stack]; [exists []; intros rest; reflexivity| |]; cbn [blocks_seeded].
  - destruct (Nat.leb (length items) block_size) eqn:L.
    + destruct (IH stack g Hg) as (ds & B). exists ds. destruct (blocks_seeded distance radius tries beta block_size fuel stack g) as [[out g']|e]; cbn [bind]; [intros rest|]; cbn [blocks]; rewrite L, B; reflexivity.
    + destruct (draw_position tries (length items) g) as [[i1 g1]|e] eqn:D; cbn [bind].
      * apply draw_position_lt in D as [R Sg1]; [|exact Hg]. destruct (other_seeded_is tries (length items) i1 tries g1 ltac:(lia) Sg1) as (ds & B).
        destruct (other_seeded tries tries (length items) i1 g1) as [[i2 g2]|e]; cbn [bind].
        -- destruct B as [Sg2 B]. destruct (index items i1) as [p1|e] eqn:I1; cbn [bind].
           ++ destruct (index items i2) as [p2|e] eqn:I2; cbn [bind].
              ** destruct (partition items p1 (beta * distance p1 p2)) as [[[P1 P2] P3] P4] eqn:P. destruct (IH (Cross P3 P4 :: Self P1 :: Self P2 :: stack) g2 Sg2) as (ds2 & B2). exists (i1 :: ds ++ ds2).
                 destruct (blocks_seeded distance radius tries beta block_size fuel _ g2) as [[out g']|e]; [intros rest|]; cbn [app blocks]; rewrite L, randint_head by exact R; cbn [bind]; rewrite <- ?app_assoc, B; cbn [bind];
                   rewrite I1; cbn [bind]; rewrite I2; cbn [bind]; rewrite P; apply B2.
              ** exists (i1 :: ds). cbn [blocks]. rewrite L, randint_head by exact R. cbn [bind]. specialize (B []). rewrite app_nil_r in B. rewrite B. cbn [bind]. rewrite I1. cbn [bind]. rewrite I2. reflexivity.
           ++ exists (i1 :: ds). cbn [blocks]. rewrite L, randint_head by exact R. cbn [bind]. specialize (B []). rewrite app_nil_r in B. rewrite B. cbn [bind]. rewrite I1. reflexivity.
        -- exists (i1 :: ds). cbn [blocks]. rewrite L, randint_head by exact R. cbn [bind]. rewrite B. reflexivity.
      * exists []. cbn [blocks]. rewrite L. apply Nat.leb_gt in L. destruct (length items) as [|n']; [lia|]. apply draw_position_err in D as [[D _]|[_ ->]]; [lia|reflexivity|exact Hg].
  - set (n := length S1 + length S2). destruct (Nat.leb n block_size) eqn:L.
    + destruct (IH stack g Hg) as (ds & B). exists ds. destruct (Nat.eqb (length S1) 0 || Nat.eqb (length S2) 0)%bool eqn:Z.
      * destruct (blocks_seeded distance radius tries beta block_size fuel stack g) as [[out g']|e]; [intros rest|]; cbn [blocks]; fold n; rewrite L, Z; apply B.
      * destruct (blocks_seeded distance radius tries beta block_size fuel stack g) as [[out g']|e]; cbn [bind]; [intros rest|]; cbn [blocks]; fold n; rewrite L, Z, B; reflexivity.
    + destruct (draw_position tries n g) as [[i1 g1]|e] eqn:D; cbn [bind].
      * apply draw_position_lt in D as [R Sg1]; [|exact Hg]. destruct (other_seeded_is tries n i1 tries g1 ltac:(lia) Sg1) as (ds & B).
        destruct (other_seeded tries tries n i1 g1) as [[i2 g2]|e]; cbn [bind].
        -- destruct B as [Sg2 B]. destruct (if Nat.ltb i1 (length S1) then index S1 i1 else index S2 (i1 - length S1)) as [p1|e] eqn:I1; cbn [bind].
           ++ destruct (if Nat.ltb i2 (length S1) then index S1 i2 else index S2 (i2 - length S1)) as [p2|e] eqn:I2; cbn [bind].
              ** destruct (partition S1 p1 (beta * distance p1 p2)) as [[[P1 P2] P3] P4] eqn:P. destruct (partition S2 p1 (beta * distance p1 p2)) as [[[R1 R2] R3] R4] eqn:P'.
                 match goal with |- context [blocks_seeded distance radius tries beta block_size fuel ?s g2] => destruct (IH s g2 Sg2) as (ds2 & B2) end. exists (i1 :: ds ++ ds2).
                 destruct (blocks_seeded distance radius tries beta block_size fuel _ g2) as [[out g']|e]; [intros rest|]; cbn [app blocks]; fold n; rewrite L, randint_head by exact R; cbn [bind]; rewrite <- ?app_assoc, B; cbn [bind];
                   rewrite I1; cbn [bind]; rewrite I2; cbn [bind]; rewrite P, P'; apply B2.
              ** exists (i1 :: ds). cbn [blocks]. fold n. rewrite L, randint_head by exact R. cbn [bind]. specialize (B []). rewrite app_nil_r in B. rewrite B. cbn [bind]. rewrite I1. cbn [bind]. rewrite I2. reflexivity.
           ++ exists (i1 :: ds). cbn [blocks]. fold n. rewrite L, randint_head by exact R. cbn [bind]. specialize (B []). rewrite app_nil_r in B. rewrite B. cbn [bind]. rewrite I1. reflexivity.
        -- exists (i1 :: ds). cbn [blocks]. fold n. rewrite L, randint_head by exact R. cbn [bind]. rewrite B. reflexivity.
      * exists []. cbn [blocks]. fold n. rewrite L. apply Nat.leb_gt in L. destruct n as [|n']; [lia|]. apply draw_position_err in D as [[D _]|[_ ->]]; [lia|reflexivity|exact Hg].
Qed.
End Quick.
Lemma quickjoin_seeded_is {A} `{EqDec A} set_order neighbors identity unordered tries fuel a (data : list A) radius m block_size lo hi mode processes beta vp_tree : exists draws,
  quickjoin_seeded set_order neighbors identity unordered tries fuel a data radius m block_size lo hi mode processes beta vp_tree =
    quickjoin set_order neighbors identity unordered fuel draws data radius m block_size lo hi mode processes beta vp_tree.
Proof.
  unfold quickjoin_seeded, quickjoin, clustering. destruct m as [d|s].
  - destruct (blocks_seeded_is d radius tries beta block_size fuel [Self data] (seed a) (sound_seed a)) as (ds & B). exists ds. destruct (blocks_seeded d radius tries beta block_size fuel [Self data] (seed a)) as [[bs g']|e]; cbn [bind].
    + specialize (B []). rewrite app_nil_r in B. rewrite B. cbn [bind]. destruct (mapM _ bs) as [found|e]; reflexivity.
    + rewrite B. reflexivity.
  - set (d := fun x y => (- s x y)%Q). destruct (blocks_seeded_is d (- radius) tries beta block_size fuel [Self data] (seed a) (sound_seed a)) as (ds & B). exists ds. destruct (blocks_seeded d (- radius) tries beta block_size fuel [Self data] (seed a)) as [[bs g']|e]; cbn [bind].
    + specialize (B []). rewrite app_nil_r in B. rewrite B. cbn [bind]. destruct (mapM _ bs) as [found|e]; reflexivity.
    + rewrite B. reflexivity.
Qed.

(** ** laesa: one draw *)
Lemma laesa_seeded_is {A} `{EqDec A} set_order pivot_order distance tries a (data : list A) radius pivots lo hi mode :
  laesa_seeded set_order pivot_order distance tries a data radius pivots lo hi mode = Err OutOfFuel /\ data <> [] \/
  exists draw, (draw < length data \/ data = []) /\
    laesa_seeded set_order pivot_order distance tries a data radius pivots lo hi mode = laesa set_order pivot_order distance draw data radius pivots lo hi mode.
Proof.
  unfold laesa_seeded, laesa. set (no := match pivots with Some n => Ok n | None => _ end).
  destruct no as [n|e] eqn:En; cbn [bind].
  - destruct (draw_position tries (length data) (seed a)) as [[b g]|e] eqn:D; cbn [bind].
    + apply draw_position_lt in D as [R _]; [|apply sound_seed]. right. exists b. split; [left; exact R|reflexivity].
    + apply draw_position_err in D as [[D ->]|[D ->]]; [| |apply sound_seed].
      * destruct data; [|discriminate]. right. exists 0. split; [right; reflexivity|reflexivity].
      * left. split; [reflexivity|]. intros ->. apply D. reflexivity.
  - right. destruct data as [|x data]; [exists 0; split; [right; reflexivity|reflexivity]|]. exists 0. split; [left; cbn; lia|reflexivity].
Qed.
