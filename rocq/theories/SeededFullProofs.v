(** nn_descent_full with a seed is the model with arbitrary draws, for the draws of the generator. *)
From Coq Require Import QArith Qround Nnat Permutation Lia Lqa String.
From Verif Require NNDescentFullProofs.
From Verif Require Import Base BaseFacts ClustersModel PairwiseModel LevModel GraphModel MetricsModel NNDescentModel HeapModel FloatModel FloatProofs
  RandomModel RandomSpec RandomProofs RandomStreamProofs RandomDrawProofs SeededModel SeededProofs SeededFullModel.
Open Scope nat_scope.
Open Scope list_scope.
Notation length := List.length.

(** ** a function of the generator follows one of a stream read from a time *)
Definition agree (later : nat -> nat) (t : nat) (ds : list nat) : Prop := forall n d, nth_error ds n = Some d -> later (t + n) = d.
Definition follows {X} (r : res (X * rng)) (P : (nat -> nat) -> nat -> res (X * nat)) : Prop :=
  match r with
  | Ok (x, g) => sound g /\ exists ds, forall later t, agree later t ds -> P later t = Ok (x, t + length ds)
  | Err OutOfFuel => True
  | Err e => exists ds, forall later t, agree later t ds -> P later t = Err e
  end.
Lemma agree_app later t ds ds' : agree later t (ds ++ ds') -> agree later t ds /\ agree later (t + length ds) ds'.
Proof.
  intros H. split; intros n d E.
  - apply H. rewrite nth_error_app1; [exact E|]. apply nth_error_Some. congruence.
  - rewrite <- Nat.add_assoc. apply H. rewrite nth_error_app2 by lia. replace (length ds + n - length ds) with n by lia. exact E.
Qed.
Lemma follows_ret {X} (x : X) g P : sound g -> (forall later t, P later t = Ok (x, t)) -> follows (Ok (x, g)) P.
Proof. intros H E. split; [exact H|]. exists []. intros later t _. rewrite E, Nat.add_0_r. reflexivity. Qed.
Lemma follows_err {X} e (P : (nat -> nat) -> nat -> res (X * nat)) : (forall later t, P later t = Err e) -> follows (Err e) P.
Proof. intros E. destruct e; try exact Logic.I; exists []; intros later t _; apply E. Qed.
Lemma follows_ext {X} r (P P' : (nat -> nat) -> nat -> res (X * nat)) : (forall later t, P' later t = P later t) -> follows r P -> follows r P'.
Proof.
  intros E. destruct r as [[x g]|e].
  - intros [S (ds & H)]. split; [exact S|]. exists ds. intros later t G. rewrite E. auto.
  - destruct e; try (intros (ds & H); exists ds; intros later t G; rewrite E; auto). auto.
Qed.
Lemma follows_bind {X Y} r P (f : X * rng -> res (Y * rng)) F : follows r P -> (forall x g, sound g -> follows (f (x, g)) (fun later t => F later (x, t))) ->
  follows (bind r f) (fun later t => bind (P later t) (F later)).
Proof.
  intros H K. destruct r as [[x g]|e]; cbn [bind].
  - destruct H as [S (ds & H)]. specialize (K x g S). destruct (f (x, g)) as [[y g']|e].
    + destruct K as [S' (ds' & K)]. split; [exact S'|]. exists (ds ++ ds'). intros later t G. apply agree_app in G as [G1 G2].
      rewrite (H _ _ G1). cbn [bind]. rewrite (K _ _ G2), app_length, Nat.add_assoc. reflexivity.
    + destruct e; try exact Logic.I; destruct K as (ds' & K); exists (ds ++ ds'); intros later t G; apply agree_app in G as [G1 G2];
        rewrite (H _ _ G1); cbn [bind]; apply K, G2.
  - destruct e; try exact Logic.I; destruct H as (ds & H); exists ds; intros later t G; rewrite (H _ _ G); reflexivity.
Qed.
(** a step that draws nothing *)
Lemma follows_pure {X Y} (r : res X) (f : X -> res (Y * rng)) F : (forall x, r = Ok x -> follows (f x) (fun later t => F later t x)) ->
  follows (bind r f) (fun later t => bind r (F later t)).
Proof. intros K. destruct r as [x|e]; cbn [bind]; [apply K; reflexivity|]. destruct e; try exact Logic.I; exists []; reflexivity. Qed.
Lemma follows_foldM {X Y} (f : X * rng -> Y -> res (X * rng)) F : (forall x g y, sound g -> follows (f (x, g) y) (fun later t => F later (x, t) y)) ->
  forall l x g, sound g -> follows (foldM f l (x, g)) (fun later t => foldM (F later) l (x, t)).
Proof.
  intros K. induction l as [|y l IH]; intros x g H; cbn [foldM]; [apply follows_ret; auto|].
  apply (follows_bind (f (x, g) y) (fun later t => F later (x, t) y) (foldM f l) (fun later => foldM (F later) l)); auto.
Qed.

Lemma shuffle_follows {X} tries n : forall (L : list X) i g, sound g -> follows (shuffle_seeded tries L n i g) (fun later t => shuffle_loop later t L n i).
Proof.
  induction n as [|n IH]; intros L i g H; cbn [shuffle_seeded shuffle_loop]; [apply follows_ret; auto|].
  destruct (Nat.leb_spec (length L) i) as [Li|Li].
  - unfold randint. destruct (Z.ltb_spec 0 (Z.of_nat (length L) - 1 + 1 - Z.of_nat i)); [lia|]. cbn [bind]. exists []. reflexivity.
  - destruct (randint tries (Z.of_nat i) (Z.of_nat (length L) - 1) g) as [[r g1]|e] eqn:E; cbn [bind].
    + apply randint_range in E as [R S1]; [|exact H]. set (d := Z.to_nat r - i).
      assert (Hd : i + d mod (length L - i) = Z.to_nat r). { unfold d. rewrite Nat.mod_small by lia. lia. }
      specialize (fun L' => IH L' (i + 1) g1 S1).
      assert (G : forall (f : list X -> res (list X * rng)) F, (forall L', follows (f L') (fun later t => F later t L')) ->
        follows (let! v := index L (Z.to_nat r) in let! w := index L i in f (upd (upd L (Z.to_nat r) w) i v))
          (fun later t => let! v := index L (i + later t mod (length L - i)) in let! w := index L i in F later (t + 1) (upd (upd L (i + later t mod (length L - i)) w) i v))).
      { intros f F K. destruct (index L (Z.to_nat r)) as [v|e] eqn:Ev; cbn [bind].
        - destruct (index L i) as [w|e] eqn:Ew; cbn [bind].
          + specialize (K (upd (upd L (Z.to_nat r) w) i v)). destruct (f _) as [[x g']|e].
            * destruct K as [S' (ds & K)]. split; [exact S'|]. exists (d :: ds). intros later t G. assert (E0 : later t = d) by (rewrite <- (Nat.add_0_r t); apply G; reflexivity).
              rewrite E0, Hd, Ev. cbn [bind]. rewrite K; [cbn [length]; f_equal; f_equal; lia|]. intros m d' Em. rewrite <- Nat.add_assoc. apply G. exact Em.
            * destruct e; try exact Logic.I; destruct K as (ds & K); exists (d :: ds); intros later t G;
                (assert (E0 : later t = d) by (rewrite <- (Nat.add_0_r t); apply G; reflexivity)); rewrite E0, Hd, Ev; cbn [bind]; apply K; intros m d' Em; rewrite <- Nat.add_assoc; apply G; exact Em.
          + unfold index in Ew. destruct (nth_error L i) eqn:En; [discriminate|]. apply nth_error_None in En. lia.
        - unfold index in Ev. destruct (nth_error L (Z.to_nat r)) eqn:En; [discriminate|]. apply nth_error_None in En. lia. }
      apply (G (fun L' => shuffle_seeded tries L' n (i + 1) g1) (fun later t L' => shuffle_loop later t L' n (i + 1)) IH).
    + unfold randint in E. destruct (Z.ltb_spec 0 (Z.of_nat (length L) - 1 + 1 - Z.of_nat i)); [|lia].
      pose proof (randbelow_spec tries (Z.to_N (Z.of_nat (length L) - 1 + 1 - Z.of_nat i)) g H) as R. destruct (randbelow tries _ g) as [[r g1]|e']; cbn [bind] in E; [discriminate|].
      injection E as <-. destruct R as [-> _]. exact Logic.I.
Qed.

Lemma sample_full_follows {X} tries (L : list X) k g : sound g -> follows (sample_full_seeded tries L k g) (fun later t => sample_full later t L k).
Proof.
  intros H. unfold sample_full_seeded, sample_full. destruct (Z.of_nat (length L) <=? k)%Z; [apply follows_ret; auto|].
  apply (follows_bind _ _ (fun '(L, g) => Ok (slice_to L k, g)) (fun later '(L, t) => Ok (slice_to L k, t))); [apply shuffle_follows, H|]. intros x g' H'. apply follows_ret; auto.
Qed.

Section Full.
Context {A : Type} `{EqDec A}.
Variable set_order : list nat -> list nat.
Variable similarity : A -> A -> Q.
Variable V : list A.

Lemma samplings_follow tries rhoK B : forall g, sound g -> follows (samplings_seeded tries rhoK B g) (fun later t => samplings later t rhoK B).
Proof.
  induction B as [|h B IH]; intros g Hg; cbn [samplings_seeded samplings]; [apply follows_ret; auto|].
  apply follows_bind.
  - unfold sampling_seeded, sampling. apply follows_bind; [apply sample_full_follows, Hg|]. intros x g' H'. apply follows_ret; auto.
  - intros [[h' o] n] g1 H1. apply follows_bind; [apply IH, H1|]. intros [[B' old] new] g2 H2. apply follows_ret; auto.
Qed.
Lemma join_follows tries rhoK old new Bc g i : sound g ->
  follows (join_seeded set_order similarity V tries rhoK old new (Bc, g) i) (fun later t => join_full set_order (heapreplace full_lt) similarity V later rhoK old new (Bc, t) i).
Proof.
  intros Hg. destruct Bc as [B c]. unfold join_seeded, join_full. apply follows_pure. intros o _. apply follows_pure. intros n _.
  apply follows_bind; [apply sample_full_follows, Hg|]. intros os g1 H1. apply follows_bind; [apply sample_full_follows, H1|]. intros ns g2 H2. cbn zeta.
  apply follows_pure. intros Bc _. apply follows_ret; auto.
Qed.
Lemma turn_follows tries rhoK B g : sound g ->
  follows (turn_seeded set_order similarity V tries rhoK B g) (fun later t => turn_full set_order (heapreplace full_lt) similarity V later t rhoK B).
Proof.
  intros Hg. unfold turn_seeded, turn_full. apply follows_bind; [apply samplings_follow, Hg|]. intros [[B' old] new] g1 H1. apply follows_foldM; [|exact H1].
  intros x g' y H'. apply join_follows, H'.
Qed.
Lemma descend_follows tries rhoK threshold turns : forall c B g, sound g -> match descend_seeded set_order similarity V tries turns rhoK threshold c B g with
  | Err OutOfFuel => True
  | r => exists ds, forall later t, agree later t ds -> descend_full set_order (heapreplace full_lt) similarity V later turns t rhoK threshold c B = r
  end.
Proof.
  induction turns as [|turns IH]; intros c B g Hg; cbn [descend_seeded descend_full]; [exact Logic.I|].
  destruct (Qle_bool threshold (inject_Z (Z.of_nat c))); [|exists []; reflexivity].
  pose proof (turn_follows tries rhoK B g Hg) as F. destruct (turn_seeded set_order similarity V tries rhoK B g) as [[[B' c'] g']|e]; cbn [bind].
  - destruct F as [S' (ds & F)]. specialize (IH c' B' g' S').
    destruct (descend_seeded set_order similarity V tries turns rhoK threshold c' B' g') as [out|e].
    + destruct IH as (ds' & IH). exists (ds ++ ds'). intros later t G. apply agree_app in G as [G1 G2]. rewrite (F _ _ G1). cbn [bind]. apply IH, G2.
    + destruct e; try exact Logic.I; destruct IH as (ds' & IH); exists (ds ++ ds'); intros later t G; apply agree_app in G as [G1 G2]; rewrite (F _ _ G1); cbn [bind]; apply IH, G2.
  - destruct e; try exact Logic.I; destruct F as (ds & F); exists ds; intros later t G; rewrite (F _ _ G); reflexivity.
Qed.

Lemma initial_full_follows tries fuel k items : forall g, V <> [] \/ items = [] -> sound g -> exists ds, Forall (fun d => d < length V) ds /\
  match initial_full_seeded set_order similarity V tries fuel k items g with
  | Ok (B, g') => sound g' /\ forall rest, initial_full set_order (heapify full_lt) similarity V (ds ++ rest) k items = Ok B
  | Err e => initial_full set_order (heapify full_lt) similarity V ds k items = Err e
  end.
Proof.
  induction items as [|i items IH]; intros g Hv H1; cbn [initial_full_seeded]; [exists []; split; [constructor|split; [exact H1|reflexivity]]|].
  destruct Hv as [Hv|Hv]; [|discriminate]. assert (HN : 0 < length V) by (destruct V; [contradiction|cbn; lia]).
  destruct (sample_seeded_is tries (length V) k i fuel [] g HN H1) as (ds & F & B). destruct (sample_seeded tries fuel (length V) k i [] g) as [[out g']|e]; cbn [bind].
  - destruct B as [S1 B]. destruct (IH g' (or_introl Hv) S1) as (ds2 & F2 & B2). exists (ds ++ ds2). split; [apply Forall_app; auto|].
    destruct (mapM _ (set_order out)) as [neighbors|e] eqn:M; cbn [bind].
    + destruct (initial_full_seeded set_order similarity V tries fuel k items g') as [[B' g2]|e]; cbn [bind].
      * destruct B2 as [S2 B2]. split; [exact S2|]. intros rest. cbn [initial_full]. rewrite <- app_assoc, B. cbn [bind]. rewrite M. cbn [bind]. rewrite B2. reflexivity.
      * cbn [initial_full]. rewrite B. cbn [bind]. rewrite M. cbn [bind]. rewrite B2. reflexivity.
    + cbn [initial_full]. rewrite B. cbn [bind]. rewrite M. reflexivity.
  - destruct B as [-> B]. exists ds. split; [exact F|]. cbn [initial_full]. rewrite B. reflexivity.
Qed.

Lemma agree_nth ds : agree (fun t => nth t ds 0) 0 ds.
Proof. intros n d E. cbn. apply nth_error_nth. exact E. Qed.
(** the exact products that the rounded ones are *)
Lemma exact_product q n : exists q', (q' * Qnat n == fmul q (Qnat n))%Q.
Proof.
  exists (fmul q (Qnat n) / Qnat n)%Q. destruct n as [|n].
  - unfold fmul. change (Qnat 0) with 0%Q. rewrite Qmult_0_r. rewrite (fl_comp _ 0%Q) by apply Qmult_0_r. rewrite fl_0. reflexivity.
  - field. intros E. unfold Qnat, Qeq in E. cbn in E. lia.
Qed.
Lemma descend_threshold set_order' replace sim V' later turns : forall t rhoK q q' c B, (q == q')%Q ->
  descend_full (A := A) set_order' replace sim V' later turns t rhoK q c B = descend_full set_order' replace sim V' later turns t rhoK q' c B.
Proof.
  induction turns as [|turns IH]; intros t rhoK q q' c B E; cbn [descend_full]; [reflexivity|].
  assert (L : Qle_bool q (inject_Z (Z.of_nat c)) = Qle_bool q' (inject_Z (Z.of_nat c))) by (rewrite E; reflexivity).
  rewrite L. destruct (Qle_bool q' _); [|reflexivity]. destruct (turn_full _ _ _ _ _ _ _ _) as [[[B' c'] t']|e]; cbn [bind]; [apply IH, E|reflexivity].
Qed.

Lemma descent_full_seeded_is tries fuel turns a k radius rho delta lo hi mode : let kk := match k with Some k => k | None => Nat.log2 (length V) end in
  descent_full_seeded set_order similarity V tries fuel turns a k radius rho delta lo hi mode <> Err OutOfFuel ->
  exists draws later rho' delta', Forall (fun d => d < length V) draws /\ (rho' * Qnat kk == fmul rho (Qnat kk))%Q /\ (delta' * Qnat (length V * kk) == fmul delta (Qnat (length V * kk)))%Q /\
  nn_descent_full_with set_order (heapify full_lt) (heapreplace full_lt) similarity V later turns draws k radius rho' delta' lo hi mode =
    descent_full_seeded set_order similarity V tries fuel turns a k radius rho delta lo hi mode.
Proof.
  intros kk N. destruct (exact_product rho kk) as (rho' & R). destruct (exact_product delta (length V * kk)) as (delta' & D).
  unfold descent_full_seeded, nn_descent_full_with in *. set (ko := match k with Some k => Ok k | None => _ end) in *.
  assert (K : match ko with Ok k' => k' = kk | Err _ => True end) by (unfold ko, kk; destruct k; [reflexivity|destruct V; [exact Logic.I|reflexivity]]). clearbody ko.
  destruct ko as [k'|e]; cbn [bind] in *; [subst k'|exists [], (fun _ => 0), rho', delta'; repeat split; auto].
  destruct (initial_full_follows tries fuel kk (seq 0 (length V)) (seed a)) as (ds & F & B); [destruct V; [right; reflexivity|left; discriminate]|apply sound_seed|].
  destruct (initial_full_seeded set_order similarity V tries fuel kk (seq 0 (length V)) (seed a)) as [[B0 g]|e]; cbn [bind] in *.
  - destruct B as [S1 B]. specialize (B []). rewrite app_nil_r in B.
    pose proof (descend_follows tries (towards_zero (fmul rho (Qnat kk))) (fmul delta (Qnat (length V * kk))) turns (length V * kk) B0 g S1) as G.
    assert (X : exists ds', forall later t, agree later t ds' -> descend_full set_order (heapreplace full_lt) similarity V later turns t (towards_zero (fmul rho (Qnat kk))) (fmul delta (Qnat (length V * kk))) (length V * kk) B0 =
      descend_seeded set_order similarity V tries turns (towards_zero (fmul rho (Qnat kk))) (fmul delta (Qnat (length V * kk))) (length V * kk) B0 g).
    { destruct (descend_seeded _ _ _ _ _ _ _ _ _ _) as [out|e]; [exact G|]. destruct e; try exact G. contradiction N. reflexivity. }
    destruct X as (ds' & X). exists ds, (fun t => nth t ds' 0), rho', delta'. split; [exact F|]. split; [exact R|]. split; [exact D|].
    rewrite B. cbn [bind]. fold (Qnat kk). fold (Qnat (length V * kk)). rewrite (NNDescentFullProofs.towards_zero_comp _ _ R). rewrite (descend_threshold _ _ _ _ _ _ _ _ _ _ _ _ D). rewrite X by apply agree_nth. reflexivity.
  - exists ds, (fun _ => 0), rho', delta'. split; [exact F|]. split; [exact R|]. split; [exact D|]. rewrite B. reflexivity.
Qed.
End Full.

(** ** more draws and more turns change nothing once there are enough *)
Lemma sample_loop_more k i rest : forall draws S, sample_loop draws k i S <> Err OutOfFuel ->
  sample_loop (draws ++ rest) k i S = match sample_loop draws k i S with Ok (out, remaining) => Ok (out, remaining ++ rest) | Err e => Err e end.
Proof.
  induction draws as [|r draws IH]; intros S; cbn [app sample_loop]; destruct (Nat.leb k (length S)) eqn:L.
  - intros _. cbn [app]. destruct rest; cbn [sample_loop]; rewrite L; reflexivity.
  - intros N. contradiction N. reflexivity.
  - reflexivity.
  - destruct (Nat.eqb r i); apply IH.
Qed.
Section More.
Context {A : Type} `{EqDec A}.
Variable set_order : list nat -> list nat.
Variable similarity : A -> A -> Q.
Variable V : list A.
Lemma initial_full_more heapify k rest items : forall draws, initial_full set_order heapify similarity V draws k items <> Err OutOfFuel ->
  initial_full set_order heapify similarity V (draws ++ rest) k items = initial_full set_order heapify similarity V draws k items.
Proof.
  induction items as [|i items IH]; intros draws N; cbn [initial_full] in *; [reflexivity|].
  assert (M : sample_loop draws k i [] <> Err OutOfFuel) by (intros M; rewrite M in N; contradiction N; reflexivity).
  rewrite (sample_loop_more k i rest draws [] M). destruct (sample_loop draws k i []) as [[out remaining]|e]; cbn [bind] in *; [|reflexivity].
  destruct (mapM _ (set_order out)) as [ns|e]; cbn [bind] in *; [|reflexivity]. rewrite IH; [reflexivity|]. intros M'. rewrite M' in N. contradiction N. reflexivity.
Qed.
Lemma descend_full_more replace later rhoK q extra fuel : forall t c B, descend_full set_order replace similarity V later fuel t rhoK q c B <> Err OutOfFuel ->
  descend_full set_order replace similarity V later (fuel + extra) t rhoK q c B = descend_full set_order replace similarity V later fuel t rhoK q c B.
Proof.
  induction fuel as [|fuel IH]; intros t c B N; cbn [descend_full Nat.add] in *; [contradiction N; reflexivity|].
  destruct (Qle_bool q (inject_Z (Z.of_nat c))); [|reflexivity]. destruct (turn_full _ _ _ _ _ _ _ _) as [[[B' c'] t']|e]; cbn [bind] in *; [apply IH, N|reflexivity].
Qed.
Lemma full_more heapify replace later fuel extra draws rest k radius rho delta lo hi mode :
  nn_descent_full_with set_order heapify replace similarity V later fuel draws k radius rho delta lo hi mode <> Err OutOfFuel ->
  nn_descent_full_with set_order heapify replace similarity V later (fuel + extra) (draws ++ rest) k radius rho delta lo hi mode =
  nn_descent_full_with set_order heapify replace similarity V later fuel draws k radius rho delta lo hi mode.
Proof.
  unfold nn_descent_full_with. destruct (match k with Some k => Ok k | None => _ end) as [k'|e]; cbn [bind]; [|reflexivity]. intros N.
  assert (M : initial_full set_order heapify similarity V draws k' (seq 0 (length V)) <> Err OutOfFuel) by (intros M; rewrite M in N; contradiction N; reflexivity).
  rewrite (initial_full_more heapify k' rest _ draws M). destruct (initial_full _ _ _ _ draws _ _) as [B|e]; cbn [bind] in *; [|reflexivity].
  rewrite descend_full_more; [reflexivity|]. intros M'. rewrite M' in N. contradiction N. reflexivity.
Qed.
End More.

Lemma nn_full_more {A} set_order (similarity distance : option (A -> A -> Q)) V heapify replace later fuel extra draws rest k radius rho delta lo hi mode :
  nn_descent_full set_order heapify replace similarity distance V fuel draws later k radius rho delta lo hi mode <> Err OutOfFuel ->
  nn_descent_full set_order heapify replace similarity distance V (fuel + extra) (draws ++ rest) later k radius rho delta lo hi mode =
  nn_descent_full set_order heapify replace similarity distance V fuel draws later k radius rho delta lo hi mode.
Proof. unfold nn_descent_full. destruct distance as [d|]; [apply full_more|]. destruct similarity as [s|]; [apply full_more|].
  unfold call_none. set (ko := match k with Some k => Ok k | None => _ end) in *. clearbody ko. destruct ko as [k'|e]; cbn [bind]; [|reflexivity].
  destruct (Nat.eqb (length V * k') 0); [apply full_more|]. intros N.
  assert (M : sample_loop draws k' 0 [] <> Err OutOfFuel) by (intros M; rewrite M in N; contradiction N; reflexivity).
  rewrite (sample_loop_more k' 0 rest draws [] M). destruct (sample_loop draws k' 0 []) as [[out remaining]|e]; reflexivity.
Qed.
Lemma exn_fuel (e : exn) : e = OutOfFuel \/ e <> OutOfFuel.
Proof. destruct e; auto; right; discriminate. Qed.
