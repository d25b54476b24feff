(** Proofs about the calls of the similarity by nn_descent. *)
From Coq Require Import QArith Qround String Permutation.
From Verif Require Import Base BaseFacts ClustersModel PairwiseModel PairwiseProofs LevModel GraphModel NNDescentModel NNDescentSpec
  NNDescentLocalSpec NNDescentProofs NNDescentLocalProofs CallsModel CallsSpec CallsProofs BlockingSpec BlockingProofs
  NNCallsModel NNCallsSpec.
Open Scope nat_scope.
Open Scope list_scope.
Notation length := List.length.
Notation concat := List.concat.

(** ** Programs whose calls do not depend on the answers *)
Lemma feed_app {Q B W} (f : @user Q B W) l l' : forall w, feed f w (l ++ l') =
  match feed f w l with
  | (answers, w', None) => let '(answers', w'', stop) := feed f w' l' in (answers ++ answers', w'', stop)
  | (answers, w', Some e) => (answers, w', Some e)
  end.
Proof.
  induction l as [|q l IH]; intros w; cbn [app feed].
  - destruct (feed f w l') as [[a w'] s]. reflexivity.
  - destruct (f w q) as [w1 [b|e]]; [|reflexivity]. rewrite IH. destruct (feed f w1 l) as [[a w'] [e|]]; [reflexivity|].
    destruct (feed f w' l') as [[a' w''] s]. reflexivity.
Qed.

Section Plan.
Context {Q B C W : Type}.
Variable f : @user Q B W.
Notation prog := (prog Q B C).

Definition plan {R} (p : prog R) (calls : list Q) (post : R -> Prop) : Prop := forall w, asks f w calls post (run f w p).

Lemma plan_ret {R} (r : R) (post : R -> Prop) : post r -> plan (Ret r) [] post.
Proof. intros P w. unfold asks. cbn. eauto. Qed.

Lemma plan_lift {R} (r : R) (post : R -> Prop) : post r -> plan (lift (Ok r)) [] post.
Proof. apply plan_ret. Qed.

Lemma plan_call {R} q (k : B -> prog R) (post : R -> Prop) calls : (forall b, plan (k b) calls post) -> plan (Call q k) (q :: calls) post.
Proof.
  intros P w. unfold asks. cbn [feed run]. destruct (f w q) as [w1 [b|e]]; [|reflexivity].
  specialize (P b w1). unfold asks in P. destruct (feed f w1 calls) as [[a w'] [e|]].
  - rewrite P. reflexivity.
  - destruct P as (r & -> & P). exists r. split; [reflexivity|exact P].
Qed.

Lemma plan_imp {R} (p : prog R) calls (post post' : R -> Prop) : (forall r, post r -> post' r) -> plan p calls post -> plan p calls post'.
Proof.
  intros I P w. specialize (P w). unfold asks in P |- *. destruct (feed f w calls) as [[a w'] [e|]]; [exact P|].
  destruct P as (r & E & P). eauto.
Qed.

Lemma plan_bind {R R'} (p : prog R) (k : R -> prog R') calls calls' (post : R -> Prop) (post' : R' -> Prop) :
  plan p calls post -> (forall r, post r -> plan (k r) calls' post') -> plan (pbind p k) (calls ++ calls') post'.
Proof.
  intros P K w. specialize (P w). unfold asks in P |- *. rewrite run_bind, feed_app. destruct (feed f w calls) as [[a w'] [e|]] eqn:E.
  - rewrite P. cbn [then_]. f_equal. f_equal. f_equal. apply feed_length in E.
    rewrite firstn_app. replace (S (length a) - length calls) with 0 by lia. cbn. rewrite app_nil_r. reflexivity.
  - destruct P as (r & -> & P). cbn [then_]. specialize (K r P w'). unfold asks in K. destruct (feed f w' calls') as [[a' w''] [e|]] eqn:E'.
    + rewrite K. cbn [then_]. rewrite <- map_app. f_equal. f_equal. f_equal. apply feed_length in E.
      rewrite app_length. replace (S (length a + length a')) with (length calls + S (length a')) by lia. rewrite firstn_app_2. reflexivity.
    + destruct K as (r' & -> & K). cbn. exists r'. split; [|exact K]. rewrite map_app. reflexivity.
Qed.

Lemma plan_nobind {R R'} (p : prog R) (k : R -> prog R') calls (post : R -> Prop) (post' : R' -> Prop) :
  plan p calls post -> (forall r, post r -> plan (k r) [] post') -> plan (pbind p k) calls post'.
Proof. intros P K. rewrite <- (app_nil_r calls). eapply plan_bind; eauto. Qed.

Lemma plan_for_each {X St} (inv : St -> Prop) (calls : X -> list Q) (body : St -> X -> prog St) l :
  (forall x st, In x l -> inv st -> plan (body st x) (calls x) inv) -> forall st, inv st -> plan (for_each l st body) (flat_map calls l) inv.
Proof.
  induction l as [|x l IH]; intros P st I; cbn [for_each flat_map]; [apply plan_ret; exact I|].
  eapply plan_bind; [apply P; [left; reflexivity|exact I]|]. intros st' I'. apply IH; [|exact I']. intros y st'' Hy. apply P. right. exact Hy.
Qed.

Lemma plan_pmap {X Y} (post : X -> Y -> Prop) (calls : X -> list Q) (g : X -> prog Y) l :
  (forall x, In x l -> plan (g x) (calls x) (post x)) -> plan (pmap l g) (flat_map calls l) (Forall2 post l).
Proof.
  induction l as [|x l IH]; intros P; cbn [pmap flat_map]; [apply plan_ret; constructor|].
  eapply plan_bind; [apply P; left; reflexivity|]. intros y Hy. eapply plan_nobind; [apply IH; intros z Hz; apply P; right; exact Hz|].
  intros ys Hys. apply plan_ret. constructor; assumption.
Qed.
End Plan.

Lemma Forall2_at {X Y} (P : X -> Y -> Prop) l l' i a b : Forall2 P l l' -> nth_error l i = Some a -> nth_error l' i = Some b -> P a b.
Proof.
  intros H. revert i. induction H as [|x y l l' Hxy _ IH]; intros [|i] Ha Hb; cbn in Ha, Hb; try discriminate; [congruence|eauto].
Qed.

Lemma Forall2_len {X Y} (P : X -> Y -> Prop) l l' : Forall2 P l l' -> length l = length l'.
Proof. induction 1; cbn; congruence. Qed.

Lemma enumerate_fst {X} (l : list X) : map fst (enumerate l) = seq 0 (length l).
Proof. unfold enumerate. apply map_fst_enum. Qed.

Lemma enumerate_at {X} (l : list X) i x : nth_error l i = Some x -> nth_error (enumerate l) i = Some (i, x).
Proof.
  intros E. assert (Hi : i < length l) by (apply nth_error_Some; congruence). unfold enumerate.
  rewrite (nth_error_nth' _ (0, x)) by (rewrite combine_length, seq_length; lia).
  rewrite combine_nth by apply seq_length. rewrite seq_nth by exact Hi. f_equal. f_equal. apply nth_error_nth. exact E.
Qed.

(** ** Sums *)
Lemma sum_cons x l : list_sum (x :: l) = x + list_sum l.
Proof. reflexivity. Qed.

Lemma list_sum_zero {X} (g : X -> nat) l : (forall x, In x l -> g x = 0) -> list_sum (map g l) = 0.
Proof. intros Z. induction l as [|x l IH]; [reflexivity|]. cbn [map]. rewrite sum_cons, (Z x (or_introl eq_refl)), IH; [reflexivity|]. intros y Hy. apply Z. right. exact Hy. Qed.

Lemma list_sum_const {X} (g : X -> nat) c l : (forall x, In x l -> g x = c) -> list_sum (map g l) = length l * c.
Proof.
  intros Z. induction l as [|x l IH]; [reflexivity|]. cbn [map]. rewrite sum_cons, (Z x (or_introl eq_refl)), IH; [reflexivity|]. intros y Hy. apply Z. right. exact Hy.
Qed.

Lemma list_sum_ext {X} (g g' : X -> nat) l : (forall x, In x l -> g x = g' x) -> list_sum (map g l) = list_sum (map g' l).
Proof. intros E. f_equal. apply map_ext_in. exact E. Qed.

Lemma list_sum_perm (l l' : list nat) : Permutation l l' -> list_sum l = list_sum l'.
Proof. induction 1; rewrite ?sum_cons in *; lia. Qed.

Lemma list_sum_add {X} (g g' : X -> nat) l : list_sum (map (fun x => g x + g' x) l) = list_sum (map g l) + list_sum (map g' l).
Proof. induction l as [|x l IH]; [reflexivity|]. cbn [map]. rewrite !sum_cons, IH. lia. Qed.

Lemma list_sum_swap {X Y} (g : X -> Y -> nat) l l' :
  list_sum (map (fun x => list_sum (map (g x) l')) l) = list_sum (map (fun y => list_sum (map (fun x => g x y) l)) l').
Proof.
  induction l as [|x l IH]; cbn [map]; [symmetry; apply list_sum_zero; reflexivity|]. rewrite sum_cons, IH, <- list_sum_add. reflexivity.
Qed.

Lemma list_sum_filter {X} (p : X -> bool) (g : X -> nat) l : list_sum (map g (filter p l)) = list_sum (map (fun x => if p x then g x else 0) l).
Proof. induction l as [|x l IH]; [reflexivity|]. cbn [map filter]. destruct (p x); cbn [map]; rewrite ?sum_cons, IH; reflexivity. Qed.

Lemma length_flat {X Y} (g : X -> list Y) l : length (flat_map g l) = list_sum (map (fun x => length (g x)) l).
Proof. induction l as [|x l IH]; [reflexivity|]. cbn [map flat_map]. rewrite app_length, sum_cons, IH. reflexivity. Qed.

Lemma count_flat {X Y} (dec : forall x y : Y, {x = y} + {x <> y}) (g : X -> list Y) l y :
  count_occ dec (flat_map g l) y = list_sum (map (fun x => count_occ dec (g x) y) l).
Proof. induction l as [|x l IH]; [reflexivity|]. cbn [map flat_map]. rewrite count_occ_app, sum_cons, IH. reflexivity. Qed.

Lemma memb_In {X} `{EqDec X} (x : X) l : memb x l = true <-> In x l.
Proof. unfold memb. destruct (in_dec eq_dec x l); split; intros; try tauto; discriminate. Qed.

Lemma sum_within (g : nat -> nat) n l : NoDup l -> (forall m, In m l -> m < n) ->
  list_sum (map g l) = list_sum (map (fun m => if memb m l then g m else 0) (seq 0 n)).
Proof.
  intros ND Hb. rewrite <- (list_sum_filter (fun m => memb m l)). apply list_sum_perm, Permutation_map. apply NoDup_Permutation; [exact ND|apply NoDup_filter, seq_NoDup|].
  intros m. rewrite filter_In, in_seq, memb_In. split; [|tauto]. intros Hm. specialize (Hb m Hm). split; [lia|exact Hm].
Qed.

(** ** The turns of nn_descent *)
Lemma at_cells_app {A} (V : list A) l l' : at_cells V (l ++ l') = at_cells V l ++ at_cells V l'.
Proof. unfold at_cells. apply flat_map_app. Qed.

Lemma at_cells_flat {A X} (V : list A) (g : X -> list (nat * nat)) l : at_cells V (flat_map g l) = flat_map (fun x => at_cells V (g x)) l.
Proof. induction l as [|x l IH]; [reflexivity|]. cbn [flat_map]. rewrite at_cells_app, IH. reflexivity. Qed.

Section Turns.
Context {A W : Type}.
Variable set_order : list nat -> list nat.
Hypothesis set_order_perm : forall l, Permutation (set_order l) l.
Variable neg : bool.
Variable V : list A.
Variable f : @user (A * A) Q W.
Notation N := (length V).

Lemma plan_ask i j : i < N -> j < N -> plan (C := list A) f (ask_at neg V i j) (at_cells V [(i, j)]) (fun _ => True).
Proof.
  intros Hi Hj. unfold ask_at, at_cells, index. cbn [flat_map fst snd].
  destruct (nth_error V i) as [x|] eqn:Ex; [|apply nth_error_None in Ex; lia]. destruct (nth_error V j) as [y|] eqn:Ey; [|apply nth_error_None in Ey; lia].
  cbn [lift pbind app]. apply plan_call. intros b. apply plan_ret. exact Logic.I.
Qed.

Variable heapify : list entry -> list entry.
Hypothesis heapify_perm : forall l, Permutation (heapify l) l.
Variable heapreplace : list entry -> entry -> list entry.
Hypothesis heapreplace_perm : forall e h x, Permutation (heapreplace (e :: h) x) (x :: h).
Notation candidates := (candidates set_order).

Definition row_ok (k i : nat) (h : list entry) : Prop := length h = k /\ forall s j, In (s, j) h -> j < N /\ i <> j.

Definition cell (i j : nat) : list (nat * nat) := if Nat.eqb i j then [] else [(i, j)].

Lemma plan_measure k i j h c : 0 < k -> i < N -> j < N -> row_ok k i h ->
  plan f (measure_prog neg V heapreplace i (h, c) j) (at_cells V (cell i j)) (fun hc => row_ok k i (fst hc)).
Proof.
  intros Hk Hi Hj [Hl Hh]. unfold measure_prog, cell. destruct (Nat.eqb_spec i j) as [->|Hij]; [apply plan_ret; split; assumption|].
  eapply plan_nobind; [apply plan_ask; assumption|]. intros s _. destruct h as [|[worst j'] h]; [cbn in Hl; lia|].
  destruct (Qle_bool s worst); apply plan_ret; cbn [fst]; [split; assumption|].
  pose proof (heapreplace_perm (worst, j') h (s, j)) as P. split; [rewrite (Permutation_length P); exact Hl|].
  intros s' j'' Hin. apply (Permutation_in _ P) in Hin. destruct Hin as [E|Hin]; [injection E as <- <-; split; assumption|]. apply (Hh s'). right. exact Hin.
Qed.

Definition row_cells (cand : nat -> list nat) (i : nat) : list (nat * nat) :=
  flat_map (fun ii => flat_map (cell i) (cand ii)) (cand i).

Lemma plan_improve k (cand : nat -> list nat) C i h : 0 < k \/ cand i = [] -> i < N -> (forall m, m < N -> nth m C [] = cand m) ->
  (forall m j, m < N -> In j (cand m) -> j < N) -> row_ok k i h ->
  plan f (improve_prog neg V heapreplace C i h) (at_cells V (row_cells cand i)) (fun hc => row_ok k i (fst hc)).
Proof.
  intros Hk Hi HC Hb Hh. unfold improve_prog, row_cells. rewrite (HC i Hi).
  destruct Hk as [Hk|E]; [|rewrite E; apply plan_ret; exact Hh].
  rewrite at_cells_flat. apply plan_for_each; [|exact Hh]. intros m [h' c] Hm I. assert (Hm' : m < N) by (eapply Hb; eassumption).
  rewrite (HC m Hm'), at_cells_flat. apply plan_for_each; [|exact I]. intros j [h'' c'] Hj I'. apply plan_measure; try assumption. eapply Hb; eassumption.
Qed.

Lemma shaped_row k B i h : shaped N k B -> In (i, h) (enumerate B) -> i < N /\ row_ok k i h.
Proof.
  intros [Hl Hs] Hin. apply In_enumerate in Hin. assert (Hi : i < N) by (rewrite <- Hl; apply nth_error_Some; congruence).
  split; [exact Hi|]. rewrite <- (nth_error_nth _ _ [] Hin). apply Hs. exact Hi.
Qed.

Lemma related_sym B i j : related B i j <-> related B j i.
Proof. unfold related. split; intros [s [X|X]]; exists s; tauto. Qed.

Lemma related_shaped k B i j : shaped N k B -> related B i j -> i < N /\ j < N /\ i <> j /\ 0 < k.
Proof.
  clear heapify heapify_perm heapreplace heapreplace_perm set_order set_order_perm f neg W.
  intros [Hl Hs] (s & H). assert (X : forall a b, In (s, b) (nth a B []) -> a < N /\ b < N /\ a <> b /\ 0 < k).
  { intros a b Hin. assert (Ha : a < N) by (destruct (Nat.lt_ge_cases a N); [assumption|rewrite nth_overflow in Hin by lia; contradiction]).
    destruct (Hs a Ha) as [H1 H2]. destruct (H2 s b Hin). repeat split; try assumption. destruct (nth a B []); [contradiction|cbn in H1; lia]. }
  destruct H as [H|H]; destruct (X _ _ H) as (? & ? & ? & ?); auto.
Qed.

Lemma candidates_related k B i j : shaped N k B -> i < N -> (In j (candidates B i) <-> related B i j).
Proof. intros [Hl _] Hi. apply (related_candidates set_order set_order_perm V); assumption. Qed.

Lemma candidates_NoDup B i : NoDup (candidates B i).
Proof.
  unfold NNDescentModel.candidates. eapply Permutation_NoDup; [apply Permutation_sym, set_order_perm|]. apply fold_sadd_NoDup, set_of_NoDup.
Qed.

Definition two_steps (B : list (list entry)) : list (nat * nat) := flat_map (row_cells (candidates B)) (seq 0 N).

Lemma plan_turn k B : shaped N k B ->
  plan f (turn_prog set_order neg V heapreplace B) (at_cells V (two_steps B)) (fun Bc => shaped N k (fst Bc)).
Proof.
  clear heapify heapify_perm.
  intros HS. unfold turn_prog, two_steps. eapply plan_nobind.
  - assert (E : at_cells V (flat_map (row_cells (candidates B)) (seq 0 N)) =
      flat_map (fun ih : nat * list entry => at_cells V (row_cells (candidates B) (fst ih))) (enumerate B)).
    { rewrite at_cells_flat. replace (seq 0 N) with (map fst (enumerate B)); [rewrite !flat_map_concat_map, map_map; reflexivity|].
      rewrite enumerate_fst. destruct HS as [Hl _]. rewrite Hl. reflexivity. }
    rewrite E. apply (plan_pmap f (fun ih hc => row_ok k (fst ih) (fst hc))). intros [i h] Hin. destruct (shaped_row k B i h HS Hin) as [Hi Hr]. cbn [fst].
    apply plan_improve with (k := k); try assumption.
    + destruct (candidates B i) as [|j l] eqn:Ec; [right; reflexivity|left].
      assert (R : related B i j) by (apply (candidates_related k); [exact HS|exact Hi|rewrite Ec; left; reflexivity]). apply (related_shaped k) in R; [tauto|exact HS].
    + intros m Hm. rewrite (nth_indep _ [] (candidates B 0)) by (rewrite map_length, seq_length; exact Hm). rewrite map_nth, seq_nth by exact Hm. reflexivity.
    + intros m j Hm Hj. apply (candidates_related k) in Hj; [|exact HS|exact Hm]. apply (related_shaped k) in Hj; [tauto|exact HS].
  - intros hcs Hf. apply plan_ret. cbn [fst]. destruct HS as [Hl HS]. assert (Ll : length hcs = N).
    { rewrite <- (Forall2_len _ _ _ Hf), <- Hl. rewrite <- (map_length fst), enumerate_fst. apply seq_length. }
    split; [rewrite map_length; exact Ll|]. intros i Hi.
    destruct (nth_error hcs i) as [hc|] eqn:Eh; [|apply nth_error_None in Eh; lia].
    rewrite (nth_error_nth (map fst hcs) i [] (map_nth_error fst i hcs Eh)).
    destruct (nth_error B i) as [h|] eqn:Eb; [|apply nth_error_None in Eb; lia].
    exact (Forall2_at _ _ _ i _ _ Hf (enumerate_at B i h Eb) Eh).
Qed.

(** ** The pairs of a turn *)
Lemma two_steps_in k B i j : shaped N k B -> (In (i, j) (two_steps B) <-> i <> j /\ exists m, related B i m /\ related B m j).
Proof.
  clear heapify heapify_perm.
  intros HS. unfold two_steps, row_cells. rewrite in_flat_map. split.
  - intros (i' & Hi & Hin). apply in_flat_map in Hin as (m & Hm & Hin). apply in_flat_map in Hin as (j' & Hj & Hin). unfold cell in Hin.
    destruct (Nat.eqb_spec i' j'); [contradiction|]. destruct Hin as [E|[]]. injection E as -> ->. split; [assumption|]. exists m. apply in_seq in Hi.
    apply (candidates_related k) in Hm; [|exact HS|lia]. split; [exact Hm|]. apply (related_shaped k) in Hm; [|exact HS].
    apply (candidates_related k) in Hj; [exact Hj|exact HS|tauto].
  - intros (Hij & m & H1 & H2). exists i. pose proof (related_shaped k B _ _ HS H1). split; [apply in_seq; lia|].
    apply in_flat_map. exists m. split; [apply (candidates_related k); [exact HS|lia|exact H1]|]. apply in_flat_map. exists j.
    split; [apply (candidates_related k); [exact HS|lia|exact H2]|]. unfold cell. destruct (Nat.eqb_spec i j); [contradiction|left; reflexivity].
Qed.

Lemma count_cells (dec : forall x y : nat * nat, {x = y} + {x <> y}) i i' j l : NoDup l ->
  count_occ dec (flat_map (cell i') l) (i, j) = if Nat.eqb i' i && negb (Nat.eqb i j) && memb j l then 1 else 0.
Proof.
  intros ND. induction ND as [|x l Hx ND IH]; cbn [flat_map].
  - cbn. rewrite Bool.andb_false_r. reflexivity.
  - rewrite count_occ_app, IH. clear IH.
    assert (M : memb j (x :: l) = Nat.eqb x j || memb j l).
    { apply Bool.eq_true_iff_eq. rewrite Bool.orb_true_iff, !memb_In, Nat.eqb_eq. cbn. tauto. }
    rewrite M. unfold cell. destruct (Nat.eqb_spec i' i) as [->|Hi]; cbn [andb].
    + destruct (Nat.eqb_spec i j) as [->|Hij]; cbn [negb andb].
      * destruct (Nat.eqb_spec j x); cbn; [reflexivity|]. destruct (dec (j, x) (j, j)) as [E|]; [injection E as ->; congruence|reflexivity].
      * destruct (Nat.eqb_spec x j) as [->|Hxj]; cbn [orb].
        -- destruct (Nat.eqb_spec i j); [contradiction|]. cbn [count_occ]. destruct (dec (i, j) (i, j)); [|congruence].
           destruct (memb j l) eqn:E; [apply memb_In in E; contradiction|reflexivity].
        -- destruct (Nat.eqb_spec i x); cbn [count_occ]; [reflexivity|]. destruct (dec (i, x) (i, j)) as [E|]; [injection E as ->; congruence|reflexivity].
    + destruct (Nat.eqb_spec i' x); cbn [count_occ]; [reflexivity|]. destruct (dec (i', x) (i, j)) as [E|]; [injection E as -> ->; congruence|reflexivity].
Qed.

Lemma two_steps_times k B (dec : forall x y : nat * nat, {x = y} + {x <> y}) i j times : shaped N k B -> i <> j ->
  card (fun m => related B i m /\ related B m j) times -> count_occ dec (two_steps B) (i, j) = times.
Proof.
  clear heapify heapify_perm.
  intros HS Hij (l & NDl & Hl & <-). unfold two_steps. rewrite count_flat.
  destruct (Nat.lt_ge_cases i N) as [Hi|Hi].
  - assert (E : list_sum (map (fun x => count_occ dec (row_cells (candidates B) x) (i, j)) (seq 0 N)) =
      list_sum (map (fun x => if Nat.eqb i x then length l else 0) (seq 0 N))).
    { apply list_sum_ext. intros x Hx. unfold row_cells. rewrite count_flat. destruct (Nat.eqb_spec i x) as [<-|Hx'].
      - rewrite (list_sum_ext _ (fun m => if memb j (candidates B m) then 1 else 0)).
        2:{ intros m Hm. rewrite count_cells by apply candidates_NoDup. rewrite Nat.eqb_refl. destruct (Nat.eqb_spec i j); [contradiction|]. reflexivity. }
        rewrite <- (list_sum_filter (fun m => memb j (candidates B m)) (fun _ => 1)), (list_sum_const _ 1) by reflexivity. rewrite Nat.mul_1_r.
        apply Permutation_length. apply NoDup_Permutation; [apply NoDup_filter, candidates_NoDup|exact NDl|].
        intros m. rewrite filter_In, memb_In, Hl, (candidates_related k B i m HS Hi). split; intros [H1 H2]; (split; [exact H1|]).
        + apply (candidates_related k B m j HS); [|exact H2]. apply (related_shaped k) in H1; [tauto|exact HS].
        + apply (candidates_related k B m j HS); [|exact H2]. apply (related_shaped k) in H1; [tauto|exact HS].
      - apply list_sum_zero. intros m Hm. rewrite count_cells by apply candidates_NoDup. destruct (Nat.eqb_spec x i); [congruence|reflexivity]. }
    rewrite E, <- (list_sum_filter (Nat.eqb i) (fun _ => length l)).
    rewrite (list_sum_const _ (length l)) by reflexivity.
    assert (F : length (filter (Nat.eqb i) (seq 0 N)) = length [i]); [|rewrite F; cbn; lia].
    apply Permutation_length. apply NoDup_Permutation; [apply NoDup_filter, seq_NoDup|repeat constructor; intros []|].
    intros x. rewrite filter_In, in_seq, Nat.eqb_eq. cbn. split; [intros [_ <-]; left; reflexivity|]. intros [<-|[]]. split; [lia|reflexivity].
  - rewrite list_sum_zero.
    + destruct l as [|m l]; [reflexivity|]. destruct (proj1 (Hl m) (or_introl eq_refl)) as [H1 _]. apply (related_shaped k) in H1; [lia|exact HS].
    + intros x Hx. apply in_seq in Hx. unfold row_cells. rewrite count_flat. apply list_sum_zero. intros m Hm. rewrite count_cells by apply candidates_NoDup.
      destruct (Nat.eqb_spec x i); [lia|reflexivity].
Qed.

Lemma length_cells_other i l : NoDup l -> In i l -> length (flat_map (cell i) l) = length l - 1.
Proof.
  intros ND Hi. induction ND as [|x l Hx ND IH]; [contradiction|]. cbn [flat_map]. rewrite app_length. unfold cell at 1.
  destruct (Nat.eqb_spec i x) as [<-|Hix].
  - cbn. rewrite length_flat. rewrite (list_sum_const _ 1); [lia|]. intros y Hy. unfold cell. destruct (Nat.eqb_spec i y) as [<-|]; [contradiction|reflexivity].
  - destruct Hi as [->|Hi]; [congruence|]. rewrite (IH Hi). cbn. destruct l; [contradiction|cbn; lia].
Qed.

Lemma degree_candidates k B m d : shaped N k B -> m < N -> card (related B m) d -> length (candidates B m) = d.
Proof.
  intros HS Hm (l & NDl & Hl & <-). apply Permutation_length. apply NoDup_Permutation; [apply candidates_NoDup|exact NDl|].
  intros j. rewrite Hl. apply (candidates_related k); assumption.
Qed.

Lemma two_steps_number k B degree : shaped N k B -> (forall m, m < N -> card (related B m) (degree m)) ->
  length (two_steps B) = list_sum (map (fun m => degree m * (degree m - 1)) (seq 0 N)).
Proof.
  clear heapify heapify_perm.
  intros HS Hd. unfold two_steps. rewrite length_flat.
  transitivity (list_sum (map (fun i => list_sum (map (fun m => if memb m (candidates B i) then degree m - 1 else 0) (seq 0 N))) (seq 0 N))).
  - apply list_sum_ext. intros i Hi. apply in_seq in Hi. unfold row_cells. rewrite length_flat.
    rewrite <- (sum_within (fun m => degree m - 1)).
    + apply list_sum_ext. intros m Hm. apply (candidates_related k B i m HS) in Hm; [|lia]. pose proof (related_shaped k B _ _ HS Hm).
      rewrite length_cells_other; [|apply candidates_NoDup|].
      * rewrite (degree_candidates k B m (degree m) HS); [reflexivity|lia|]. apply Hd. lia.
      * apply (candidates_related k B m i HS); [lia|]. apply related_sym. exact Hm.
    + apply candidates_NoDup.
    + intros m Hm. apply (candidates_related k B i m HS) in Hm; [|lia]. apply (related_shaped k) in Hm; [tauto|exact HS].
  - rewrite list_sum_swap. apply list_sum_ext. intros m Hm. apply in_seq in Hm.
    rewrite (list_sum_ext _ (fun i => if memb i (candidates B m) then degree m - 1 else 0)).
    + rewrite <- (list_sum_filter (fun i => memb i (candidates B m)) (fun _ => degree m - 1)), (list_sum_const _ (degree m - 1)) by reflexivity. f_equal.
      rewrite <- (degree_candidates k B m (degree m) HS); [|lia|apply Hd; lia]. apply Permutation_length.
      apply NoDup_Permutation; [apply NoDup_filter, seq_NoDup|apply candidates_NoDup|]. intros i. rewrite filter_In, memb_In, in_seq. split; [tauto|].
      intros Hi. split; [|exact Hi]. apply (candidates_related k B m i HS) in Hi; [|lia]. apply (related_shaped k) in Hi; [lia|exact HS].
    + intros i Hi. apply in_seq in Hi. replace (memb m (candidates B i)) with (memb i (candidates B m)); [reflexivity|].
      apply Bool.eq_true_iff_eq. rewrite !memb_In, (candidates_related k B i m HS), (candidates_related k B m i HS) by lia. apply related_sym.
Qed.

Lemma two_steps_round k B : shaped N k B -> round_cells N B (two_steps B).
Proof.
  clear heapify heapify_perm.
  intros HS. split.
  - intros i j. apply (two_steps_in k). exact HS.
  - intros dec i j times. apply (two_steps_times k). exact HS.
  - intros degree. apply (two_steps_number k). exact HS.
Qed.

Lemma turn_any k B w : shaped N k B ->
  exists cells, round_cells N B cells /\
    asks f w (at_cells V cells) (fun Bc => shaped N k (fst Bc)) (run f w (turn_prog set_order neg V heapreplace B)).
Proof.
  clear heapify heapify_perm. intros HS. exists (two_steps B). split; [apply (two_steps_round k); exact HS|]. apply plan_turn. exact HS. Qed.

(** ** The whole of nn_descent *)
Lemma asks_any {C R} (calls : list (A * A)) (post : R -> Prop) w (t : list (event (A * A) C)) w' o : asks f w calls post (t, w', o) ->
  exists n, t = map Asked (firstn n calls) /\ match o with Ok r => firstn n calls = calls /\ post r | Err e => exists w0 q w1, f w0 q = (w1, Err e) end.
Proof.
  unfold asks. assert (G : forall l w answers w' stop, feed f w l = (answers, w', Some stop) -> exists w0 q w1, f w0 q = (w1, Err stop)).
  { induction l as [|q l IH]; intros w1 answers w2 stop E; cbn in E; [discriminate|]. destruct (f w1 q) as [w3 [b|e]] eqn:Ef.
    - destruct (feed f w3 l) as [[a w4] s] eqn:E'. injection E as <- <- ->. eapply IH. exact E'.
    - injection E as <- <- <-. eauto. }
  destruct (feed f w calls) as [[a w1] [e|]] eqn:E.
  - intros X. injection X as -> -> ->. exists (S (length a)). split; [reflexivity|]. eapply G. exact E.
  - intros (r & X & P). injection X as -> -> ->. exists (length calls). rewrite firstn_all. auto.
Qed.

Lemma at_cells_others cells : (forall i j, In (i, j) cells -> i <> j) -> Forall (of_others V) (at_cells V cells).
Proof.
  intros H. apply Forall_forall. intros [x y] Hin. unfold at_cells in Hin. apply in_flat_map in Hin as ([i j] & Hij & Hin). cbn [fst snd] in Hin.
  destruct (nth_error V i) eqn:Ei; [|contradiction]. destruct (nth_error V j) eqn:Ej; [|contradiction]. destruct Hin as [E|[]]. injection E as -> ->.
  exists i, j. split; [apply H; exact Hij|]. split; assumption.
Qed.

Lemma Forall_firstn {X} (P : X -> Prop) n l : Forall P l -> Forall P (firstn n l).
Proof. intros H. revert n. induction H; intros [|n]; cbn; constructor; auto. Qed.

Definition sample_of (k i : nat) (S : list nat) : Prop := NoDup S /\ length S = k /\ forall j, In j S -> j < N /\ i <> j.
Definition spread (items : list nat) (samples : list (list nat)) : list (nat * nat) := flat_map (fun iS => map (pair (fst iS)) (snd iS)) (combine items samples).

Lemma initial_any k : forall items draws w t w' o, (forall r, In r draws -> r < N) -> (forall i, In i items -> i < N) ->
  run f w (initial_prog set_order neg V heapify draws k items) = (t, w', o) ->
  exists calls, t = map Asked calls /\ Forall (of_others V) calls /\
    match o with
    | Ok B => exists samples, Forall2 (sample_of k) items samples /\ calls = at_cells V (spread items samples) /\
                Forall2 (fun S h => Permutation (map snd h) S) samples B
    | Err e => e = OutOfFuel \/ exists w0 q w1, f w0 q = (w1, Err e)
    end.
Proof.
  induction items as [|i items IH]; intros draws w t w' o D I E; cbn [initial_prog] in E.
  - cbn in E. injection E as <- <- <-. exists []. split; [reflexivity|]. split; [constructor|]. exists []. repeat constructor.
  - rewrite run_bind, run_lift in E. destruct (sample_loop draws k i []) as [[S draws']|e] eqn:Es.
    2:{ cbn in E. injection E as <- <- <-. exists []. split; [reflexivity|]. split; [constructor|]. left.
        clear -Es. revert Es. generalize (@nil nat). induction draws as [|r draws IH]; intros S Es; cbn in Es; destruct (Nat.leb k (length S)); try discriminate.
        - congruence.
        - destruct (Nat.eqb r i); eapply IH; exact Es. }
    destruct (sample_ok k i draws [] S draws') as (A1 & A2 & A3 & A4 & used & Eu); auto; [constructor|cbn; lia|].
    cbn [then_] in E. rewrite run_bind in E.
    assert (HS : sample_of k i (set_order S)).
    { pose proof (set_order_perm S) as P. split; [eapply Permutation_NoDup; [apply Permutation_sym; exact P|exact A1]|]. split; [rewrite (Permutation_length P); exact A3|].
      intros j Hj. apply (Permutation_in _ P) in Hj. split; [destruct (A4 j Hj) as [[]|X]; auto|intros ->; auto]. }
    assert (Pl : plan (C := list A) f (pmap (set_order S) (fun j => do s <- ask_at neg V i j; Ret (s, j))) (at_cells V (map (pair i) (set_order S)))
                  (Forall2 (fun j (e : entry) => snd e = j) (set_order S))).
    { replace (at_cells V (map (pair i) (set_order S))) with (flat_map (fun j => at_cells V [(i, j)]) (set_order S)).
      - apply plan_pmap. intros j Hj. destruct HS as (_ & _ & HS). eapply plan_nobind; [apply plan_ask; [apply I; left; reflexivity|apply HS; exact Hj]|].
        intros s _. apply plan_ret. reflexivity.
      - clear. induction (set_order S) as [|x l IH]; [reflexivity|]. cbn [map flat_map]. rewrite IH. symmetry. apply (at_cells_app V [(i, x)]). }
    specialize (Pl w). destruct (run f w (pmap (set_order S) _)) as [[t1 w1] o1] eqn:E1. apply asks_any in Pl. destruct Pl as (n & -> & Ho1).
    assert (Fo : Forall (of_others V) (at_cells V (map (pair i) (set_order S)))).
    { apply at_cells_others. intros a b Hab. apply in_map_iff in Hab as (j & Ej & Hj). injection Ej as <- <-. destruct HS as (_ & _ & HS). apply HS. exact Hj. }
    destruct o1 as [neighbors|e].
    + destruct Ho1 as [Hf Hn]. rewrite Hf in E. cbn [then_] in E. rewrite run_bind in E. destruct (run f w1 (initial_prog _ _ _ _ draws' k items)) as [[t2 w2] o2] eqn:E2.
      destruct (IH draws' w1 t2 w2 o2) as (calls & -> & Fc & Ho2); [intros r Hr; apply D; rewrite Eu; apply in_or_app; right; exact Hr|intros j Hj; apply I; right; exact Hj|exact E2|].
      exists (at_cells V (map (pair i) (set_order S)) ++ calls). destruct o2 as [B|e].
      * cbn in E. injection E as <- <- <-. rewrite app_nil_r, map_app. split; [reflexivity|]. split; [apply Forall_app; split; assumption|].
        destruct Ho2 as (samples & F1 & -> & F2). exists (set_order S :: samples). split; [constructor; assumption|]. split.
        { unfold spread. cbn [combine flat_map fst snd]. rewrite at_cells_app. reflexivity. }
        constructor; [|exact F2]. rewrite heapify_perm. replace (map snd neighbors) with (set_order S); [reflexivity|].
        clear -Hn. induction Hn as [|j e l l' E _ IH]; [reflexivity|]. cbn. congruence.
      * cbn in E. injection E as <- <- <-. rewrite map_app. split; [reflexivity|]. split; [apply Forall_app; split; assumption|]. exact Ho2.
    + cbn in E. injection E as <- <- <-. eexists. split; [reflexivity|]. split; [apply Forall_firstn; exact Fo|]. right. exact Ho1.
Qed.

Lemma descend_any k : forall fuel B w t w' o, shaped N k B ->
  run f w (descend_prog set_order neg V heapreplace fuel B) = (t, w', o) ->
  exists calls, t = map Asked calls /\ Forall (of_others V) calls /\
    match o with
    | Ok B' => shaped N k B' /\ exists Bs rounds, Forall2 (round_cells N) (B :: Bs) rounds /\ Forall (shaped N k) Bs /\
                 calls = at_cells V (concat rounds) /\ length rounds <= fuel
    | Err e => e = OutOfFuel \/ exists w0 q w1, f w0 q = (w1, Err e)
    end.
Proof.
  clear heapify heapify_perm.
  induction fuel as [|fuel IH]; intros B w t w' o HS E; cbn [descend_prog] in E.
  - cbn in E. injection E as <- <- <-. exists []. split; [reflexivity|]. split; [constructor|]. left. reflexivity.
  - rewrite run_bind in E. destruct (turn_any k B w HS) as (cells & Hr & Hp). destruct (run f w (turn_prog set_order neg V heapreplace B)) as [[t1 w1] o1] eqn:E1.
    apply asks_any in Hp. destruct Hp as (n & -> & Ho).
    assert (Fo : Forall (of_others V) (at_cells V cells)) by (apply at_cells_others; intros i j Hij; apply (round_in _ _ _ Hr) in Hij; tauto).
    destruct o1 as [[B1 c]|e].
    + destruct Ho as [Hf HS1]. rewrite Hf in E. cbn [fst then_] in *. destruct (Nat.eqb c 0).
      * cbn in E. injection E as <- <- <-. rewrite app_nil_r. exists (at_cells V cells). split; [reflexivity|]. split; [exact Fo|]. split; [exact HS1|].
        exists [], [cells]. split; [constructor; [exact Hr|constructor]|]. split; [constructor|]. cbn. rewrite app_nil_r. split; [reflexivity|lia].
      * destruct (run f w1 (descend_prog _ _ _ _ fuel B1)) as [[t2 w2] o2] eqn:E2. injection E as <- <- <-.
        destruct (IH B1 w1 t2 w2 o2 HS1 E2) as (calls & -> & Fc & Ho2). exists (at_cells V cells ++ calls). rewrite map_app. split; [reflexivity|].
        split; [apply Forall_app; split; assumption|]. destruct o2 as [B'|e]; [|exact Ho2].
        destruct Ho2 as (HS' & Bs & rounds & F1 & F2 & -> & L). split; [exact HS'|]. exists (B1 :: Bs), (cells :: rounds). split; [constructor; assumption|].
        split; [constructor; assumption|]. cbn [concat length]. rewrite at_cells_app. split; [reflexivity|lia].
    + cbn in E. injection E as <- <- <-. eexists. split; [reflexivity|]. split; [apply Forall_firstn; exact Fo|]. right. exact Ho.
Qed.

Lemma clusters_of_any links lo hi mode w t w' o : run f w (clusters_of set_order V links lo hi mode) = (t, w', o) ->
  w' = w /\ exists out, t = map Gave out /\ match o with
    | Ok _ => exists clusters, clusters_from_pairs set_order links lo hi mode true = Ok clusters /\ mapM (mapM (index V)) clusters = Ok out
    | Err e => out = [] /\ (let! clusters := clusters_from_pairs set_order links lo hi mode true in mapM (mapM (index V)) clusters) = Err e
    end.
Proof.
  unfold clusters_of. rewrite run_bind, run_lift. destruct (clusters_from_pairs set_order links lo hi mode true) as [clusters|e]; cbn [then_].
  - rewrite run_bind, run_lift. destruct (mapM (mapM (index V)) clusters) as [out|e] eqn:Em; cbn [then_ app bind].
    + rewrite run_yields. intros X. injection X as <- <- <-. split; [reflexivity|]. exists out. split; [reflexivity|]. eauto.
    + intros X. injection X as <- <- <-. split; [reflexivity|]. exists []. auto.
  - intros X. injection X as <- <- <-. split; [reflexivity|]. exists []. auto.
Qed.

Lemma spread_in items samples i j : In (i, j) (spread items samples) <-> exists S, In (i, S) (combine items samples) /\ In j S.
Proof.
  unfold spread. rewrite in_flat_map. split.
  - intros ([i' S] & Hin & Hj). cbn [fst snd] in Hj. apply in_map_iff in Hj as (j' & E & Hj). injection E as <- <-. eauto.
  - intros (S & Hin & Hj). exists (i, S). split; [exact Hin|]. cbn. apply in_map. exact Hj.
Qed.

Lemma samples_first k samples : Forall2 (sample_of k) (seq 0 N) samples -> first_cells N k (spread (seq 0 N) samples).
Proof.
  clear heapify heapify_perm heapreplace heapreplace_perm set_order set_order_perm f neg W.
  intros F. pose proof (Forall2_len _ _ _ F) as L. rewrite seq_length in L.
  assert (G : forall i S, In (i, S) (combine (seq 0 N) samples) <-> nth_error samples i = Some S).
  { intros i S. change (combine (seq 0 N) samples) with (combine (seq 0 N) samples). rewrite L. apply In_enumerate. }
  assert (H : forall i S, nth_error samples i = Some S -> i < N /\ sample_of k i S).
  { intros i S E. assert (Hi : i < N) by (rewrite L; apply nth_error_Some; congruence). split; [exact Hi|].
    eapply (Forall2_at _ _ _ i i S F); [|exact E]. rewrite (nth_error_nth' _ 0) by (rewrite seq_length; exact Hi). rewrite seq_nth by exact Hi. reflexivity. }
  assert (Nb : forall items ss, NoDup items -> Forall2 (sample_of k) items ss -> NoDup (spread items ss) /\ length (spread items ss) = length items * k).
  { intros items ss ND F'. induction F' as [|i S items ss HS F' IH]; [split; [constructor|reflexivity]|]. inversion ND as [|? ? Hi ND']; subst.
    destruct (IH ND') as [I1 I2]. unfold spread in *. cbn [combine flat_map fst snd length]. destruct HS as (N1 & <- & N3). split.
    - apply NoDup_app_iff. split; [apply FinFun.Injective_map_NoDup; [intros a b E; congruence|exact N1]|]. split; [exact I1|].
      intros [i' j] H1 H2. apply in_map_iff in H1 as (j' & E & _). injection E as <- <-. apply in_flat_map in H2 as ([i' S'] & H2 & H3).
      apply in_map_iff in H3 as (j'' & E & _). cbn [fst] in E. injection E as -> _. apply in_combine_l in H2. contradiction.
    - rewrite app_length, map_length, I2. lia. }
  destruct (Nb _ _ (seq_NoDup _ _) F) as [N1 N2]. split.
  - exact N1.
  - intros i j Hij. apply spread_in in Hij as (S & HS & Hj). apply G, H in HS. destruct HS as [Hi (_ & _ & HS)]. specialize (HS j Hj). tauto.
  - intros i Hi. destruct (nth_error samples i) as [S|] eqn:ES; [|apply nth_error_None in ES; lia]. exists S. destruct (H _ _ ES) as [_ (M1 & M2 & _)].
    split; [exact M1|]. split; [|exact M2]. intros j. rewrite spread_in. split; [intros Hj; exists S; split; [apply G; exact ES|exact Hj]|].
    intros (S' & HS' & Hj). apply G in HS'. congruence.
  - rewrite N2, seq_length. reflexivity.
Qed.

Lemma samples_shaped k samples B : Forall2 (sample_of k) (seq 0 N) samples -> Forall2 (fun S (h : list entry) => Permutation (map snd h) S) samples B ->
  shaped N k B /\ forall i j, (exists s, In (s, j) (nth i B [])) <-> In (i, j) (spread (seq 0 N) samples).
Proof.
  clear heapify heapify_perm heapreplace heapreplace_perm set_order set_order_perm f neg W.
  intros F F'. pose proof (Forall2_len _ _ _ F) as L. rewrite seq_length in L. pose proof (Forall2_len _ _ _ F') as L'.
  assert (G : forall i S, In (i, S) (combine (seq 0 N) samples) <-> nth_error samples i = Some S).
  { intros i S. rewrite L. apply In_enumerate. }
  assert (H : forall i, i < N -> exists S, nth_error samples i = Some S /\ sample_of k i S /\ Permutation (map snd (nth i B [])) S).
  { intros i Hi. destruct (nth_error samples i) as [S|] eqn:ES; [|apply nth_error_None in ES; lia]. exists S. split; [reflexivity|].
    destruct (nth_error B i) as [h|] eqn:Eh; [|apply nth_error_None in Eh; lia]. rewrite (nth_error_nth _ _ [] Eh). split.
    - eapply (Forall2_at _ _ _ i i S F); [|exact ES]. rewrite (nth_error_nth' _ 0) by (rewrite seq_length; exact Hi). rewrite seq_nth by exact Hi. reflexivity.
    - exact (Forall2_at _ _ _ i S h F' ES Eh). }
  split.
  - split; [lia|]. intros i Hi. destruct (H i Hi) as (S & _ & (M1 & M2 & M3) & P). split; [rewrite <- M2, <- (Permutation_length P), map_length; reflexivity|].
    intros s j Hin. apply M3. apply (Permutation_in _ P). apply (in_map snd) in Hin. exact Hin.
  - intros i j. rewrite spread_in. split.
    + intros (s & Hin). assert (Hi : i < N) by (destruct (Nat.lt_ge_cases i N); [assumption|rewrite nth_overflow in Hin by lia; contradiction]).
      destruct (H i Hi) as (S & ES & _ & P). exists S. split; [apply G; exact ES|]. apply (Permutation_in _ P). apply (in_map snd) in Hin. exact Hin.
    + intros (S & HS & Hj). apply G in HS. assert (Hi : i < N) by (rewrite L; apply nth_error_Some; congruence). destruct (H i Hi) as (S' & ES & _ & P).
      assert (S' = S) by congruence. subst S'. apply (Permutation_in _ (Permutation_sym P)) in Hj. apply in_map_iff in Hj as ([s j'] & <- & Hj). eauto.
Qed.

(** all that is known of a run with any function *)
Definition nn_calls (k : nat) (calls : list (A * A)) : Prop :=
  exists first B Bs rounds, first_cells N k first /\ (forall i j, (exists s, In (s, j) (nth i B [])) <-> In (i, j) first) /\
    Forall (shaped N k) (B :: Bs) /\ Forall2 (round_cells N) (B :: Bs) rounds /\ calls = at_cells V (first ++ concat rounds).

Lemma nn_any fuel draws k radius lo hi mode w t w' o : (forall r, In r draws -> r < N) ->
  run f w (nn_prog set_order neg V heapify heapreplace fuel draws k radius lo hi mode) = (t, w', o) ->
  exists calls out, t = map Asked calls ++ map Gave out /\ Forall (of_others V) calls /\
    match o with
    | Ok _ => nn_calls (match k with Some k => k | None => Nat.log2 N end) calls
    | Err e => out = []
    end.
Proof.
  intros D E. unfold nn_prog in E. rewrite run_bind, run_lift in E. destruct (choose_k V k) as [k'|e] eqn:Ek.
  2:{ cbn in E. injection E as <- <- <-. exists [], []. split; [reflexivity|]. split; [constructor|reflexivity]. }
  assert (Hk : match k with Some k => k | None => Nat.log2 N end = k') by (unfold choose_k in Ek; destruct k; [congruence|destruct V; [discriminate|congruence]]).
  rewrite Hk. clear Ek Hk k. rename k' into k. cbn [then_] in E. rewrite run_bind in E.
  destruct (run f w (initial_prog _ _ _ _ draws k (seq 0 N))) as [[t1 w1] o1] eqn:E1.
  destruct (initial_any k (seq 0 N) draws w t1 w1 o1 D) as (calls1 & -> & F1 & H1); [intros i Hi; apply in_seq in Hi; lia|exact E1|].
  destruct o1 as [B|e].
  2:{ cbn in E. injection E as <- <- <-. exists calls1, []. rewrite app_nil_r. auto. }
  destruct H1 as (samples & S1 & -> & S2). destruct (samples_shaped k samples B S1 S2) as [HS HB].
  cbn [then_] in E. rewrite run_bind in E.
  destruct (run f w1 (descend_prog _ _ _ _ fuel B)) as [[t2 w2] o2] eqn:E2.
  destruct (descend_any k fuel B w1 t2 w2 o2 HS E2) as (calls2 & -> & F2 & H2).
  destruct o2 as [B'|e].
  2:{ cbn in E. injection E as <- <- <-. exists (at_cells V (spread (seq 0 N) samples) ++ calls2), []. rewrite map_app, app_nil_r. split; [reflexivity|].
      split; [apply Forall_app; auto|reflexivity]. }
  cbn [then_] in E. destruct (run f w2 (clusters_of _ _ _ _ _ _)) as [[t3 w3] o3] eqn:E3. apply clusters_of_any in E3. destruct E3 as (-> & out & -> & H3).
  injection E as <- <- <-. exists (at_cells V (spread (seq 0 N) samples) ++ calls2), out. rewrite map_app, <- app_assoc. split; [reflexivity|].
  split; [apply Forall_app; auto|]. destruct o3; [|tauto]. destruct H2 as (_ & Bs & rounds & R1 & R2 & -> & _).
  exists (spread (seq 0 N) samples), B, Bs, rounds. split; [apply samples_first; exact S1|]. split; [exact HB|]. split; [constructor; assumption|].
  split; [exact R1|]. rewrite at_cells_app. reflexivity.
Qed.
End Turns.
