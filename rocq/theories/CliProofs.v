From Coq Require Import String Sorted Permutation.
From Verif Require Import Base BaseFacts LevModel StringsModel PhoneticsModel PairwiseModel GraphModel SortModel SortSpec SortFacts BlockingModel BlockingProofs CliModel CliSpec.
Open Scope nat_scope.
Open Scope list_scope.
Notation length := List.length.
Notation concat := List.concat.

(** * Lists *)
Lemma mapM_map {A B} (f : A -> res B) (g : A -> B) l : (forall x, In x l -> f x = Ok (g x)) -> mapM f l = Ok (map g l).
Proof.
  induction l as [|x l IH]; intros H; cbn [mapM map]; [reflexivity|]. rewrite (H x (or_introl eq_refl)). cbn [bind].
  rewrite IH; [reflexivity|]. intros y Hy. apply H. right. exact Hy.
Qed.

Lemma set_nth_length {A} i (x : A) l : length (set_nth i x l) = length l.
Proof. revert i; induction l as [|y l IH]; intros [|i]; cbn; auto. Qed.

Lemma set_nth_same {A} i (x : A) l : i < length l -> nth_error (set_nth i x l) i = Some x.
Proof. revert i; induction l as [|y l IH]; intros [|i] H; cbn in *; try lia; [reflexivity | apply IH; lia]. Qed.

Lemma set_nth_other {A} i (x : A) l k : k <> i -> nth_error (set_nth i x l) k = nth_error l k.
Proof. revert i k; induction l as [|y l IH]; intros [|i] [|k] H; cbn; auto; try lia. Qed.

Lemma set_nth_twice {A} i (x y : A) l : set_nth i x (set_nth i y l) = set_nth i x l.
Proof. revert i; induction l as [|z l IH]; intros [|i]; cbn; auto. rewrite IH. reflexivity. Qed.

Lemma set_nth_replaced {A} i (x : A) l : i < length l -> cell_replaced i l x (set_nth i x l).
Proof. intros H. split; [apply set_nth_length|]. split; [apply set_nth_same; exact H | intros k Hk; apply set_nth_other; exact Hk]. Qed.

Lemma index_of_Some {A} `{EqDec A} (x : A) l i : index_of x l = Some i -> i < length l.
Proof.
  revert i; induction l as [|y l IH]; intros i; cbn; [discriminate|]. destruct (eqb x y); [intros E; injection E as <-; lia|].
  destruct (index_of x l) as [k|]; [|discriminate]. intros E. injection E as <-. specialize (IH k eq_refl). lia.
Qed.

Lemma index_of_first {A} `{EqDec A} (x : A) l i : index_of x l = Some i -> nth_error l i = Some x.
Proof.
  revert i; induction l as [|y l IH]; intros i; cbn; [discriminate|]. destruct (eqb x y) eqn:E.
  - rewrite eqb_true in E. subst y. intros E. injection E as <-. reflexivity.
  - destruct (index_of x l) as [k|]; [|discriminate]. intros K. injection K as <-. exact (IH k eq_refl).
Qed.

Lemma index_of_In {A} `{EqDec A} (x : A) l : In x l -> exists i, index_of x l = Some i.
Proof.
  induction l as [|y l IH]; intros Hin; [destruct Hin|]. cbn. destruct (eqb x y) eqn:E; [exists 0; reflexivity|].
  destruct Hin as [<-|Hin]; [rewrite (proj2 (eqb_true y y) eq_refl) in E; discriminate|].
  destruct (IH Hin) as [i Ei]. rewrite Ei. exists (S i). reflexivity.
Qed.

Lemma starts_with_iff p s : starts_with p s = true <-> exists b, s = p ++ b.
Proof.
  split.
  - revert s. induction p as [|c p IH]; intros s H; [exists s; reflexivity|].
    destruct s as [|d s]; cbn in H; [discriminate|]. apply andb_prop in H. destruct H as [E H].
    apply N.eqb_eq in E. subst d. destruct (IH s H) as [b ->]. exists b. reflexivity.
  - intros [b ->]. induction p as [|c p IH]; [destruct b; reflexivity|]. cbn. rewrite N.eqb_refl. exact IH.
Qed.

Lemma app_inj_len {A} (a b c d : list A) : length a = length c -> a ++ b = c ++ d -> a = c /\ b = d.
Proof.
  revert c. induction a as [|x a IH]; intros [|y c] L E; try discriminate; [auto|]. cbn in *. injection E as -> E.
  destruct (IH c ltac:(lia) E) as [-> ->]. auto.
Qed.

(** * str.split *)
Lemma split_skip sep cur k s : forall r, length r = k -> split_loop sep cur k (r ++ s) = split_loop sep cur 0 s.
Proof. induction k as [|k IH]; intros [|x r] H; try discriminate; [reflexivity|]. cbn [app split_loop]. apply IH. cbn in H. lia. Qed.

Lemma split_loop_ok sep : sep <> [] -> forall n s cur, length s <= n ->
  (forall a b, rev cur ++ s = a ++ sep ++ b -> length (rev cur) <= length a) ->
  is_split sep (rev cur ++ s) (split_loop sep cur 0 s).
Proof.
  intros Hs. assert (Ls : 1 <= length sep) by (destruct sep; [contradiction | cbn; lia]).
  induction n as [|n IH]; intros s cur Hn Hc.
  - destruct s as [|c s]; [|cbn in Hn; lia]. cbn [split_loop]. rewrite app_nil_r in *. apply split_last.
    intros a b E. pose proof (Hc a b E) as L. apply (f_equal (@length N)) in E. rewrite !app_length in E. unfold str in *. lia.
  - destruct s as [|c s].
    { cbn [split_loop]. rewrite app_nil_r in *. apply split_last.
      intros a b E. pose proof (Hc a b E) as L. apply (f_equal (@length N)) in E. rewrite !app_length in E. unfold str in *. lia. }
    cbn [split_loop]. destruct (starts_with sep (c :: s)) eqn:E.
    + apply starts_with_iff in E. destruct E as [b E]. destruct sep as [|d sep']; [contradiction|]. cbn [app] in E. injection E as Ed Es.
      subst d. rewrite Es in *. replace (length (c :: sep') - 1) with (length sep') by (cbn; lia).
      rewrite split_skip by reflexivity.
      change (rev cur ++ c :: sep' ++ b) with (rev cur ++ (c :: sep') ++ b) in *.
      apply split_more; [exact Hc|]. change b with (rev [] ++ b) at 1. apply IH.
      * cbn [length] in Hn. rewrite app_length in Hn. unfold str in *. lia.
      * intros a b' _. cbn. lia.
    + replace (rev cur ++ c :: s) with (rev (c :: cur) ++ s) by (cbn [rev]; rewrite <- app_assoc; reflexivity).
      apply IH; [cbn in Hn; lia|]. intros a b Eab. cbn [rev] in *. rewrite <- app_assoc in Eab. cbn [app] in Eab.
      pose proof (Hc a b Eab) as L. rewrite app_length. cbn [length].
      destruct (Nat.eq_dec (length a) (length (rev cur))) as [El|El]; [|unfold str in *; lia]. exfalso.
      assert (K : c :: s = sep ++ b).
      { exact (proj2 (app_inj_len _ _ _ _ (eq_sym El) Eab)). }
      assert (T : starts_with sep (c :: s) = true) by (apply starts_with_iff; exists b; exact K). congruence.
Qed.

Lemma split_str_ok sep s : sep <> [] -> exists pieces, split_str sep s = Ok pieces /\ is_split sep s pieces.
Proof.
  intros Hs. exists (split_loop sep [] 0 s). split; [destruct sep; [contradiction | reflexivity]|].
  exact (split_loop_ok sep Hs (length s) s [] (le_n _) ltac:(intros; cbn; lia)).
Qed.

Lemma is_split_nonempty sep s pieces : is_split sep s pieces -> pieces <> [].
Proof. intros H. inversion H; discriminate. Qed.

Lemma is_split_unique sep s p1 p2 : sep <> [] -> is_split sep s p1 -> is_split sep s p2 -> p1 = p2.
Proof.
  intros Hs H1. revert p2. induction H1 as [s Hn|p s pieces Hf H1 IH]; intros p2 H2.
  - inversion H2 as [s' Hn' Es|p' s' pieces' Hf' H2' Es]; subst; [reflexivity|]. exfalso. apply (Hn p' s'). reflexivity.
  - inversion H2 as [s' Hn' Es|p' s' pieces' Hf' H2' Es]; subst; [exfalso; apply (Hn' p s); reflexivity|].
    pose proof (Hf p' s' (eq_sym Es)) as L1. pose proof (Hf' p s Es) as L2. assert (L : length p = length p') by lia.
    assert (Ep : p = p').
    { exact (eq_sym (proj1 (app_inj_len _ _ _ _ (eq_sym L) Es))). }
    subst p'. apply app_inv_head in Es. apply app_inv_head in Es. subst s'. f_equal. apply IH. exact H2'.
Qed.

(** * split *)
Lemma split_rows_plain position line values : position < length line ->
  split_rows false position line values = Ok (map (fun v => set_nth position v line) values).
Proof.
  revert line. induction values as [|v values IH]; intros line H; cbn [split_rows map]; [reflexivity|].
  unfold assign. rewrite (proj2 (Nat.ltb_lt _ _) H). cbn [bind]. rewrite IH by (rewrite set_nth_length; exact H). cbn [bind].
  do 2 f_equal. apply map_ext. intros w. apply set_nth_twice.
Qed.

Lemma split_rows_target position line values :
  split_rows true position line values = Ok (map (fun k => line ++ firstn (S k) values) (seq 0 (length values))).
Proof.
  revert line. induction values as [|v values IH]; intros line; [reflexivity|]. cbn [split_rows bind]. rewrite IH. cbn [bind length seq map].
  do 2 f_equal. rewrite <- seq_shift, map_map. apply map_ext. intros k. rewrite <- app_assoc. reflexivity.
Qed.

Definition falsy (target : option str) : Prop := match target with Some (_ :: _) => False | _ => True end.

Lemma split_line_plain sep target position line : sep <> [] -> falsy target -> position < length line ->
  exists cell pieces rows, nth_error line position = Some cell /\ is_split sep cell pieces /\
    split_line sep target position line = Ok rows /\ Forall2 (cell_replaced position line) pieces rows.
Proof.
  intros Hs Ht Hp. unfold split_line, cell_at. destruct (nth_error line position) as [cell|] eqn:E.
  2: { apply nth_error_None in E. lia. }
  cbn [bind]. destruct cell as [|c cell].
  - exists [], [[]], [line]. split; [reflexivity|]. split.
    + apply split_last. intros a b K. destruct a; [destruct sep; [contradiction | discriminate] | discriminate].
    + split; [reflexivity|]. constructor; [|constructor]. split; [reflexivity|]. split; [exact E | reflexivity].
  - destruct (split_str_ok sep (c :: cell) Hs) as (pieces & Ep & Hsp). rewrite Ep. cbn [bind].
    exists (c :: cell), pieces, (map (fun v => set_nth position v line) pieces). split; [reflexivity|]. split; [exact Hsp|].
    assert (K : match target with Some (_ :: _) => true | _ => false end = false) by (destruct target as [[|]|]; [reflexivity | destruct Ht | reflexivity]).
    rewrite K, split_rows_plain by exact Hp. split; [reflexivity|]. clear -Hp.
    induction pieces as [|v pieces IH]; cbn [map]; constructor; [apply set_nth_replaced; exact Hp | exact IH].
Qed.

Lemma split_line_target sep c t position line : sep <> [] -> position < length line ->
  exists cell, nth_error line position = Some cell /\
    ((cell = [] /\ split_line sep (Some (c :: t)) position line = Ok [line]) \/
     (cell <> [] /\ exists pieces, is_split sep cell pieces /\
        split_line sep (Some (c :: t)) position line = Ok (map (fun k => line ++ firstn (S k) pieces) (seq 0 (length pieces))))).
Proof.
  intros Hs Hp. unfold split_line, cell_at. unfold str in *. destruct (nth_error line position) as [cell|] eqn:E.
  2: { apply nth_error_None in E. lia. }
  exists cell. split; [reflexivity|]. try rewrite E. cbn [bind]. destruct cell as [|d cell]; [left; split; reflexivity|]. right. split; [discriminate|].
  destruct (split_str_ok sep (d :: cell) Hs) as (pieces & Ep & Hsp). exists pieces. split; [exact Hsp|]. rewrite Ep. cbn [bind].
  apply split_rows_target.
Qed.

Lemma mapM_exists {A B} (f : A -> res B) (P : A -> B -> Prop) l :
  (forall x, In x l -> exists y, f x = Ok y /\ P x y) -> exists ys, mapM f l = Ok ys /\ Forall2 P l ys.
Proof.
  induction l as [|x l IH]; intros H; cbn [mapM]; [exists []; split; [reflexivity | constructor]|].
  destruct (H x (or_introl eq_refl)) as (y & Ey & Py). rewrite Ey. cbn [bind].
  destruct IH as (ys & Es & Ps); [intros z Hz; apply H; right; exact Hz|]. rewrite Es. cbn [bind].
  exists (y :: ys). split; [reflexivity | constructor; assumption].
Qed.

Lemma custom_reader_ok {V} `{EqDec V} headers lines (column : V) : In column headers ->
  exists position, index_of column headers = Some position /\ position < length headers /\
    custom_reader (headers :: lines) column = Ok (headers, position, lines).
Proof.
  intros Hc. destruct (index_of_In column headers Hc) as [i Ei]. exists i. split; [exact Ei|]. split; [apply (index_of_Some _ _ _ Ei)|].
  cbn. rewrite Ei. reflexivity.
Qed.

Lemma split_action_plain headers lines column sep rename : In column headers -> sep <> [] ->
  rectangular (length headers) lines ->
  exists position rows headers', nth_error headers position = Some column /\
    split_action (headers :: lines) column sep None rename = Ok (headers' :: concat rows) /\
    match rename with None => headers' = headers | Some r => cell_replaced position headers r headers' end /\
    Forall2 (fun line rs => exists cell pieces, nth_error line position = Some cell /\ is_split sep cell pieces /\
               Forall2 (cell_replaced position line) pieces rs) lines rows /\
    rectangular (length headers) (headers' :: concat rows).
Proof.
  intros Hc Hs Hr. destruct (custom_reader_ok headers lines column Hc) as (position & Ei & Hp & Er).
  unfold split_action. rewrite Er. cbn [bind].
  assert (Hh : exists headers', match rename with Some r => assign position r headers | None => Ok headers end = Ok headers' /\
    match rename with None => headers' = headers | Some r => cell_replaced position headers r headers' end /\ length headers' = length headers).
  { destruct rename as [r|]; [|exists headers; auto]. unfold assign. rewrite (proj2 (Nat.ltb_lt _ _) Hp).
    exists (set_nth position r headers). split; [reflexivity|]. split; [apply set_nth_replaced; exact Hp | apply set_nth_length]. }
  destruct Hh as (headers' & Eh & Ph & Lh). rewrite Eh. cbn [bind].
  destruct (mapM_exists (split_line sep None position) (fun line rs => exists cell pieces, nth_error line position = Some cell /\ is_split sep cell pieces /\
               Forall2 (cell_replaced position line) pieces rs) lines) as (rows & Em & Pm).
  { intros line Hl. unfold rectangular in Hr. rewrite Forall_forall in Hr. specialize (Hr line Hl).
    destruct (split_line_plain sep None position line Hs Logic.I ltac:(unfold str in *; lia)) as (cell & pieces & rs & H1 & H2 & H3 & H4).
    exists rs. split; [exact H3|]. exists cell, pieces. auto. }
  rewrite Em. cbn [bind]. exists position, rows, headers'. split; [apply index_of_first; exact Ei|]. split; [reflexivity|].
  split; [exact Ph|]. split; [exact Pm|]. constructor; [exact Lh|]. apply Forall_forall. intros r Hin.
  apply in_concat in Hin. destruct Hin as (rs & Hrs & Hin).
  clear -Pm Hr Hrs Hin. induction Pm as [|line rs' lines rows' H Pm IH]; [destruct Hrs|].
  inversion Hr as [|? ? Hl Hr']; subst. destruct Hrs as [->|Hrs]; [|apply IH; assumption].
  destruct H as (cell & pieces & _ & _ & F). clear -F Hl Hin. induction F as [|v row pieces rs Hv F IH]; [destruct Hin|].
  destruct Hin as [->|Hin]; [rewrite <- Hl; apply Hv | apply IH; exact Hin].
Qed.

Lemma split_action_target headers lines column sep c t : In column headers -> sep <> [] ->
  rectangular (length headers) lines ->
  exists position rows, nth_error headers position = Some column /\
    split_action (headers :: lines) column sep (Some (c :: t)) None = Ok ((headers ++ [c :: t]) :: concat rows) /\
    Forall2 (target_rows sep position) lines rows.
Proof.
  intros Hc Hs Hr. destruct (custom_reader_ok headers lines column Hc) as (position & Ei & Hp & Er).
  unfold split_action. rewrite Er. cbn [bind].
  destruct (mapM_exists (split_line sep (Some (c :: t)) position) (target_rows sep position) lines) as (rows & Em & Pm).
  { intros line Hl. unfold rectangular in Hr. rewrite Forall_forall in Hr. specialize (Hr line Hl).
    destruct (split_line_target sep c t position line Hs ltac:(unfold str in *; lia)) as (cell & H1 & [[H2 H3]|(H2 & pieces & H3 & H4)]).
    - exists [line]. split; [exact H3|]. exists cell. auto.
    - eexists. split; [exact H4|]. exists cell. split; [exact H1|]. right. split; [exact H2|]. exists pieces. auto. }
  rewrite Em. cbn [bind]. exists position, rows. split; [apply index_of_first; exact Ei|]. split; [reflexivity | exact Pm].
Qed.

(** the table written is rectangular when each cell holds exactly one value *)
Lemma target_rectangular sep position width lines rows : sep <> [] -> rectangular width lines -> Forall2 (target_rows sep position) lines rows ->
  (rectangular (width + 1) (concat rows) <->
   Forall (fun line => exists cell, nth_error line position = Some cell /\ cell <> [] /\ forall a b, cell <> a ++ sep ++ b) lines).
Proof.
  intros Hs Hr F. unfold rectangular in *. revert Hr. induction F as [|line rs lines rows H F IH]; intros Hr; cbn [concat].
  - split; constructor.
  - inversion Hr as [|? ? Hl Hr']; subst. rewrite Forall_app. specialize (IH Hr'). rewrite IH.
    assert (K : Forall (fun r : list str => length r = length line + 1) rs <->
      exists cell, nth_error line position = Some cell /\ cell <> [] /\ forall a b, cell <> a ++ sep ++ b).
    { destruct H as (cell & Hc & [[-> ->]|(Hn & pieces & Hsp & ->)]).
      - split.
        + intros K. inversion K as [|? ? Hx _]; subst. unfold str in *. lia.
        + intros (cell & Hc' & Hne & _). congruence.
      - split.
        + intros K. exists cell. split; [exact Hc|]. split; [exact Hn|].
          inversion Hsp as [s' Hno Es|p s' pieces' Hf Hsp' Es]; subst; [exact Hno|]. exfalso.
          pose proof (is_split_nonempty _ _ _ Hsp') as Hne. destruct pieces' as [|q pieces']; [contradiction|].
          cbn [length seq map] in K. inversion K as [|? ? _ K']; subst. inversion K' as [|? ? K2 _]; subst.
          rewrite app_length in K2. cbn in K2. unfold str in *. lia.
        + intros (cell' & Hc' & _ & Hno). assert (cell' = cell) by congruence. subst cell'.
          inversion Hsp as [s' _ Es|p s' pieces' Hf Hsp' Es]; subst; [|exfalso; apply (Hno p s'); reflexivity].
          cbn. constructor; [|constructor]. rewrite app_length. reflexivity. }
    rewrite K. split; [intros [H1 H2]; constructor; assumption | intros K2; inversion K2; subst; split; assumption].
Qed.

(** * transform *)
Section Transform.
Context {V : Type} `{EqDec V}.
Variable OPERATIONS : string -> option (V -> res V).

Lemma insert_after_added position (x : V) l : position < length l -> cell_added (position + 1) l x (insert_after position x l).
Proof.
  intros L. exists (firstn (position + 1) l), (skipn (position + 1) l). split; [symmetry; apply firstn_skipn|]. split; [reflexivity|].
  rewrite firstn_length. lia.
Qed.

Lemma append_added (x : V) l : cell_added (length l) l x (l ++ [x]).
Proof. exists l, []. rewrite app_nil_r. auto. Qed.

Lemma added_length i (line : list V) v row : cell_added i line v row -> length row = length line + 1.
Proof. intros (a & b & -> & -> & _). rewrite !app_length. cbn. lia. Qed.

Lemma transform_line_ok chain target after position (line : list V) (v : V) : position < length line ->
  (exists cell, nth_error line position = Some cell /\ foldM (fun v op => op v) chain cell = Ok v) ->
  exists row, transform_line chain target after position line = Ok row /\ change target after position (length line) line v row.
Proof.
  intros Hp (cell & Hc & Hv). unfold transform_line, cell_at. rewrite Hc. cbn [bind]. rewrite Hv. cbn [bind]. unfold change.
  destruct target; [destruct after|].
  - eexists; split; [reflexivity | apply insert_after_added; exact Hp].
  - eexists; split; [reflexivity | apply append_added].
  - unfold assign. rewrite (proj2 (Nat.ltb_lt _ _) Hp). eexists; split; [reflexivity | apply set_nth_replaced; exact Hp].
Qed.

Lemma transform_action_ok headers lines (column : V) operations chain target after :
  In column headers -> rectangular (length headers) lines ->
  Forall2 (fun name op => OPERATIONS name = Some op) operations chain ->
  (forall line cell position, In line lines -> nth_error headers position = Some column -> nth_error line position = Some cell ->
     exists v, foldM (fun v op => op v) chain cell = Ok v) ->
  exists position headers' rows, nth_error headers position = Some column /\
    transform_action OPERATIONS (headers :: lines) column operations target after = Ok (headers' :: rows) /\
    match target with None => headers' = headers | Some t => change true after position (length headers) headers t headers' end /\
    Forall2 (fun line row => exists cell v, nth_error line position = Some cell /\ foldM (fun v op => op v) chain cell = Ok v /\
               change (match target with Some _ => true | None => false end) after position (length headers) line v row) lines rows /\
    rectangular (length headers + match target with Some _ => 1 | None => 0 end) (headers' :: rows).
Proof.
  intros Hc Hr Hops Hok. destruct (custom_reader_ok headers lines column Hc) as (position & Ei & Hp & Er).
  pose proof (index_of_first _ _ _ Ei) as Hfirst.
  unfold transform_action.
  assert (Ec : mapM (operation OPERATIONS) operations = Ok chain).
  { clear -Hops. induction Hops as [|name op names ops Hn Hops IH]; [reflexivity|]. cbn [mapM]. unfold operation at 1. rewrite Hn. cbn [bind].
    rewrite IH. reflexivity. }
  rewrite Ec. cbn [bind]. rewrite Er. cbn [bind].
  set (tgt := match target with Some _ => true | None => false end).
  destruct (mapM_exists (transform_line chain tgt after position) (fun line row => exists cell v, nth_error line position = Some cell /\ foldM (fun v op => op v) chain cell = Ok v /\
               change tgt after position (length headers) line v row) lines) as (rows & Em & Pm).
  { intros line Hl. unfold rectangular in Hr. rewrite Forall_forall in Hr. specialize (Hr line Hl).
    assert (Lp : position < length line) by lia.
    destruct (nth_error line position) as [cell|] eqn:E; [|apply nth_error_None in E; lia].
    destruct (Hok line cell position Hl Hfirst E) as [v Hv].
    destruct (transform_line_ok chain tgt after position line v Lp) as (row & H1 & H2); [exists cell; auto|].
    exists row. split; [exact H1|]. exists cell, v. split; [reflexivity|]. split; [exact Hv|]. rewrite <- Hr. exact H2. }
  rewrite Em. cbn [bind]. eexists position, _, rows. split; [exact Hfirst|]. split; [reflexivity|].
  assert (Lh : length match target with Some t => if after then insert_after position t headers else headers ++ [t] | None => headers end =
    length headers + match target with Some _ => 1 | None => 0 end).
  { destruct target as [t|]; [|lia]. destruct after; [apply added_length with (1 := insert_after_added position t headers Hp)|].
    rewrite app_length. reflexivity. }
  split; [|split; [exact Pm|]].
  - destruct target as [t|]; [|reflexivity]. unfold change. destruct after; [apply insert_after_added; exact Hp | apply append_added].
  - constructor; [exact Lh|]. clear -Pm Hr. unfold rectangular in *. revert Hr. induction Pm as [|line row lines rows Hx Pm IH]; intros Hr; [constructor|].
    inversion Hr as [|? ? Hl Hr']; subst. constructor; [|apply IH; exact Hr'].
    destruct Hx as (cell & v & _ & _ & Hx). unfold change, tgt in Hx. destruct target as [t|].
    + rewrite (added_length _ _ _ _ Hx). lia.
    + destruct Hx as [Hx _]. lia.
Qed.
End Transform.

(** * TOML strings *)
Lemma replace_single x r s start : re_sub (literal [x]) r start 0 s = flat_map (fun c => if (c =? x)%N then r else [c]) s.
Proof.
  revert start. induction s as [|c s IH]; intros start; [reflexivity|]. cbn [re_sub flat_map]. unfold literal at 1. cbn [starts_with].
  assert (E : ((x =? c)%N && match s with [] => true | _ => true end) = (c =? x)%N) by (rewrite N.eqb_sym; destruct s; apply andb_true_r).
  rewrite andb_true_r, (N.eqb_sym x c). destruct (c =? x)%N; cbn [length app]; rewrite IH; reflexivity.
Qed.

Definition esc (c : N) : str := if (c =? 34)%N then [92; 34]%N else if (c =? 10)%N then [92; 110]%N else [c].

Lemma escape_flat s : escape_string s = flat_map esc s.
Proof.
  unfold escape_string, replace. rewrite !replace_single. induction s as [|c s IH]; [reflexivity|]. cbn [flat_map].
  unfold str in *. rewrite flat_map_app, IH. f_equal. unfold esc. destruct (N.eqb_spec c 34) as [->|]; [reflexivity|].
  cbn [flat_map]. rewrite app_nil_r. destruct (N.eqb_spec c 10) as [->|]; reflexivity.
Qed.

Lemma hex_digit_not c d : hex_digit c = Some d -> c <> 34%N /\ c <> 92%N /\ c <> 10%N.
Proof. unfold hex_digit. repeat match goal with |- context [if ?b then _ else _] => destruct b eqn:?E end; intros K; try discriminate; lia. Qed.

Lemma hex_escape n : forall acc r tail x t, hex n acc (flat_map esc r ++ 34%N :: tail) = Some (x, t) ->
  exists r', t = flat_map esc r' ++ 34%N :: tail /\ length r = n + length r'.
Proof.
  induction n as [|n IH]; intros acc r tail x t E; cbn [hex] in E.
  - injection E as _ <-. exists r. auto.
  - destruct r as [|c r]; cbn [flat_map app] in E.
    { discriminate. }
    unfold esc at 1 in E. destruct (N.eqb_spec c 34) as [->|]; [discriminate|]. destruct (N.eqb_spec c 10) as [->|]; [discriminate|].
    cbn [app] in E. destruct (hex_digit c) as [d|]; [|discriminate]. destruct (IH _ _ _ _ _ E) as (r' & -> & L).
    exists r'. split; [reflexivity|]. cbn [length]. lia.
Qed.

Ltac use_put E H :=
  match type of E with match ?t with Some _ => _ | None => None end = _ => destruct t as [[?v' ?rest']|] eqn:H; [|discriminate E] end;
  injection E as <- <-.

Lemma hex_length n : forall acc t x t', hex n acc t = Some (x, t') -> length t' <= length t.
Proof.
  induction n as [|n IH]; intros acc t x t' E; cbn [hex] in E; [injection E as _ <-; lia|].
  destruct t as [|c t]; [discriminate|]. destruct (hex_digit c); [|discriminate]. specialize (IH _ _ _ _ E). cbn [length]. lia.
Qed.

Lemma toml_string_rest fuel : forall t v rest, toml_string fuel t = Some (v, rest) -> length rest < length t.
Proof.
  induction fuel as [|fuel IH]; intros t v rest E; [discriminate|]. cbn [toml_string] in E. destruct t as [|c t]; [discriminate|].
  destruct (c =? 34)%N; [injection E as _ <-; cbn [length]; lia|]. destruct (c =? 92)%N.
  - destruct t as [|e t]; [discriminate|]. destruct (simple_escape e).
    { use_put E H. specialize (IH _ _ _ H). cbn [length] in *. lia. }
    destruct ((e =? 117)%N || (e =? 85)%N); [|discriminate]. destruct (hex _ 0 t) as [[x t']|] eqn:Eh; [|discriminate].
    destruct (scalar_value x); [|discriminate]. use_put E H. specialize (IH _ _ _ H). apply hex_length in Eh. cbn [length] in *. lia.
  - destruct (unescaped c); [|discriminate]. use_put E H. specialize (IH _ _ _ H). cbn [length]. lia.
Qed.

(** what is read after a backslash that is not one of the writer's *)
Lemma backslash_cases fuel r tail v rest :
  toml_string (S fuel) (92%N :: flat_map esc r ++ 34%N :: tail) = Some (v, rest) -> length rest = length tail ->
  exists x v' r', v = x :: v' /\ toml_string fuel (flat_map esc r' ++ 34%N :: tail) = Some (v', rest) /\
    (length r' < length r \/ exists r'', r = 10%N :: r'' /\ r' = 110%N :: r'').
Proof.
  intros E L. cbn [toml_string N.eqb Pos.eqb] in E. destruct r as [|e r]; cbn [flat_map app] in E.
  { cbn in E. use_put E H. apply toml_string_rest in H. exfalso. lia. }
  unfold esc at 1 in E. destruct (N.eqb_spec e 34) as [->|Hq].
  { cbn in E. use_put E H. exfalso. destruct fuel as [|fuel]; [discriminate|]. cbn [toml_string N.eqb Pos.eqb] in H. injection H as _ <-.
    rewrite app_length in L. cbn [length] in L. lia. }
  destruct (N.eqb_spec e 10) as [->|Hn].
  { cbn in E. use_put E H. exists 92%N, v', (110%N :: r). split; [reflexivity|]. split; [exact H|]. right. exists r. auto. }
  cbn [app] in E. destruct (simple_escape e) as [x|].
  { use_put E H. exists x, v', r. split; [reflexivity|]. split; [exact H|]. left. cbn [length]. lia. }
  destruct ((e =? 117)%N || (e =? 85)%N); [|discriminate].
  destruct (hex _ 0 (flat_map esc r ++ 34%N :: tail)) as [[x t']|] eqn:Eh; [|discriminate].
  destruct (scalar_value x); [|discriminate]. use_put E H. destruct (hex_escape _ _ _ _ _ _ Eh) as (r' & -> & Lr).
  exists x, v', r'. split; [reflexivity|]. split; [exact H|]. left. cbn [length]. lia.
Qed.

Lemma toml_string_length fuel : forall r tail v rest,
  toml_string fuel (flat_map esc r ++ 34%N :: tail) = Some (v, rest) -> length rest = length tail -> length v <= length r.
Proof.
  induction fuel as [|fuel IH]; intros r tail v rest E L; [discriminate|].
  destruct r as [|c r]; cbn [flat_map app] in E.
  - cbn [toml_string N.eqb Pos.eqb] in E. injection E as <- <-. cbn. lia.
  - unfold esc at 1 in E. destruct (N.eqb_spec c 34) as [->|Hq].
    { cbn in E. use_put E H. cbn [length]. specialize (IH _ _ _ _ H L). lia. }
    destruct (N.eqb_spec c 10) as [->|Hn].
    { cbn in E. use_put E H. cbn [length]. specialize (IH _ _ _ _ H L). lia. }
    cbn [app] in E. destruct (N.eqb_spec c 92) as [->|Hb].
    + destruct (backslash_cases _ _ _ _ _ E L) as (x & v' & r' & -> & H & Hr). specialize (IH _ _ _ _ H L). cbn [length].
      destruct Hr as [Hr|(r'' & -> & ->)]; cbn [length] in *; lia.
    + cbn [toml_string] in E. rewrite (proj2 (N.eqb_neq c 34) Hq), (proj2 (N.eqb_neq c 92) Hb) in E.
      destruct (unescaped c); [|discriminate]. use_put E H. cbn [length]. specialize (IH _ _ _ _ H L). lia.
Qed.

Lemma toml_string_reads fuel : forall s tail, length (flat_map esc s) < fuel -> forallb safe s = true ->
  toml_string fuel (flat_map esc s ++ 34%N :: tail) = Some (s, tail).
Proof.
  induction fuel as [|fuel IH]; intros s tail L Hs; [lia|]. destruct s as [|c s]; [reflexivity|]. cbn [forallb] in Hs.
  apply andb_prop in Hs. destruct Hs as [Hc Hs]. cbn [flat_map] in *. rewrite app_length in L. unfold esc at 1 in L. unfold esc at 1.
  destruct (N.eqb_spec c 34) as [->|Hq].
  { cbn [length] in L. cbn. rewrite IH by (auto; lia). reflexivity. }
  destruct (N.eqb_spec c 10) as [->|Hn].
  { cbn [length] in L. cbn. rewrite IH by (auto; lia). reflexivity. }
  cbn [app length] in *. cbn [toml_string]. unfold safe in Hc. rewrite (proj2 (N.eqb_neq c 34) Hq), (proj2 (N.eqb_neq c 10) Hn), !orb_false_r in Hc.
  rewrite (proj2 (N.eqb_neq c 34) Hq). destruct (N.eqb_spec c 92) as [->|Hb]; [discriminate|]. rewrite Hc, IH by (auto; lia). reflexivity.
Qed.

Lemma toml_string_only fuel : forall s tail,
  toml_string fuel (flat_map esc s ++ 34%N :: tail) = Some (s, tail) -> forallb safe s = true.
Proof.
  induction fuel as [|fuel IH]; intros s tail E; [discriminate|]. destruct s as [|c s]; [reflexivity|]. cbn [flat_map app] in E.
  cbn [forallb]. unfold esc at 1 in E. destruct (N.eqb_spec c 34) as [->|Hq].
  { cbn in E. destruct (toml_string fuel _) as [[v rest]|] eqn:H; [|discriminate]. injection E as -> ->. exact (IH _ _ H). }
  destruct (N.eqb_spec c 10) as [->|Hn].
  { cbn in E. destruct (toml_string fuel _) as [[v rest]|] eqn:H; [|discriminate]. injection E as -> ->. exact (IH _ _ H). }
  cbn [app] in E. destruct (N.eqb_spec c 92) as [->|Hb].
  - exfalso. destruct (backslash_cases _ _ _ _ _ E eq_refl) as (x & v' & r' & Ev & H & Hr). injection Ev as <- <-.
    destruct Hr as [Hr|(r'' & -> & ->)]; [apply toml_string_length in H; [lia | reflexivity]|].
    destruct fuel as [|fuel]; [discriminate|]. cbn in H. destruct (toml_string fuel _) as [[v rest]|]; discriminate.
  - cbn [toml_string] in E. rewrite (proj2 (N.eqb_neq c 34) Hq), (proj2 (N.eqb_neq c 92) Hb) in E.
    destruct (unescaped c) eqn:U; [|discriminate]. destruct (toml_string fuel _) as [[v rest]|] eqn:H; [|discriminate].
    injection E as -> ->. rewrite (IH _ _ H), andb_true_r. unfold safe. rewrite U. reflexivity.
Qed.

Lemma read_toml_iff s tail : read_toml (escape_string s ++ 34%N :: tail) = Some (s, tail) <-> forallb safe s = true.
Proof.
  unfold read_toml. rewrite escape_flat. split; [apply toml_string_only|]. intros Hs. apply toml_string_reads; [|exact Hs].
  rewrite app_length. lia.
Qed.

(** * the clustering report *)
Lemma counter_spec cells : forall d, NoDup (dkeys d) ->
  let d' := fold_left (fun d x => dmodify d x 0 (fun n => n + 1)) cells d in
  NoDup (dkeys d') /\ (forall v, In v (dkeys d') <-> In v (dkeys d) \/ In v cells) /\
  forall v, count_of d' v = count_of d v + occurrences v cells.
Proof.
  induction cells as [|c cells IH]; intros d Hd; cbn [fold_left].
  - cbn. split; [exact Hd|]. split; [intros v; tauto | intros v; unfold occurrences; cbn; lia].
  - destruct (IH (dmodify d c 0 (fun n => n + 1))) as (H1 & H2 & H3).
    { rewrite dkeys_dmodify. apply sadd_NoDup. exact Hd. }
    split; [exact H1|]. split.
    + intros v. rewrite H2, dkeys_dmodify, sadd_In. cbn [In]. split; intros K; repeat destruct K as [K|K]; subst; auto.
    + intros v. rewrite H3. unfold occurrences. cbn [filter]. unfold count_of at 1. destruct (eq_dec c v) as [->|Hcv].
      * rewrite dget_dmodify_same. unfold count_of. cbn [length]. destruct (dget d v); lia.
      * rewrite dget_dmodify_other by congruence. reflexivity.
Qed.

Lemma occurrences_sum vs cells : NoDup vs ->
  list_sum (map (fun v => occurrences v cells) vs) = length (filter (fun c => memb c vs) cells).
Proof.
  intros Hn. induction cells as [|c cells IH]; cbn [filter].
  - clear. induction vs as [|v vs IH]; [reflexivity|]. cbn [map list_sum fold_right]. exact IH.
  - assert (E : list_sum (map (fun v => occurrences v (c :: cells)) vs) =
      (if memb c vs then 1 else 0) + list_sum (map (fun v => occurrences v cells) vs)).
    { clear IH. induction vs as [|v vs IH]; [reflexivity|]. inversion Hn as [|? ? Hv Hn']; subst. specialize (IH Hn').
      change (list_sum (map (fun v => occurrences v (c :: cells)) (v :: vs))) with (occurrences v (c :: cells) + list_sum (map (fun v => occurrences v (c :: cells)) vs)).
      change (list_sum (map (fun v => occurrences v cells) (v :: vs))) with (occurrences v cells + list_sum (map (fun v => occurrences v cells) vs)).
      rewrite IH. unfold occurrences at 1. cbn [filter].       destruct (eq_dec c v) as [->|Hc].
      - rewrite (proj2 (memb_true v (v :: vs)) (or_introl eq_refl)), (proj2 (memb_false v vs) Hv). cbn [length]. unfold occurrences. lia.
      - assert (K : memb c (v :: vs) = memb c vs).
        { destruct (memb_In c (v :: vs)) as [[K|K]|K], (memb_In c vs) as [K2|K2]; try reflexivity; try congruence; try contradiction.
          exfalso. apply K. right. exact K2. }
        rewrite K. unfold occurrences. lia. }
    rewrite E, IH. destruct (memb c vs); reflexivity.
Qed.

Lemma decreasing_preorder (f : str -> nat) : total_preorder (fun a b => Nat.leb (f b) (f a)).
Proof.
  split; [intros a b; destruct (Nat.leb_spec (f b) (f a)), (Nat.leb_spec (f a) (f b)); auto; lia|].
  intros a b c H1 H2. apply Nat.leb_le in H1, H2. apply Nat.leb_le. lia.
Qed.

Lemma render_cluster_ok fingerprint values cells k i cluster : cluster <> [] -> NoDup cluster ->
  (forall v, In v cluster <-> In v cells /\ fingerprint v = k) -> (forall v, count_of values v = occurrences v cells) ->
  exists rc, render_cluster values i cluster = Ok rc /\ rc_id rc = i /\ cluster_of fingerprint cells k rc.
Proof.
  intros Hne Hnd Hin Hcount. unfold render_cluster. set (leb := fun a b => Nat.leb (count_of values b) (count_of values a)).
  pose proof (sort_by_perm leb cluster) as P. pose proof (sort_by_sorted leb (decreasing_preorder (count_of values)) cluster) as S.
  destruct (sort_by leb cluster) as [|h rest] eqn:E; [apply Permutation_nil in P; contradiction|].
  eexists. split; [reflexivity|]. cbn [rc_id]. split; [reflexivity|]. unfold cluster_of. cbn [rc_values rc_harmonized rc_nb_values rc_nb_rows].
  set (l := h :: rest) in *. assert (Hl : forall v, In v l <-> In v cluster) by (intros v; split; apply Permutation_in; [exact P | apply Permutation_sym; exact P]).
  split.
  { rewrite map_map. cbn [fst]. rewrite map_id. apply (Permutation_NoDup (Permutation_sym P) Hnd). }
  split.
  { intros v n. rewrite in_map_iff. split.
    - intros (w & Ew & Hw). injection Ew as <- <-. rewrite Hl, Hin in Hw. rewrite Hcount. tauto.
    - intros (Hv & Hf & ->). exists v. rewrite Hcount. split; [reflexivity|]. rewrite Hl, Hin. auto. }
  split.
  { clear -S. induction S as [|v l S IH F]; cbn [map]; constructor; [exact IH|]. rewrite Forall_forall in *. intros [w n] Hw.
    apply in_map_iff in Hw. destruct Hw as (u & Eu & Hu). injection Eu as <- <-. cbn [snd]. specialize (F u Hu). apply Nat.leb_le. exact F. }
  split.
  { exists (count_of values h), (map (fun v => (v, count_of values v)) rest). reflexivity. }
  split.
  { rewrite map_length. symmetry. apply Permutation_length. exact P. }
  rewrite (map_ext _ (fun v => occurrences v cells)) by exact Hcount. rewrite occurrences_sum by exact Hnd. f_equal. apply filter_ext_in.
  intros c Hc. destruct (memb c cluster) eqn:M; destruct (eq_dec (fingerprint c) k) as [Ek|Ek]; try reflexivity.
  - rewrite memb_true, Hin in M. tauto.
  - assert (K : In c cluster) by (apply Hin; auto). rewrite <- memb_true in K. congruence.
Qed.

Lemma filter_map {A B} (f : A -> B) p l : filter p (map f l) = map f (filter (fun x => p (f x)) l).
Proof. induction l as [|x l IH]; cbn; [reflexivity|]. destruct (p (f x)); cbn; rewrite IH; reflexivity. Qed.

Lemma two_distinct {A} `{EqDec A} (l : list A) : NoDup l -> (2 <= length l <-> exists u v, In u l /\ In v l /\ u <> v).
Proof.
  intros Hn. split.
  - destruct l as [|u [|v l]]; cbn; try lia. intros _. exists u, v. inversion Hn as [|? ? H1 _]; subst. split; [auto|]. split; [auto|].
    intros ->. apply H1. left. reflexivity.
  - intros (u & v & Hu & Hv & Huv). destruct l as [|a [|b l]]; cbn in *; try tauto; [|lia].
    destruct Hu as [<-|[]], Hv as [<-|[]]. contradiction.
Qed.

Lemma enumerate_from {A} (l : list A) : enumerate l = combine (seq 0 (length l)) l.
Proof. reflexivity. Qed.

Lemma mapM_enumerated {A B} (f : nat -> A -> res B) (P : nat -> A -> B -> Prop) l : forall n,
  (forall i x, In x l -> exists y, f i x = Ok y /\ P i x y) ->
  exists ys, mapM (fun ic => f (fst ic) (snd ic)) (combine (seq n (length l)) l) = Ok ys /\
    Forall2 (fun ix y => P (fst ix) (snd ix) y) (combine (seq n (length l)) l) ys.
Proof.
  intros n H. apply mapM_exists. intros [i x] Hin. apply in_combine_r in Hin. exact (H i x Hin).
Qed.

Lemma cluster_action_ok fingerprint headers lines column : In column headers -> rectangular (length headers) lines ->
  exists position cells ks rep, nth_error headers position = Some column /\
    Forall2 (fun line c => nth_error line position = Some c) lines cells /\
    cluster_action fingerprint (headers :: lines) column = Ok rep /\
    r_lines rep = length lines /\
    (exists vs, NoDup vs /\ (forall v, In v vs <-> In v cells) /\ r_nb_distinct_values rep = length vs) /\
    NoDup ks /\
    (forall k, In k ks <-> k <> [] /\ exists u v, In u cells /\ In v cells /\ u <> v /\ fingerprint u = k /\ fingerprint v = k) /\
    r_nb_clusters rep = length ks /\
    map rc_id (r_clusters rep) = seq 0 (length ks) /\
    Forall2 (cluster_of fingerprint cells) ks (r_clusters rep).
Proof.
  intros Hc Hr. destruct (custom_reader_ok headers lines column Hc) as (position & Ei & Hp & Er).
  unfold cluster_action. rewrite Er. cbn [bind].
  destruct (mapM_exists (fun line => cell_at line position) (fun (line : list str) c => nth_error line position = Some c) lines) as (cells & Em & Pm).
  { intros line Hl. unfold rectangular in Hr. rewrite Forall_forall in Hr. specialize (Hr line Hl). unfold cell_at.
    destruct (nth_error line position) as [c|] eqn:E; [exists c; auto|]. apply nth_error_None in E. unfold str in *. lia. }
  rewrite Em. cbn [bind]. destruct (counter_spec cells [] ltac:(constructor)) as (Nk & Ik & Ck). cbv zeta in *. fold (counter cells) in *.
  set (truthy := fun k : str => match k with [] => false | _ => true end).
  assert (Tr : forall k, truthy k = true <-> k <> []) by (intros [|x k]; cbn; split; intros; congruence).
  destruct (key_collision_key_spec truthy fingerprint (dkeys (counter cells)) 2 None) as (ks0 & N0 & I0 & E0).
  rewrite E0, filter_map. clear E0. set (group := fun k => filter (fun x => if eq_dec (fingerprint x) k then true else false) (dkeys (counter cells))).
  set (ks := filter _ ks0).
  assert (Hg : forall k v, In v (group k) <-> In v cells /\ fingerprint v = k).
  { intros k v. unfold group. rewrite filter_In, Ik. destruct (eq_dec (fingerprint v) k); cbn [In dkeys map]; split; intros K; intuition congruence. }
  assert (Ng : forall k, NoDup (group k)) by (intros k; apply NoDup_filter; exact Nk).
  assert (Iks : forall k, In k ks <-> In k ks0 /\ 2 <= length (group k)).
  { intros k. unfold ks. rewrite filter_In. fold (group k). rewrite andb_true_iff, Nat.leb_le. cbn [le_max]. tauto. }
  destruct (mapM_enumerated (render_cluster (counter cells)) (fun i cluster rc => rc_id rc = i /\ exists k, cluster = group k /\ cluster_of fingerprint cells k rc) (map group ks) 0) as (rcs & Er2 & Pr).
  { intros i cluster Hin. apply in_map_iff in Hin. destruct Hin as (k & <- & Hk). rewrite Iks in Hk.
    destruct (render_cluster_ok fingerprint (counter cells) cells k i (group k)) as (rc & H1 & H2 & H3); [|apply Ng | apply Hg | exact Ck |].
    - intros K. rewrite K in Hk. cbn in Hk. lia.
    - exists rc. split; [exact H1|]. split; [exact H2|]. exists k. auto. }
  unfold render. rewrite enumerate_from, Er2. cbn [bind].
  eexists position, cells, ks, _. split; [apply index_of_first; exact Ei|]. split; [exact Pm|]. split; [reflexivity|].
  cbn [r_lines r_nb_distinct_values r_nb_clusters r_clusters]. split; [reflexivity|].
  split. { exists (dkeys (counter cells)). split; [exact Nk|]. split; [intros v; rewrite Ik; cbn; tauto|]. unfold dkeys. rewrite map_length. reflexivity. }
  split; [apply NoDup_filter; exact N0|].
  split.
  { intros k. rewrite Iks, I0, Tr. rewrite (two_distinct _ (Ng k)). split.
    - intros [[Hk _] (u & v & Hu & Hv & Huv)]. rewrite Hg in Hu, Hv. split; [exact Hk|]. exists u, v. tauto.
    - intros [Hk (u & v & Hu & Hv & Huv & Fu & Fv)]. split.
      + split; [exact Hk|]. exists u. rewrite Ik. auto.
      + exists u, v. rewrite !Hg. auto. }
  split; [apply map_length|].
  rewrite map_length in Pr. clear Er2. revert Pr. generalize 0. clear -Iks Hg. assert (Sub : forall k, In k ks -> 2 <= length (group k)) by (intros k Hk; apply Iks; exact Hk).
  clear Iks. revert rcs. induction ks as [|k ks IH]; intros rcs n Pr; cbn [length seq map combine] in Pr.
  - inversion Pr; subst. split; [reflexivity | constructor].
  - inversion Pr as [|? rc ? rcs' [Hid (k' & Ek & Hck)] Pr']; subst. cbn [fst snd] in *.
    destruct (IH ltac:(intros; apply Sub; right; assumption) rcs' (S n) Pr') as [H1 H2].
    split; [cbn [map length seq]; rewrite H1, Hid; reflexivity|]. constructor; [|exact H2].
    assert (k' = k); [|subst k'; exact Hck]. specialize (Sub k (or_introl eq_refl)).
    destruct (group k) as [|v g] eqn:Eg; [cbn in Sub; lia|].
    assert (V1 : In v (group k)) by (rewrite Eg; left; reflexivity). assert (V2 : In v (group k')) by (rewrite <- Ek; left; reflexivity).
    rewrite Hg in V1, V2. destruct V1 as [_ <-]. destruct V2 as [_ <-]. reflexivity.
Qed.
