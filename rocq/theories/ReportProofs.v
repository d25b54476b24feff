(** Proofs about the text of the clustering reports. *)
From Coq Require Import String QArith Qround Qabs Lia ZArith Nnat Lqa.
From Verif Require Import Base BaseFacts LevModel StringsModel PhoneticsModel PairwiseModel GraphModel SortModel BlockingModel CliModel CliSpec CliProofs ReportModel ReportSpec.
Open Scope nat_scope.
Open Scope list_scope.
Notation length := List.length.
Notation concat := List.concat.

(** ** digits *)
Lemma number_snoc l c : number (l ++ [c]) = (10 * number l + (c - 48))%N.
Proof. unfold number. rewrite fold_left_app. reflexivity. Qed.

Lemma digit_mod n : digit (48 + n mod 10) = true.
Proof. unfold digit. pose proof (N.mod_lt n 10 ltac:(lia)). apply andb_true_intro. split; apply N.leb_le; lia. Qed.

Lemma int_digits_ok fuel : forall n, (n < 2 ^ N.of_nat fuel)%N -> (0 < fuel)%nat ->
  number (int_digits fuel n) = n /\ forallb digit (int_digits fuel n) = true /\
  exists c l, int_digits fuel n = c :: l /\ (n <> 0%N -> c <> 48%N) /\ (n = 0%N -> l = []).
Proof.
  induction fuel as [|fuel IH]; intros n L P; [lia|]. cbn [int_digits].
  destruct (N.ltb_spec n 10) as [S|S].
  - cbn [app]. rewrite N.mod_small by lia. split; [unfold number; cbn [fold_left]; lia|]. split.
    + pose proof (digit_mod n) as D. rewrite N.mod_small in D by lia. cbn [forallb]. now rewrite D.
    + exists (48 + n)%N, []. split; [reflexivity|]. split; intros; [lia|reflexivity].
  - assert (F : (0 < fuel)%nat) by (destruct fuel; [cbn in L; lia|lia]).
    assert (L' : (n / 10 < 2 ^ N.of_nat fuel)%N).
    { apply N.div_lt_upper_bound; [lia|]. rewrite Nat2N.inj_succ, N.pow_succ_r' in L. lia. }
    destruct (IH (n / 10)%N L' F) as (V & D & c & l & E & H0 & _).
    assert (NZ : (n / 10 <> 0)%N) by (intros Z; apply N.div_small_iff in Z; lia).
    rewrite number_snoc, V, forallb_app, D. split; [pose proof (N.div_mod n 10 ltac:(lia)); lia|]. split.
    + cbn [forallb]. now rewrite digit_mod.
    + rewrite E. exists c, (l ++ [48 + n mod 10])%N. split; [reflexivity|]. split; [intros _; apply H0, NZ|lia].
Qed.

Lemma size_pow n : (n < 2 ^ N.of_nat (S (N.size_nat n)))%N.
Proof.
  destruct n as [|p]; [reflexivity|]. pose proof (N.size_gt (N.pos p)) as G. rewrite Nat2N.inj_succ, N.pow_succ_r'.
  assert (E : N.of_nat (N.size_nat (N.pos p)) = N.size (N.pos p)).
  { cbn. clear G. induction p as [p IH|p IH|]; cbn [Pos.size_nat Pos.size]; [| |reflexivity]; rewrite Nat2N.inj_succ, IH; now rewrite N.succ_pos_spec || reflexivity. }
  rewrite E. lia.
Qed.

Lemma py_int_ok n : number (py_int n) = n /\ forallb digit (py_int n) = true /\
  exists c l, py_int n = c :: l /\ (n <> 0%N -> c <> 48%N) /\ (n = 0%N -> l = []).
Proof. apply int_digits_ok; [apply size_pow|lia]. Qed.

Lemma py_int_integer n : integer (py_int n) = Some n.
Proof.
  destruct (py_int_ok n) as (V & D & c & l & E & H & Z). unfold integer. rewrite D. rewrite E in *.
  destruct l as [|d l]; [now rewrite V|]. destruct (N.eqb_spec c 48) as [->|N]; [|now rewrite V].
  destruct (N.eq_dec n 0) as [->|N]; [discriminate (Z eq_refl)|]. now destruct (H N).
Qed.

Lemma fixed_ok k : forall n, length (fixed k n) = k /\ forallb digit (fixed k n) = true /\ number (fixed k n) = (n mod 10 ^ N.of_nat k)%N.
Proof.
  induction k as [|k IH]; intros n; cbn [fixed].
  - cbn. rewrite N.mod_1_r. repeat split.
  - destruct (IH (n / 10)%N) as (L & D & V). rewrite app_length, L, forallb_app, D, number_snoc, V. cbn [length forallb].
    rewrite digit_mod. split; [lia|]. split; [reflexivity|].
    rewrite Nat2N.inj_succ, N.pow_succ_r'. rewrite N.mod_mul_r by (try apply N.pow_nonzero; lia).
    replace (48 + n mod 10 - 48)%N with (n mod 10)%N by lia. lia.
Qed.

Lemma fixed_length k n : length (fixed k n) = k. Proof. apply fixed_ok. Qed.
Lemma fixed_digits k n : forallb digit (fixed k n) = true. Proof. apply fixed_ok. Qed.
Lemma fixed_number k n : (n < 10 ^ N.of_nat k)%N -> number (fixed k n) = n.
Proof. intros L. destruct (fixed_ok k n) as (_ & _ & V). rewrite V. apply N.mod_small, L. Qed.

(** ** classes *)
Lemma forallb_imp {X} (p q : X -> bool) l : (forall x, p x = true -> q x = true) -> forallb p l = true -> forallb q l = true.
Proof. intros I. rewrite !forallb_forall. auto. Qed.

Lemma digit_range c : digit c = true <-> (48 <= c <= 57)%N.
Proof. unfold digit. rewrite andb_true_iff, !N.leb_le. reflexivity. Qed.
Lemma digit_plain c : digit c = true -> plain c = true.
Proof. intros D. unfold plain. now rewrite D. Qed.

Lemma span_app p a c rest : forallb p a = true -> p c = false -> span p (a ++ c :: rest) = (a, c :: rest).
Proof.
  intros A C. induction a as [|x a IH]; cbn; [now rewrite C|]. cbn in A. apply andb_prop in A. destruct A as [X A].
  rewrite X, IH by exact A. reflexivity.
Qed.
Lemma span_all p a : forallb p a = true -> span p a = (a, []).
Proof. intros A. induction a as [|x a IH]; cbn; [reflexivity|]. cbn in A. apply andb_prop in A. destruct A as [X A]. now rewrite X, IH. Qed.
Lemma skip_app p a c rest : forallb p a = true -> p c = false -> skip p (a ++ c :: rest) = c :: rest.
Proof. intros A C. unfold skip. now rewrite span_app. Qed.
Lemma skip_head p c rest : p c = false -> skip p (c :: rest) = c :: rest.
Proof. intros C. apply (skip_app p [] c rest eq_refl C). Qed.

(** ** reading values *)
Lemma plain_not c : plain c = true -> (c =? 34)%N = false /\ (c =? 91)%N = false /\ (c =? 93)%N = false /\ blank_line c = false.
Proof.
  intros P. destruct (N.eqb_spec c 34) as [->|]; [discriminate P|]. destruct (N.eqb_spec c 91) as [->|]; [discriminate P|].
  destruct (N.eqb_spec c 93) as [->|]; [discriminate P|]. repeat split.
  unfold blank_line, blank. destruct (N.eqb_spec c 32) as [->|]; [discriminate P|]. destruct (N.eqb_spec c 9) as [->|]; [discriminate P|].
  destruct (N.eqb_spec c 10) as [->|]; [discriminate P|]. reflexivity.
Qed.

Lemma read_scalar x v d rest fuel : scalar x = Some v -> x <> [] -> forallb plain x = true -> plain d = false ->
  read_value (S fuel) (x ++ d :: rest) = Some (v, d :: rest).
Proof.
  intros S N P D. destruct x as [|c x]; [congruence|]. pose proof P as P'. cbn [forallb] in P'. apply andb_prop in P'. destruct P' as [C _].
  destruct (plain_not c C) as (C1 & C2 & _). cbn [read_value app]. rewrite C1, C2.
  change (c :: x ++ d :: rest) with ((c :: x) ++ d :: rest). rewrite span_app by assumption. now rewrite S.
Qed.

Lemma read_string s rest fuel : forallb safe s = true ->
  read_value (S fuel) (34%N :: escape_string s ++ 34%N :: rest) = Some (TString s, rest).
Proof. intros S. cbn [read_value]. rewrite N.eqb_refl, (proj2 (read_toml_iff s rest) S). reflexivity. Qed.

Lemma not_word c l w : digit c = true -> digit (hd 0%N w) = false -> eqb (c :: l) w = false.
Proof. intros D W. apply eqb_false. intros <-. cbn in W. congruence. Qed.

Lemma scalar_digit c l : digit c = true -> scalar (c :: l) =
  match integer (c :: l) with
  | Some n => Some (TInt n)
  | None => match float (c :: l) with
            | Some q => Some (TFloat q)
            | None => match date_time (c :: l) with Some (d, h) => Some (TDate d h) | None => None end
            end
  end.
Proof. intros D. unfold scalar. rewrite !not_word by (exact D || reflexivity). reflexivity. Qed.

Lemma py_int_scalar n : scalar (py_int n) = Some (TInt n).
Proof.
  pose proof (py_int_integer n) as I. destruct (py_int_ok n) as (_ & D & c & l & E & _). rewrite E in *. cbn in D. apply andb_prop in D.
  rewrite scalar_digit by apply D. now rewrite I.
Qed.
Lemma py_int_plain n : forallb plain (py_int n) = true.
Proof. apply (forallb_imp digit); [exact digit_plain|apply py_int_ok]. Qed.
Lemma py_int_cons n : exists c l, py_int n = c :: l /\ digit c = true.
Proof. destruct (py_int_ok n) as (_ & D & c & l & E & _). exists c, l. rewrite E in D. cbn in D. apply andb_prop in D. tauto. Qed.

Lemma read_int n d rest fuel : plain d = false -> read_value (S fuel) (py_int n ++ d :: rest) = Some (TInt n, d :: rest).
Proof.
  intros D. apply read_scalar; [apply py_int_scalar| |apply py_int_plain|exact D].
  destruct (py_int_cons n) as (c & l & -> & _). discriminate.
Qed.

(** ** floats *)
Lemma integer_only t : integer t <> None -> forallb digit t = true.
Proof. unfold integer. destruct (forallb digit t); congruence. Qed.

Lemma integer_mixed a c b : digit c = false -> integer (a ++ c :: b) = None.
Proof.
  intros D. destruct (integer (a ++ c :: b)) eqn:E; [|reflexivity]. assert (F : forallb digit (a ++ c :: b) = true) by (apply integer_only; congruence).
  rewrite forallb_app in F. cbn in F. rewrite D, andb_false_r in F. discriminate.
Qed.

Definition micro (q : Q) : N := Z.to_N (round_even (q * (1000000 # 1))%Q).

Lemma py_float6_scalar q : scalar (py_float6 q) = Some (TFloat (Z.of_N (micro q) # 1000000)) /\ forallb plain (py_float6 q) = true /\ py_float6 q <> [].
Proof.
  unfold py_float6. fold (micro q). set (n := micro q). clearbody n. cbv zeta. change (codes ".") with [46%N]. cbn [app].
  destruct (py_int_cons (n / 1000000)) as (c & l & E & D).
  pose proof (fixed_ok 6 (n mod 1000000)) as (L & F & V). set (f := fixed 6 (n mod 1000000)) in *. clearbody f.
  split; [|split].
  - assert (I : integer (py_int (n / 1000000) ++ 46%N :: f) = None) by (apply integer_mixed; reflexivity).
    assert (Fl : float (py_int (n / 1000000) ++ 46%N :: f) = Some (Z.of_N n # 1000000)).
    { unfold float. rewrite span_app by (apply py_int_ok || reflexivity). rewrite py_int_integer.
      rewrite N.eqb_refl, F, L. cbn [andb negb Nat.eqb].
      change (power10 6) with 1000000%positive. rewrite V. change (10 ^ N.of_nat 6)%N with 1000000%N.
      rewrite N.mod_mod by lia. f_equal. f_equal. f_equal. pose proof (N.div_mod n 1000000 ltac:(lia)). lia. }
    rewrite E in *. cbn [app] in *. rewrite scalar_digit by exact D. now rewrite I, Fl.
  - rewrite forallb_app. rewrite py_int_plain. cbn [forallb andb]. apply (forallb_imp digit); [exact digit_plain|exact F].
  - rewrite E. discriminate.
Qed.

Lemma round_even_near q : (Qabs.Qabs (inject_Z (round_even q) - q) <= 1 # 2)%Q.
Proof.
  unfold round_even. pose proof (Qfloor_le q) as L. pose proof (Qlt_floor q) as U. rewrite inject_Z_plus in U.
  set (f := Qfloor q) in *. clearbody f. change (inject_Z 1) with 1%Q in U.
  assert (C : forall b, (forall z : Z, z = (if b : bool then f else f + 1)%Z -> (q - inject_Z f == 1 # 2)%Q -> (Qabs.Qabs (inject_Z z - q) <= 1 # 2)%Q)).
  { intros [] z -> E; rewrite ?inject_Z_plus; change (inject_Z 1) with 1%Q; apply Qabs.Qabs_Qle_condition; split; lra. }
  destruct (Qcompare_spec (q - inject_Z f) (1 # 2)) as [E|E|E].
  - apply (C (Z.even f) _ eq_refl E).
  - apply Qabs.Qabs_Qle_condition. split; lra.
  - rewrite inject_Z_plus. change (inject_Z 1) with 1%Q. apply Qabs.Qabs_Qle_condition. split; lra.
Qed.

Lemma round_even_nonneg q : (0 <= q)%Q -> (0 <= round_even q)%Z.
Proof.
  intros P. assert (F : (0 <= Qfloor q)%Z) by (change 0%Z with (Qfloor 0); apply Qfloor_resp_le, P).
  unfold round_even. destruct (_ ?= _)%Q; [destruct (Z.even _)|..]; lia.
Qed.

(** ** dates *)
Lemma fixed_two n : (n < 100)%N -> exists a b, fixed 2 n = [a; b] /\ digit a = true /\ digit b = true /\ two a b = n.
Proof.
  intros L. destruct (fixed_ok 2 n) as (K & D & _). pose proof (fixed_number 2 n L) as V.
  destruct (fixed 2 n) as [|a [|b [|c l]]]; try discriminate K. exists a, b. cbn in D. rewrite andb_true_r in D. apply andb_prop in D.
  unfold two. tauto.
Qed.
Lemma fixed_four n : (n < 10000)%N -> exists a b c d, fixed 4 n = [a; b; c; d] /\
  digit a = true /\ digit b = true /\ digit c = true /\ digit d = true /\ number [a; b; c; d] = n.
Proof.
  intros L. destruct (fixed_ok 4 n) as (K & D & _). pose proof (fixed_number 4 n L) as V.
  destruct (fixed 4 n) as [|a [|b [|c [|d [|e l]]]]]; try discriminate K. exists a, b, c, d. cbn [forallb] in D.
  repeat (apply andb_prop in D; destruct D as [? D]). tauto.
Qed.

Definition iso_seconds (d : datetime) : str :=
  fixed 4 (year d) ++ codes "-" ++ fixed 2 (month d) ++ codes "-" ++ fixed 2 (day d) ++ codes "T" ++
  fixed 2 (hour d) ++ codes ":" ++ fixed 2 (minute d) ++ codes ":" ++ fixed 2 (second d).

Lemma split_first c a b : forall cur, forallb (fun x => negb (x =? c)%N) a = true -> (b = [] \/ exists b', b = c :: b') ->
  hd [] (split_loop [c] cur 0 (a ++ b)) = rev cur ++ a.
Proof.
  induction a as [|x a IH]; intros cur A B.
  - cbn [app]. destruct B as [->|[b' ->]]; cbn; [now rewrite app_nil_r|]. rewrite N.eqb_refl. cbn. now rewrite app_nil_r.
  - cbn [app split_loop starts_with]. cbn in A. apply andb_prop in A. destruct A as [X A]. apply negb_true_iff in X. rewrite N.eqb_sym in X. rewrite X.
    cbn [andb]. rewrite IH by assumption. cbn [rev]. now rewrite <- app_assoc.
Qed.

Lemma digit_other c l : digit c = false -> forallb digit l = true -> forallb (fun x => negb (x =? c)%N) l = true.
Proof. intros C. apply forallb_imp. intros x D. destruct (N.eqb_spec x c) as [->|]; [congruence|reflexivity]. Qed.

Lemma fixed_other c k n : digit c = false -> forallb (fun x => negb (x =? c)%N) (fixed k n) = true.
Proof. intros C. apply digit_other; [exact C|apply fixed_digits]. Qed.

Lemma first_piece_point d : first_piece (codes ".") (isoformat d) = iso_seconds d.
Proof.
  unfold first_piece, isoformat. change (codes ".") with [46%N].
  replace (fixed 4 (year d) ++ _) with (iso_seconds d ++ (if (microsecond d =? 0)%N then [] else [46%N] ++ fixed 6 (microsecond d)))
    by (unfold iso_seconds; rewrite <- !app_assoc; reflexivity).
  rewrite split_first; [reflexivity| |].
  - unfold iso_seconds. rewrite !forallb_app. rewrite !fixed_other by reflexivity. reflexivity.
  - destruct (microsecond d =? 0)%N; [left; reflexivity|right; eexists; reflexivity].
Qed.

Lemma first_piece_T d : first_piece (codes "T") (isoformat d) = fixed 4 (year d) ++ codes "-" ++ fixed 2 (month d) ++ codes "-" ++ fixed 2 (day d).
Proof.
  unfold first_piece, isoformat. change (codes "T") with [84%N].
  match goal with |- _ = ?x => set (date := x) end.
  match goal with |- hd [] (split_loop _ _ _ ?t) = _ => assert (E : exists b, t = date ++ 84%N :: b) end.
  { eexists. unfold date. rewrite <- !app_assoc. reflexivity. }
  destruct E as [b ->]. rewrite split_first; [reflexivity| |right; eexists; reflexivity].
  unfold date. rewrite !forallb_app. rewrite !fixed_other by reflexivity. reflexivity.
Qed.

Definition date_of (d : datetime) : N * N * N := (year d, month d, day d).
Definition time_of (d : datetime) : N * N * N := (hour d, minute d, second d).

Lemma iso_date_time d : valid_date (year d) (month d) (day d) (hour d) (minute d) (second d) ->
  scalar (iso_seconds d) = Some (TDate (date_of d) (time_of d)) /\ forallb plain (iso_seconds d) = true /\ iso_seconds d <> [].
Proof.
  intros (Y & M & D & H & I & S). assert (D31 : (days_in (year d) (month d) <= 31)%N).
  { unfold days_in. repeat destruct (_ =? _)%N; cbn; lia. }
  assert (B : (year d < 10000 /\ month d < 100 /\ day d < 100 /\ hour d < 100 /\ minute d < 100 /\ second d < 100)%N) by lia.
  destruct B as (B1 & B2 & B3 & B4 & B5 & B6). clear D31.
  unfold iso_seconds, date_of, time_of.
  destruct (fixed_four (year d) B1) as (y1 & y2 & y3 & y4 & -> & P1 & P2 & P3 & P4 & E1).
  destruct (fixed_two (month d) B2) as (m1 & m2 & -> & P5 & P6 & E2).
  destruct (fixed_two (day d) B3) as (a1 & a2 & -> & P7 & P8 & E3).
  destruct (fixed_two (hour d) B4) as (h1 & h2 & -> & P9 & P10 & E4).
  destruct (fixed_two (minute d) B5) as (i1 & i2 & -> & P11 & P12 & E5).
  destruct (fixed_two (second d) B6) as (s1 & s2 & -> & P13 & P14 & E6).
  rewrite <- E1 in Y, D. rewrite <- E2 in M, D. rewrite <- E3 in D. rewrite <- E4 in H. rewrite <- E5 in I. rewrite <- E6 in S.
  rewrite <- E1, <- E2, <- E3, <- E4, <- E5, <- E6. clear E1 E2 E3 E4 E5 E6.
  change (codes "-") with [45%N]. change (codes ":") with [58%N]. change (codes "T") with [84%N]. cbn [app]. split; [|split].
  - rewrite scalar_digit by exact P1. pose proof (integer_mixed [y1; y2; y3; y4] 45 (m1 :: m2 :: 45%N :: a1 :: a2 :: 84%N :: h1 :: h2 :: 58%N :: i1 :: i2 :: 58%N :: [s1; s2]) eq_refl) as Z.
    cbn [app] in Z. rewrite Z. clear Z.
    assert (F : float ([y1; y2; y3; y4] ++ 45%N :: m1 :: m2 :: 45%N :: a1 :: a2 :: 84%N :: h1 :: h2 :: 58%N :: i1 :: i2 :: 58%N :: [s1; s2]) = None).
    { unfold float. rewrite span_app; [|cbn [forallb]; rewrite P1, P2, P3, P4; reflexivity|reflexivity]. destruct (integer _); reflexivity. }
    cbn [app] in F. rewrite F. unfold date_time. cbv zeta. cbn [forallb]. rewrite P1, P2, P3, P4, P5, P6, P7, P8, P9, P10, P11, P12, P13, P14.
    set (y := number [y1; y2; y3; y4]) in *. set (m := two m1 m2) in *. set (a := two a1 a2) in *. set (h := two h1 h2) in *. set (i := two i1 i2) in *. set (s := two s1 s2) in *.
    clearbody y m a h i s.
    clear - Y M D H I S.
    rewrite !N.eqb_refl, (proj2 (N.leb_le 1 m)), (proj2 (N.leb_le m 12)), (proj2 (N.leb_le 1 a)), (proj2 (N.leb_le a (days_in y m))), (proj2 (N.leb_le h 23)), (proj2 (N.leb_le i 59)), (proj2 (N.leb_le s 60)) by lia.
    reflexivity.
  - cbn [forallb]. rewrite (digit_plain y1), (digit_plain y2), (digit_plain y3), (digit_plain y4), (digit_plain m1), (digit_plain m2),
      (digit_plain a1), (digit_plain a2), (digit_plain h1), (digit_plain h2), (digit_plain i1), (digit_plain i2), (digit_plain s1), (digit_plain s2) by assumption.
    reflexivity.
  - discriminate.
Qed.

(** ** statements *)
Lemma read_statement_pair c d t : (c =? 91)%N = false -> read_statement (c :: d :: t) =
  match read_key (c :: d :: t) with
  | None => None
  | Some (k, rest) =>
    match skip blank rest with
    | e :: rest =>
      if (e =? 61)%N then
        match read_value (S (length rest)) (skip blank rest) with
        | None => None
        | Some (v, rest) => match end_of_line rest with Some rest => Some (Pair k v, rest) | None => None end
        end
      else None
    | [] => None
    end
  end.
Proof. intros C. unfold read_statement. now rewrite C. Qed.

Lemma bare_not c : bare c = true -> (c =? 91)%N = false.
Proof. intros B. destruct (N.eqb_spec c 91) as [->|]; [discriminate B|reflexivity]. Qed.

Lemma read_key_ok k c rest : k <> [] -> forallb bare k = true -> bare c = false -> read_key (k ++ c :: rest) = Some (k, c :: rest).
Proof. intros N K C. unfold read_key. rewrite span_app by assumption. destruct k; [congruence|reflexivity]. Qed.

Lemma statement_pair k gap text v rest : k <> [] -> forallb bare k = true -> forallb blank gap = true ->
  (exists c t, text = c :: t /\ blank c = false) ->
  (forall fuel, length text <= fuel -> read_value (S fuel) (text ++ 10%N :: rest) = Some (v, 10%N :: rest)) ->
  read_statement (k ++ 32%N :: 61%N :: gap ++ text ++ 10%N :: rest) = Some (Pair k v, rest).
Proof.
  intros N K G (c & t & E & C) R. destruct k as [|x k]; [congruence|]. pose proof K as K'. cbn [forallb] in K'. apply andb_prop in K'. destruct K' as [X _].
  assert (D : exists d u, (x :: k) ++ 32%N :: 61%N :: gap ++ text ++ 10%N :: rest = x :: d :: u) by (destruct k; eexists _, _; reflexivity).
  destruct D as (d & u & D). rewrite D, read_statement_pair by (apply bare_not, X). rewrite <- D.
  rewrite read_key_ok by (assumption || reflexivity). unfold skip at 1. cbn [span]. change (blank 32) with true. change (blank 61) with false. cbn [snd].
  rewrite N.eqb_refl. rewrite E in *. cbn [app]. rewrite skip_app by assumption.
  change (c :: t ++ 10%N :: rest) with ((c :: t) ++ 10%N :: rest). rewrite R by (rewrite !app_length; cbn [length]; lia).
  reflexivity.
Qed.

Lemma statement_header (array : bool) k rest : k <> [] -> forallb bare k = true ->
  read_statement ((if array then codes "[[" else codes "[") ++ k ++ (if array then codes "]]" else codes "]") ++ 10%N :: rest) = Some (Header array k, rest).
Proof.
  intros N K. destruct k as [|x k]; [congruence|]. destruct array; unfold read_statement.
  - change (codes "[[") with [91; 91]%N. change (codes "]]") with [93; 93]%N. cbn [app]. rewrite !N.eqb_refl.
    change (x :: k ++ 93%N :: 93%N :: 10%N :: rest) with ((x :: k) ++ 93%N :: 93%N :: 10%N :: rest). rewrite read_key_ok by (assumption || reflexivity).
    reflexivity.
  - change (codes "[") with [91]%N. change (codes "]") with [93]%N. cbn [app]. rewrite !N.eqb_refl.
    pose proof K as K'. cbn [forallb] in K'. apply andb_prop in K'. rewrite bare_not by apply K'.
    change (x :: k ++ 93%N :: 10%N :: rest) with ((x :: k) ++ 93%N :: 10%N :: rest). rewrite read_key_ok by (assumption || reflexivity).
    reflexivity.
Qed.

(** the text [t] is read as [l] *)
Definition reads (t : str) (l : list statement) : Prop := forall fuel, length t < fuel -> read_statements fuel t = Some l.

Lemma reads_nil : reads [] [].
Proof. intros [|fuel] L; [lia|reflexivity]. Qed.

Lemma reads_blank t l : reads t l -> reads (10%N :: t) l.
Proof.
  intros R [|fuel] L; [lia|]. specialize (R (S fuel)). cbn [length] in L. rewrite <- R by lia. cbn [read_statements].
  unfold skip. cbn [span]. change (blank_line 10) with true. cbv iota. destruct (span blank_line t) as [a b]. reflexivity.
Qed.

Lemma reads_statement t s rest l : read_statement t = Some (s, rest) -> blank_line (hd 0%N t) = false -> length rest < length t ->
  reads rest l -> reads t (s :: l).
Proof.
  intros E B L R [|fuel] F; [lia|]. destruct t as [|c t]; [cbn in L; lia|]. cbn in B. cbn [read_statements].
  rewrite skip_head by exact B. rewrite E, R by lia. reflexivity.
Qed.

Lemma bare_not_blank c : bare c = true -> blank_line c = false.
Proof.
  intros B. unfold blank_line, blank. destruct (N.eqb_spec c 32) as [->|]; [discriminate B|]. destruct (N.eqb_spec c 9) as [->|]; [discriminate B|].
  destruct (N.eqb_spec c 10) as [->|]; [discriminate B|]. reflexivity.
Qed.

Lemma printed_cons x l : printed (x :: l) = x ++ 10%N :: printed l.
Proof. unfold printed. cbn [map concat]. rewrite <- app_assoc. reflexivity. Qed.
Lemma printed_app a b : printed (a ++ b) = printed a ++ printed b.
Proof. unfold printed. rewrite map_app, concat_app. reflexivity. Qed.

Lemma reads_pair k gap text v rest l : k <> [] -> forallb bare k = true -> forallb blank gap = true ->
  (exists c t, text = c :: t /\ blank c = false) ->
  (forall fuel, length text <= fuel -> read_value (S fuel) (text ++ 10%N :: rest) = Some (v, 10%N :: rest)) ->
  reads rest l -> reads (k ++ 32%N :: 61%N :: gap ++ text ++ 10%N :: rest) (Pair k v :: l).
Proof.
  intros N K G T V R. apply reads_statement with rest; [apply statement_pair; assumption| | |exact R].
  - destruct k as [|c k]; [congruence|]. cbn in *. apply andb_prop in K. apply bare_not_blank, K.
  - rewrite app_length. cbn [length]. rewrite !app_length. cbn [length]. lia.
Qed.

Lemma reads_header (array : bool) k rest l : k <> [] -> forallb bare k = true -> reads rest l ->
  reads ((if array then codes "[[" else codes "[") ++ k ++ (if array then codes "]]" else codes "]") ++ 10%N :: rest) (Header array k :: l).
Proof.
  intros N K R. apply reads_statement with rest; [apply statement_header; assumption| | |exact R].
  - destruct array; reflexivity.
  - rewrite !app_length. cbn [length]. lia.
Qed.

(** ** the values of a cluster *)
Lemma blanks_repeat n : forallb blank_line (repeat 32%N n) = true.
Proof. induction n as [|n IH]; cbn; [reflexivity|exact IH]. Qed.

Definition entry (vn : str * nat) : toml := TArray [TArray [TString (fst vn)]; TArray [count (snd vn)]].

Lemma value_array fuel t l rest : read_items fuel t = Some (l, rest) -> read_value (S fuel) (91%N :: t) = Some (TArray l, rest).
Proof. intros E. cbn [read_value]. change (91 =? 34)%N with false. change (91 =? 91)%N with true. cbv iota. now rewrite E. Qed.

Lemma items_last fuel t c t' v rest rest' : skip blank_line t = c :: t' -> c <> 93%N -> read_value fuel (c :: t') = Some (v, rest) ->
  skip blank_line rest = 93%N :: rest' -> read_items (S fuel) t = Some ([v], rest').
Proof. intros A C V R. cbn [read_items]. apply N.eqb_neq in C. rewrite A, C, V, R. reflexivity. Qed.

Lemma items_more fuel t c t' v rest rest' l rest'' : skip blank_line t = c :: t' -> c <> 93%N -> read_value fuel (c :: t') = Some (v, rest) ->
  skip blank_line rest = 44%N :: rest' -> read_items fuel rest' = Some (l, rest'') -> read_items (S fuel) t = Some (v :: l, rest'').
Proof.
  intros A C V R I. cbn [read_items]. apply N.eqb_neq in C. rewrite A, C, V, R. change (44 =? 93)%N with false. change (44 =? 44)%N with true.
  cbv iota. now rewrite I.
Qed.

Lemma items_end fuel t rest : skip blank_line t = 93%N :: rest -> read_items (S fuel) t = Some ([], rest).
Proof. intros A. cbn [read_items]. rewrite A. reflexivity. Qed.

Lemma read_entry v n pad rest fuel : forallb safe v = true ->
  read_value (6 + fuel) ((codes "[[""" ++ escape_string v ++ codes """]," ++ repeat 32%N pad ++ codes " [" ++ py_nat n ++ codes "]]") ++ rest) =
  Some (entry (v, n), rest).
Proof.
  intros Sv. change (codes "[[""") with [91; 91; 34]%N. change (codes """],") with [34; 93; 44]%N. change (codes " [") with [32; 91]%N. change (codes "]]") with [93; 93]%N.
  rewrite <- !app_assoc. cbn [app plus]. unfold entry. cbn [fst snd]. apply value_array.
  eapply items_more; [apply skip_head; reflexivity|discriminate| |apply skip_head; reflexivity|].
  - apply value_array. eapply items_last; [apply skip_head; reflexivity|discriminate|apply read_string, Sv|apply skip_head; reflexivity].
  - replace (repeat 32%N pad ++ 32%N :: 91%N :: py_nat n ++ 93%N :: 93%N :: rest) with (repeat 32%N (S pad) ++ 91%N :: py_nat n ++ 93%N :: 93%N :: rest).
    2:{ replace (S pad) with (pad + 1) by lia. rewrite repeat_app, <- app_assoc. reflexivity. }
    eapply items_last; [apply skip_app; [apply blanks_repeat|reflexivity]|discriminate| |apply skip_head; reflexivity].
    apply value_array. unfold py_nat, count. destruct (py_int_cons (N.of_nat n)) as (c & l & E & D).
    destruct (plain_not c (digit_plain c D)) as (_ & _ & C3 & C4). apply N.eqb_neq in C3.
    eapply items_last with (c := c) (t' := l ++ 93%N :: 93%N :: rest);
      [rewrite E; apply skip_head; exact C4|exact C3| |apply skip_head; reflexivity].
    change (c :: l ++ 93%N :: 93%N :: rest) with ((c :: l) ++ 93%N :: 93%N :: rest). rewrite <- E. apply read_int. reflexivity.
Qed.

Lemma read_entries values m vs rest : forall fuel, 8 + length vs <= fuel -> Forall (fun v => forallb safe v = true) vs ->
  read_items fuel (10%N :: printed (map (toml_value values m) vs) ++ 93%N :: rest) =
  Some (map (fun v => entry (v, count_of values v)) vs, rest).
Proof.
  induction vs as [|v vs IH]; intros fuel F S; cbn [length] in F.
  - destruct fuel as [|fuel]; [lia|]. cbn [map printed concat app]. apply items_end. apply (skip_app blank_line [10%N]); reflexivity.
  - inversion S as [|? ? Sv Svs]; subst. destruct fuel as [|fuel]; [lia|]. cbn [map]. rewrite printed_cons, <- app_assoc. cbn [app].
    unfold toml_value at 1. rewrite <- !app_assoc.
    change (codes "  [[""") with ([32; 32]%N ++ codes "[["""). change (codes "]],") with (codes "]]" ++ [44%N]). rewrite <- !app_assoc.
    assert (E : forall u : str, 10%N :: [32; 32]%N ++ u = [10; 32; 32]%N ++ u) by reflexivity. rewrite E. clear E.
    eapply items_more; [apply (skip_app blank_line [10; 32; 32]%N); reflexivity|discriminate| |apply skip_head; reflexivity|apply IH; [lia|exact Svs]].
    pose proof (read_entry v (count_of values v) (m - length v) (44%N :: 10%N :: printed (map (toml_value values m) vs) ++ 93%N :: rest) (fuel - 6) Sv) as R.
    replace (6 + (fuel - 6)) with fuel in R by lia. rewrite <- !app_assoc in R. exact R.
Qed.

(** ** lines *)
Lemma reads_count k n rest l : k <> [] -> forallb bare k = true -> reads rest l ->
  reads (k ++ 32%N :: 61%N :: 32%N :: py_nat n ++ 10%N :: rest) (Pair k (count n) :: l).
Proof.
  intros N K R. apply (reads_pair k [32%N] (py_nat n)); try assumption; [reflexivity| |].
  - destruct (py_int_cons (N.of_nat n)) as (c & t & E & D). exists c, t. split; [exact E|].
    destruct (plain_not c (digit_plain c D)) as (_ & _ & _ & B). unfold blank_line in B. apply orb_false_elim in B. apply B.
  - intros fuel _. apply read_int. reflexivity.
Qed.

Lemma reads_string k s rest l : k <> [] -> forallb bare k = true -> forallb safe s = true -> reads rest l ->
  reads (k ++ 32%N :: 61%N :: 32%N :: (34%N :: escape_string s ++ [34%N]) ++ 10%N :: rest) (Pair k (TString s) :: l).
Proof.
  intros N K S R. apply (reads_pair k [32%N] (34%N :: escape_string s ++ [34%N])); try assumption; [reflexivity| |].
  - eexists _, _. split; reflexivity.
  - intros fuel _. cbn [app]. rewrite <- app_assoc. apply read_string. exact S.
Qed.

Lemma reads_scalar k x v rest l : k <> [] -> forallb bare k = true -> scalar x = Some v -> x <> [] -> forallb plain x = true -> reads rest l ->
  reads (k ++ 32%N :: 61%N :: 32%N :: x ++ 10%N :: rest) (Pair k v :: l).
Proof.
  intros N K V X P R. apply (reads_pair k [32%N] x); try assumption; [reflexivity| |].
  - destruct x as [|c t]; [congruence|]. exists c, t. split; [reflexivity|]. cbn in P. apply andb_prop in P.
    destruct (plain_not c (proj1 P)) as (_ & _ & _ & B). unfold blank_line in B. apply orb_false_elim in B. apply B.
  - intros fuel _. apply read_scalar; try assumption. reflexivity.
Qed.

Definition pairs_of (t : table) : list statement := Header (fst (fst t)) (snd (fst t)) :: map (fun kv => Pair (fst kv) (snd kv)) (snd t).

Lemma entries_length values m vs : length vs * 8 <= length (printed (map (toml_value values m) vs)).
Proof.
  induction vs as [|v vs IH]; [cbn; lia|]. cbn [map length]. rewrite printed_cons, app_length. cbn [length].
  assert (8 <= length (toml_value values m v)); [|lia]. unfold toml_value. rewrite !app_length. cbn [length codes map list_ascii_of_string]. lia.
Qed.

Ltac normal := repeat (progress (rewrite <- ?app_assoc; cbn [app])).

Lemma cluster_reads values i cluster rc : render_cluster values i cluster = Ok rc -> Forall (fun vn => forallb safe (fst vn) = true) (rc_values rc) ->
  exists lines, toml_cluster values i cluster = Ok lines /\
    forall rest l, reads rest l -> reads (printed lines ++ rest) (pairs_of (cluster_table rc) ++ l).
Proof.
  intros E S. unfold render_cluster in E. unfold toml_cluster, by_rows. cbv zeta in *.
  set (vs := sort_by _ cluster) in *. destruct vs as [|h vs'] eqn:V; [discriminate E|]. rewrite <- V in *. injection E as <-.
  cbn [rc_values] in S. eexists. split; [reflexivity|]. intros rest l R.
  assert (Sv : Forall (fun v => forallb safe v = true) vs).
  { rewrite Forall_forall in *. intros v I. apply (S (v, count_of values v)). apply in_map_iff. exists v. split; [reflexivity|exact I]. }
  clear S. assert (Sh : forallb safe h = true) by (rewrite V in Sv; now inversion Sv).
  set (m := list_max _). clearbody m.
  rewrite printed_app, printed_app, <- !app_assoc. rewrite !printed_cons. cbn [printed map concat app]. rewrite ?app_nil_r.
  unfold pairs_of, cluster_table, named. cbn [fst snd rc_id rc_nb_values rc_nb_rows rc_harmonized rc_values map app].
  normal.
  change (codes "[[cluster]]") with (codes "[[" ++ codes "cluster" ++ codes "]]"). rewrite <- !app_assoc.
  normal. apply (reads_header true (codes "cluster")); [discriminate|reflexivity|].
  change (codes "id = ") with (codes "id" ++ [32; 61; 32]%N). normal. apply reads_count; [discriminate|reflexivity|].
  change (codes "nb_values = ") with (codes "nb_values" ++ [32; 61; 32]%N). normal.
  apply reads_count; [discriminate|reflexivity|].
  change (codes "nb_rows = ") with (codes "nb_rows" ++ [32; 61; 32]%N). normal. apply reads_count; [discriminate|reflexivity|].
  change (codes "harmonized = """) with (codes "harmonized" ++ [32; 61; 32; 34]%N). change (codes """") with [34%N]. normal.
  match goal with |- reads (_ ++ _ :: _ :: _ :: 34%N :: escape_string h ++ 34%N :: 10%N :: ?r) _ =>
    pose proof (reads_string (codes "harmonized") h r) as RS end.
  rewrite <- ?app_assoc in RS. cbn [app] in RS. rewrite <- ?app_assoc in RS. cbn [app] in RS. apply RS; [discriminate|reflexivity|exact Sh|]. clear RS.
  change (codes "values =  [") with (codes "values" ++ [32; 61; 32; 32; 91]%N). normal.
  change (codes "]") with [93%N]. change (codes "harmonize = false") with (codes "harmonize" ++ [32; 61; 32]%N ++ codes "false"). normal.
  match goal with |- reads _ (Pair _ _ :: ?l') => assert (RF : reads (codes "harmonize" ++ 32%N :: 61%N :: 32%N :: codes "false" ++ 10%N :: 10%N :: rest) l') end.
  { apply reads_scalar; try reflexivity; try discriminate. apply reads_blank, R. }
  match goal with |- reads ?t _ => match t with context [93%N :: 10%N :: ?r] => set (rest' := r) in * end end.
  pose proof (reads_pair (codes "values") [32; 32]%N (91%N :: 10%N :: printed (map (toml_value values m) vs) ++ [93%N])
    (TArray (map (fun v => entry (v, count_of values v)) vs)) rest') as RP.
  cbn [app] in RP. rewrite <- ?app_assoc in RP. cbn [app] in RP.
  rewrite (map_map (fun v => (v, count_of values v)) (fun vn => entry vn)) || rewrite map_map.
  apply RP; [discriminate|reflexivity|reflexivity|eexists _, _; split; reflexivity| |exact RF].
  intros fuel F. apply value_array. apply read_entries; [|exact Sv]. cbn [length] in F. rewrite app_length in F. pose proof (entries_length values m vs) as EL.
  assert (LV : length vs = Datatypes.S (length vs')) by (rewrite V; reflexivity). cbn [length] in *. clear - F EL LV. clearbody vs. unfold str in *. lia.
Qed.

Lemma tables_of_pairs t l tables : tables_of l = ([], tables) -> tables_of (pairs_of t ++ l) = ([], t :: tables).
Proof.
  intros E. unfold pairs_of. destruct t as [[array name] pairs]. cbn [fst snd app tables_of].
  assert (T : tables_of (map (fun kv => Pair (fst kv) (snd kv)) pairs ++ l) = (pairs, tables)).
  { induction pairs as [|[k v] pairs IH]; cbn [map app tables_of fst snd]; [exact E|]. now rewrite IH. }
  now rewrite T.
Qed.

Lemma clusters_read values clusters : forall n rcs,
  mapM (fun ic => render_cluster values (fst ic) (snd ic)) (combine (seq n (length clusters)) clusters) = Ok rcs ->
  Forall (fun rc => Forall (fun vn => forallb safe (fst vn) = true) (rc_values rc)) rcs ->
  exists blocks, mapM (fun ic => toml_cluster values (fst ic) (snd ic)) (combine (seq n (length clusters)) clusters) = Ok blocks /\
    reads (printed (concat blocks)) (concat (map (fun rc => pairs_of (cluster_table rc)) rcs)).
Proof.
  induction clusters as [|c clusters IH]; intros n rcs E S; cbn [length seq combine mapM fst snd] in *.
  - injection E as <-. exists []. split; [reflexivity|apply reads_nil].
  - destruct (render_cluster values n c) as [rc|] eqn:R; [|discriminate E]. cbn [bind] in E.
    destruct (mapM _ (combine (seq (Datatypes.S n) _) _)) as [rcs'|] eqn:M; [|discriminate E]. cbn [bind] in E. injection E as <-.
    inversion S as [|? ? S1 S2]; subst. destruct (cluster_reads values n c rc R S1) as (lines & L & RL).
    destruct (IH (Datatypes.S n) rcs' M S2) as (blocks & B & RB). rewrite L, B. cbn [bind]. eexists. split; [reflexivity|].
    cbn [concat map]. rewrite printed_app. apply RL, RB.
Qed.

Lemma escape_safe s : forallb (fun c => unescaped c) s = true -> escape_string s = s.
Proof.
  intros U. rewrite escape_flat. induction s as [|c s IH]; [reflexivity|]. cbn [forallb] in U. apply andb_prop in U. destruct U as [C U].
  cbn [flat_map]. rewrite IH by exact U. unfold esc. destruct (N.eqb_spec c 34) as [->|]; [discriminate C|]. destruct (N.eqb_spec c 10) as [->|]; [discriminate C|]. reflexivity.
Qed.

Lemma valid_report date time a took rep : valid_tables (report_tables date time a took rep) = true.
Proof.
  unfold valid_tables, report_tables.
  assert (F : filter (fun t : table => negb (fst (fst t))) (map cluster_table (r_clusters rep)) = []).
  { induction (r_clusters rep) as [|c l IH]; [reflexivity|exact IH]. }
  unfold table in *. cbn [filter fst snd negb]. rewrite F. cbv zeta. cbn [map fst snd].
  rewrite andb_true_iff, andb_true_iff. split; [split|].
  - cbn [forallb]. apply andb_true_intro. split; [vm_compute; reflexivity|]. apply andb_true_intro. split; [vm_compute; reflexivity|].
    apply forallb_forall. intros t I. apply in_map_iff in I. destruct I as (rc & <- & _). vm_compute. reflexivity.
  - vm_compute. reflexivity.
  - apply forallb_forall. intros t [<-|[<-|I]]; [reflexivity|reflexivity|]. apply in_map_iff in I. destruct I as (rc & <- & _). vm_compute. reflexivity.
Qed.

Lemma report_read m values clusters rep : render (m_lines m) values clusters = Ok rep ->
  Forall (fun rc => Forall (fun vn => forallb safe (fst vn) = true) (rc_values rc)) (r_clusters rep) ->
  let d := m_date m in valid_date (year d) (month d) (day d) (hour d) (minute d) (second d) ->
  forallb unescaped (m_algorithm m) = true ->
  exists text, toml_report m values clusters = Ok text /\
    read_document text = Some (report_tables (date_of d) (time_of d) (m_algorithm m) (Z.of_N (micro (m_took m)) # 1000000) rep).
Proof.
  intros E S d D A. unfold render in E. rewrite enumerate_from in E.
  destruct (mapM _ _) as [rcs|] eqn:M; [|discriminate E]. cbn [bind] in E. injection E as <-. cbn [r_clusters] in S.
  destruct (clusters_read values clusters 0 rcs M S) as (blocks & B & R). unfold toml_report. rewrite enumerate_from, B. cbn [bind].
  eexists. split; [reflexivity|]. rewrite first_piece_point. fold d. destruct (iso_date_time d D) as (D1 & D2 & D3). destruct (py_float6_scalar (m_took m)) as (F1 & F2 & F3).
  set (rep := {| r_lines := m_lines m |}). set (q := Z.of_N _ # _) in *.
  assert (All : reads (printed ([codes "[info]"; codes "date = " ++ iso_seconds d; codes "algorithm = """ ++ m_algorithm m ++ codes """"; [];
     codes "[stats]"; codes "lines = " ++ py_nat (m_lines m); codes "nb_distinct_values = " ++ py_nat (length values);
     codes "nb_clusters = " ++ py_nat (length clusters); codes "took = " ++ py_float6 (m_took m); []] ++ concat blocks))
     (concat (map pairs_of (report_tables (date_of d) (time_of d) (m_algorithm m) q rep)))).
  { rewrite printed_app. rewrite !printed_cons. cbn [printed map concat]. cbn [app]. fold (printed (concat blocks)).
    normal. unfold report_tables. cbn [map concat]. rewrite map_map. unfold pairs_of at 1 2, named. cbn [fst snd map app r_lines r_nb_distinct_values r_nb_clusters r_clusters rep].
    change (codes "[info]") with (codes "[" ++ codes "info" ++ codes "]"). normal.
    normal. apply (reads_header false (codes "info")); [discriminate|reflexivity|].
    change (codes "date = ") with (codes "date" ++ [32; 61; 32]%N). normal. apply reads_scalar; try assumption; [discriminate|reflexivity|].
    change (codes "algorithm = """) with (codes "algorithm" ++ [32; 61; 32; 34]%N). change (codes """") with [34%N]. normal.
    match goal with |- reads (_ ++ _ :: _ :: _ :: 34%N :: _ ++ 34%N :: 10%N :: ?r) _ => pose proof (reads_string (codes "algorithm") (m_algorithm m) r) as RS end.
    rewrite (escape_safe (m_algorithm m) A) in RS. rewrite <- ?app_assoc in RS. cbn [app] in RS. rewrite <- ?app_assoc in RS. cbn [app] in RS.
    apply RS; [discriminate|reflexivity| |].
    { revert A. apply forallb_imp. intros c C. unfold safe. now rewrite C. }
    clear RS. apply reads_blank.
    change (codes "[stats]") with (codes "[" ++ codes "stats" ++ codes "]"). normal.
    normal. apply (reads_header false (codes "stats")); [discriminate|reflexivity|].
    change (codes "lines = ") with (codes "lines" ++ [32; 61; 32]%N). normal. apply reads_count; [discriminate|reflexivity|].
    change (codes "nb_distinct_values = ") with (codes "nb_distinct_values" ++ [32; 61; 32]%N). normal. apply reads_count; [discriminate|reflexivity|].
    change (codes "nb_clusters = ") with (codes "nb_clusters" ++ [32; 61; 32]%N). normal. apply reads_count; [discriminate|reflexivity|].
    change (codes "took = ") with (codes "took" ++ [32; 61; 32]%N). normal. apply reads_scalar; try assumption; [discriminate|reflexivity|].
    apply reads_blank, R. }
  unfold read_document. rewrite All by (apply Nat.lt_succ_diag_r).
  assert (T : forall ts, tables_of (concat (map pairs_of ts)) = ([], ts)).
  { induction ts as [|t ts IH]; [reflexivity|]. cbn [map concat]. now apply tables_of_pairs. }
  rewrite T, valid_report. reflexivity.
Qed.

Lemma micro_near q : (0 <= q)%Q -> (Qabs ((Z.of_N (micro q) # 1000000) - q) <= 1 # 2000000)%Q.
Proof.
  intros P. unfold micro. set (x := (q * (1000000 # 1))%Q). assert (X : (0 <= x)%Q) by (unfold x; lra).
  rewrite Z2N.id by now apply round_even_nonneg. pose proof (round_even_near x) as N. apply Qabs_Qle_condition in N. apply Qabs_Qle_condition.
  assert (E : ((round_even x # 1000000) == inject_Z (round_even x) * (1 # 1000000))%Q) by (unfold Qeq; cbn; lia).
  rewrite E. clear E. unfold x in *. set (r := inject_Z _) in *. clearbody r. lra.
Qed.
