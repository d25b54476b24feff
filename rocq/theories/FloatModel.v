(** Python floats: binary64, round to nearest, ties to even.  A float is the rational number it stands for.  Overflow,
    subnormal numbers, infinities and the sign of zero are left out: the exponent is not bounded. *)
From Coq Require Import QArith Qround Qabs ZArith.
From Verif Require Import Base LevModel StringsModel MetricsModel.
Open Scope Q_scope.
Open Scope list_scope.

(** nearest integer, half to even *)
Definition nearest_even (q : Q) : Z :=
  let f := Qfloor q in
  match (q - inject_Z f ?= 1 # 2)%Q with
  | Lt => f
  | Gt => (f + 1)%Z
  | Eq => if Z.even f then f else (f + 1)%Z
  end.

(** 2^k *)
Definition pow2 (k : Z) : Q := (2 # 1) ^ k.

(** for q > 0, the e such that 2^e <= q < 2^(e+1) *)
Definition exponent (q : Q) : Z :=
  let e := (Z.log2 (Qnum q) - Z.log2 (Zpos (Qden q)))%Z in
  if Qle_bool (pow2 e) q then e else (e - 1)%Z.

(** the float nearest to q, for q > 0 *)
Definition fl_pos (q : Q) : Q :=
  let e := exponent q in
  Qred (inject_Z (nearest_even (q * pow2 (52 - e))) * pow2 (e - 52))%Q.
(** the float nearest to q *)
Definition fl (q : Q) : Q :=
  match (q ?= 0)%Q with
  | Eq => 0
  | Gt => fl_pos q
  | Lt => Qred (- fl_pos (- q))
  end.

(** the operations on floats; an int operand is converted first, and the ints here are below 2^53 *)
Definition fadd (a b : Q) : Q := fl (a + b).
Definition fsub (a b : Q) : Q := fl (a - b).
Definition fmul (a b : Q) : Q := fl (a * b).
Definition fdiv (a b : Q) : Q := fl (a / b).

(** math.sqrt, for q > 0: the square root with 54 bits, then one sticky bit, rounded *)
Definition fsqrt (q : Q) : Q :=
  match (q ?= 0)%Q with
  | Gt =>
    let e := (exponent q / 2)%Z in
    let x := q * pow2 (2 * (60 - e)) in
    let s := Z.sqrt (Qfloor x) in
    fl (inject_Z (if Qeq_bool (inject_Z (s * s)) x then 2 * s else 2 * s + 1) * pow2 (e - 61))
  | _ => 0
  end.

(** ** The metrics of sets; the sizes are python ints, and [/] on two ints gives the float nearest to the quotient *)
Section Sets.
Context {T : Type} `{EqDec T}.

(** jaccard.py:20-68 *)
Definition jaccard_float (same : bool) (A B : list T) : Q :=
  if same then 1
  else
    let A := set_of A in
    let B := set_of B in
    if Nat.eqb (length A) 0 || Nat.eqb (length B) 0 then 0
    else
      let '(A, B) := swap_smaller A B in
      let I := count_in A B in
      let U := (Z.of_nat (length A) + Z.of_nat (length B) - Z.of_nat I)%Z in
      fdiv (Qnat I) (inject_Z U).

(** dice.py:17-65 *)
Definition dice_float (same : bool) (A B : list T) : Q :=
  if same then 1
  else
    let A := set_of A in
    let B := set_of B in
    let '(A, B) := swap_smaller A B in
    let la := length A in
    let lb := length B in
    if Nat.eqb la 0 then (if Nat.eqb lb 0 then 1 else 0)
    else
      let I := count_in A B in
      fdiv (Qnat (2 * I)) (Qnat (la + lb)).

(** overlap.py:13-51 *)
Definition overlap_float (same : bool) (A B : list T) : Q :=
  if same then 1
  else
    let A := set_of A in
    let B := set_of B in
    if Nat.eqb (length A) 0 || Nat.eqb (length B) 0 then 0
    else
      let '(A, B) := swap_smaller A B in
      let I := count_in A B in
      fdiv (Qnat I) (Qnat (Nat.min (length A) (length B))).

(** python [x / math.sqrt(y)] *)
Definition div_sqrt_float (x y : Q) : res Q :=
  if Qeq_bool (fsqrt y) 0 then Err ZeroDivisionError else Ok (fdiv x (fsqrt y)).

(** cosine.py:72-111 sparse_binary_cosine_similarity; the counters are floats holding ints below 2^53, so that adding 1 is exact *)
Definition binary_cosine_float (same : bool) (A B : list T) : res Q :=
  if same then Ok 1
  else if Nat.eqb (length A) 0 || Nat.eqb (length B) 0 then Ok 0
  else
    let '(A, B) := swap_smaller A B in
    let xx := Qnat (length A) in
    let xy := Qnat (count_in A B) in
    let yy := Qnat (length B) in
    div_sqrt_float xy (fmul xx yy).

(** ** The metrics of weighted sets; the weights are floats *)

(** jaccard.py:109-121 *)
Definition weighted_step_float (B : dict T Q) (st : Q * Q * list T) (kv : T * Q) : Q * Q * list T :=
  let '(i, u, done) := st in
  let '(k, weight_A) := kv in
  let weight_B := match dget B k with Some w => w | None => 0 end in
  let done := if Qeq_bool weight_B 0 then done else sadd done k in
  if negb (Qle_bool weight_B weight_A)
  then (fadd i weight_A, fadd u weight_B, done)
  else (fadd i weight_B, fadd u weight_A, done).

(** jaccard.py:71-130 *)
Definition weighted_jaccard_float (same : bool) (A B : dict T Q) : res Q :=
  if same then Ok 1
  else if Nat.eqb (length A) 0 || Nat.eqb (length B) 0 then Ok 0
  else
    let '(A, B) := if Nat.ltb (length B) (length A) then (B, A) else (A, B) in
    let '(i, u, done) := fold_left (weighted_step_float B) A (0, 0, []) in
    let u := fold_left (fun u kv => if memb (fst kv) done then u else fadd u (snd kv)) B u in
    if Qeq_bool u 0 then Err ZeroDivisionError else Ok (fdiv i u).

(** cosine.py:56-63; [weight ** 2] is the float nearest to the square *)
Definition cosine_step_float (B : dict T Q) (st : Q * Q) (kv : T * Q) : Q * Q :=
  let '(xx, xy) := st in
  let '(k, weight) := kv in
  (fadd xx (fmul weight weight), match dget B k with Some v2 => fadd xy (fmul weight v2) | None => xy end).

(** cosine.py:18-69 *)
Definition cosine_float (same : bool) (A B : dict T Q) : res Q :=
  if same then Ok 1
  else if Nat.eqb (length A) 0 || Nat.eqb (length B) 0 then Ok 0
  else
    let '(A, B) := if Nat.ltb (length B) (length A) then (B, A) else (A, B) in
    let '(xx, xy) := fold_left (cosine_step_float B) A (0, 0) in
    let yy := fold_left (fun yy v => fadd yy (fmul v v)) (dvalues B) 0 in
    div_sqrt_float xy (fmul xx yy).

(** cosine.py:114-142 *)
Definition dot_float (A B : dict T Q) : Q :=
  let '(A, B) := if Nat.ltb (length B) (length A) then (B, A) else (A, B) in
  fold_left (fun p kv => match dget B (fst kv) with Some w2 => fadd p (fmul (snd kv) w2) | None => p end) A 0.
End Sets.

(** ** Numbers of things computed with floats *)

(** misc.py:47, the size of the smallest keys: max(1, math.floor(k * threshold)) *)
Definition key_size_float (k : Z) (threshold : Q) : Z := Z.max 1 (Qfloor (fmul (inject_Z k) threshold)).

(** misc.py:28-62 ngram_keys *)
Definition ngram_keys_float (n : nat) (string : str) (threshold : Q) : list str :=
  let k := (Z.of_nat (length string) - (Z.of_nat n - 1))%Z in
  let l := key_size_float k threshold in
  let grams := ngrams n string in
  concat grams ::
  map (@concat N)
    (flat_map (fun t => combinations grams (Z.to_nat (k - 1 - Z.of_nat t))) (seq 0 (Z.to_nat (k - l)))).

(** clustering/utils.py:203, the number of chunks: math.ceil(n / chunk_size) *)
Definition chunks_float (n chunk_size : nat) : Z := Qceiling (fdiv (Qnat n) (Qnat chunk_size)).

(** fagin.py:158, the number of leaders: int(math.sqrt(n)) *)
Definition leaders_float (n : nat) : Z := Qfloor (fsqrt (Qnat n)).

(** ** OnlineMean, utils.py:30-82, on floats *)
Definition mean_add_float (m : Q * nat) (x : Q) : Q * nat := (fadd (fst m) x, (snd m + 1)%nat).
Definition mean_subtract_float (m : Q * nat) (x : Q) : res (Q * nat) :=
  if Nat.eqb (snd m) 0 then Err AssertionError else Ok (fsub (fst m) x, (snd m - 1)%nat).
Definition mean_peek_float (m : Q * nat) : res Q :=
  if Nat.eqb (snd m) 0 then Err StatisticsError else Ok (fdiv (fst m) (Qnat (snd m))).
