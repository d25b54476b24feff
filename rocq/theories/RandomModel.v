(** Model of the part of python's module random that fog uses: Random(seed) for an integer seed, random, getrandbits and randint.
    The generator is that of CPython's _randommodule.c (MT19937); randint is that of Lib/random.py. *)
From Coq Require Import QArith.
From Verif Require Import Base LevModel.
Open Scope N_scope.
Open Scope list_scope.

(** _randommodule.c: the constants *)
Definition SIZE : nat := 624.
Definition SHIFT : nat := 397.
Definition MATRIX_A : N := 0x9908b0df.
Definition UPPER_MASK : N := 0x80000000.
Definition LOWER_MASK : N := 0x7fffffff.
(** uint32_t *)
Definition uint32 (x : N) : N := x mod 2 ^ 32.

Record rng := { words : list N; position : nat }.
Definition at_ (mt : list N) (i : nat) : N := nth i mt 0.

(** init_genrand: the words from the i-th on, after [previous] *)
Fixpoint genrand_words (turns : nat) (i previous : N) : list N :=
  match turns with
  | O => []
  | S turns => let w := uint32 (1812433253 * N.lxor previous (N.shiftr previous 30) + i) in w :: genrand_words turns (i + 1) w
  end.
Definition init_genrand (s : N) : list N := uint32 s :: genrand_words (SIZE - 1) 1 (uint32 s).

(** init_by_array: both loops; subtraction wraps around *)
Definition scrambled (mt : list N) (i : nat) (factor : N) : N :=
  let previous := at_ mt (i - 1) in N.lxor (at_ mt i) (uint32 (N.lxor previous (N.shiftr previous 30) * factor)).
Definition wrapped (mt : list N) (i : nat) : list N * nat := if Nat.leb SIZE i then (upd mt 0 (at_ mt (SIZE - 1)), 1%nat) else (mt, i).
Fixpoint first_loop (turns : nat) (key : list N) (i j : nat) (mt : list N) : list N * nat :=
  match turns with
  | O => (mt, i)
  | S turns =>
    let mt := upd mt i (uint32 (scrambled mt i 1664525 + nth j key 0 + N.of_nat j)) in
    let '(mt, i) := wrapped mt (S i) in
    first_loop turns key i (if Nat.leb (List.length key) (S j) then 0%nat else S j) mt
  end.
Fixpoint second_loop (turns : nat) (i : nat) (mt : list N) : list N :=
  match turns with
  | O => mt
  | S turns =>
    let mt := upd mt i (uint32 (scrambled mt i 1566083941 + (2 ^ 32 - N.of_nat i))) in
    let '(mt, i) := wrapped mt (S i) in
    second_loop turns i mt
  end.
Definition init_by_array (key : list N) : rng :=
  let '(mt, i) := first_loop (Nat.max SIZE (List.length key)) key 1 0 (init_genrand 19650218) in
  {| words := upd (second_loop (SIZE - 1) i mt) 0 0x80000000; position := SIZE |}.

(** random_seed: the words of the absolute value of the seed, at least one *)
Fixpoint key_of (turns : nat) (n : N) : list N :=
  match turns with O => [] | S turns => n mod 2 ^ 32 :: key_of turns (n / 2 ^ 32) end.
Definition seed (a : Z) : rng :=
  let n := Z.abs_N a in
  let bits := N.size n in
  init_by_array (key_of (if bits =? 0 then 1%nat else N.to_nat ((bits - 1) / 32 + 1)) n).

(** genrand_uint32: the three parts of the generation of SIZE words *)
Definition twist_at (mt : list N) (kk next far : nat) : list N :=
  let y := N.lor (N.land (at_ mt kk) UPPER_MASK) (N.land (at_ mt next) LOWER_MASK) in
  upd mt kk (N.lxor (N.lxor (at_ mt far) (N.shiftr y 1)) (if N.odd y then MATRIX_A else 0)).
Definition twist (mt : list N) : list N :=
  let mt := fold_left (fun mt kk => twist_at mt kk (kk + 1) (kk + SHIFT)) (seq 0 (SIZE - SHIFT)) mt in
  let mt := fold_left (fun mt kk => twist_at mt kk (kk + 1) (kk - (SIZE - SHIFT))) (seq (SIZE - SHIFT) (SHIFT - 1)) mt in
  twist_at mt (SIZE - 1) 0 (SHIFT - 1).
Definition temper (y : N) : N :=
  let y := N.lxor y (N.shiftr y 11) in
  let y := N.lxor y (N.land (uint32 (N.shiftl y 7)) 0x9d2c5680) in
  let y := N.lxor y (N.land (uint32 (N.shiftl y 15)) 0xefc60000) in
  N.lxor y (N.shiftr y 18).
Definition genrand (g : rng) : N * rng :=
  let '(mt, i) := if Nat.leb SIZE (position g) then (twist (words g), 0%nat) else (words g, position g) in
  (temper (at_ mt i), {| words := mt; position := S i |}).
(** the generator once n words have been drawn *)
Definition after (n : nat) (g : rng) : rng := Nat.iter n (fun g => snd (genrand g)) g.

(** random.random: 53 bits *)
Definition random (g : rng) : Q * rng :=
  let '(a, g) := genrand g in
  let '(b, g) := genrand g in
  ((Z.of_N (N.shiftr a 5 * 67108864 + N.shiftr b 6) # 9007199254740992)%Q, g).

(** random.getrandbits: the low word first; the last one only has the bits left *)
Fixpoint random_words (turns : nat) (k : N) (g : rng) : N * rng :=
  match turns with
  | O => (0, g)
  | S turns =>
    let '(r, g) := genrand g in
    let r := if k <? 32 then N.shiftr r (32 - k) else r in
    let '(high, g) := random_words turns (k - 32) g in
    (r + 2 ^ 32 * high, g)
  end.
Definition getrandbits (k : N) (g : rng) : N * rng :=
  if k =? 0 then (0, g)
  else if k <=? 32 then let '(r, g) := genrand g in (N.shiftr r (32 - k), g)
  else random_words (N.to_nat ((k - 1) / 32 + 1)) k g.

(** Random._randbelow_with_getrandbits; [fuel] bounds the number of draws, python has no bound *)
Fixpoint randbelow (fuel : nat) (n : N) (g : rng) : res (N * rng) :=
  match fuel with
  | O => Err OutOfFuel
  | S fuel => let '(r, g) := getrandbits (N.size n) g in if n <=? r then randbelow fuel n g else Ok (r, g)
  end.
(** Random.randint and randrange *)
Definition randint (fuel : nat) (a b : Z) (g : rng) : res (Z * rng) :=
  let width := (b + 1 - a)%Z in
  if (0 <? width)%Z then let! (r, g) := randbelow fuel (Z.to_N width) g in Ok ((a + Z.of_N r)%Z, g) else Err ValueError.
