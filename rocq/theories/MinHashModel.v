(** Model of fog/lsh/minhash.py and of fog/clustering/minhash.py.  Integers are natural numbers of type N,
    floats are exact rationals. *)
From Coq Require Import String QArith Qround DecimalString.
From Verif Require Import Base LevModel PairwiseModel MetricsModel ClustersModel StringsModel BitsModel.
Open Scope N_scope.
Open Scope list_scope.
Notation length := List.length.
Notation concat := List.concat.

(** lsh/minhash.py:28-29 *)
Definition MAX_UINT32 : N := 2 ^ 32 - 1.
Definition NEXT_PRIME : N := 4294967311.

(** lsh/minhash.py:33-41; a float division by 0 raises ZeroDivisionError *)
Definition minhash_similarity (A B : list N) : res Q :=
  let h := length A in
  let! differs := mapM (fun i => let! a := index A i in let! b := index B i in Ok (if a =? b then 0%nat else 1%nat)) (seq 0 h) in
  if Nat.eqb h 0 then Err ZeroDivisionError else Ok (1 - Qnat (list_sum differs) / Qnat h)%Q.

(** lsh/minhash.py:44-52 *)
Definition lsb_minhash_similarity (A B : list N) : res Q :=
  let L := length A in
  let! counts := mapM (fun i => let! a := index A i in let! b := index B i in Ok (popcount64 (N.lxor a b))) (seq 0 L) in
  if Nat.eqb L 0 then Err ZeroDivisionError
  else Ok (1 - 2 * inject_Z (Z.of_N (fold_right N.add 0%N counts)) / (Qnat L * 64))%Q.

(** lsh/minhash.py:76-84, 204-214: pairs are drawn until [h] different ones are found; [draws] is the stream of
    the generator and [fuel] bounds the number of draws (python's loop has no bound) *)
Fixpoint draw_params (fuel : nat) (draws : nat -> N * N) (h : nat) (params : list (N * N)) (n : nat) : res (list (N * N)) :=
  if Nat.ltb (length params) h then
    match fuel with
    | O => Err OutOfFuel
    | S fuel => draw_params fuel draws h (sadd params (draws n)) (S n)
    end
  else Ok params.

(** lsh/minhash.py:69-88 MinHash.__init__ without numpy, and lines 200-215 LSBMinHash.__init__ with
    [h = precision * 64]; [params_order] is the iteration order of the set *)
Definition make_params (params_order : list (N * N) -> list (N * N)) (fuel : nat) (draws : nat -> N * N) (h : nat) : res (list (N * N)) :=
  let! params := draw_params fuel draws h [] 0 in Ok (params_order params).

Section Signatures.
Context {T : Type}.
(** the crc32 of a token, the one character string of a code point, and the iteration order of a set of numbers *)
Variable crc32 : T -> N.
Variable letter : N -> T.
Variable set_order : list N -> list N.

(** a python string, or another iterable of tokens *)
Inductive sequence := Text (s : str) | Tokens (l : list T).
(** what iterating over it yields *)
Definition elements (x : sequence) : list T := match x with Text s => map letter s | Tokens l => l end.

(** lsh/minhash.py:94-97, 147-150, 220-223 *)
Definition numbers (x : sequence) : list N := match x with Text s => s | Tokens l => map crc32 l end.
Definition token_set (x : sequence) : list N := set_order (set_of (numbers x)).

(** lsh/minhash.py:121-130, 236-243 *)
Definition universal_hash (param : N * N) (token : N) : N := (fst param * token + snd param) mod NEXT_PRIME.
Definition min_hash (param : N * N) (tokens : list N) : N :=
  fold_left (fun m token => let h := universal_hash param token in if h <? m then h else m) tokens MAX_UINT32.

(** lsh/minhash.py:92-134 MinHash.create_signature without numpy *)
Definition create_signature (params : list (N * N)) (h : nat) (x : sequence) : res (list N) :=
  let tokens := token_set x in
  if Nat.eqb (length tokens) 0 then Ok (repeat 0 h)
  else mapM (fun s => let! param := index params s in Ok (min_hash param tokens)) (seq 0 h).

(** lsh/minhash.py:100-115, the numpy branch: products and sums wrap at 2^32 in an array of uint32 and the
    remainder by NEXT_PRIME, which is larger than 2^32, then changes nothing *)
Definition numpy_hash (param : N * N) (token : N) : N :=
  (((fst param * token) mod 2 ^ 32 + snd param) mod 2 ^ 32) mod NEXT_PRIME.
Definition numpy_min (param : N * N) (token : N) (tokens : list N) : N :=
  fold_left (fun m token => N.min m (numpy_hash param token)) tokens (numpy_hash param token).
Definition create_signature_numpy (params : list (N * N)) (h : nat) (x : sequence) : list N :=
  match token_set x with
  | [] => repeat 0 h
  | token :: tokens => map (fun param => numpy_min param token tokens) params
  end.

(** lsh/minhash.py:231-246, one integer *)
Definition lsb_integer (params : list (N * N)) (tokens : list N) (s : nat) : res N :=
  let! bits := mapM (fun i => let! param := index params (s * 64 + i) in
                              Ok (N.shiftl (N.land (min_hash param tokens) 1) (N.of_nat i))) (seq 0 64) in
  Ok (fold_left N.lor bits 0).
(** lsh/minhash.py:217-250 LSBMinHash.create_signature *)
Definition lsb_signature (params : list (N * N)) (precision : nat) (x : sequence) : res (list N) :=
  let tokens := token_set x in
  if Nat.eqb (length tokens) 0 then Ok (repeat 0 precision)
  else mapM (lsb_integer params tokens) (seq 0 precision).

(** ** lsh/minhash.py:137-195 SuperMinHash.  [random token j] is the j-th number drawn after [rng.seed(token)]; one
    number is drawn per turn of the loop.  Sums and products of floats are exact.  [q] holds -1 at first. *)
Variable random : N -> nat -> Q.

Record super := { sh : list Q; sp : list nat; sq : list Z; sb : list Z; sa : nat }.

(** lines 190-191.  The histogram never is null below its end, so that python's negative positions are not reached *)
Fixpoint lower (a : nat) (b : list Z) : res nat :=
  if Z.eqb (nth a b 0%Z) 0 then match a with O => Err IndexError | S a => lower a b end else Ok a.

(** lines 173-191, one turn; every position is below m *)
Definition super_step (m : nat) (i : nat) (token : N) (j : nat) (st : super) : res super :=
  let r := random token j in
  let k := (j + Z.to_nat (Qfloor (r * Qnat (m - j))))%nat in
  let '(q, p) := if Z.eqb (nth j (sq st) 0%Z) (Z.of_nat i) then (sq st, sp st) else (upd (sq st) j (Z.of_nat i), upd (sp st) j j) in
  let '(q, p) := if Z.eqb (nth k q 0%Z) (Z.of_nat i) then (q, p) else (upd q k (Z.of_nat i), upd p k k) in
  let tmp := nth j p 0%nat in
  let p := upd p j (nth k p 0%nat) in
  let p := upd p k tmp in
  let x := nth j p 0%nat in
  let hx := nth x (sh st) 0%Q in
  if negb (Qle_bool hx (r + Qnat j)) then
    let j2 := Nat.min (Z.to_nat (Qfloor hx)) (m - 1) in
    let h := upd (sh st) x (r + Qnat j)%Q in
    if Nat.ltb j j2 then
      let b := upd (sb st) j2 (nth j2 (sb st) 0 - 1)%Z in
      let b := upd b j (nth j b 0 + 1)%Z in
      let! a := lower (sa st) b in
      Ok {| sh := h; sp := p; sq := q; sb := b; sa := a |}
    else Ok {| sh := h; sp := p; sq := q; sb := sb st; sa := sa st |}
  else Ok {| sh := sh st; sp := p; sq := q; sb := sb st; sa := sa st |}.

(** lines 172-193; [a] only decreases, m turns are enough *)
Fixpoint super_loop (fuel m i : nat) (token : N) (j : nat) (st : super) : res super :=
  if Nat.leb j (sa st) then
    match fuel with
    | O => Err OutOfFuel
    | S fuel => let! st := super_step m i token j st in super_loop fuel m i token (S j) st
    end
  else Ok st.

Fixpoint super_tokens (m i : nat) (tokens : list N) (st : super) : res super :=
  match tokens with
  | [] => Ok st
  | token :: tokens => let! st := super_loop m m i token 0 st in super_tokens m (S i) tokens st
  end.

(** line 164 writes at the last position of an empty list when [h] is 0 *)
Definition super_signature (m : nat) (x : sequence) : res (list Z) :=
  let tokens := token_set x in
  match m with
  | O => Err IndexError
  | S last =>
    let st := {| sh := repeat (Qnat (m + 1)) m; sp := repeat 0%nat m; sq := repeat (-1)%Z m;
                 sb := upd (repeat 0%Z m) last (Z.of_nat m); sa := last |} in
    let! st := super_tokens m 0 tokens st in
    Ok (map Qfloor (sh st))
  end.
End Signatures.
Arguments sequence T : clear implicits.

(** ** fog/clustering/minhash.py *)

(** lines 50-63 and the test of line 85, [similarity_threshold(h, bands) <= threshold], without roots: with
    positive numbers, (1 / b) ^ (b / h) <= t exactly when 1 <= t ^ h * b ^ b.  Floats are exact. *)
Definition threshold_met (h bands : nat) (threshold : Q) : bool :=
  negb (Qle_bool threshold 0) && Qle_bool 1 (threshold ^ Z.of_nat h * Qnat bands ^ Z.of_nat bands)%Q.

(** lines 66-91; [turns] is the number of turns left, from [bands] to [h] *)
Fixpoint guess_loop (turns h bands : nat) (threshold : Q) : nat :=
  match turns with
  | O => bands
  | S turns => if threshold_met h bands threshold then bands else guess_loop turns h (S bands) threshold
  end.
Definition guess_bands (h : nat) (threshold : Q) : nat := guess_loop h h 1 threshold.

(** str(n) *)
Definition decimal (n : N) : str := codes (NilEmpty.string_of_uint (N.to_uint n)).
(** '%'.join(l) *)
Definition percent_join (l : list str) : str :=
  match l with
  | [] => []
  | x :: l => fold_left (fun acc y => acc ++ 37 :: y) l x
  end.

Section Clustering.
Context {A T : Type} `{EqDec A} `{EqDec T}.
Variable crc32 : T -> N.
Variable letter : N -> T.
Variable token_order : list N -> list N.
Variable set_order : list A -> list A.
(** the key of an item: the item itself when no key is given *)
Variable key : A -> sequence T.
(** whether both keys are the same python object *)
Variable same : A -> A -> bool.

(** lines 135-138: the positions range(0, upper, rows), for rows > 0 *)
Definition band_starts (bands rows : nat) : list nat := map (fun i => (i * rows)%nat) (seq 0 bands).

(** lines 137-138 *)
Definition band_key (signature : list N) (rows band : nat) : nat * str :=
  (band, percent_join (map decimal (slice band (band + rows) signature))).

(** lines 127-139; range refuses a null step *)
Fixpoint fill_buckets (params : list (N * N)) (h bands rows : nat) (data : list A) (buckets : dict (nat * str) (list A))
    : res (dict (nat * str) (list A)) :=
  match data with
  | [] => Ok buckets
  | item :: data =>
    let! signature := create_signature crc32 token_order params h (key item) in
    if Nat.eqb rows 0 then Err ValueError
    else fill_buckets params h bands rows data
           (fold_left (fun buckets band => dmodify buckets (band_key signature rows band) [] (fun l => l ++ [item]))
              (band_starts bands rows) buckets)
  end.

(** lines 141-145 *)
Definition double_check (radius : Q) (a b : A) : bool :=
  Qle_bool radius (jaccard_similarity (same a b) (elements letter (key a)) (elements letter (key b))).

(** lines 94-151 minhash; [params] are those of MinHash(h, seed=seed).  The clusters have the default bounds *)
Definition minhash (params : list (N * N)) (data : list A) (h : nat) (radius : Q) (bands : option nat) : res (list (list A)) :=
  let bands := match bands with Some b => b | None => guess_bands h radius end in
  if Nat.eqb bands 0 then Err ZeroDivisionError
  else
    let rows := Nat.div h bands in
    let! buckets := fill_buckets params h bands rows data [] in
    clusters_from_buckets set_order (dvalues buckets) 2 None "connected_components" (Some (double_check radius)) false.
End Clustering.
