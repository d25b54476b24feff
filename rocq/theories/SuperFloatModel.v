(** SuperMinHash with the floats of python: the sums [r + j] and the products [r * (m - j)] are rounded (fog/lsh/minhash.py:137-195).
    Branch by branch the loop of MinHashModel, whose sums and products are exact. *)
From Coq Require Import QArith Qround ZArith NArith.
From Verif Require Import Base LevModel PairwiseModel MetricsModel ClustersModel StringsModel BitsModel MinHashModel FloatModel DigestModel RandomModel SeededModel.
Open Scope list_scope.
Notation length := List.length.

Section Super.
Context {T : Type}.
Variable crc32 : T -> N.
Variable set_order : list N -> list N.
Variable random : N -> nat -> Q.

(** lines 169-191, one turn; a position above the last one raises IndexError *)
Definition super_step_float (m : nat) (i : nat) (token : N) (j : nat) (st : super) : res super :=
  let r := random token j in
  let k := (j + Z.to_nat (Qfloor (fmul r (Qnat (m - j)))))%nat in
  if Nat.leb m k then Err IndexError else
  let '(q, p) := if Z.eqb (nth j (sq st) 0%Z) (Z.of_nat i) then (sq st, sp st) else (upd (sq st) j (Z.of_nat i), upd (sp st) j j) in
  let '(q, p) := if Z.eqb (nth k q 0%Z) (Z.of_nat i) then (q, p) else (upd q k (Z.of_nat i), upd p k k) in
  let tmp := nth j p 0%nat in
  let p := upd p j (nth k p 0%nat) in
  let p := upd p k tmp in
  let x := nth j p 0%nat in
  let hx := nth x (sh st) 0%Q in
  if negb (Qle_bool hx (fadd r (Qnat j))) then
    let j2 := Nat.min (Z.to_nat (Qfloor hx)) (m - 1) in
    let h := upd (sh st) x (fadd r (Qnat j)) in
    if Nat.ltb j j2 then
      let b := upd (sb st) j2 (nth j2 (sb st) 0 - 1)%Z in
      let b := upd b j (nth j b 0 + 1)%Z in
      let! a := lower (sa st) b in
      Ok {| sh := h; sp := p; sq := q; sb := b; sa := a |}
    else Ok {| sh := h; sp := p; sq := q; sb := sb st; sa := sa st |}
  else Ok {| sh := sh st; sp := p; sq := q; sb := sb st; sa := sa st |}.

(** lines 166-193 *)
Fixpoint super_loop_float (fuel m i : nat) (token : N) (j : nat) (st : super) : res super :=
  if Nat.leb j (sa st) then
    match fuel with
    | O => Err OutOfFuel
    | S fuel => let! st := super_step_float m i token j st in super_loop_float fuel m i token (S j) st
    end
  else Ok st.
Fixpoint super_tokens_float (m i : nat) (tokens : list N) (st : super) : res super :=
  match tokens with
  | [] => Ok st
  | token :: tokens => let! st := super_loop_float m m i token 0 st in super_tokens_float m (S i) tokens st
  end.

(** lines 143-195 *)
Definition super_float (m : nat) (x : sequence T) : res (list Z) :=
  let tokens := token_set crc32 set_order x in
  match m with
  | O => Err IndexError
  | S last =>
    let st := {| sh := repeat (Qnat (m + 1)) m; sp := repeat 0%nat m; sq := repeat (-1)%Z m;
                 sb := upd (repeat 0%Z m) last (Z.of_nat m); sa := last |} in
    let! st := super_tokens_float m 0 tokens st in
    Ok (map Qfloor (sh st))
  end.
End Super.

(** with python's generator and the crc32 of tokens *)
Definition seeded_super_float (set_order : list N -> list N) (m : nat) (x : sequence str) : res (list Z) :=
  let! _ := match x with Text _ => Ok [] | Tokens l => mapM DigestModel.crc32 l end in
  super_float checksum set_order token_draw m x.
