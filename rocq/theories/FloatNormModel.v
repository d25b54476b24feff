(** The norm of a sparse vector and the vector divided by it, in floats (fog/metrics/cosine.py:145-160).  The weights are either
    floats or python ints.  [sum] adds from left to right, each addition rounded, as python does up to 3.11 (from 3.12 on it carries
    a correction for floats); with ints it is exact. *)
From Coq Require Import QArith ZArith.
From Verif Require Import Base FloatModel.
Open Scope Q_scope.
Open Scope list_scope.

Section Norm.
Context {T : Type}.

(** cosine.py:145-146, float weights *)
Definition norm_float (A : dict T Q) : Q := fsqrt (fold_left (fun s w => fadd s (fmul w w)) (dvalues A) 0).

(** cosine.py:149-160, float weights *)
Definition normalize_float (A : dict T Q) : dict T Q :=
  let length := norm_float A in
  if Qeq_bool length 0 then [] else map (fun kw => (fst kw, fdiv (snd kw) length)) A.

(** cosine.py:145-146, int weights: the sum is exact, [math.sqrt] first rounds it to a float *)
Definition norm_int (A : dict T Z) : Q := fsqrt (fl (inject_Z (fold_left (fun s w => s + w * w)%Z (dvalues A) 0%Z))).

(** cosine.py:149-160, int weights: [w / length] first rounds w to a float *)
Definition normalize_int (A : dict T Z) : dict T Q :=
  let length := norm_int A in
  if Qeq_bool length 0 then [] else map (fun kw => (fst kw, fdiv (fl (inject_Z (snd kw))) length)) A.
End Norm.
