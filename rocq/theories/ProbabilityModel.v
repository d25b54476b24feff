(** Model of match_probability and similarity_threshold (fog/clustering/minhash.py).  Floats are real numbers. *)
From Coq Require Import Reals.
From Verif Require Import Base.
Open Scope R_scope.

(** python [x ** y] for x >= 0 and y >= 0: [x ** 0.0] is 1.0 even for x = 0.0, and [0.0 ** y] is 0.0 *)
Definition py_pow (x y : R) : R := if Req_EM_T y 0 then 1 else if Req_EM_T x 0 then 0 else Rpower x y.

(** minhash.py:32-47 match_probability, for a similarity between 0 and 1 *)
Definition match_probability (h bands : nat) (similarity : R) : res R :=
  match bands with
  | O => Err ZeroDivisionError
  | S _ => Ok (1 - py_pow (1 - py_pow similarity (INR h / INR bands)) (INR bands))
  end.

(** minhash.py:50-63 similarity_threshold *)
Definition similarity_threshold (h bands : nat) : res R :=
  match bands, h with
  | O, _ => Err ZeroDivisionError
  | S _, O => Err ZeroDivisionError
  | S _, S _ => Ok (py_pow (1 / INR bands) (1 / (INR h / INR bands)))
  end.
