(** What the commands should write, and what a TOML basic string means. *)
From Coq Require Import Ascii Sorted.
From Verif Require Import Base LevModel CliModel.
Open Scope nat_scope.

(** [pieces] are what str.split(sep) gives: the separator is searched from left to right *)
Inductive is_split (sep : str) : str -> list str -> Prop :=
| split_last s : (forall a b, s <> a ++ sep ++ b) -> is_split sep s [s]
| split_more p s pieces :
    (forall a b, p ++ sep ++ s = a ++ sep ++ b -> length p <= length a) ->
    is_split sep s pieces -> is_split sep (p ++ sep ++ s) (p :: pieces).

(** [row] is [line] with [v] in column [i] *)
Definition cell_replaced {V} (i : nat) (line : list V) (v : V) (row : list V) : Prop :=
  length row = length line /\ nth_error row i = Some v /\ forall k, k <> i -> nth_error row k = nth_error line k.

(** [row] is [line] with one more column, of value [v], at position [i] *)
Definition cell_added {V} (i : nat) (line : list V) (v : V) (row : list V) : Prop :=
  exists a b, line = a ++ b /\ row = a ++ v :: b /\ length a = i.

Definition rectangular {V} (width : nat) (rows : list (list V)) : Prop := Forall (fun r => length r = width) rows.

(** TOML 1.0 basic strings, from after the opening quotation mark: the value and what follows the closing one *)
Definition hex_digit (c : N) : option N :=
  if ((48 <=? c) && (c <=? 57))%N then Some (c - 48)%N
  else if ((97 <=? c) && (c <=? 102))%N then Some (c - 87)%N
  else if ((65 <=? c) && (c <=? 70))%N then Some (c - 55)%N
  else None.

Fixpoint hex (n : nat) (acc : N) (t : str) : option (N * str) :=
  match n with
  | 0 => Some (acc, t)
  | S n => match t with [] => None | c :: t => match hex_digit c with Some d => hex n (16 * acc + d)%N t | None => None end end
  end.

Definition scalar_value (c : N) : bool := ((c <? 55296) || (57344 <=? c) && (c <=? 1114111))%N.

Definition unescaped (c : N) : bool := ((c =? 9) || (32 <=? c) && negb (c =? 127) && negb (c =? 34) && negb (c =? 92))%N.

Definition simple_escape (c : N) : option N :=
  if (c =? 98)%N then Some 8%N else if (c =? 116)%N then Some 9%N else if (c =? 110)%N then Some 10%N
  else if (c =? 102)%N then Some 12%N else if (c =? 114)%N then Some 13%N else if (c =? 34)%N then Some 34%N
  else if (c =? 92)%N then Some 92%N else None.

Fixpoint toml_string (fuel : nat) (t : str) : option (str * str) :=
  match fuel with
  | 0 => None
  | S fuel =>
    let put (c : N) (t : str) := match toml_string fuel t with Some (v, rest) => Some (c :: v, rest) | None => None end in
    match t with
    | [] => None
    | c :: t =>
      if (c =? 34)%N then Some ([], t)
      else if (c =? 92)%N then
        match t with
        | [] => None
        | e :: t =>
          match simple_escape e with
          | Some x => put x t
          | None =>
            if (e =? 117)%N || (e =? 85)%N then
              match hex (if (e =? 117)%N then 4 else 8) 0 t with
              | Some (x, t) => if scalar_value x then put x t else None
              | None => None
              end
            else None
          end
        end
      else if unescaped c then put c t else None
    end
  end.

Definition read_toml (t : str) : option (str * str) := toml_string (S (length t)) t.

(** the characters that can stand for themselves, the quotation mark and the line feed *)
Definition safe (c : N) : bool := unescaped c || (c =? 34)%N || (c =? 10)%N.

(** what split writes for a line when a target column is given: the values accumulate *)
Definition target_rows sep position (line : list str) (rs : list (list str)) : Prop :=
  exists cell, nth_error line position = Some cell /\
    ((cell = [] /\ rs = [line]) \/
     (cell <> [] /\ exists pieces, is_split sep cell pieces /\ rs = map (fun k => line ++ firstn (S k) pieces) (seq 0 (length pieces)))).

(** transform: the row is rewritten, or gets one more column after the original one or at the end *)
Definition change {V} (target after : bool) (position width : nat) (line : list V) (v : V) (row : list V) : Prop :=
  if target then cell_added (if after then position + 1 else width) line v row else cell_replaced position line v row.

(** the clustering report *)
Definition occurrences (v : str) (cells : list str) : nat := length (filter (fun c => if eq_dec c v then true else false) cells).

(** the cluster of key [k]: its distinct values with the number of rows of each, by decreasing number of rows, the first
    one being proposed for all *)
Definition cluster_of (fingerprint : str -> str) (cells : list str) (k : str) (rc : report_cluster) : Prop :=
  NoDup (map fst (rc_values rc)) /\
  (forall v n, In (v, n) (rc_values rc) <-> In v cells /\ fingerprint v = k /\ n = occurrences v cells) /\
  StronglySorted (fun a b => snd b <= snd a) (rc_values rc) /\
  (exists n rest, rc_values rc = (rc_harmonized rc, n) :: rest) /\
  rc_nb_values rc = length (rc_values rc) /\
  rc_nb_rows rc = length (filter (fun c => if eq_dec (fingerprint c) k then true else false) cells).
