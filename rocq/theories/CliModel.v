(** Model of fog/cli: custom_reader, split_action, transform_action, cluster_action and the content of the clustering
    reports.  The csv module is taken as reading and writing lists of rows of cells; what is written before an exception is
    not kept.  The date, the duration and the layout of the reports are left out. *)
From Coq Require Import String.
From Verif Require Import Base LevModel StringsModel PhoneticsModel PairwiseModel GraphModel SortModel BlockingModel.
Open Scope nat_scope.
Open Scope list_scope.
Notation length := List.length.
Notation concat := List.concat.

(** list.index *)
Fixpoint index_of {A} `{EqDec A} (x : A) (l : list A) : option nat :=
  match l with [] => None | y :: l' => if eqb x y then Some 0 else match index_of x l' with Some i => Some (S i) | None => None end end.

(** l[i] = x, for i within the list *)
Fixpoint set_nth {A} (i : nat) (x : A) (l : list A) : list A :=
  match l, i with [], _ => [] | _ :: l', O => x :: l' | y :: l', S i => y :: set_nth i x l' end.

Definition assign {A} (i : nat) (x : A) (l : list A) : res (list A) :=
  if Nat.ltb i (length l) then Ok (set_nth i x l) else Err IndexError.

Definition cell_at {A} (l : list A) (i : nat) : res A := match nth_error l i with Some x => Ok x | None => Err IndexError end.

(** cli/utils.py:10-21 *)
Definition custom_reader {V} `{EqDec V} (table : list (list V)) (target_header : V) : res (list V * nat * list (list V)) :=
  match table with
  | [] => Err AttributeError
  | headers :: lines => match index_of target_header headers with Some i => Ok (headers, i, lines) | None => Err ValueError end
  end.

(** str.split(sep); [skip]: characters of the separator still to be passed; [cur]: the current piece, backwards *)
Fixpoint split_loop (sep cur : str) (skip : nat) (s : str) : list str :=
  match s with
  | [] => [rev cur]
  | c :: s' =>
    match skip with
    | S k => split_loop sep cur k s'
    | O => if starts_with sep s then rev cur :: split_loop sep [] (length sep - 1) s' else split_loop sep (c :: cur) 0 s'
    end
  end.
Definition split_str (sep s : str) : res (list str) :=
  match sep with [] => Err ValueError | _ => Ok (split_loop sep [] 0 s) end.

(** split.py:31-39: the rows written for the values of a line, which is modified on the way *)
Fixpoint split_rows (target : bool) (position : nat) (line : list str) (values : list str) : res (list (list str)) :=
  match values with
  | [] => Ok []
  | v :: values =>
    let! line := if target then Ok (line ++ [v]) else assign position v line in
    let! rows := split_rows target position line values in
    Ok (line :: rows)
  end.

(** split.py:13-39 *)
Definition split_line (separator : str) (target_column : option str) (position : nat) (line : list str) : res (list (list str)) :=
  let! values := cell_at line position in
  match values with
  | [] => Ok [line]
  | _ =>
    let! pieces := split_str separator values in
    split_rows (match target_column with Some (_ :: _) => true | _ => false end) position line pieces
  end.

Definition split_action (table : list (list str)) (column separator : str) (target_column rename_column : option str) : res (list (list str)) :=
  let! (headers, position, reader) := custom_reader table column in
  let headers := match target_column with Some t => headers ++ [t] | None => headers end in
  let! headers := match rename_column with Some r => assign position r headers | None => Ok headers end in
  let! rows := mapM (split_line separator target_column position) reader in
  Ok (headers :: concat rows).

(** transform.py:24-63, without --eval; [OPERATIONS] gives the operations, which may raise *)
Section Transform.
Context {V : Type} `{EqDec V}.
Variable OPERATIONS : string -> option (V -> res V).

Definition operation (name : string) : res (V -> res V) := match OPERATIONS name with Some f => Ok f | None => Err KeyError end.

Definition insert_after (position : nat) (x : V) (l : list V) : list V := firstn (position + 1) l ++ [x] ++ skipn (position + 1) l.

Definition transform_line (chain : list (V -> res V)) (target : bool) (after : bool) (position : nat) (line : list V) : res (list V) :=
  let! value := cell_at line position in
  let! new_value := foldM (fun v op => op v) chain value in
  if target then Ok (if after then insert_after position new_value line else line ++ [new_value])
  else assign position new_value line.

Definition transform_action (table : list (list V)) (column : V) (operations : list string) (target_column : option V) (after : bool) : res (list (list V)) :=
  let! chain := mapM operation operations in
  let! (headers, position, reader) := custom_reader table column in
  let headers := match target_column with Some t => if after then insert_after position t headers else headers ++ [t] | None => headers end in
  let! rows := mapM (transform_line chain (match target_column with Some _ => true | None => false end) after position) reader in
  Ok (headers :: rows).
End Transform.

(** reporting/toml.py:9-10 *)
Definition escape_string (s : str) : str := replace [10%N] (codes "\n") (replace [34%N] (codes "\""") s).

(** cluster.py:31-56, toml.py:29-46 *)
Record report_cluster := { rc_id : nat; rc_nb_values : nat; rc_nb_rows : nat; rc_harmonized : str; rc_values : list (str * nat) }.
Record report := { r_lines : nat; r_nb_distinct_values : nat; r_nb_clusters : nat; r_clusters : list report_cluster }.

(** Counter() and values[line[position]] += 1 *)
Definition counter (cells : list str) : dict str nat := fold_left (fun d x => dmodify d x 0 (fun n => n + 1)) cells [].
Definition count_of (values : dict str nat) (v : str) : nat := match dget values v with Some n => n | None => 0 end.

Definition render_cluster (values : dict str nat) (i : nat) (cluster : list str) : res report_cluster :=
  let sorted_values := sort_by (fun a b => Nat.leb (count_of values b) (count_of values a)) cluster in
  match sorted_values with
  | [] => Err ValueError
  | h :: _ =>
    Ok {| rc_id := i; rc_nb_values := length cluster; rc_nb_rows := list_sum (map (count_of values) cluster);
          rc_harmonized := h; rc_values := map (fun v => (v, count_of values v)) sorted_values |}
  end.

Definition render (lines : nat) (values : dict str nat) (clusters : list (list str)) : res report :=
  let! rcs := mapM (fun ic => render_cluster values (fst ic) (snd ic)) (enumerate clusters) in
  Ok {| r_lines := lines; r_nb_distinct_values := length values; r_nb_clusters := length clusters; r_clusters := rcs |}.

(** cluster.py:31-56 with the only routine, key_collision on the fingerprint *)
Definition cluster_action (fingerprint : str -> str) (table : list (list str)) (column : str) : res report :=
  let! (headers, position, reader) := custom_reader table column in
  let! cells := mapM (fun line => cell_at line position) reader in
  let values := counter cells in
  let clusters := key_collision_key (fun k : str => match k with [] => false | _ => true end) fingerprint (dkeys values) 2 None in
  render (length reader) values clusters.
