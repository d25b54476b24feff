(** Model of the text of the clustering reports (fog/cli/reporting/toml.py, fog/cli/reporting/html.py) and of the end of
    cluster_action (fog/cli/cluster.py).  Durations are exact rationals; what is printed before an exception is not kept. *)
From Coq Require Import String QArith Qround.
From Verif Require Import Base LevModel StringsModel PhoneticsModel PairwiseModel GraphModel SortModel BlockingModel CliModel.
Open Scope nat_scope.
Open Scope list_scope.
Notation length := List.length.
Notation concat := List.concat.

(** ** python formatting *)

(** '%i' of a natural number; [fuel] bounds the number of digits *)
Fixpoint int_digits (fuel : nat) (n : N) : str :=
  match fuel with
  | O => []
  | S fuel => (if n <? 10 then [] else int_digits fuel (n / 10))%N ++ [48 + n mod 10]%N
  end.
Definition py_int (n : N) : str := int_digits (S (N.size_nat n)) n.
Definition py_nat (n : nat) : str := py_int (N.of_nat n).

(** '%0kd', for numbers of at most k digits *)
Fixpoint fixed (k : nat) (n : N) : str :=
  match k with O => [] | S k => fixed k (n / 10)%N ++ [48 + n mod 10]%N end.

(** '{:,}': the digits by groups of three, from the right *)
Fixpoint grouped (fuel : nat) (n : N) : str :=
  match fuel with
  | O => []
  | S fuel => if (n <? 1000)%N then py_int n else grouped fuel (n / 1000)%N ++ codes "," ++ fixed 3 (n mod 1000)
  end.
Definition py_grouped (n : nat) : str := grouped (S (N.size_nat (N.of_nat n))) (N.of_nat n).

(** nearest integer, half to even *)
Definition round_even (q : Q) : Z :=
  let f := Qfloor q in
  match (q - inject_Z f ?= 1 # 2)%Q with
  | Lt => f
  | Gt => (f + 1)%Z
  | Eq => if Z.even f then f else (f + 1)%Z
  end.

(** '%2f' of a number >= 0: six decimals, and the width of 2 is always reached *)
Definition py_float6 (q : Q) : str :=
  let n := Z.to_N (round_even (q * (1000000 # 1))%Q) in
  py_int (n / 1000000)%N ++ codes "." ++ fixed 6 (n mod 1000000)%N.

(** str(datetime.timedelta(microseconds=q)), for q >= 0 *)
Definition timedelta_str (q : Q) : str :=
  let us := Z.to_N (round_even q) in
  let s := (us / 1000000)%N in
  let days := (s / 86400)%N in
  (if (days =? 0)%N then [] else py_int days ++ codes (if (days =? 1)%N then " day, " else " days, ")) ++
  py_int (s mod 86400 / 3600)%N ++ codes ":" ++ fixed 2 (s mod 3600 / 60)%N ++ codes ":" ++ fixed 2 (s mod 60)%N ++
  (if (us mod 1000000 =? 0)%N then [] else codes "." ++ fixed 6 (us mod 1000000)%N).

(** datetime.datetime, without time zone *)
Record datetime := { year : N; month : N; day : N; hour : N; minute : N; second : N; microsecond : N }.
Definition isoformat (d : datetime) : str :=
  fixed 4 (year d) ++ codes "-" ++ fixed 2 (month d) ++ codes "-" ++ fixed 2 (day d) ++ codes "T" ++
  fixed 2 (hour d) ++ codes ":" ++ fixed 2 (minute d) ++ codes ":" ++ fixed 2 (second d) ++
  (if (microsecond d =? 0)%N then [] else codes "." ++ fixed 6 (microsecond d)).

(** s.split(sep)[0] *)
Definition first_piece (sep s : str) : str := hd [] (split_loop sep [] 0 s).

Record meta := { m_algorithm : str; m_took : Q; m_date : datetime; m_lines : nat }.

(** print(line, file=file) *)
Definition printed (lines : list str) : str := concat (map (fun l => l ++ [10%N]) lines).

(** sorted(cluster, key=lambda v: values[v], reverse=True), toml.py:36 and html.py:90 *)
Definition by_rows (values : dict str nat) (cluster : list str) : list str :=
  sort_by (fun a b => Nat.leb (count_of values b) (count_of values a)) cluster.
(** sum(values[v] for v in cluster) *)
Definition rows_of (values : dict str nat) (cluster : list str) : nat := list_sum (map (count_of values) cluster).

(** ** reporting/toml.py *)

(** toml.py:41-46 *)
Definition toml_value (values : dict str nat) (max_length : nat) (value : str) : str :=
  codes "  [[""" ++ escape_string value ++ codes """]," ++ repeat 32%N (max_length - length value) ++
  codes " [" ++ py_nat (count_of values value) ++ codes "]],".

(** toml.py:29-51; max() refuses an empty cluster *)
Definition toml_cluster (values : dict str nat) (i : nat) (cluster : list str) : res (list str) :=
  let sorted_values := by_rows values cluster in
  match sorted_values with
  | [] => Err ValueError
  | h :: _ =>
    let max_length := list_max (map (@List.length N) cluster) in
    Ok ([codes "[[cluster]]";
         codes "id = " ++ py_nat i;
         codes "nb_values = " ++ py_nat (length cluster);
         codes "nb_rows = " ++ py_nat (rows_of values cluster);
         codes "harmonized = """ ++ escape_string h ++ codes """";
         codes "values =  ["] ++
        map (toml_value values max_length) sorted_values ++
        [codes "]"; codes "harmonize = false"; []])
  end.

(** toml.py:13-51 *)
Definition toml_report (m : meta) (values : dict str nat) (clusters : list (list str)) : res str :=
  let! blocks := mapM (fun ic => toml_cluster values (fst ic) (snd ic)) (enumerate clusters) in
  Ok (printed (
    [codes "[info]";
     codes "date = " ++ first_piece (codes ".") (isoformat (m_date m));
     codes "algorithm = """ ++ m_algorithm m ++ codes """";
     [];
     codes "[stats]";
     codes "lines = " ++ py_nat (m_lines m);
     codes "nb_distinct_values = " ++ py_nat (length values);
     codes "nb_clusters = " ++ py_nat (length clusters);
     codes "took = " ++ py_float6 (m_took m);
     []] ++ concat blocks)).

(** ** reporting/html.py *)

Definition html_row (title value : str) : list str :=
  [codes "        <tr>"; codes "          <td>"; codes "            <b>" ++ title ++ codes "</b>"; codes "          </td>";
   codes "          <td>"; codes "            " ++ value; codes "          </td>"; codes "        </tr>"].

(** html.py:84-99 *)
Definition html_cluster (values : dict str nat) (i : nat) (cluster : list str) : list str :=
  [codes "      <p>";
   codes "        Cluster n" ++ [176%N] ++ py_nat (i + 1) ++ codes " (" ++ py_nat (length cluster) ++ codes " unique values, " ++
     py_nat (rows_of values cluster) ++ codes " affected rows):";
   codes "      <ul>"] ++
  concat (map (fun v => [codes "        <li>"; codes "          " ++ v; codes "        </li>"]) (by_rows values cluster)) ++
  [codes "      </ul>"; codes "      </p>"].

(** html.py:10-103 *)
Definition html_report (m : meta) (values : dict str nat) (clusters : list (list str)) : str :=
  printed (
    [codes "<html>"; codes "  <head>"; codes "    <title>Clustering result</title>"; codes "    <style>";
     codes "      td {padding-right: 10px};"; codes "    </style>"; codes "  </head>"; codes "  <body>";
     codes "    <h1>Clustering result</h1>"; codes "    <div>"; codes "      <h2>Information:</h2>"; codes "      <table>"] ++
    html_row (codes "Date") (first_piece (codes "T") (isoformat (m_date m))) ++
    html_row (codes "Algorithm used") (m_algorithm m) ++
    [codes "      </table>"; codes "    </div>"; codes "    <div>"; codes "      <h2>Statistics:</h2>"; codes "      <table>"] ++
    html_row (codes "Lines") (py_grouped (m_lines m)) ++
    html_row (codes "Distinct values") (py_grouped (length values)) ++
    html_row (codes "Found clusters") (py_grouped (length clusters)) ++
    html_row (codes "Took") (timedelta_str (m_took m)) ++
    [codes "      </table>"; codes "    </div>"; codes "    <div>"; codes "      <h2>Clusters:</h2>"] ++
    concat (map (fun ic => html_cluster values (fst ic) (snd ic)) (enumerate clusters)) ++
    [codes "    </div>"; codes "  </body>"; codes "<html>"]).

(** ** cluster.py:30-56: [now] and [took] are what the clock gives; [kind] is one of the keys of RENDERERS *)
Definition cluster_report (fingerprint : str -> str) (table : list (list str)) (algorithm kind column : str) (now : datetime) (took : Q) : res str :=
  if negb (eqb algorithm (codes "fingerprint_collision")) then Err KeyError
  else
    let! (headers, position, reader) := custom_reader table column in
    let! cells := mapM (fun line => cell_at line position) reader in
    let values := counter cells in
    let clusters := key_collision_key (fun k : str => match k with [] => false | _ => true end) fingerprint (dkeys values) 2 None in
    let m := {| m_algorithm := algorithm; m_took := took; m_date := now; m_lines := length reader |} in
    if eqb kind (codes "html") then Ok (html_report m values clusters)
    else if eqb kind (codes "toml") then toml_report m values clusters
    else Err KeyError.
