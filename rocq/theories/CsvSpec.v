(** What a csv file says (RFC 4180, with any of the three line ends).  Independent of the model. *)
From Coq Require Import String List NArith.
From Verif Require Import Base LevModel StringsModel.
Import ListNotations.

Notation text := str.

(** ** Line ends: what a text becomes when read in text mode: \r\n and a \r alone become \n *)
Inductive newlines_read : text -> text -> Prop :=
| nr_nil : newlines_read [] []
| nr_crlf s t : newlines_read s t -> newlines_read (13 :: 10 :: s)%N (10 :: t)%N
| nr_cr s t : newlines_read s t -> (forall s', s <> 10 :: s')%N -> newlines_read (13 :: s)%N (10 :: t)%N
| nr_other c s t : newlines_read s t -> c <> 13%N -> newlines_read (c :: s) (c :: t).

(** ** The grammar *)
(** the quotation marks of a quoted cell are doubled *)
Inductive doubled : text -> text -> Prop :=
| d_nil : doubled [] []
| d_quote s t : doubled s t -> doubled (34 :: s)%N (34 :: 34 :: t)%N
| d_other c s t : doubled s t -> c <> 34%N -> doubled (c :: s) (c :: t).

Definition bare_char (c : N) : Prop := c <> 44%N /\ c <> 34%N /\ c <> 10%N /\ c <> 13%N.

Inductive cell_text : text -> text -> Prop :=
| ct_bare s : Forall bare_char s -> cell_text s s
| ct_quoted s t : doubled s t -> cell_text s (34 :: t ++ [34])%N.

Inductive cells_text : list text -> text -> Prop :=
| ct_one s t : cell_text s t -> cells_text [s] t
| ct_more s t row u : cell_text s t -> cells_text row u -> cells_text (s :: row) (t ++ 44 :: u)%N.

(** a blank line is a row without cells; a row of one empty cell needs quotation marks *)
Inductive row_text : list text -> text -> Prop :=
| rt_blank : row_text [] []
| rt_cells row t : cells_text row t -> t <> [] -> row_text row t.

(** a line end, before [rest] *)
Inductive line_end : text -> text -> Prop :=
| le_lf rest : line_end [10%N] rest
| le_crlf rest : line_end [13%N; 10%N] rest
| le_cr rest : (forall s, rest <> 10%N :: s) -> line_end [13%N] rest.

(** the last line may have no end *)
Inductive file_text : list (list text) -> text -> Prop :=
| ft_nil : file_text [] []
| ft_last row t : row_text row t -> t <> [] -> file_text [row] t
| ft_more row t e rows u : row_text row t -> line_end e u -> file_text rows u -> file_text (row :: rows) (t ++ e ++ u).

(** rows are read with the line ends of their cells changed *)
Definition rows_read : list (list text) -> list (list text) -> Prop := Forall2 (Forall2 newlines_read).

(** what the csv module agrees to read: cells of at most 131072 characters *)
Definition readable (cell : text) : Prop := (N.of_nat (length cell) <= 131072)%N.
Definition clean (cell : text) : Prop := ~ In 13%N cell.

(** a cell that is read as it is, a table of such cells, and an optional name of a column *)
Definition plain_cell (cell : text) : Prop := clean cell /\ readable cell.
Definition plain (rows : list (list text)) : Prop := Forall (Forall plain_cell) rows.
Definition plain_name (name : option text) : Prop := match name with Some s => plain_cell s | None => True end.

(** [t] is the text of a file whose rows are read as [rows] *)
Definition holds (t : text) (rows : list (list text)) : Prop :=
  exists written, file_text written t /\ rows_read written rows /\ Forall (Forall readable) rows.

(** [s] is a part of [t] *)
Definition inside (s t : text) : Prop := exists a b, t = a ++ s ++ b.

(** ** The operations of transform *)
Definition known (name : text) : Prop :=
  In name (map codes ["fingerprint"; "len"; "lower"; "squeeze"; "strip"; "unidecode"; "upper"]%string).
(** nothing follows len, which gives a number *)
Definition len_last (names : list text) : Prop := forall a b, names = a ++ codes "len" :: b -> b = [].
(** the operations [names] change the cell [s] into [r]; [meaning]: the operations on strings *)
Inductive applied (meaning : list (text * (text -> text))) (decimal : nat -> text) : list text -> text -> text -> Prop :=
| ap_none s : applied meaning decimal [] s s
| ap_len s : applied meaning decimal [codes "len"] s (decimal (List.length s))
| ap_more name f names s r : In (name, f) meaning -> applied meaning decimal names (f s) r -> applied meaning decimal (name :: names) s r.
