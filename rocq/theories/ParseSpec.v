(** What the text formats look like.  Refers to no model definition.  A text is a list of Unicode code points. *)
From Coq Require Import List NArith Bool.
Import ListNotations.
Local Open Scope N_scope.

Notation text := (list N).

(** Unicode scalar values: the values of type [char]. *)
Definition scalar (c : N) : Prop := c < 55296 \/ (57344 <= c /\ c < 1114112).

(** Characters that stand for a cell: '0' to '9', '.' and '_'. *)
Definition cell_char (c : N) : Prop := (48 <= c /\ c <= 57) \/ c = 46 \/ c = 95.

(** Digit written by a cell character, 0 for an empty cell. *)
Definition cell_digit (c : N) : nat := if (48 <=? c) && (c <=? 57) then N.to_nat (c - 48) else 0%nat.

(** Blank: space or tab. *)
Definition blank (c : N) : Prop := c = 32 \/ c = 9.

(** Delimiters of the line format: space, tab, newline, carriage return, comma, semicolon. *)
Definition delimiter (c : N) : Prop := c = 32 \/ c = 9 \/ c = 10 \/ c = 13 \/ c = 44 \/ c = 59.

(** [s] is empty or begins with a character satisfying [P]. *)
Definition ends_or (P : N -> Prop) (s : text) : Prop := s = [] \/ exists c t, s = c :: t /\ P c.

(** The lines of a text: terminated by a newline, possibly preceded by a carriage return; the last line may lack the
    terminator. *)
Inductive lines_of : text -> list text -> Prop :=
| lines_nil : lines_of [] []
| lines_last l : l <> [] -> ~ In 10 l -> lines_of l [l]
| lines_lf l s ls : ~ In 10 l -> (forall l', l <> l' ++ [13]) -> lines_of s ls -> lines_of (l ++ 10 :: s) (l :: ls)
| lines_crlf l s ls : ~ In 10 l -> lines_of s ls -> lines_of (l ++ 13 :: 10 :: s) (l :: ls).

(** Characters with the Unicode property White_Space. *)
Definition white (c : N) : Prop :=
  (9 <= c /\ c <= 13) \/ c = 32 \/ c = 133 \/ c = 160 \/ c = 5760 \/ (8192 <= c /\ c <= 8202) \/ c = 8232 \/ c = 8233 \/
  c = 8239 \/ c = 8287 \/ c = 12288.

(** A row of the bare block format: nine cells, then the end of the line or a comment after a blank. *)
Definition bare_row (line : text) (row : list nat) : Prop :=
  exists cs rest, line = cs ++ rest /\ length cs = 9%nat /\ Forall cell_char cs /\ ends_or blank rest /\ row = map cell_digit cs.

(** A row of the delimited block format: cells in groups of three separated by '|'. *)
Definition delimited_row (line : text) (row : list nat) : Prop :=
  exists a b c rest, line = a ++ 124 :: b ++ 124 :: c ++ rest /\ length a = 3%nat /\ length b = 3%nat /\ length c = 3%nat /\
    Forall cell_char (a ++ b ++ c) /\ ends_or blank rest /\ row = map cell_digit (a ++ b ++ c).

(** After the last row: nothing, or a line of white space and anything after it. *)
Definition block_tail (ls : list text) : Prop := ls = [] \/ exists l t, ls = l :: t /\ Forall white l.

Definition dashes : text := repeat 45 11.                                     (* ----------- *)
Definition dashes_plus : text := [45; 45; 45; 43; 45; 45; 45; 43; 45; 45; 45]. (* ---+---+--- *)
Definition starts (p l : text) : Prop := exists t, l = p ++ t.

(** The lines of a bare block, with the rows written. *)
Definition bare_block (ls : list text) (rows : list (list nat)) : Prop :=
  exists grid_lines tail, ls = grid_lines ++ tail /\ length grid_lines = 9%nat /\ Forall2 bare_row grid_lines rows /\ block_tail tail.

(** The lines of a delimited block, with the rows written. *)
Definition delimited_block (ls : list text) (rows : list (list nat)) : Prop :=
  exists g1 g2 g3 s1 s2 tail, ls = g1 ++ s1 :: g2 ++ s2 :: g3 ++ tail /\
    length g1 = 3%nat /\ length g2 = 3%nat /\ length g3 = 3%nat /\ Forall2 delimited_row (g1 ++ g2 ++ g3) rows /\
    ((starts dashes s1 /\ starts dashes s2) \/ (starts dashes_plus s1 /\ starts dashes_plus s2)) /\ block_tail tail.

(** The text is in one of the two block formats and writes the grid [g]. *)
Definition block_format (s : text) (g : list nat) : Prop :=
  exists ls rows, lines_of s ls /\ g = concat rows /\ (bare_block ls rows \/ delimited_block ls rows).

(** A line that the permissive parser reads as a row: it has nine cells, anything between them is ignored, anything after
    the ninth cell is ignored. *)
Inductive lax_row : text -> nat -> list nat -> Prop :=
| lax_done s : lax_row s 0 []
| lax_cell c s n row : cell_char c -> lax_row s n row -> lax_row (c :: s) (S n) (cell_digit c :: row)
| lax_other c s n row : ~ cell_char c -> lax_row s (S n) row -> lax_row (c :: s) (S n) row.

(** The rows read from the lines by ignoring those that have fewer than nine cells. *)
Inductive lax_rows : list text -> list (list nat) -> Prop :=
| laxs_nil : lax_rows [] []
| laxs_row l ls row rows : lax_row l 9 row -> lax_rows ls rows -> lax_rows (l :: ls) (row :: rows)
| laxs_skip l ls rows : (forall row, ~ lax_row l 9 row) -> lax_rows ls rows -> lax_rows (l :: ls) rows.
