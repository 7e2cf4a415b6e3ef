(** Geometry of the 9x9 grid: which cells belong to a house, line, miniline or chute.  Refers to no model definition.

    Houses are numbered rows 0-8, columns 9-17, blocks 18-26; lines are the first 18 houses.  Minilines are numbered
    minirows 0-26 in cell order, then minicolumns 27-53 column by column.  Chutes are bands 0-2, then stacks 3-5. *)
From Coq Require Import Arith.
From Verif Require Import Spec.

(** Cell [c] belongs to house [h]. *)
Definition in_house (h c : nat) : Prop :=
  if h <? 9 then row_of c = h else if h <? 18 then col_of c = h - 9 else block_of c = h - 18.

(** Index of a cell among the cells of a house containing it: left to right, top to bottom. *)
Definition pos_in_house (h c : nat) : nat :=
  if h <? 9 then col_of c else if h <? 18 then row_of c else 3 * (row_of c mod 3) + col_of c mod 3.

(** Cell [c] belongs to chute [k]. *)
Definition in_chute (k c : nat) : Prop := if k <? 3 then row_of c / 3 = k else col_of c / 3 = k - 3.

(** The line and the block of a miniline, as houses. *)
Definition miniline_line (m : nat) : nat := if m <? 27 then m / 3 else 9 + (m - 27) / 3.
Definition miniline_block (m : nat) : nat :=
  if m <? 27 then 18 + 3 * (m / 9) + m mod 3 else 18 + 3 * (m mod 3) + (m - 27) / 9.

(** A miniline is the intersection of its line and its block. *)
Definition in_miniline (m c : nat) : Prop := in_house (miniline_line m) c /\ in_house (miniline_block m) c.
