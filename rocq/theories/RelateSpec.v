(** Specification: the text of a grid in blocks, and grids with two empty lines next to each other.  This file refers to no
    model definition. *)
From Coq Require Import List Arith NArith Bool.
From Verif Require Import Spec.
Import ListNotations.

(** A digit, or an underscore (95) for an empty cell *)
Definition glyph (d : nat) : N := if d =? 0 then 95%N else (48 + N.of_nat d)%N.
(** Three groups of three cells with a space (32) between the groups *)
Definition row_text (g : grid) (r : nat) : list N :=
  map (fun k => glyph (at_ g (9 * r + k))) [0; 1; 2] ++ [32%N] ++
  map (fun k => glyph (at_ g (9 * r + k))) [3; 4; 5] ++ [32%N] ++
  map (fun k => glyph (at_ g (9 * r + k))) [6; 7; 8].
(** A line break (10) before each row, and an empty line before the second and the third group of three rows *)
Definition block_text (g : grid) : list N :=
  let n := [10%N] in
  n ++ row_text g 0 ++ n ++ row_text g 1 ++ n ++ row_text g 2 ++ n ++
  n ++ row_text g 3 ++ n ++ row_text g 4 ++ n ++ row_text g 5 ++ n ++
  n ++ row_text g 6 ++ n ++ row_text g 7 ++ n ++ row_text g 8.

(** The row or column without clues *)
Definition empty_row (p : grid) (r : nat) : Prop := forall c, c < 81 -> row_of c = r -> at_ p c = 0.
Definition empty_col (p : grid) (k : nat) : Prop := forall c, c < 81 -> col_of c = k -> at_ p c = 0.
