(** Model of the parse errors (/repo/src/errors.rs): the position of an invalid entry, and [Display], which the
    [#[error(..)]] attributes define.  [#[error(transparent)]] displays the error inside. *)
From Coq Require Import List Arith NArith Bool String Ascii.
From Verif Require Import Solver Geom Parse Show.
Import ListNotations.

(** src/errors.rs:33-49 [InvalidEntry::row], [col], [block] *)
Definition entry_row (cell : nat) : nat := p_row cell.
Definition entry_col (cell : nat) : nat := p_col cell.
Definition entry_block (cell : nat) : res nat := p_block cell.

(** The code points of an ASCII literal in the attributes of src/errors.rs *)
Definition lit (s : string) : list N := map N_of_ascii (list_ascii_of_string s).

(** src/errors.rs:7-8 [FromBytesError] *)
Definition bytes_message (e : bytes_err) : list N := lit "byte array contains entries >9".
(** [{}] of a [usize], src/errors.rs:14: decimal digits; structural on the fuel, which the number bounds *)
Fixpoint show_usize_from (fuel : nat) (n : N) (acc : list N) : list N :=
  match fuel with
  | O => acc
  | S f => let acc := (n mod 10 + 48)%N :: acc in if (n <? 10)%N then acc else show_usize_from f (n / 10)%N acc
  end.
Definition show_usize (n : N) : list N := show_usize_from 20 n [].
(** src/errors.rs:12-19 [FromBytesSliceError] *)
Definition slice_message (e : slice_err) : list N :=
  match e with
  | WrongLength n => lit "byte slice should have length 81, found " ++ show_usize (N.of_nat n)
  | SFromBytesError => bytes_message FromBytesError
  end.

(** src/errors.rs:25-26 [InvalidEntry]; the cell is a [u8] *)
Definition entry_message (cell : nat) (ch : N) : list N := lit "cell " ++ show_u8 cell ++ lit " contains invalid character '" ++ [ch] ++ lit "'".

(** src/errors.rs:55-56 [NotEnoughRows] *)
Definition lax_message (e : lax_err) : list N := match e with NotEnoughRows n => lit "input ended after " ++ show_u8 n ++ lit " valid rows" end.

(** src/errors.rs:59-81 [BlockParseError] *)
Definition block_message (e : block_err) : list N :=
  match e with
  | BInvalidEntry cell ch => entry_message cell ch
  | BInvalidLineLength row => lit "a sudoku line should have 9 entries, found " ++ show_u8 row
  | BNotEnoughRows n => lit "a sudoku should have 9 rows, found only " ++ show_u8 n
  | BIncorrectFieldDelimiter => lit "inconsistent field delimiters"
  | BTooManyRows => lit "a sudoku should have 9 rows, found a 10th"
  | BMissingCommentDelimiter row => lit "missing comment delimiter in line " ++ show_u8 row
  end.

(** src/errors.rs:84-99 [LineParseError] *)
Definition line_message (e : line_err) : list N :=
  match e with
  | LInvalidEntry cell ch => entry_message cell ch
  | LNotEnoughCells n => lit "sudoku contains " ++ show_u8 n ++ lit " cells instead of required 81"
  | LTooManyCells => lit "sudoku contains more than 81 cells or is missing comment delimiter"
  | LMissingCommentDelimiter => lit "missing comment delimiter"
  end.
