(** Model of the puzzle generation by removal of clues in /repo/src/board/sudoku.rs. *)
From Coq Require Import List Arith.
From Verif Require Import Solver Api SymSpec.
Import ListNotations.

(** src/board/sudoku.rs:128-129 [mirr] and [cell_at]; [8 - line] cannot underflow as cells are below 81 *)
Definition mirr (line : nat) : nat := 8 - line.
Definition sym_cell_at (row col : nat) : nat := row * 9 + col.

(** src/board/sudoku.rs:125-166 [Symmetry::corresponding_cells] *)
Definition corresponding_cells (s : symmetry) (cell : nat) : list nat :=
  let row := cell / 9 in
  let col := cell mod 9 in
  match s with
  | NoSymmetry => [cell]
  | VerticalMirror => [cell; sym_cell_at row (mirr col)]
  | HorizontalMirror => [cell; sym_cell_at (mirr row) col]
  | VerticalAndHorizontalMirror =>
      [cell; sym_cell_at (mirr row) col; sym_cell_at row (mirr col); sym_cell_at (mirr row) (mirr col)]
  | DiagonalMirror => [cell; sym_cell_at col row]
  | AntidiagonalMirror => [cell; sym_cell_at (mirr col) (mirr row)]
  | BidiagonalMirror => [cell; sym_cell_at col row; sym_cell_at (mirr col) (mirr row); sym_cell_at (mirr row) (mirr col)]
  | QuarterRotation => [cell; sym_cell_at (mirr row) (mirr col); sym_cell_at col (mirr row); sym_cell_at (mirr col) row]
  | HalfRotation => [cell; sym_cell_at (mirr row) (mirr col)]
  | Dihedral =>
      [cell; sym_cell_at row (mirr col); sym_cell_at (mirr row) col; sym_cell_at (mirr row) (mirr col);
       sym_cell_at col row; sym_cell_at col (mirr row); sym_cell_at (mirr col) row; sym_cell_at (mirr col) (mirr row)]
  end.

(** src/board/sudoku.rs:259-262: the loop over the cells of a class *)
Fixpoint clear_cells (cells : list nat) (visited : list bool) (tmp : list nat) : res (list bool * list nat) :=
  match cells with
  | [] => Ok (visited, tmp)
  | cell :: t =>
      v <- aset visited cell true;
      g <- aset tmp cell 0;
      clear_cells t v g
  end.

(** src/board/sudoku.rs:253-266: the loop over the cells in random order *)
Fixpoint removal_loop (order : list nat) (s : symmetry) (visited : list bool) (sudoku : list nat) : res (list nat) :=
  match order with
  | [] => Ok sudoku
  | cell :: t =>
      let cells := corresponding_cells s cell in
      first <- aget cells 0;
      seen <- aget visited first;
      if seen then removal_loop t s visited sudoku
      else
        r <- clear_cells cells visited sudoku;
        let '(visited, tmp) := r in
        u <- api_is_uniquely_solvable tmp;
        removal_loop t s visited (if (u : bool) then tmp else sudoku)
  end.

(** src/board/sudoku.rs:227-269 [generate_with_symmetry_and_rng_from]; 214-216 [generate_with_symmetry_from] calls it, 202-204
    [generate_from] with no symmetry.  [order] is the cells 0..80 after
    [cell_order.shuffle(rng)]: an arbitrary permutation of them. *)
Definition generate_with_symmetry_from (sudoku : list nat) (s : symmetry) (order : list nat) : res (list nat) :=
  removal_loop order s (repeat false 81) sudoku.
