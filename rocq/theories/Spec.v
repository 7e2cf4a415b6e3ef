(** Specification vocabulary.  This file refers to no model definition: it says what a grid, a solved grid
    and a solution of a puzzle are, in terms of the rules of sudoku only. *)
From Coq Require Import List Arith Lia Bool.
Import ListNotations.

(** A grid lists the 81 cells row by row; 0 is an empty cell, 1..9 are digits. *)
Definition grid := list nat.

(** Content of cell [c]. *)
Definition at_ (g : grid) (c : nat) : nat := nth c g 0.

(** Grids a [Sudoku] value can hold. *)
Definition wf_grid (g : grid) : Prop := length g = 81 /\ Forall (fun d => d <= 9) g.

(** Row, column and block of a cell. *)
Definition row_of (c : nat) : nat := c / 9.
Definition col_of (c : nat) : nat := c mod 9.
Definition block_of (c : nat) : nat := 3 * (row_of c / 3) + col_of c / 3.

(** Two different cells that share a row, a column or a block. *)
Definition peers (c c' : nat) : Prop :=
  c <> c' /\ (row_of c = row_of c' \/ col_of c = col_of c' \/ block_of c = block_of c').

(** Completely filled, no digit twice in any row, column or block. *)
Definition solved (g : grid) : Prop :=
  length g = 81 /\
  (forall c, c < 81 -> 1 <= at_ g c <= 9) /\
  (forall c c', c < 81 -> c' < 81 -> peers c c' -> at_ g c <> at_ g c').

(** [s] keeps every clue of [p]. *)
Definition extends (p s : grid) : Prop :=
  forall c, c < 81 -> at_ p c <> 0 -> at_ s c = at_ p c.

(** [s] is a valid completion of the puzzle [p]. *)
Definition solution_of (p s : grid) : Prop := solved s /\ extends p s.

(** [p] has exactly one valid completion. *)
Definition uniquely_solvable (p : grid) : Prop :=
  exists s, solution_of p s /\ forall s', solution_of p s' -> s' = s.

(** [n] is the number of valid completions of [p]. *)
Definition n_solutions (p : grid) (n : nat) : Prop :=
  exists l, NoDup l /\ (forall s, In s l <-> solution_of p s) /\ length l = n.

(** Each digit occurs in exactly one cell of each house; [f] numbers the houses of one kind
    ([row_of], [col_of] or [block_of]). *)
Definition once_in (f : nat -> nat) (g : grid) : Prop :=
  forall h d, h < 9 -> 1 <= d <= 9 -> exists! c, c < 81 /\ f c = h /\ at_ g c = d.

(** Number of filled cells. *)
Definition clue_count (g : grid) : nat := length (filter (fun c => negb (at_ g c =? 0)) (seq 0 81)).

(** Number of different digits among the clues. *)
Definition digit_used (g : grid) (d : nat) : bool := existsb (fun c => at_ g c =? d) (seq 0 81).
Definition digit_count (g : grid) : nat := length (filter (digit_used g) (seq 1 9)).
