(** Symmetries of clue patterns.  Refers to no model definition. *)
From Coq Require Import List Arith.
From Verif Require Import Spec.
Import ListNotations.

(** Geometric maps of the 9x9 board, on cell numbers. *)
Definition cell_of (r c : nat) : nat := 9 * r + c.
(** mirror images along the vertical, horizontal, main and anti-diagonal axis *)
Definition mirror_v (c : nat) : nat := cell_of (row_of c) (8 - col_of c).
Definition mirror_h (c : nat) : nat := cell_of (8 - row_of c) (col_of c).
Definition mirror_d (c : nat) : nat := cell_of (col_of c) (row_of c).
Definition mirror_a (c : nat) : nat := cell_of (8 - col_of c) (8 - row_of c).
(** rotations by 90 and by 180 degrees: row r becomes column 8 - r *)
Definition rotate_90 (c : nat) : nat := cell_of (col_of c) (8 - row_of c).
Definition rotate_180 (c : nat) : nat := rotate_90 (rotate_90 c).

(** The symmetries that can be asked for *)
Inductive symmetry :=
| VerticalMirror | HorizontalMirror | VerticalAndHorizontalMirror | DiagonalMirror | AntidiagonalMirror | BidiagonalMirror
| QuarterRotation | HalfRotation | Dihedral | NoSymmetry.

(** the geometric maps each of them documents (src/board/sudoku.rs:101-121) *)
Definition maps_of (s : symmetry) : list (nat -> nat) :=
  match s with
  | VerticalMirror => [mirror_v]
  | HorizontalMirror => [mirror_h]
  | VerticalAndHorizontalMirror => [mirror_v; mirror_h]
  | DiagonalMirror => [mirror_d]
  | AntidiagonalMirror => [mirror_a]
  | BidiagonalMirror => [mirror_d; mirror_a]
  | QuarterRotation => [rotate_90; rotate_180]
  | HalfRotation => [rotate_180]
  | Dihedral => [mirror_v; mirror_h; mirror_d; mirror_a; rotate_90; rotate_180]
  | NoSymmetry => []
  end.

(** [c'] can be reached from [c] by the maps of the symmetry. *)
Inductive orbit (s : symmetry) (c : nat) : nat -> Prop :=
| orbit_refl : orbit s c c
| orbit_step c' f : orbit s c c' -> In f (maps_of s) -> orbit s c (f c').

(** The pattern of filled cells is invariant under the symmetry. *)
Definition symmetric (s : symmetry) (g : grid) : Prop :=
  forall f c, In f (maps_of s) -> c < 81 -> (at_ g (f c) = 0 <-> at_ g c = 0).

(** [q] is [p] with the cells that the symmetry ties to [c] emptied. *)
Definition class_removed (s : symmetry) (c : nat) (p q : grid) : Prop :=
  length q = 81 /\
  forall x, x < 81 -> (orbit s c x -> at_ q x = 0) /\ (~ orbit s c x -> at_ q x = at_ p x).
