(** Specification: how the symmetries of clue patterns are related to each other and to the symmetries of grids.
    This file refers to no model definition. *)
From Coq Require Import List Arith.
From Verif Require Import Spec CanonSpec SymSpec.
Import ListNotations.

(** The symmetry [a] of grids carries the classes of cells of [t] to those of [s]. *)
Definition carries (a : sym) (t s : symmetry) : Prop :=
  forall c c', c < 81 -> c' < 81 -> (orbit s c c' <-> orbit t (source a c) (source a c')).

(** [a] only renames the digits, or also exchanges rows and columns, or also reverses the order of the columns. *)
Definition renames (a : sym) : Prop := s_tr a = false /\ s_rows a = seq 0 9 /\ s_cols a = seq 0 9.
Definition transposes (a : sym) : Prop := s_tr a = true /\ s_rows a = seq 0 9 /\ s_cols a = seq 0 9.
Definition reverses (a : sym) : Prop := s_tr a = false /\ s_rows a = seq 0 9 /\ s_cols a = rev (seq 0 9).

(** What becomes of a symmetry of the pattern when the board is transposed or seen in a mirror *)
Definition transposed (s : symmetry) : symmetry :=
  match s with VerticalMirror => HorizontalMirror | HorizontalMirror => VerticalMirror | _ => s end.
Definition reversed (s : symmetry) : symmetry :=
  match s with DiagonalMirror => AntidiagonalMirror | AntidiagonalMirror => DiagonalMirror | _ => s end.

(** The eight ways to put the board on itself *)
Definition board_maps : list (nat -> nat) :=
  [fun c => c; mirror_v; mirror_h; mirror_d; mirror_a; rotate_90; rotate_180; fun c => rotate_90 (rotate_180 c)].

(** The pattern of filled cells looks the same after the map. *)
Definition invariant (f : nat -> nat) (g : grid) : Prop := forall c, c < 81 -> (at_ g (f c) = 0 <-> at_ g c = 0).

(** The symmetries that a pattern with symmetry [s] has *)
Definition implied (s : symmetry) : list symmetry :=
  NoSymmetry :: s ::
  match s with
  | VerticalAndHorizontalMirror => [VerticalMirror; HorizontalMirror; HalfRotation]
  | BidiagonalMirror => [DiagonalMirror; AntidiagonalMirror; HalfRotation]
  | QuarterRotation => [HalfRotation]
  | Dihedral => [VerticalMirror; HorizontalMirror; VerticalAndHorizontalMirror; DiagonalMirror; AntidiagonalMirror; BidiagonalMirror;
                 QuarterRotation; HalfRotation]
  | _ => []
  end.
