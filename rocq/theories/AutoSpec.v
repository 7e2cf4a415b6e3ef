(** Specification: rotations and mirror images of the board.  This file refers to no model definition. *)
From Coq Require Import List Arith.
From Verif Require Import Spec.
Import ListNotations.

(** A quarter turn to the right: the left column, read upwards, becomes the first row. *)
Definition quarter_turn (g : grid) : grid := map (fun c => at_ g (9 * (8 - c mod 9) + c / 9)) (seq 0 81).
(** Left and right exchanged *)
Definition mirrored (g : grid) : grid := map (fun c => at_ g (9 * (c / 9) + (8 - c mod 9))) (seq 0 81).

(** All rotations and mirror images: repeated quarter turns and mirrorings *)
Inductive turned (g : grid) : grid -> Prop :=
| turned_not : turned g g
| turned_quarter h : turned g h -> turned g (quarter_turn h)
| turned_mirror h : turned g h -> turned g (mirrored h).
