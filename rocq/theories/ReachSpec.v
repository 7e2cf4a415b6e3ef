(** Specification: which puzzles can be made by removing clues.  This file refers to no model definition. *)
From Coq Require Import List Arith.
From Verif Require Import Spec SymSpec.
Import ListNotations.

(** [p] has all or no clues of [src] in each class of cells tied by the symmetry. *)
Definition whole_classes (s : symmetry) (src p : grid) : Prop :=
  forall c, c < 81 -> (forall x, orbit s c x -> at_ p x = 0) \/ (forall x, orbit s c x -> at_ p x = at_ src x).

(** No class with a clue can be emptied without losing uniqueness. *)
Definition class_minimal (s : symmetry) (p : grid) : Prop :=
  forall c q, c < 81 -> at_ p c <> 0 -> class_removed s c p q -> ~ uniquely_solvable q.

(** [q] is [p] without the clue of cell [c]. *)
Definition clue_removed (c : nat) (p q : grid) : Prop :=
  length q = 81 /\ at_ q c = 0 /\ forall x, x < 81 -> x <> c -> at_ q x = at_ p x.
(** No clue can be removed without losing uniqueness. *)
Definition minimal (p : grid) : Prop := forall c q, c < 81 -> at_ p c <> 0 -> clue_removed c p q -> ~ uniquely_solvable q.
