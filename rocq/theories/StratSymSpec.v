(** Specification: what is known about a puzzle, moved by a symmetry.  This file refers to no model definition but the type of
    facts. *)
From Coq Require Import List Arith.
From Verif Require Import Spec CanonSpec StratUse.

(** The second facts are the image of the first: digit [d] in the cell that moves to [c] becomes its new name in [c]. *)
Definition moved (a : sym) (f1 f2 : facts) : Prop :=
  forall c d, c < 81 -> 1 <= d <= 9 -> (f1 (source a c) d <-> f2 c (rename (s_digits a) d)).
