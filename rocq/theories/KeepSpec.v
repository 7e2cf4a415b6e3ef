(** Specification: limits on the clues of a puzzle.  This file refers to no model definition. *)
From Coq Require Import List Arith.
From Verif Require Import Spec.

(** Each house of one kind has an empty cell; [f] is [row_of], [col_of] or [block_of]. *)
Definition never_full (f : nat -> nat) (p : grid) : Prop := forall h, h < 9 -> exists c, c < 81 /\ f c = h /\ at_ p c = 0.

(** Number of clues with the digit [d] *)
Definition clues_of (p : grid) (d : nat) : nat := length (filter (fun c => at_ p c =? d) (seq 0 81)).
