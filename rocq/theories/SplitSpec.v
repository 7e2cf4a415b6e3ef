(** Specification: puzzles with more clues. *)
From Coq Require Import List Arith.
From Verif Require Import Spec.
Import ListNotations.

(** The grid with the digit [d] in cell [c] *)
Definition put (p : grid) (c d : nat) : grid := map (fun i => if i =? c then d else at_ p i) (seq 0 81).
(** All clues of [p] are clues of [q]. *)
Definition fewer_clues (p q : grid) : Prop := forall c, c < 81 -> at_ p c <> 0 -> at_ q c = at_ p c.
