(** Specification: texts with candidates.  Of the model this file uses the type of cell states. *)
From Coq Require Import List Arith NArith Bool.
From Verif Require Import ParseSpec Strat.
Import ListNotations.

(** The digits of a set, in ascending order; the set has bit [d - 1] for digit [d] *)
Definition set_digits (m : N) : list nat := filter (fun d => N.testbit m (N.of_nat (d - 1))) (seq 1 9).
Definition digit_text (d : nat) : N := N.of_nat (d + 48).

(** What is written for a cell: its digit, its candidates, or an underscore if it has none *)
Definition word_of (x : cell_state) : text :=
  match x with
  | CDigit d => [digit_text d]
  | CCands m => match set_digits m with [] => [95%N] | l => map digit_text l end
  end.
(** Spaces up to the width [w] *)
Definition padded (w : nat) (t : text) : text := t ++ repeat 32%N (w - length t).

(** The table of a grid: columns as wide as their widest cell, cells between two spaces, stacks and bands framed *)
Definition word_at (g : list cell_state) (r k : nat) : text := word_of (nth (9 * r + k) g (CCands 0)).
Definition width_at (g : list cell_state) (k : nat) : nat := list_max (map (fun r => length (word_at g r k)) (seq 0 9)).
Definition border (g : list cell_state) (left middle right : N) : text :=
  let bars s := repeat 9472%N (width_at g (3 * s) + width_at g (3 * s + 1) + width_at g (3 * s + 2) + 6) in
  [left] ++ bars 0 ++ [middle] ++ bars 1 ++ [middle] ++ bars 2 ++ [right].
Definition row_line (g : list cell_state) (r : nat) : text :=
  let cell k := [32%N] ++ padded (width_at g k) (word_at g r k) ++ [32%N] in
  [9474%N] ++ cell 0 ++ cell 1 ++ cell 2 ++ [9474%N] ++ cell 3 ++ cell 4 ++ cell 5 ++ [9474%N] ++ cell 6 ++ cell 7 ++ cell 8 ++ [9474%N].
Definition table (g : list cell_state) : list text :=
  [border g 9484 9516 9488; row_line g 0; row_line g 1; row_line g 2;
   border g 9500 9532 9508; row_line g 3; row_line g 4; row_line g 5;
   border g 9500 9532 9508; row_line g 6; row_line g 7; row_line g 8;
   border g 9492 9524 9496].
Definition unlines (ls : list text) : text := flat_map (fun l => l ++ [10%N]) ls.

(** A table does not tell a digit from a single candidate. *)
Definition plain_state (x : cell_state) : cell_state :=
  match x with
  | CDigit d => CDigit d
  | CCands m => match set_digits m with [d] => CDigit d | _ => CCands m end
  end.

(** * Reading *)

(** The text [s] consists of the words [ws], separated by white space. *)
Inductive worded : text -> list text -> Prop :=
  | worded_end sp : Forall white sp -> worded sp []
  | worded_last sp w : Forall white sp -> w <> [] -> Forall (fun c => ~ white c) w -> worded (sp ++ w) [w]
  | worded_cons sp w c s ws : Forall white sp -> w <> [] -> Forall (fun c => ~ white c) w -> white c -> worded s ws -> worded (sp ++ w ++ c :: s) (w :: ws).

(** The words that stand for a cell: an underscore or a number below 2^32 *)
Definition decimal (t : text) : N := fold_left (fun v c => 10 * v + (c - 48))%N t 0%N.
Definition cell_word (t : text) : bool :=
  (if list_eq_dec N.eq_dec t [95%N] then true else false) ||
  (negb (length t =? 0) && forallb (fun c => (48 <=? c) && (c <=? 57))%N t && (decimal t <? 4294967296)%N).

(** The only digit among 1 to 9 in [t] is [d]. *)
Definition only_digit (t : text) (d : nat) : Prop := 1 <= d <= 9 /\ forall e, 1 <= e <= 9 -> (In (digit_text e) t <-> e = d).
(** The word [t] describes the cell state [x]: a digit if there is only one, the set of its digits otherwise. *)
Definition describes (t : text) (x : cell_state) : Prop :=
  match x with
  | CDigit d => only_digit t d
  | CCands m => (forall i, N.testbit m (N.of_nat i) = true <-> i < 9 /\ In (digit_text (S i)) t) /\ forall d, ~ only_digit t d
  end.
