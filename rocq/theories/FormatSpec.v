(** How a grid is written in the two block formats.  Refers to no model definition. *)
From Coq Require Import List Arith NArith.
From Verif Require Import Spec ParseSpec.
Import ListNotations.
Local Open Scope N_scope.

(** The character of a cell; a dot for an empty one *)
Definition char_of (d : nat) : N := if (d =? 0)%nat then 46 else 48 + N.of_nat d.

(** The cells of a row, and the row without and with field delimiters *)
Definition grid_row (g : list nat) (r : nat) : list nat := map (fun k => at_ g (9 * r + k)) (seq 0 9).
Definition bare_text (g : list nat) (r : nat) : text := map char_of (grid_row g r).
Definition bars_text (g : list nat) (r : nat) : text :=
  firstn 3 (bare_text g r) ++ 124 :: firstn 3 (skipn 3 (bare_text g r)) ++ 124 :: skipn 6 (bare_text g r).

(** The text with the given lines *)
Definition join (ls : list text) : text := flat_map (fun l => l ++ [10]) ls.

(** The two block formats; [sep] is the line between the bands. *)
Definition write_bare (g : list nat) : text := join (map (bare_text g) (seq 0 9)).
Definition write_bars (sep : text) (g : list nat) : text :=
  join (map (bars_text g) (seq 0 3) ++ sep :: map (bars_text g) (seq 3 3) ++ sep :: map (bars_text g) (seq 6 3)).
