(** Further theorems for C38, C40, C43 and C67: functions that the other files leave out. *)
From Coq Require Import String List Arith NArith Lia Bool.
From Verif Require Import Spec GeomSpec TableSpec Solver Bits Geom BitsProofs GeomProofs ParseSpec Parse Show Errors
  Samples Strat StratSolve StratUse StratApi StratSamples RestProofs.
Import ListNotations.
Local Open Scope nat_scope.

(** * C38: the list of all strategies *)

(** [Strategy::ALL] has every strategy once, except the mutant fish, which find nothing (C49), and the
    unfinished avoidable rectangles (C56); so [solve] does not panic with it. *)
Theorem C38_all_strategies : NoDup STRATEGY_ALL /\ implemented STRATEGY_ALL /\
  forall S, In S STRATEGY_ALL <-> S <> MutantSwordfish /\ S <> MutantJellyfish /\ S <> AvoidableRectangles.
Proof. exact (conj (proj1 all_strategies_once) (conj (proj2 all_strategies_once) all_strategies)). Qed.
Print Assumptions C38_all_strategies.

(** * C40: [is_empty] *)
Theorem C40_is_empty : forall l st pl el ok g ds, implemented l -> api st pl el -> strat_solve l st = Ok (ok, g, ds) ->
  (deds_is_empty ds = true <-> deds_iter ds = Ok []) /\ (deds_is_empty ds = true <-> deds_get ds 0 = Ok None).
Proof. exact deds_empty. Qed.
Print Assumptions C40_is_empty.

(** * C43: lines, bands and stacks *)
Theorem C43_line_cells_at : forall l m, l < 18 -> is_set EPosLine m -> exists s, line_cells_at l m = Ok s /\
  is_set ECell s /\ forall c, mem s c <-> c < 81 /\ in_house l c /\ mem m (pos_in_house l c).
Proof. exact line_cells_at_exact. Qed.
Print Assumptions C43_line_cells_at.
Theorem C43_single_cell : forall c, c < 81 -> is_set ECell (cells_of_cell c) /\ forall i, mem (cells_of_cell c) i <-> i = c.
Proof. exact cell_cells_exact. Qed.
Print Assumptions C43_single_cell.
(** The positions in a band are 0 to 26 in the order of the cells. *)
Theorem C43_band_positions : forall c c', c < 81 -> c' < 81 -> band_pos c < 27 /\
  (row_of c / 3 = row_of c' / 3 -> (band_pos c < band_pos c' <-> c < c')).
Proof. exact band_pos_exact. Qed.
Print Assumptions C43_band_positions.
Theorem C43_chute_of : forall b, b < 3 -> exists k k', chute_of_band b = Ok k /\ chute_of_stack b = Ok k' /\
  forall c, c < 81 -> (in_chute k c <-> row_of c / 3 = b) /\ (in_chute k' c <-> col_of c / 3 = b).
Proof. exact chute_of_exact. Qed.
Print Assumptions C43_chute_of.
(** Rows, columns and blocks as houses and as lines, and lines as houses *)
Theorem C43_house_of : forall i, i < 9 -> exists hr hk hb lr lk, house_of_row i = Ok hr /\ house_of_col i = Ok hk /\ house_of_block i = Ok hb /\
  line_of_row i = Ok lr /\ line_of_col i = Ok lk /\ hr < 27 /\ hk < 27 /\ hb < 27 /\ lr < 18 /\ lk < 18 /\
  forall c, (in_house hr c <-> row_of c = i) /\ (in_house hk c <-> col_of c = i) /\ (in_house hb c <-> block_of c = i) /\
    (in_house lr c <-> row_of c = i) /\ (in_house lk c <-> col_of c = i).
Proof. exact house_of_exact. Qed.
Print Assumptions C43_house_of.
Theorem C43_house_of_line : forall l, l < 18 -> exists h, house_of_line l = Ok h /\ h < 27 /\
  forall c, (in_house h c <-> in_house l c) /\ pos_in_house h c = pos_in_house l c.
Proof. exact house_of_line_exact. Qed.
Print Assumptions C43_house_of_line.
(** A set of positions in a house as a set of positions in a line *)
Theorem C43_as_line_set : forall m,
  (is_set EPosHouse m -> exists m', as_line_set m = Ok m' /\ is_set EPosLine m' /\ forall i, mem m' i <-> mem m i) /\
  (~ is_set EPosHouse m -> as_line_set m = Panic).
Proof. exact as_line_set_exact. Qed.
Print Assumptions C43_as_line_set.
Example C43_conversions_case : house_of_col 4 = Ok 13 /\ house_of_block 4 = Ok 22 /\ line_of_col 4 = Ok 13 /\ house_of_line 13 = Ok 13 /\
  as_line_set 256 = Ok 256%N /\ as_line_set 512 = Panic.
Proof. vm_compute. repeat split; reflexivity. Qed.
Example C43_rest_case : is_set EPosLine 5 /\ line_cells_at 10 5 = Ok (2 ^ 1 + 2 ^ 19)%N /\ band_pos 41 = 14 /\ chute_of_stack 1 = Ok 4 /\
  cells_of_cell 41 = (2 ^ 41)%N.
Proof.
  split; [apply is_set_lt; reflexivity | vm_compute; repeat split; reflexivity].
Qed.

(** * C67: messages of the permissive parser *)
Theorem C67_permissive_messages : forall s s' e e', from_str_block_permissive s = PErr e -> from_str_block_permissive s' = PErr e' ->
  lax_message e = lax_message e' -> e = e'.
Proof. exact lax_message_inj. Qed.
Print Assumptions C67_permissive_messages.
Example C67_permissive_case : from_str_block_permissive [] = PErr (NotEnoughRows 0) /\
  from_str_block_permissive (repeat 49%N 9) = PErr (NotEnoughRows 1) /\
  lax_message (NotEnoughRows 1) = lit "input ended after 1 valid rows".
Proof. vm_compute. repeat split; reflexivity. Qed.
