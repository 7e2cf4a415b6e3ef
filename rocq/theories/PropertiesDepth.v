(** Property C101: how deep the search of the solver goes. *)
From Coq Require Import List Arith Lia Bool.
From Verif Require Import Spec Samples DepthSpec Solver GuessProofs DepthProofs.
Import ListNotations.

(** * C101: the search is no deeper than the number of empty cells *)

(** With one call of [guess] for each empty cell and one more, nothing is cut off. *)
Theorem C101_depth : forall g st depth limit sols, wf_grid g -> from_sudoku g = Ok st -> empty_cells g < depth ->
  search_within depth g limit sols = solutions_up_to_ st limit sols.
Proof. exact search_depth_api. Qed.
Print Assumptions C101_depth.

(** The search then ends regularly, for any grid and any number of solutions asked for. *)
Theorem C101_no_cut : forall g depth limit sols, wf_grid g -> empty_cells g < depth -> sols_len sols <= limit ->
  exists r, search_within depth g limit sols = Ok r.
Proof. exact search_total. Qed.
Print Assumptions C101_no_cut.

(** So 82 calls are enough for all grids. *)
Theorem C101_at_most_82 : forall g limit sols, wf_grid g -> sols_len sols <= limit ->
  exists r, search_within 82 g limit sols = Ok r.
Proof. exact (fun g limit sols Hwf => search_total g 82 limit sols Hwf (le_n_S _ _ (empty_cells_le g Hwf))). Qed.
Print Assumptions C101_at_most_82.

(** The bound depends on the grid: a puzzle may need no guess at all (49 empty cells) or seven nested calls (29 empty cells). *)
Example C101_case : wf_grid puzzle1 /\ empty_cells puzzle1 = 49 /\ search_within 1 puzzle1 2 (Count 0) = Ok (Count 1) /\
  wf_grid puzzle_many /\ empty_cells puzzle_many = 29 /\ search_within 6 puzzle_many 1 (Count 0) = NoFuel /\
  search_within 7 puzzle_many 1 (Count 0) = Ok (Count 1).
Proof.
  split; [apply wf_gridb_ok; vm_compute; reflexivity | ]. do 2 (split; [vm_compute; reflexivity | ]).
  split; [apply wf_gridb_ok; vm_compute; reflexivity | ]. repeat split; vm_compute; reflexivity.
Qed.
