(** The theorems about arbitrary sequences of calls on a strategy solver, each with a concrete case that meets its
    hypotheses. *)
From Coq Require Import List Arith NArith ZArith Lia Bool.
From Verif Require Import Spec Solver Samples Api ApiProofs GridProofs Gen Strat StratSolve StratUse StratCallsSpec StratNever StratSamples StratCallsSamples Show ShowSpec.
Import ListNotations.

(** * C69: [Ok] after any calls *)

(** [Ok] from [solve] does not always mean a valid solution: looking at a cell ([cell_state]) may find a contradiction
    and hide it from the solver. *)
Theorem C69_ok_after_any_calls_refuted : exists l st pl el g ds, implemented l /\ calls st pl el /\ strat_solve l st = Ok (true, g, ds) /\ ~ solved g.
Proof. exact wrong_ok. Qed.
Print Assumptions C69_ok_after_any_calls_refuted.

(** As long as the inserted digits still have a completion, [Ok] comes with it, whatever was looked at. *)
Theorem C69_ok_if_solvable : forall l st pl el g ds s, implemented l -> calls st pl el -> completion pl el s -> strat_solve l st = Ok (true, g, ds) -> g = s.
Proof. exact calls_ok. Qed.
Print Assumptions C69_ok_if_solvable.
Example C69_case : exists st s ds, implemented STRATEGY_ALL /\ calls st (given puzzle2) nothing /\ completion (given puzzle2) nothing s /\
  strat_solve STRATEGY_ALL st = Ok (true, s, ds) /\ puzzle2 <> s.
Proof. exact looked_solved. Qed.

(** * C70: no panic and no endless loop *)

(** [strategy] of a deduction panics on some values of its type; they never occur in the result of [solve]. *)
Theorem C70_constructors : forall p clues g, wf_grid p -> ok_states g ->
  (exists st, strat_from_sudoku p = Ok st) /\ (exists st, strat_from_clues p clues = Ok st) /\ (exists st, strat_from_grid_state g = Ok st).
Proof. intros p clues g. exact (calls_new p clues g). Qed.
Print Assumptions C70_constructors.
Theorem C70_solve_returns : forall l st pl el, implemented l -> calls st pl el ->
  exists ok g ds, strat_solve l st = Ok (ok, g, ds) /\ wf_grid g /\ exists r, deds_iter ds = Ok r /\ forall y, In y r -> exists S, ded_strategy y = Ok S.
Proof. exact calls_solve. Qed.
Print Assumptions C70_solve_returns.
Theorem C70_changes_return : forall st pl el, calls st pl el ->
  (forall c d, c < 81 -> 1 <= d <= 9 -> exists st' ok, insert_candidate st (c, d) = Ok (st', ok)) /\
  (exists st' g, to_sudoku st = Ok (st', g) /\ wf_grid g) /\
  (forall c, c < 81 -> exists st' x, strat_cell_state st c = Ok (st', x) /\ ok_state x).
Proof. exact calls_change. Qed.
Print Assumptions C70_changes_return.
Theorem C70_queries_return : forall st pl el, calls st pl el ->
  (exists g, strat_grid_state st = Ok g /\ ok_states g) /\ (exists g, strat_text st = Ok (unlines (table g)) /\ ok_states g).
Proof. exact calls_look. Qed.
Print Assumptions C70_queries_return.
(** A solver in which two placed digits contradict each other is reached by calls. *)
Example C70_case : wf_grid wrong_start /\ (exists pl el, calls wrong_state pl el) /\ ~ solved wrong /\ exists ds, strat_solve [NakedPairs; NakedSingles] wrong_state = Ok (true, wrong, ds).
Proof. exact (conj wrong_start_wf (conj wrong_state_calls (conj wrong_breaks wrong_solved))). Qed.
