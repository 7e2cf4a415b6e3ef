(** Specification: the public calls on a strategy solver, with none left out. *)
From Coq Require Import List Arith NArith Bool.
From Verif Require Import Spec TableSpec Solver Gen Strat StratSolve StratUse.
Import ListNotations.

(** [calls st pl el]: [st] arises from one of the constructors by any sequence of the methods that take [&mut self]; the
    digits [pl] were given or inserted and the candidates [el] ruled out.  Unlike in [api] (StratUse.v), a cell may be
    looked at whatever was inserted before. *)
Inductive calls : strat -> facts -> facts -> Prop :=
  | calls_sudoku p st : wf_grid p -> strat_from_sudoku p = Ok st -> calls st (given p) nothing
  | calls_clues p clues st : wf_grid p -> strat_from_clues p clues = Ok st -> calls st (given p) nothing
  | calls_states g st : ok_states g -> strat_from_grid_state g = Ok st -> calls st (shown g) (struck g)
  | calls_insert st pl el c d st' : calls st pl el -> c < 81 -> 1 <= d <= 9 -> insert_candidate st (c, d) = Ok (st', true) ->
      calls st' (fun c' d' => pl c' d' \/ (c' = c /\ d' = d)) el
  | calls_reject st pl el c d st' : calls st pl el -> c < 81 -> 1 <= d <= 9 -> insert_candidate st (c, d) = Ok (st', false) -> calls st' pl el
  | calls_to_sudoku st pl el st' g : calls st pl el -> to_sudoku st = Ok (st', g) -> calls st' pl el
  | calls_cell_state st pl el c st' x : calls st pl el -> c < 81 -> strat_cell_state st c = Ok (st', x) -> calls st' pl el.
