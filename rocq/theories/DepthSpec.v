(** How deep the search of the solver goes. *)
From Coq Require Import List Arith NArith Bool.
From Verif Require Import Spec Solver.
Import ListNotations.

(** The solver of src/solver.rs:155-165 and 343-360, but given up as soon as more than [depth] calls of [guess] would be
    active at the same time.  Giving up is [NoFuel]. *)
Definition search_within (depth : nat) (g : grid) (limit : nat) (sols : solutions) : res solutions :=
  match from_sudoku g with
  | Unsolv => Ok sols
  | Panic => Panic
  | NoFuel => NoFuel
  | Ok st =>
      match find_naked_singles st with
      | Unsolv => Ok sols
      | Panic => Panic
      | NoFuel => NoFuel
      | Ok (st1, _) =>
          match solve_ st1 limit sols with
          | Unsolv => Ok sols
          | Panic => Panic
          | NoFuel => NoFuel
          | Ok st2 => guess depth limit st2 sols
          end
      end
  end.

(** Number of cells without a clue. *)
Definition empty_cells (g : grid) : nat := count_occ Nat.eq_dec g 0.
