(** Model of the solver-facing methods of /repo/src/board/sudoku.rs. *)
From Coq Require Import List Arith NArith Lia Bool.
From Verif Require Import Solver.
Import ListNotations.

(** src/board/sudoku.rs:618-622 [solutions_up_to] *)
Definition api_solutions_up_to (g : list nat) (limit : nat) : res (list (list nat)) :=
  match from_sudoku g with
  | Unsolv => Ok []
  | Panic => Panic
  | NoFuel => NoFuel
  | Ok st => r <- solver_solutions_up_to st limit;
             match r with Vector l => Ok l | _ => Panic end
  end.

(** src/board/sudoku.rs:604-608 [solutions_count_up_to] *)
Definition api_solutions_count_up_to (g : list nat) (limit : nat) : res nat :=
  match from_sudoku g with
  | Unsolv => Ok 0
  | Panic => Panic
  | NoFuel => NoFuel
  | Ok st => r <- solver_solutions_count_up_to st limit; Ok (sols_len r)
  end.

(** src/board/sudoku.rs:628-632 [solutions_up_to_buffer]: returns the count and the buffer afterwards *)
Definition api_solutions_up_to_buffer (g : list nat) (buf : list (list nat)) (limit : nat)
  : res (nat * list (list nat)) :=
  match from_sudoku g with
  | Unsolv => Ok (0, buf)
  | Panic => Panic
  | NoFuel => NoFuel
  | Ok st => r <- solver_solutions_up_to_buffer st buf limit;
             match r with Buffer b n => Ok (n, b) | _ => Panic end
  end.

(** src/board/sudoku.rs:571-577 [some_solution] *)
Definition api_some_solution (g : list nat) : res (option (list nat)) :=
  r <- api_solutions_up_to_buffer g [repeat 0 81] 1;
  if fst r =? 1 then s <- aget (snd r) 0; Ok (Some s) else Ok None.

(** src/board/sudoku.rs:583-589: mask of the digits contained and number of clues *)
Definition nums_and_clues (g : list nat) : N * nat :=
  fold_left (fun acc d => if d =? 0 then acc
                          else (N.lor (fst acc) (N.shiftl 1 (N.of_nat d)), S (snd acc))) g (0%N, 0).

(** [count_ones] of src/board/sudoku.rs:590 *)
Fixpoint count_ones_pos (p : positive) : nat :=
  match p with xH => 1 | xO p' => count_ones_pos p' | xI p' => S (count_ones_pos p') end.
Definition count_ones (m : N) : nat := match m with N0 => 0 | Npos p => count_ones_pos p end.

(** src/board/sudoku.rs:580-600 [solution] *)
Definition api_solution (g : list nat) : res (option (list nat)) :=
  let '(nums, n_clues) := nums_and_clues g in
  if (n_clues <? 17) || (count_ones nums <? 8) then Ok None
  else
    r <- api_solutions_up_to_buffer g [repeat 0 81] 2;
    if fst r =? 1 then s <- aget (snd r) 0; Ok (Some s) else Ok None.

(** src/board/sudoku.rs:612-614 [is_uniquely_solvable] *)
Definition api_is_uniquely_solvable (g : list nat) : res bool :=
  n <- api_solutions_count_up_to g 2; Ok (n =? 1).

(** src/board/sudoku.rs:661-663 [n_clues] *)
Definition api_n_clues (g : list nat) : nat := length (filter (fun d => negb (d =? 0)) g).

(** src/board/positions.rs:12-14, 16-18, 26-32, 699-701: row, column and block of a cell.  [BLOCK] (lines 34-45) is
    only used for error reporting; see [Geom.v]. *)
Definition cell_row (c : nat) : nat := c / 9.
Definition cell_col (c : nat) : nat := c mod 9.
Definition cell_block (c : nat) : nat := 3 * (c / 27) + (c mod 9) / 3.

(** src/board/sudoku.rs:643-655: the loop of [is_solved]; [None] is the early [return false].
    [Digit::new_checked] (src/board/digit.rs:18-23) accepts 1..9; houses are numbered rows, columns, blocks
    (src/board/positions.rs:684-693, src/consts.rs:5-6). *)
Fixpoint is_solved_loop (cells : list (nat * nat)) (hd : list N) : res (option (list N)) :=
  match cells with
  | [] => Ok (Some hd)
  | (c, d) :: t =>
      if (9 <? d) || (d =? 0) then Ok None
      else
        let m := N.shiftl 1 (N.of_nat (d - 1)) in
        h1 <- amod hd (cell_row c) (fun x => N.lor x m);
        h2 <- amod h1 (9 + cell_col c) (fun x => N.lor x m);
        h3 <- amod h2 (18 + cell_block c) (fun x => N.lor x m);
        is_solved_loop t h3
  end.

(** src/board/sudoku.rs:638-658 [is_solved] *)
Definition api_is_solved (g : list nat) : res bool :=
  r <- is_solved_loop (combine (seq 0 81) g) (repeat 0%N 27);
  match r with
  | None => Ok false
  | Some hd => Ok (forallb (N.eqb 511) hd && (length hd =? 27))
  end.
