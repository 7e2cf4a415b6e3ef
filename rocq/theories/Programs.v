(** Model of the programs in /repo/examples and of the example in the documentation of /repo/src/lib.rs.  The output of a
    program is the text it prints. *)
From Coq Require Import List Arith NArith Bool.
From Verif Require Import Solver Api Parse Errors.
Import ListNotations.
Local Open Scope N_scope.

(** The literal of examples/project_euler.rs:13 *)
Definition GRID : list N := [71; 114; 105; 100].

(** [str::split] with a string, examples/project_euler.rs:13: the pieces between the occurrences found from left to right;
    [skip] characters of an occurrence are still to be passed, [cur] is the current piece reversed. *)
Fixpoint split_aux (p : list N) (skip : nat) (cur s : list N) : list (list N) :=
  match s with
  | [] => [rev cur]
  | c :: t =>
      match skip with
      | S k => split_aux p k cur t
      | O => if starts_with p s then rev cur :: split_aux p (length p - 1) [] t else split_aux p 0 (c :: cur) t
      end
  end.
Definition split (p s : list N) : list (list N) := split_aux p 0 [] s.

(** [u32] addition and multiplication, examples/project_euler.rs:19; panic on overflow (debug) *)
Definition u32_add (a b : N) : res N := if a + b <? 2 ^ 32 then Ok (a + b) else Panic.
Definition u32_mul (a b : N) : res N := if a * b <? 2 ^ 32 then Ok (a * b) else Panic.

(** examples/project_euler.rs:19: [array[..3].iter().fold(..)] *)
Fixpoint fold_number (l : list nat) (acc : N) : res N :=
  match l with
  | [] => Ok acc
  | num :: t => a <- u32_mul acc 10; b <- u32_add a (N.of_nat num); fold_number t b
  end.
Definition corner_number (array : list nat) : res N :=
  if (3 <=? length array)%nat then fold_number (firstn 3 array) 0 else Panic.

(** examples/project_euler.rs:12-20: the loop over the boards; [unwrap] panics on an error or [None] *)
Fixpoint euler_loop (pieces : list (list N)) (sum : N) : res N :=
  match pieces with
  | [] => Ok sum
  | piece :: rest =>
      match from_str_block_permissive piece with
      | POk sudoku =>
          o <- api_some_solution sudoku;
          match o with
          | Some s => n <- corner_number (to_bytes s); sum <- u32_add sum n; euler_loop rest sum
          | None => Panic
          end
      | _ => Panic
      end
  end.

(** examples/project_euler.rs:9-22 [main], with the contents of the file p096_sudoku.txt as argument; [{}] of a [u32] is
    written as that of a [usize] *)
Definition project_euler (file : list N) : res (list N) :=
  sum <- euler_loop (skipn 1 (split GRID file)) 0; Ok (show_usize sum ++ [10]).

(** examples/example.rs:17-19 and src/lib.rs:35-37: print the solution if there is one; [Display for Sudoku] is
    src/board/sudoku.rs:807-811 *)
Definition print_solution (sudoku : list nat) : res (list N) :=
  o <- api_solution sudoku;
  Ok (match o with Some solution => to_str_line solution ++ [10] | None => [] end).

(** examples/example.rs:3-20 [main], with its literal as argument *)
Definition example_block (sudoku_str : list N) : res (list N) :=
  match from_str_block sudoku_str with POk sudoku => print_solution sudoku | _ => Panic end.

(** src/lib.rs:26-41, the example of the documentation, with its literal as argument *)
Definition example_line (sudoku_line : list N) : res (list N) :=
  match from_str_line sudoku_line with POk sudoku => print_solution sudoku | _ => Panic end.
