(** Properties of the solving methods of [Sudoku] (C01-C12, C45). *)
From Coq Require Import List Arith NArith Lia Bool.
From Verif Require Import Spec Samples Tables Solver Api ApiProofs.
Import ListNotations.

(** C01 *)
Theorem C01_solutions_up_to_sound : forall g limit l s,
  wf_grid g -> api_solutions_up_to g limit = Ok l -> In s l ->
  solution_of g s /\ once_in row_of s /\ once_in col_of s /\ once_in block_of s.
Proof. exact solutions_sound_once. Qed.
Print Assumptions C01_solutions_up_to_sound.
Example C01_case : wf_grid puzzle1 /\ api_solutions_up_to puzzle1 2 = Ok [solution1].
Proof. split; [apply wf_gridb_ok | ]; vm_compute; reflexivity. Qed.

(** C02 *)
Theorem C02_solutions_up_to_complete : forall g limit l,
  wf_grid g -> api_solutions_up_to g limit = Ok l -> length l < limit ->
  forall s, solution_of g s -> In s l.
Proof. exact solutions_complete. Qed.
Print Assumptions C02_solutions_up_to_complete.
Example C02_case : wf_grid puzzle_many /\
  match api_solutions_up_to puzzle_many 1000 with Ok l => length l = 168 | _ => False end.
Proof. split; [apply wf_gridb_ok | ]; vm_compute; reflexivity. Qed.

(** C03 *)
Theorem C03_solutions_up_to_distinct_and_limited : forall g limit l,
  wf_grid g -> api_solutions_up_to g limit = Ok l -> NoDup l /\ length l <= limit.
Proof. exact solutions_nodup. Qed.
Print Assumptions C03_solutions_up_to_distinct_and_limited.
Example C03_case : wf_grid (repeat 0 81) /\
  match api_solutions_up_to (repeat 0 81) 5 with Ok l => length l = 5 | _ => False end /\
  api_solutions_up_to (repeat 0 81) 0 = Ok [].
Proof. split; [apply wf_gridb_ok | split]; vm_compute; reflexivity. Qed.

(** C04: none of the entry points reaches [Panic] (an out-of-bounds access, a failed debug assertion) or [NoFuel] (a loop
    that does not end). *)
Theorem C04_solver_total : forall g limit buf, wf_grid g ->
  (exists l, api_solutions_up_to g limit = Ok l) /\
  (exists n, api_solutions_count_up_to g limit = Ok n) /\
  (exists n buf', api_solutions_up_to_buffer g buf limit = Ok (n, buf')) /\
  (exists o, api_some_solution g = Ok o) /\
  (exists o, api_solution g = Ok o) /\
  (exists b, api_is_uniquely_solvable g = Ok b) /\
  (exists b, api_is_solved g = Ok b).
Proof. exact solver_total. Qed.
Print Assumptions C04_solver_total.
Example C04_case : wf_grid puzzle_none /\ api_solutions_up_to puzzle_none 7 = Ok [] /\
  wf_grid puzzle_stuck /\ api_solutions_up_to puzzle_stuck 7 = Ok [].
Proof. repeat split; try apply wf_gridb_ok; vm_compute; reflexivity. Qed.

(** C05 *)
Theorem C05_solutions_count_exact : forall g limit, wf_grid g ->
  exists n l, n_solutions g n /\ api_solutions_count_up_to g limit = Ok (Nat.min limit n) /\
  api_solutions_up_to g limit = Ok l /\ length l = Nat.min limit n.
Proof. exact count_both. Qed.
Print Assumptions C05_solutions_count_exact.
Theorem C05_number_of_solutions_is_unique : forall g n m, n_solutions g n -> n_solutions g m -> n = m.
Proof. exact n_solutions_fun. Qed.
Print Assumptions C05_number_of_solutions_is_unique.
Example C05_case : wf_grid puzzle_many /\ api_solutions_count_up_to puzzle_many 1000 = Ok 168 /\
  api_solutions_count_up_to puzzle_many 100 = Ok 100.
Proof. split; [apply wf_gridb_ok | split]; vm_compute; reflexivity. Qed.

(** C06 *)
Theorem C06_solutions_up_to_buffer : forall g buf limit, wf_grid g ->
  exists l buf', api_solutions_up_to g limit = Ok l /\
  api_solutions_count_up_to g limit = Ok (length l) /\
  api_solutions_up_to_buffer g buf limit = Ok (length l, buf') /\
  length buf' = length buf /\
  (forall i d, i < length buf -> i < length l -> nth i buf' d = nth i l d) /\
  (forall i d, i < length buf -> length l <= i -> nth i buf' d = nth i buf d).
Proof. exact buffer_all. Qed.
Print Assumptions C06_solutions_up_to_buffer.
Example C06_case : wf_grid puzzle_many /\
  match api_solutions_up_to_buffer puzzle_many [[1]; [2]] 5 with
  | Ok (n, b) => n = 5 /\ length b = 2 /\ forallb solvedb b = true | _ => False end /\
  api_solutions_up_to_buffer puzzle1 [[1]; [2]] 5 = Ok (1, [solution1; [2]]).
Proof. split; [apply wf_gridb_ok | split; [ | ]]; vm_compute; auto. Qed.

(** C07 *)
Theorem C07_some_solution : forall g, wf_grid g ->
  (exists s, api_some_solution g = Ok (Some s) /\ solution_of g s) \/
  (api_some_solution g = Ok None /\ forall s, ~ solution_of g s).
Proof. exact some_solution_exact. Qed.
Print Assumptions C07_some_solution.
Example C07_case : api_some_solution puzzle1 = Ok (Some solution1) /\ api_some_solution puzzle_stuck = Ok None.
Proof. split; vm_compute; reflexivity. Qed.

(** C08 *)
Theorem C08_solution_is_unique : forall g s, wf_grid g -> api_solution g = Ok (Some s) ->
  solution_of g s /\ forall s', solution_of g s' -> s' = s.
Proof. exact solution_sound. Qed.
Print Assumptions C08_solution_is_unique.
Example C08_case : wf_grid puzzle1 /\ api_solution puzzle1 = Ok (Some solution1) /\ api_solution puzzle_many = Ok None.
Proof. split; [apply wf_gridb_ok | split]; vm_compute; reflexivity. Qed.

(** C09.  The full statement is
    [forall g s, wf_grid g -> solution_of g s -> (forall s', solution_of g s' -> s' = s) -> api_solution g = Ok (Some s)].
    It depends on the theorem of McGuire, Tugemann and Civario (2012), found by exhaustive computation, that no puzzle with
    fewer than 17 clues has exactly one solution.  That theorem is not reproved: it is a hypothesis of the second theorem. *)
Theorem C09_solution_complete_17_clues_partial : forall g s, wf_grid g -> 17 <= clue_count g ->
  solution_of g s -> (forall s', solution_of g s' -> s' = s) -> api_solution g = Ok (Some s).
Proof. exact solution_complete_17. Qed.
Print Assumptions C09_solution_complete_17_clues_partial.
Theorem C09_solution_complete_partial :
  (forall p, wf_grid p -> clue_count p < 17 -> ~ uniquely_solvable p) ->
  forall g s, wf_grid g -> solution_of g s -> (forall s', solution_of g s' -> s' = s) -> api_solution g = Ok (Some s).
Proof. exact solution_complete_if. Qed.
Print Assumptions C09_solution_complete_partial.
Theorem C09_few_digits_never_unique : forall g, digit_count g < 8 -> ~ uniquely_solvable g.
Proof. exact few_digits_not_unique. Qed.
Print Assumptions C09_few_digits_never_unique.
Example C09_case : wf_grid puzzle1 /\ clue_count puzzle1 = 32 /\ digit_count puzzle1 = 9 /\
  solution_of puzzle1 solution1 /\ digit_count puzzle_none = 1.
Proof.
  split; [apply wf_gridb_ok; vm_compute; reflexivity | ]. split; [vm_compute; reflexivity | ].
  split; [vm_compute; reflexivity | ]. split; [ | vm_compute; reflexivity].
  split; [apply solvedb_ok | apply extendsb_ok]; vm_compute; reflexivity.
Qed.

(** C10 *)
Theorem C10_is_uniquely_solvable_exact : forall g, wf_grid g ->
  exists b, api_is_uniquely_solvable g = Ok b /\ (b = true <-> uniquely_solvable g).
Proof. exact uniquely_solvable_exact. Qed.
Print Assumptions C10_is_uniquely_solvable_exact.
Example C10_case : api_is_uniquely_solvable puzzle1 = Ok true /\ api_is_uniquely_solvable puzzle_many = Ok false /\
  api_is_uniquely_solvable puzzle_stuck = Ok false.
Proof. repeat split; vm_compute; reflexivity. Qed.

(** C11 *)
Theorem C11_is_solved_exact : forall g, wf_grid g ->
  exists b, api_is_solved g = Ok b /\
  (b = true <-> (forall c, c < 81 -> 1 <= at_ g c <= 9) /\ once_in row_of g /\ once_in col_of g /\ once_in block_of g).
Proof. exact is_solved_once. Qed.
Print Assumptions C11_is_solved_exact.
Example C11_case : api_is_solved solution1 = Ok true /\ api_is_solved puzzle1 = Ok false /\
  api_is_solved (1 :: tl solution1) = Ok false.
Proof. repeat split; vm_compute; reflexivity. Qed.

(** C12 *)
Theorem C12_n_clues_counts_filled_cells : forall g, wf_grid g ->
  api_n_clues g = clue_count g /\ (api_n_clues g = 81 <-> forall c, c < 81 -> at_ g c <> 0).
Proof. exact n_clues_both. Qed.
Print Assumptions C12_n_clues_counts_filled_cells.
Example C12_case : api_n_clues puzzle1 = 32 /\ api_n_clues solution1 = 81.
Proof. split; vm_compute; reflexivity. Qed.

(** C45 *)
Theorem C45_larger_limit_extends : forall g m n lm ln, wf_grid g -> m <= n ->
  api_solutions_up_to g m = Ok lm -> api_solutions_up_to g n = Ok ln -> lm = firstn m ln.
Proof. exact solutions_prefix. Qed.
Print Assumptions C45_larger_limit_extends.
Example C45_case : wf_grid puzzle_many /\
  match api_solutions_up_to puzzle_many 3, api_solutions_up_to puzzle_many 7 with
  | Ok l3, Ok l7 => length l3 = 3 /\ length l7 = 7 | _, _ => False end.
Proof. split; [apply wf_gridb_ok | ]; vm_compute; auto. Qed.
