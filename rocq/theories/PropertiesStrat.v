(** Properties C35-C40, C46-C49, C56-C58: the strategy solver. *)
From Coq Require Import List Arith NArith ZArith Lia Bool.
From Verif Require Import Spec GeomSpec Solver Samples Gen Strat StratSolve StratUse StratSpec StratWhy StratApi StratCertify StratBound StratSamples.
Import ListNotations.

(** [api st pl el] (StratUse.v): the public functions can produce the solver [st], in which the digits [pl] have been placed and
    the candidates [el] ruled out.  [implemented l]: the list does not contain the unfinished [AvoidableRectangles].  [solve]
    returns [Ok (true, g, ds)] for [Ok((g, ds))] and [Ok (false, g, ds)] for [Err((g, ds))]. *)

(** * C35: deductions are sound *)

Theorem C35_deductions_sound : forall l st pl el ok g ds s, implemented l -> api st pl el -> strat_solve l st = Ok (ok, g, ds) ->
  completion pl el s ->
  (forall c d, In (c, d) (d_entries ds) -> at_ s c = d) /\ (forall c d, In (c, d) (d_elims ds) -> at_ s c <> d).
Proof. exact solve_sound. Qed.
Print Assumptions C35_deductions_sound.
Example C35_case : implemented STRATEGY_ALL /\ api (fresh puzzle3) (given puzzle3) nothing /\ (exists s, completion (given puzzle3) nothing s) /\
  outcome STRATEGY_ALL puzzle3 (fun ok _ ds => ok = true /\ length (d_elims ds) = 22 /\ length (d_deds ds) = 63).
Proof.
  assert (Wf : wf_grid puzzle3) by (apply wf_gridb_ok; vm_compute; reflexivity).
  split; [intros S HS; repeat (destruct HS as [<- | HS]; [discriminate | ]); destruct HS | ]. split; [apply fresh_api, Wf | ].
  split; [apply completion_ex; [exact Wf | exact puzzle3_unique] | ]. vm_compute. repeat split; reflexivity.
Qed.

(** * C36: [Ok] means solved *)

Theorem C36_ok_is_solution : forall l p st g ds, wf_grid p -> implemented l ->
  strat_from_sudoku p = Ok st \/ (exists clues, strat_from_clues p clues = Ok st) -> strat_solve l st = Ok (true, g, ds) ->
  solution_of p g /\ (forall s, solution_of p s -> s = g) /\ uniquely_solvable p.
Proof. exact solve_puzzle. Qed.
Print Assumptions C36_ok_is_solution.

(** The same for solvers that were given candidates or digits in other ways.  Digits inserted into cells from which they had
    been ruled out are accepted, so that [g] need not respect [el]. *)
Theorem C36_ok_any_solver : forall l st pl el g ds, implemented l -> api st pl el -> strat_solve l st = Ok (true, g, ds) ->
  solved g /\ (forall c d, pl c d -> at_ g c = d) /\ forall s, completion pl el s -> s = g.
Proof. exact solve_ok. Qed.
Print Assumptions C36_ok_any_solver.
Example C36_case : wf_grid puzzle1 /\ strat_from_sudoku puzzle1 = Ok (fresh puzzle1) /\
  outcome [NakedSingles; HiddenSingles] puzzle1 (fun ok g _ => ok = true /\ g = solution1).
Proof.
  assert (Wf : wf_grid puzzle1) by (apply wf_gridb_ok; vm_compute; reflexivity). split; [exact Wf | ]. split; [apply fresh_ok, Wf | ].
  vm_compute. split; reflexivity.
Qed.

(** * C37: the grid returned with [Err] (and [Ok]) *)

Theorem C37_grid_correct : forall l st pl el ok g ds, implemented l -> api st pl el -> strat_solve l st = Ok (ok, g, ds) ->
  wf_grid g /\ (forall c d, pl c d -> at_ g c = d) /\
  (forall c, c < 81 -> at_ g c <> 0 -> forall s, completion pl el s -> at_ s c = at_ g c) /\
  (forall c d, c < 81 /\ 1 <= d /\ at_ g c = d <-> In (c, d) (d_entries ds)).
Proof. exact solve_grid. Qed.
Print Assumptions C37_grid_correct.
Example C37_case : api (fresh puzzle4) (given puzzle4) nothing /\ uniquely_solvable puzzle4 /\
  outcome STRATEGY_ALL puzzle4 (fun ok g _ => ok = false /\
    length (filter (fun d => d =? 0) puzzle4) = 64 /\ length (filter (fun d => d =? 0) g) = 60).
Proof.
  split; [apply fresh_api, wf_gridb_ok; vm_compute; reflexivity | ]. split; [exact puzzle4_unique | ].
  apply (outcome_weaken _ _ _ _ all_on_puzzle4). intros ok g ds [[A [B _]] _]. split; [exact A | ]. split; [reflexivity | exact B].
Qed.

(** * C38: no panic, termination *)

Theorem C38_solve_total : forall l st pl el, implemented l -> api st pl el -> exists ok g ds, strat_solve l st = Ok (ok, g, ds).
Proof. exact solve_total. Qed.
Print Assumptions C38_solve_total.
Theorem C38_from_sudoku_total : forall p, wf_grid p -> exists st, strat_from_sudoku p = Ok st.
Proof. exact created_ex. Qed.
Print Assumptions C38_from_sudoku_total.
Theorem C38_from_grid_state_total : forall g, ok_states g -> exists st, strat_from_grid_state g = Ok st.
Proof. exact states_ex. Qed.
Print Assumptions C38_from_grid_state_total.
(** Contradictory clues *)
Example C38_case : api (fresh puzzle_none) (given puzzle_none) nothing /\
  outcome STRATEGY_ALL puzzle_none (fun ok _ _ => ok = false).
Proof. split; [apply fresh_api, wf_gridb_ok; vm_compute; reflexivity | ]. vm_compute. reflexivity. Qed.

(** * C39: singles that are left *)

(** False as stated: with [NakedSingles] first a cell with a single candidate can remain. *)
Theorem C39_naked_single_left_refuted : exists p st g ds c d, wf_grid p /\ uniquely_solvable p /\ strat_from_sudoku p = Ok st /\
  strat_solve [NakedSingles; HiddenSingles] st = Ok (false, g, ds) /\ c < 81 /\ at_ g c = 0 /\ 1 <= d <= 9 /\
  forall d', 1 <= d' <= 9 -> ((forall c', c' < 81 -> peers c c' -> at_ g c' <> d') <-> d' = d).
Proof. exact naked_left. Qed.
Print Assumptions C39_naked_single_left_refuted.

(** True for hidden singles, and for both in the other order. *)
Theorem C39_no_hidden_single_left : forall st pl el g ds, api st pl el ->
  strat_solve [NakedSingles; HiddenSingles] st = Ok (false, g, ds) -> (exists s, completion pl el s) ->
  ~ hidden_single (alive (d_entries ds) (d_elims ds)).
Proof. exact solve_hidden_complete. Qed.
Print Assumptions C39_no_hidden_single_left.
Theorem C39_no_single_left : forall st pl el g ds, api st pl el ->
  strat_solve [HiddenSingles; NakedSingles] st = Ok (false, g, ds) -> (exists s, completion pl el s) ->
  ~ naked_single (alive (d_entries ds) (d_elims ds)) /\ ~ hidden_single (alive (d_entries ds) (d_elims ds)).
Proof. exact solve_singles_complete. Qed.
Print Assumptions C39_no_single_left.
Example C39_case : api (fresh puzzle3) (given puzzle3) nothing /\ (exists s, completion (given puzzle3) nothing s) /\
  outcome [HiddenSingles; NakedSingles] puzzle3 (fun ok _ ds => ok = false /\ length (d_deds ds) = 10).
Proof.
  assert (Wf : wf_grid puzzle3) by (apply wf_gridb_ok; vm_compute; reflexivity). split; [apply fresh_api, Wf | ].
  split; [apply completion_ex; [exact Wf | exact puzzle3_unique] | ]. vm_compute. split; reflexivity.
Qed.

(** * C40: the deductions can be read *)

(** All deductions can be read with [iter] and [get]; [strategy] returns one of the given strategies; the ranges of the
    eliminations follow each other without gaps up to the end of the list (the first [n] were known before). *)
Theorem C40_deductions_readable : forall l st pl el ok g ds, implemented l -> api st pl el -> strat_solve l st = Ok (ok, g, ds) ->
  exists r, deds_iter ds = Ok r /\ (forall i, deds_get ds i = Ok (nth_error r i)) /\ deds_len ds = length r /\
    (forall y, In y r -> exists S, In S l /\ ded_strategy y = Ok S /\ S <> MutantSwordfish /\ S <> MutantJellyfish) /\
    (exists n, tiles n (d_deds ds) (length (d_elims ds)) /\ forall c d, In (c, d) (firstn n (d_elims ds)) <-> el c d) /\
    (forall c d, In (c, d) (d_entries ds) <-> pl c d \/ exists y, In y (d_deds ds) /\ single_of y (c, d)).
Proof. exact solve_deds. Qed.
Print Assumptions C40_deductions_readable.
Example C40_case : api (fresh puzzle4) (given puzzle4) nothing /\
  outcome STRATEGY_ALL puzzle4 (fun ok _ ds => ok = false /\ match deds_iter ds with Ok r => map ded_strategy r =
      [Ok NakedSingles; Ok HiddenSingles; Ok HiddenSingles; Ok HiddenSingles] ++ repeat (Ok LockedCandidates) 4 ++
      [Ok Swordfish; Ok Swordfish; Ok HiddenPairs; Ok HiddenPairs] | _ => False end).
Proof.
  split; [apply fresh_api, wf_gridb_ok; vm_compute; reflexivity | ]. apply (outcome_weaken _ _ _ _ all_on_puzzle4).
  intros ok g ds [[A _] B]. split; [exact A | ]. destruct (deds_iter ds); [apply B | exact B..].
Qed.

(** * C46: the candidates shown *)

(** False for puzzles with a cell without candidates: other cells still show digits of their row. *)
Theorem C46_blocked_refuted : exists p st l c m d c', wf_grid p /\ clash_free p /\ strat_from_sudoku p = Ok st /\ strat_grid_state st = Ok l /\
  c < 81 /\ c' < 81 /\ at_ p c = 0 /\ nth c l (CDigit 0) = CCands m /\ 1 <= d <= 9 /\ N.testbit m (N.of_nat (d - 1)) = true /\ peers c c' /\ at_ p c' = d.
Proof. exact blocked_shows. Qed.
Print Assumptions C46_blocked_refuted.

(** True if no cell is blocked, in particular for all solvable puzzles; also for solvers with eliminated candidates. *)
Theorem C46_candidates_exact : forall st pl el, api st pl el -> unblocked pl el -> exists l, strat_grid_state st = Ok l /\ length l = 81 /\
  forall c, c < 81 -> (exists st', strat_cell_state st c = Ok (st', nth c l (CDigit 0)) /\ api st' pl el) /\
    (forall d, nth c l (CDigit 0) = CDigit d <-> pl c d) /\
    (forall m, nth c l (CDigit 0) = CCands m -> forall d, 1 <= d <= 9 -> (N.testbit m (N.of_nat (d - 1)) = true <-> allowed pl el c d)).
Proof. exact show_ok. Qed.
Print Assumptions C46_candidates_exact.
Theorem C46_solvable_unblocked : forall pl el s, completion pl el s -> unblocked pl el.
Proof. exact solvable_unblocked. Qed.
Print Assumptions C46_solvable_unblocked.
Theorem C46_to_sudoku_exact : forall st p, wf_grid p -> strat_from_sudoku p = Ok st -> exists st', to_sudoku st = Ok (st', p).
Proof. exact to_sudoku_given. Qed.
Print Assumptions C46_to_sudoku_exact.
Theorem C46_to_sudoku_any : forall st pl el, api st pl el -> exists st' g, to_sudoku st = Ok (st', g) /\ api st' pl el /\ wf_grid g /\
  forall c d, c < 81 -> 1 <= d -> (at_ g c = d <-> pl c d).
Proof. exact to_sudoku_exact. Qed.
Print Assumptions C46_to_sudoku_any.
Example C46_case : api (fresh puzzle3) (given puzzle3) nothing /\ unblocked (given puzzle3) nothing /\
  match strat_grid_state (fresh puzzle3) with Ok l => firstn 4 l = [CCands 65; CDigit 4; CDigit 3; CCands 320] | _ => False end.
Proof.
  assert (Wf : wf_grid puzzle3) by (apply wf_gridb_ok; vm_compute; reflexivity). split; [apply fresh_api, Wf | ].
  split; [destruct (completion_ex puzzle3 Wf puzzle3_unique) as [s Hs]; apply (solvable_unblocked _ _ s Hs) | ]. vm_compute. reflexivity.
Qed.

(** * C47: [insert_candidate] *)

(** False as documented: a digit that is already there and a digit that is impossible are both accepted. *)
Theorem C47_insert_rejects_refuted : exists p st c d st1 c' d' st2, wf_grid p /\ uniquely_solvable p /\ strat_from_sudoku p = Ok st /\ c < 81 /\ c' < 81 /\
  (at_ p c = d /\ d <> 0 /\ insert_candidate st (c, d) = Ok (st1, true)) /\
  (at_ p c' = 0 /\ (exists k, k < 81 /\ peers c' k /\ at_ p k = d' /\ d' <> 0) /\ insert_candidate st (c', d') = Ok (st2, true)).
Proof. exact insert_accepts. Qed.
Print Assumptions C47_insert_rejects_refuted.

(** It fails exactly if the cell holds another digit; otherwise the digit is recorded. *)
Theorem C47_insert_exact : forall st pl el c d, api st pl el -> c < 81 -> 1 <= d <= 9 -> exists st' b, insert_candidate st (c, d) = Ok (st', b) /\
  (b = false <-> exists e, pl c e /\ e <> d) /\ api st' (if b then fun c' d' => pl c' d' \/ (c' = c /\ d' = d) else pl) el.
Proof. exact insert_exact. Qed.
Print Assumptions C47_insert_exact.
Example C47_case : api (fresh puzzle3) (given puzzle3) nothing /\
  match insert_candidate (fresh puzzle3) (0, 7), insert_candidate (fresh puzzle3) (1, 7) with
  | Ok (st, true), Ok (_, false) => match to_sudoku st with Ok (_, g) => firstn 3 g = [7; 4; 3] | _ => False end | _, _ => False end.
Proof. split; [apply fresh_api, wf_gridb_ok; vm_compute; reflexivity | ]. vm_compute. reflexivity. Qed.

(** * C48: solved input *)

(** False: the solver of a solved grid is not recognised as solved, and with an empty list [solve] returns [Err] for it. *)
Theorem C48_recognises_solved_refuted : exists s st, solved s /\ strat_from_sudoku s = Ok st /\ strat_is_solved st = false /\
  exists ds, strat_solve [] st = Ok (false, s, ds).
Proof. exact solved_unrecognised. Qed.
Print Assumptions C48_recognises_solved_refuted.
Theorem C48_never_recognised : forall s st, wf_grid s -> strat_from_sudoku s = Ok st ->
  strat_is_solved st = false /\ exists g ds, strat_solve [] st = Ok (false, g, ds) /\ g = s.
Proof. exact fresh_unsolved. Qed.
Print Assumptions C48_never_recognised.

(** With any implemented strategy [solve] returns [Ok] and the grid. *)
Theorem C48_solves_solved : forall first rest s st, implemented (first :: rest) -> solved s -> strat_from_sudoku s = Ok st ->
  exists ds, strat_solve (first :: rest) st = Ok (true, s, ds).
Proof. exact solve_solved. Qed.
Print Assumptions C48_solves_solved.
Theorem C48_solves_full : forall first rest st pl el, implemented (first :: rest) -> api st pl el ->
  (forall c, c < 81 -> exists d, pl c d) -> (exists s, completion pl el s) -> exists g ds, strat_solve (first :: rest) st = Ok (true, g, ds).
Proof. exact solve_full. Qed.
Print Assumptions C48_solves_full.
Example C48_case : solved solution1 /\ strat_is_solved (fresh solution1) = false /\
  outcome [XWing] solution1 (fun ok g _ => ok = true /\ g = solution1).
Proof. split; [apply solvedb_ok; vm_compute; reflexivity | ]. vm_compute. repeat split; reflexivity. Qed.

(** * C49: mutant fish *)

(** False: the two mutant fish strategies never deduce anything ([C40_deductions_readable] says that no deduction of any run
    names them). *)
Theorem C49_mutant_fish_refuted : forall l st pl el ok g ds, (forall S, In S l -> S = MutantSwordfish \/ S = MutantJellyfish) ->
  api st pl el -> strat_solve l st = Ok (ok, g, ds) ->
  d_deds ds = [] /\ (forall c d, In (c, d) (d_elims ds) <-> el c d) /\ (forall c d, In (c, d) (d_entries ds) <-> pl c d).
Proof. exact solve_mutant. Qed.
Print Assumptions C49_mutant_fish_refuted.
(** A puzzle with a plain swordfish *)
Example C49_case : api (fresh puzzle4) (given puzzle4) nothing /\
  outcome [MutantSwordfish; MutantJellyfish] puzzle4 (fun ok g _ => ok = false /\ g = puzzle4) /\
  outcome [HiddenSingles; Swordfish] puzzle4 (fun _ _ ds => length (d_elims ds) > 0).
Proof. split; [apply fresh_api, wf_gridb_ok; vm_compute; reflexivity | ]. vm_compute. repeat split; try reflexivity; lia. Qed.

(** * C56: the unfinished strategy *)

Theorem C56_avoidable_rectangles_panic : forall rest s st, strat_from_sudoku s = Ok st -> strat_solve (AvoidableRectangles :: rest) st = Panic.
Proof. exact solve_avoidable. Qed.
Print Assumptions C56_avoidable_rectangles_panic.
Example C56_case : strat_from_sudoku puzzle1 = Ok (fresh puzzle1).
Proof. apply fresh_ok, wf_gridb_ok. vm_compute. reflexivity. Qed.

(** * C57: strategies are exhausted *)

(** If [solve] gives up on a solvable grid, then no pattern of a strategy of the list is left (StratSpec.v defines the patterns
    on candidates).  This holds for all strategies after the first one, and also for the first one if it is not [NakedSingles]
    and another strategy follows or it is [HiddenSingles]. *)
Theorem C57_strategies_exhausted : forall first rest st pl el g ds S0, implemented (first :: rest) -> api st pl el ->
  strat_solve (first :: rest) st = Ok (false, g, ds) -> (exists s, completion pl el s) ->
  In S0 rest \/ (S0 = first /\ first <> NakedSingles /\ (rest <> [] \/ first = HiddenSingles)) ->
  ~ fires (alive (d_entries ds) (d_elims ds)) S0.
Proof. exact solve_gives_up. Qed.
Print Assumptions C57_strategies_exhausted.

(** False of [NakedSingles] as first strategy (see C39), and of a list of one strategy, which is applied only once. *)
Theorem C57_single_strategy_refuted : exists p st g ds S0, wf_grid p /\ uniquely_solvable p /\ strat_from_sudoku p = Ok st /\
  strat_solve [S0] st = Ok (false, g, ds) /\ S0 <> NakedSingles /\ fires (alive (d_entries ds) (d_elims ds)) S0.
Proof. exact single_strategy_left. Qed.
Print Assumptions C57_single_strategy_refuted.
Example C57_case : implemented STRATEGY_ALL /\ api (fresh puzzle4) (given puzzle4) nothing /\ (exists s, completion (given puzzle4) nothing s) /\
  outcome STRATEGY_ALL puzzle4 (fun ok _ ds => ok = false /\ length (d_elims ds) = 35 /\ length (d_deds ds) = 12).
Proof.
  assert (Wf : wf_grid puzzle4) by (apply wf_gridb_ok; vm_compute; reflexivity).
  split; [intros S HS; repeat (destruct HS as [<- | HS]; [discriminate | ]); destruct HS | ]. split; [apply fresh_api, Wf | ].
  split; [apply completion_ex; [exact Wf | exact puzzle4_unique] | ].
  apply (outcome_weaken _ _ _ _ all_on_puzzle4). intros ok g ds [A _]. tauto.
Qed.

(** * C58: every deduction is justified by what precedes it *)

(** StratWhy.v: [why pl el S z] says that the possible digits form the pattern of the strategy [S] that the deduction [z]
    describes, and that the deduction places or removes what the pattern demands; [explained] demands this of each deduction in
    turn, with what the earlier ones have placed and removed.  All placed digits and eliminations are told by the deductions. *)
Theorem C58_deductions_justified : forall l st pl el ok g ds, implemented l -> api st pl el -> strat_solve l st = Ok (ok, g, ds) ->
  exists r, deds_iter ds = Ok r /\ explained l pl el r /\
    (forall c d, In (c, d) (d_entries ds) <-> all_places pl r c d) /\ (forall c d, In (c, d) (d_elims ds) <-> all_removes el r c d).
Proof. exact solve_explained. Qed.
Print Assumptions C58_deductions_justified.

(** Lists of justified deductions are proofs, whoever made them: all completions agree with them, and a list that places a digit
    in every cell proves uniqueness. *)
Theorem C58_justified_sound : forall l r pl el s, explained l pl el r -> completion pl el s -> completion (all_places pl r) (all_removes el r) s.
Proof. exact explained_sound. Qed.
Print Assumptions C58_justified_sound.
Theorem C58_justified_unique : forall l r pl el s s', explained l pl el r -> (forall c, c < 81 -> exists d, all_places pl r c d) ->
  completion pl el s -> completion pl el s' -> s' = s.
Proof. exact explained_unique. Qed.
Print Assumptions C58_justified_unique.
Example C58_case : api (fresh puzzle4) (given puzzle4) nothing /\
  outcome STRATEGY_ALL puzzle4 (fun ok _ ds => match deds_iter ds with Ok r => firstn 2 r = [DNaked (63, 9); DHidden (26, 4) (Geom.HBlock 2)] /\
    nth_error r 4 = Some (DLocked 7 5 true [(11, 7); (12, 7); (14, 7)]) /\
    nth_error r 8 = Some (DBasicFish 1 146 292 [(20, 1); (23, 1); (29, 1); (35, 1); (77, 1); (80, 1)]) /\
    nth_error r 10 = Some (DSubsets 2 17 3 [(18, 3); (22, 6); (22, 7); (18, 8); (22, 8)]) | _ => False end).
Proof.
  split; [apply fresh_api, wf_gridb_ok; vm_compute; reflexivity | ]. apply (outcome_weaken _ _ _ _ all_on_puzzle4).
  intros ok g ds [_ B]. destruct (deds_iter ds); [apply B | exact B..].
Qed.
(** A deduction that is true, but not justified: the solution has 3 in the first cell, where at first 8 is possible, too. *)
Example C58_unjustified : ~ explained STRATEGY_ALL (given puzzle4) nothing [DNaked (0, 3)].
Proof. exact unjustified_case. Qed.

(** * C68: the 16-bit counters *)

(** The positions in the lists of entries and eliminations are kept as [u16]; the lists do not become that long. *)
Theorem C68_entries_fit : forall l st pl el ok g ds, implemented l -> api st pl el -> strat_solve l st = Ok (ok, g, ds) -> length (d_entries ds) <= 243.
Proof. exact solve_entries. Qed.
Print Assumptions C68_entries_fit.
Theorem C68_eliminations_fit : forall l st pl el ok g ds, implemented l -> api st pl el -> (exists s, completion pl el s) ->
  strat_solve l st = Ok (ok, g, ds) -> (N.of_nat (length (d_elims ds)) <= 60507)%N.
Proof. exact solve_bounded. Qed.
Print Assumptions C68_eliminations_fit.
(** A comment of the source expects at most 2^8 eliminations; this is false. *)
Theorem C68_byte_refuted : exists p st g ds, wf_grid p /\ uniquely_solvable p /\ strat_from_sudoku p = Ok st /\
  strat_solve [NakedPairs; HiddenSingles] st = Ok (true, g, ds) /\ length (d_elims ds) > 256.
Proof. exact many_elims. Qed.
Print Assumptions C68_byte_refuted.
Example C68_case : implemented STRATEGY_ALL /\ api (fresh puzzle4) (given puzzle4) nothing /\ (exists s, completion (given puzzle4) nothing s) /\
  outcome STRATEGY_ALL puzzle4 (fun ok _ ds => ok = false /\ length (d_elims ds) = 35 /\ length (d_entries ds) = 21).
Proof.
  assert (Wf : wf_grid puzzle4) by (apply wf_gridb_ok; vm_compute; reflexivity).
  split; [intros S HS; repeat (destruct HS as [<- | HS]; [discriminate | ]); destruct HS | ]. split; [apply fresh_api, Wf | ].
  split; [apply completion_ex; [exact Wf | exact puzzle4_unique] | ].
  apply (outcome_weaken _ _ _ _ all_on_puzzle4). intros ok g ds [A _]. tauto.
Qed.
