(** How the number of solutions depends on the clues *)
From Coq Require Import List Arith NArith ZArith Lia Bool.
From Verif Require Import Spec SplitSpec Solver Api GridProofs Samples Strat StratSolve StratUse StratSamples RelateProofs SplitProofs.
Import ListNotations.

(** * C88: more clues *)

(** Each solution has one of the nine digits in an empty cell, so the nine numbers of solutions add up. *)
Theorem C88_count_split : forall p c limit, wf_grid p -> c < 81 -> at_ p c = 0 ->
  exists ns, Forall2 (fun d n => api_solutions_count_up_to (put p c d) limit = Ok n) (seq 1 9) ns /\
    api_solutions_count_up_to p limit = Ok (Nat.min limit (list_sum ns)).
Proof. exact count_split. Qed.
Print Assumptions C88_count_split.
(** More clues never have more solutions. *)
Theorem C88_count_monotone : forall p q limit m n, wf_grid p -> wf_grid q -> fewer_clues p q ->
  api_solutions_count_up_to p limit = Ok n -> api_solutions_count_up_to q limit = Ok m -> m <= n.
Proof. exact count_monotone. Qed.
Print Assumptions C88_count_monotone.
(** Clues taken from a solution keep it, and the only solution stays the only one. *)
Theorem C88_solution_kept : forall p q s, wf_grid p -> wf_grid q -> fewer_clues p q -> fewer_clues q s -> solution_of p s ->
  solution_of q s /\ (api_is_uniquely_solvable p = Ok true -> api_is_uniquely_solvable q = Ok true /\ api_some_solution q = Ok (Some s)).
Proof. exact solution_kept. Qed.
Print Assumptions C88_solution_kept.
Example C88_case : let q := put puzzle1 0 4 in wf_grid puzzle1 /\ wf_grid q /\ at_ puzzle1 0 = 0 /\ at_ solution1 0 = 4 /\
  api_solutions_count_up_to q 2 = Ok 1 /\ api_solutions_count_up_to (put puzzle1 0 2) 2 = Ok 0 /\ q <> puzzle1.
Proof. split; [apply wf_gridb_ok | split; [apply wf_gridb_ok | repeat split]]; vm_compute; try reflexivity. discriminate. Qed.

(** * C89: the grid that the strategy solver returns *)

(** Whatever was done with the solver before: solved or not, the returned grid has the clues of the puzzle and exactly its solutions. *)
Theorem C89_same_solutions : forall l p st ok g ds, wf_grid p -> implemented l -> api st (given p) nothing -> strat_solve l st = Ok (ok, g, ds) ->
  wf_grid g /\ fewer_clues p g /\ (forall s, solution_of g s <-> solution_of p s) /\
  forall limit, api_solutions_count_up_to g limit = api_solutions_count_up_to p limit.
Proof. exact deduced_same_solutions. Qed.
Print Assumptions C89_same_solutions.
Example C89_case : wf_grid puzzle2 /\ implemented [HiddenSingles; NakedSingles] /\ api (fresh puzzle2) (given puzzle2) nothing /\
  exists g ds, strat_solve [HiddenSingles; NakedSingles] (fresh puzzle2) = Ok (true, g, ds).
Proof.
  assert (W : wf_grid puzzle2) by (apply wf_gridb_ok; vm_compute; reflexivity). split; [exact W | ].
  split; [intros S [<- | [<- | []]]; discriminate | ]. split; [apply fresh_api, W | exact puzzle2_solved].
Qed.
