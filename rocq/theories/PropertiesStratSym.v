(** C79: solving by strategies commutes with symmetries, in particular with shuffling. *)
From Coq Require Import List Arith Lia Bool.
From Verif Require Import Spec CanonSpec StratOrderSpec StratSymSpec Solver Canon EquivProofs Samples
  Strat StratSolve StratUse StratWhy StratSpec StratApi StratSamples StratOrder RelateProofs StratSym PropertiesCanon PropertiesRelate.
Import ListNotations.

(** Whatever is known about two puzzles, if the second is the image of the first then so is the result: success, digits and
    candidates. *)
Theorem C79_strategies_symmetric : forall a l st1 st2 pl1 pl2 el1 el2 ok1 ok2 g1 g2 ds1 ds2,
  sym_ok a -> implemented l -> l <> [] -> covers l l ->
  api st1 pl1 el1 -> api st2 pl2 el2 -> moved a pl1 pl2 -> moved a el1 el2 -> (exists s, completion pl1 el1 s) ->
  strat_solve l st1 = Ok (ok1, g1, ds1) -> strat_solve l st2 = Ok (ok2, g2, ds2) ->
  ok2 = ok1 /\ g2 = act a g1 /\
  (forall c d, c < 81 -> 1 <= d <= 9 ->
    (alive (d_entries ds1) (d_elims ds1) (source a c) d <-> alive (d_entries ds2) (d_elims ds2) c (rename (s_digits a) d))).
Proof. exact strategies_symmetric. Qed.
Print Assumptions C79_strategies_symmetric.

(** A puzzle and its shuffled form, whatever the random number generator chooses *)
Theorem C79_shuffle_keeps_strategies : forall l p perm tr rng,
  implemented l -> l <> [] -> covers l l -> wf_grid p -> (exists s, solution_of p s) ->
  exists a st st' ok g ds ds', sym_ok a /\ shuffle p perm tr rng = Ok (act a p) /\
    strat_from_sudoku p = Ok st /\ strat_solve l st = Ok (ok, g, ds) /\
    strat_from_sudoku (act a p) = Ok st' /\ strat_solve l st' = Ok (ok, act a g, ds') /\
    (forall c d, c < 81 -> 1 <= d <= 9 ->
      (alive (d_entries ds) (d_elims ds) (source a c) d <-> alive (d_entries ds') (d_elims ds') c (rename (s_digits a) d))).
Proof. exact shuffled_runs. Qed.
Print Assumptions C79_shuffle_keeps_strategies.

(** The documentation of [shuffle] claims this for all strategies (src/board/sudoku.rs:665-667).  For lists that do not exhaust
    what they can turn into it is false: here a puzzle is solved, and the same puzzle transposed is not. *)
Theorem C79_any_list_refuted : exists l p st perm tr rng p' st' g g' ds ds', implemented l /\ wf_grid p /\ uniquely_solvable p /\
  shuffle p perm tr rng = Ok p' /\ strat_from_sudoku p = Ok st /\ strat_from_sudoku p' = Ok st' /\
  strat_solve l st = Ok (true, g, ds) /\ strat_solve l st' = Ok (false, g', ds').
Proof. exact any_list_refuted. Qed.
Print Assumptions C79_any_list_refuted.

Example C79_case : sym_ok stack_rotation /\ implemented singles_first /\ covers singles_first singles_first /\
  wf_grid puzzle4 /\ (exists s, solution_of puzzle4 s) /\ act stack_rotation puzzle4 <> puzzle4 /\
  api (fresh (act stack_rotation puzzle4)) (given (act stack_rotation puzzle4)) nothing /\
  moved stack_rotation (given puzzle4) (given (act stack_rotation puzzle4)) /\ moved stack_rotation nothing nothing /\
  (exists g ds, strat_solve singles_first (fresh puzzle4) = Ok (false, g, ds)).
Proof.
  destruct C34_case as [_ [_ [O _]]]. destruct C76_case as [I [_ [_ [_ [_ [[s C] [[g [ds [E _]]] _]]]]]]].
  assert (W : wf_grid puzzle4) by (apply wf_gridb_ok; vm_compute; reflexivity).
  split; [exact O | ]. split; [exact I | ]. split; [clear; intros S S' [<- | [<- | [<- | []]]] [<- | []]; cbn; intuition discriminate | ].
  split; [exact W | ]. split; [exists s; apply completion_given; assumption | ]. split; [vm_compute; discriminate | ].
  split; [apply fresh_api, act_wf; assumption | ]. split; [apply given_moved; assumption | ]. split; [apply nothing_moved | ].
  exists g, ds. exact E.
Qed.
