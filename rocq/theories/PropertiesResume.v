(** The strategy solver: interrupting and resuming. *)
From Coq Require Import List Arith NArith Lia.
From Verif Require Import Spec Solver Gen Strat StratSolve StratUse StratSpec StratOrderSpec StratApi StratOrder StratSamples Samples ShowStrat StratResume RelateProofs PropertiesRelate.
Import ListNotations.

(** * C92: what is found depends on the digits and candidates shown, not on the history *)

(** Two solvers that show the same state find the same, whatever calls they come from. *)
Theorem C92_same_state : forall l1 l2 st1 st2 pl1 pl2 el1 el2 ok1 ok2 g1 g2 ds1 ds2 x, implemented l1 -> implemented l2 -> api st1 pl1 el1 -> api st2 pl2 el2 ->
  (exists s, completion pl1 el1 s) -> (exists s, completion pl2 el2 s) -> covers l2 l1 -> covers l1 l2 -> l1 <> [] -> l2 <> [] ->
  strat_grid_state st1 = Ok x -> strat_grid_state st2 = Ok x ->
  strat_solve l1 st1 = Ok (ok1, g1, ds1) -> strat_solve l2 st2 = Ok (ok2, g2, ds2) ->
  ok1 = ok2 /\ g1 = g2 /\ forall c d, alive (d_entries ds1) (d_elims ds1) c d <-> alive (d_entries ds2) (d_elims ds2) c d.
Proof. exact shown_same. Qed.
Print Assumptions C92_same_state.

(** Nothing is lost when the state is saved with [grid_state] and restored with [from_grid_state]. *)
Theorem C92_restored : forall l st pl el x st' ok g ds, implemented l -> l <> [] -> covers l l -> api st pl el -> (exists s, completion pl el s) ->
  strat_grid_state st = Ok x -> strat_from_grid_state x = Ok st' -> strat_solve l st = Ok (ok, g, ds) ->
  exists ds', strat_solve l st' = Ok (ok, g, ds') /\ forall c d, alive (d_entries ds) (d_elims ds) c d <-> alive (d_entries ds') (d_elims ds') c d.
Proof. exact restored. Qed.
Print Assumptions C92_restored.

(** With such lists looking at a cell does no harm (compare C63). *)
Theorem C92_looked_at : forall l st pl el cell st' x ok g ds, implemented l -> l <> [] -> covers l l -> api st pl el -> (exists s, completion pl el s) -> cell < 81 ->
  strat_cell_state st cell = Ok (st', x) -> strat_solve l st = Ok (ok, g, ds) ->
  exists ds', strat_solve l st' = Ok (ok, g, ds') /\ forall c d, alive (d_entries ds) (d_elims ds) c d <-> alive (d_entries ds') (d_elims ds') c d.
Proof. exact looked_at. Qed.
Print Assumptions C92_looked_at.

(** * C93: solving in stages *)

(** Solving the grid that one list of strategies returns with a list that covers it gives the same as solving the puzzle with
    the latter.  In particular solving a returned grid again with the same list changes nothing. *)
Theorem C93_staged : forall l1 l2 p st st1 clues ok1 g1 ds1 ok g ds, implemented l1 -> implemented l2 -> l2 <> [] -> covers l2 l1 -> covers l2 l2 ->
  wf_grid p -> (exists s, solution_of p s) -> api st (given p) nothing ->
  strat_solve l1 st = Ok (ok1, g1, ds1) -> strat_from_sudoku g1 = Ok st1 \/ strat_from_clues g1 clues = Ok st1 -> strat_solve l2 st = Ok (ok, g, ds) ->
  exists ds', strat_solve l2 st1 = Ok (ok, g, ds') /\ forall c d, alive (d_entries ds) (d_elims ds) c d <-> alive (d_entries ds') (d_elims ds') c d.
Proof. exact staged. Qed.
Print Assumptions C93_staged.

(** The condition on the list is needed: with naked singles in the first place a puzzle is given up, and the grid that is
    returned is solved by the same list. *)
Theorem C93_any_list_refuted : exists p st l g ds st' g' ds', wf_grid p /\ uniquely_solvable p /\ implemented l /\ strat_from_sudoku p = Ok st /\
  strat_solve l st = Ok (false, g, ds) /\ strat_from_sudoku g = Ok st' /\ strat_solve l st' = Ok (true, g', ds').
Proof. exact again_refuted. Qed.
Print Assumptions C93_any_list_refuted.

(** A puzzle that is not solved completely: its state can be saved and restored, and the two stages exist. *)
Lemma puzzle4_facts : wf_grid puzzle4 /\ implemented singles_first /\ singles_first <> [] /\ covers singles_first singles_first /\
  api (fresh puzzle4) (given puzzle4) nothing /\ (exists s, solution_of puzzle4 s).
Proof.
  assert (Cv : covers singles_first singles_first) by (intros S S' [<- | [<- | [<- | []]]] [<- | []]; cbn; intuition discriminate).
  assert (Ne : singles_first <> []) by discriminate. assert (W : wf_grid puzzle4) by (apply wf_gridb_ok; vm_compute; reflexivity).
  destruct C76_case as [Im [_ [_ [_ [A [[s [So [C _]]] _]]]]]]. split; [exact W | ]. split; [exact Im | ]. split; [exact Ne | ]. split; [exact Cv | ]. split; [exact A | ].
  exists s. split; [exact So | ]. intros c Hc Hn. apply C. split; [exact Hc | split; [exact Hn | reflexivity]].
Qed.

Example C92_case : exists x st' g ds, strat_grid_state (fresh puzzle4) = Ok x /\ strat_from_grid_state x = Ok st' /\
  strat_solve singles_first (fresh puzzle4) = Ok (false, g, ds) /\ exists ds', strat_solve singles_first st' = Ok (false, g, ds').
Proof.
  destruct puzzle4_facts as [W [Im [Ne [Cv [A [s S]]]]]]. destruct (api_grid_state _ _ _ A) as [x [E [Ox _]]]. destruct (states_ex x Ox) as [st' F].
  destruct C76_case as [_ [_ [_ [_ [_ [Co [[g [ds [R _]]] _]]]]]]]. exists x, st', g, ds. split; [exact E | ]. split; [exact F | ]. split; [exact R | ].
  destruct (C92_restored singles_first (fresh puzzle4) _ _ x st' false g ds Im Ne Cv A Co E F R) as [ds' [R' _]]. exists ds'. exact R'.
Qed.

Example C93_case : exists g1 ds1 st1 g ds, covers singles_first [HiddenSingles] /\
  strat_solve [HiddenSingles] (fresh puzzle4) = Ok (false, g1, ds1) /\ strat_from_sudoku g1 = Ok st1 /\
  strat_solve singles_first (fresh puzzle4) = Ok (false, g, ds) /\ exists ds', strat_solve singles_first st1 = Ok (false, g, ds').
Proof.
  destruct puzzle4_facts as [W [Im [Ne [Cv [A Sl]]]]]. assert (Im1 : implemented [HiddenSingles]) by (intros S [<- | []]; discriminate).
  assert (Cv1 : covers singles_first [HiddenSingles]) by (intros S S' [<- | []] [<- | []]; cbn; intuition discriminate).
  destruct C76_case as [_ [_ [_ [_ [_ [Co [[g [ds [R _]]] _]]]]]]]. destruct (solve_total _ _ _ _ Im1 A) as [ok1 [g1 [ds1 R1]]].
  destruct (more_deduced [HiddenSingles] singles_first (fresh puzzle4) (fresh puzzle4) _ _ _ _ ok1 false g1 g ds1 ds Im1 Im A A (fun _ _ H => H) (fun _ _ H => H) Co Cv1 Ne R1 R) as [O _].
  assert (E1 : ok1 = false) by (destruct ok1; [symmetry; apply O; reflexivity | reflexivity]). subst ok1.
  destruct (created_ex g1) as [st1 F]; [apply (solve_grid _ _ _ _ _ _ _ Im1 A R1) | ]. exists g1, ds1, st1, g, ds.
  split; [exact Cv1 | ]. split; [exact R1 | ]. split; [exact F | ]. split; [exact R | ].
  destruct (C93_staged [HiddenSingles] singles_first puzzle4 (fresh puzzle4) st1 [] false g1 ds1 false g ds Im1 Im Ne Cv1 Cv W Sl A R1 (or_introl F) R) as [ds' [R' _]]. exists ds'. exact R'.
Qed.
