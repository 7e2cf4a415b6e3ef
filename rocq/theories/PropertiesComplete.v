(** The strategy solver: it finds all that its strategies can prove. *)
From Coq Require Import List Arith NArith ZArith Lia Bool.
From Verif Require Import Spec Solver Strat StratSolve StratUse StratWhy StratSpec StratOrderSpec StratApi StratOrder StratSamples Samples StratComplete RelateProofs PropertiesRelate.
Import ListNotations.

(** * C87: everything that can be proved is found *)

(** Take any list of deductions whatsoever in which each one follows, by the pattern of a strategy, from those before it.  All
    its digits are in the final grid, and none of the candidates that it removes is left. *)
Theorem C87_any_proof_found : forall l l' st pl el ok g ds r, implemented l -> l <> [] -> covers l l' -> api st pl el -> (exists s, completion pl el s) ->
  strat_solve l st = Ok (ok, g, ds) -> explained l' pl el r ->
  (forall c d, all_places pl r c d -> at_ g c = d) /\ (forall c d, all_removes el r c d -> ~ alive (d_entries ds) (d_elims ds) c d).
Proof. exact any_proof_found. Qed.
Print Assumptions C87_any_proof_found.
(** The grid is solved if and only if its strategies can prove the digits of all cells. *)
Theorem C87_solves_exactly : forall l st pl el ok g ds, implemented l -> l <> [] -> covers l l -> api st pl el -> (exists s, completion pl el s) ->
  strat_solve l st = Ok (ok, g, ds) ->
  (ok = true <-> exists r, explained l pl el r /\ forall c, c < 81 -> exists d, all_places pl r c d).
Proof. exact solves_iff_proof. Qed.
Print Assumptions C87_solves_exactly.
(** A candidate is left in the end if and only if no proof excludes it. *)
Theorem C87_candidates_exact : forall l st pl el ok g ds, implemented l -> l <> [] -> covers l l -> api st pl el -> (exists s, completion pl el s) ->
  strat_solve l st = Ok (ok, g, ds) -> forall c d,
  (alive (d_entries ds) (d_elims ds) c d <-> forall r, explained l pl el r -> possible (all_places pl r) (all_removes el r) c d).
Proof. exact left_iff_unrefuted. Qed.
Print Assumptions C87_candidates_exact.

(** The condition on the list is needed: with naked singles in the first place a puzzle is given up that they can solve. *)
Theorem C87_any_list_refuted : exists p st l g ds r, wf_grid p /\ uniquely_solvable p /\ strat_from_sudoku p = Ok st /\ implemented l /\
  strat_solve l st = Ok (false, g, ds) /\ explained l (given p) nothing r /\ forall c, c < 81 -> exists d, all_places (given p) r c d.
Proof. exact any_list_refuted. Qed.
Print Assumptions C87_any_list_refuted.

(** The hypotheses hold for a puzzle that is solved and for one that is not.  Hence there is no proof of the solution of the
    latter with singles and locked candidates. *)
Example C87_case : (exists g ds, implemented [HiddenSingles; NakedSingles] /\ covers [HiddenSingles; NakedSingles] [HiddenSingles; NakedSingles] /\
    api (fresh puzzle2) (given puzzle2) nothing /\ (exists s, completion (given puzzle2) nothing s) /\
    strat_solve [HiddenSingles; NakedSingles] (fresh puzzle2) = Ok (true, g, ds)) /\
  covers singles_first singles_first /\
  ~ exists r, explained singles_first (given puzzle4) nothing r /\ forall c, c < 81 -> exists d, all_places (given puzzle4) r c d.
Proof.
  assert (Cv : covers singles_first singles_first) by (intros S S' [<- | [<- | [<- | []]]] [<- | []]; cbn; intuition discriminate).
  assert (Cv2 : covers [HiddenSingles; NakedSingles] [HiddenSingles; NakedSingles]) by (intros S S' [<- | [<- | []]] [<- | []]; cbn; intuition discriminate).
  assert (Im : implemented [HiddenSingles; NakedSingles]) by (intros S [<- | [<- | []]]; discriminate).
  assert (Ne : singles_first <> []) by discriminate.
  split; [ | split; [exact Cv | ]].
  - assert (W : wf_grid puzzle2) by (apply wf_gridb_ok; vm_compute; reflexivity). destruct puzzle2_solved as [g [ds E]]. exists g, ds.
    split; [exact Im | ]. split; [exact Cv2 | ]. split; [apply fresh_api, W | ].
    split; [ | exact E]. destruct (solve_ok _ _ _ _ _ _ Im (fresh_api puzzle2 W) E) as [Sg [C _]]. exists g. split; [exact Sg | split; [exact C | intros c d []]].
  - destruct C76_case as [Im' [_ [_ [_ [A [Co [[g [ds [E _]]] _]]]]]]]. intros X.
    apply (proj2 (solves_iff_proof singles_first _ _ _ _ _ _ Im' Ne Cv A Co E)) in X. discriminate X.
Qed.
