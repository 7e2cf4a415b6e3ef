(** The strategy solver: how many eliminations a run can have, and that strategies are exhausted *)
From Coq Require Import List Arith NArith ZArith ZifyNat ZifyN ZifyBool Lia Bool.
From Verif Require Import Spec GeomSpec Solver Bits Geom Gen Strat StratFind StratSolve StratUse StratSpec StratHist StratMain StratOnce StratCount StratApi.
Import ListNotations.
Ltac Zify.zify_post_hook ::= Z.to_euclidean_division_equations.

Lemma solve_bounded l st pl el ok g ds : implemented l -> api st pl el -> (exists s, completion pl el s) -> strat_solve l st = Ok (ok, g, ds) -> (N.of_nat (length (d_elims ds)) <= 60507)%N.
Proof.
  intros Im A' [s So] E. assert (A := api_started _ _ _ A'). assert (Sm := a_small _ _ _ A). apply solve_state in E. destruct E as [st' [E ->]]. destruct l as [ | first rest].
  - injection E as <-. lia.
  - apply (try_solve_elims s (proj1 So)) in E; [lia | exact Im | apply (a_ready _ _ _ A) | apply (started_snd st pl el s A (proj1 So)), So].
Qed.

Lemma solve_gives_up first rest st pl el g ds S0 : implemented (first :: rest) -> api st pl el -> strat_solve (first :: rest) st = Ok (false, g, ds) ->
  (exists s, completion pl el s) -> In S0 rest \/ (S0 = first /\ first <> NakedSingles /\ (rest <> [] \/ first = HiddenSingles)) -> ~ fires (alive (d_entries ds) (d_elims ds)) S0.
Proof. intros Im A E Co. apply (solve_complete first rest st pl el g ds S0 Im A E Co). assert (L := solve_bounded _ _ _ _ _ _ _ Im A Co E). lia. Qed.

Lemma solve_entries l st pl el ok g ds : implemented l -> api st pl el -> strat_solve l st = Ok (ok, g, ds) -> length (d_entries ds) <= 243.
Proof.
  intros Im A E. apply api_started in A. destruct (solve_finished _ _ _ _ _ _ _ Im A E) as [st' F]. rewrite (f_ds _ _ _ _ _ _ F). cbn [d_entries].
  pose proof (t_len _ _ _ (f_trace _ _ _ _ _ _ F)). destruct (a_ready _ _ _ A) as [D [done I]]. pose proof (i_len _ _ _ I). lia.
Qed.
