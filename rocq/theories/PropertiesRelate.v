(** Theorems that relate different parts of the program: shuffling and counting of symmetries, lists of strategies, the two
    solvers, solvers and symmetries. *)
From Coq Require Import List Arith NArith ZArith Lia Bool Permutation.
From Verif Require Import Spec CanonSpec ShuffleSpec RelateSpec StratOrderSpec Solver Api Canon Parse ApiProofs EquivProofs CanonApi GridProofs Samples
  Strat StratSolve StratUse StratWhy StratSpec StratApi StratSamples TransProofs SymProofs ShuffleProofs StratOrder RelateProofs PropertiesCanon.
Import ListNotations.

(** * C74: shuffling is uniform *)

(** Of all choices of the random number generator, each equivalent grid is the result of equally many: as many as the grid has
    automorphisms. *)
Theorem C74_shuffle_uniform : forall g n g', wf_grid g -> automorphism_count g n -> equivalent g g' ->
  exactly n (fun x : draw => fair x /\ shuffle g (fst (fst x)) (snd (fst x)) (nth_rng (snd x)) = Ok g').
Proof. exact shuffle_uniform. Qed.
Print Assumptions C74_shuffle_uniform.

Lemma most_canonical_automorphisms : automorphism_count most_canonical 648.
Proof.
  destruct C34_case as [So [E _]]. destruct (canonicalized_count most_canonical So) as [m [n [E' [A _]]]]. rewrite E in E'.
  injection E' as _ <-. exact A.
Qed.
Example C74_case : wf_grid most_canonical /\ automorphism_count most_canonical 648 /\ equivalent most_canonical most_canonical.
Proof.
  assert (W : wf_grid most_canonical) by (apply wf_gridb_ok; vm_compute; reflexivity).
  split; [exact W | ]. split; [exact most_canonical_automorphisms | apply equiv_refl, W].
Qed.

(** * C75: the number of equivalent grids *)

Theorem C75_class_size : forall g, wf_grid g ->
  exists n m, automorphism_count g n /\ exactly m (equivalent g) /\ (N.of_nat m * N.of_nat n = 1218998108160)%N.
Proof. exact class_size. Qed.
Print Assumptions C75_class_size.
Theorem C75_reported_count : forall s, solved s ->
  exists m n k, canonicalized s = Ok (Some (m, n)) /\ exactly k (equivalent s) /\ (N.of_nat k * N.of_nat n = 1218998108160)%N.
Proof. exact canonicalized_class. Qed.
Print Assumptions C75_reported_count.
Example C75_case : exists k, exactly k (equivalent most_canonical) /\ N.of_nat k = 1881169920%N.
Proof.
  destruct C74_case as [W [A _]]. destruct (class_size most_canonical W) as [n [k [A' [K M]]]].
  rewrite (automorphism_count_fun _ _ _ A' A) in M. exists k. split; [exact K | ]. change (N.of_nat 648) with 648%N in M. lia.
Qed.

(** * C76: the order of strategies *)

(** A list that has what the strategies of another list can turn into finds at least as much. *)
Theorem C76_more_strategies_find_more : forall l1 l2 st1 st2 pl1 pl2 el1 el2 ok1 ok2 g1 g2 ds1 ds2,
  implemented l1 -> implemented l2 -> api st1 pl1 el1 -> api st2 pl2 el2 ->
  (forall c d, pl1 c d -> pl2 c d) -> (forall c d, el1 c d -> el2 c d) -> (exists s, completion pl2 el2 s) -> covers l2 l1 -> l2 <> [] ->
  strat_solve l1 st1 = Ok (ok1, g1, ds1) -> strat_solve l2 st2 = Ok (ok2, g2, ds2) ->
  (ok1 = true -> ok2 = true) /\ (forall c, c < 81 -> at_ g1 c <> 0 -> at_ g2 c = at_ g1 c) /\
  (forall c d, alive (d_entries ds2) (d_elims ds2) c d -> alive (d_entries ds1) (d_elims ds1) c d).
Proof. exact more_deduced. Qed.
Print Assumptions C76_more_strategies_find_more.

Theorem C76_order_irrelevant : forall l1 l2 st1 st2 pl el ok1 ok2 g1 g2 ds1 ds2,
  implemented l1 -> implemented l2 -> api st1 pl el -> api st2 pl el -> (exists s, completion pl el s) ->
  l1 <> [] -> l2 <> [] -> covers l1 l2 -> covers l2 l1 ->
  strat_solve l1 st1 = Ok (ok1, g1, ds1) -> strat_solve l2 st2 = Ok (ok2, g2, ds2) ->
  ok1 = ok2 /\ g1 = g2 /\ (forall c d, alive (d_entries ds1) (d_elims ds1) c d <-> alive (d_entries ds2) (d_elims ds2) c d).
Proof. exact order_irrelevant. Qed.
Print Assumptions C76_order_irrelevant.

(** The condition on the lists is needed: naked singles in the first place are not exhausted. *)
Theorem C76_any_order_refuted : exists p st l1 l2 g1 g2 ds1 ds2, wf_grid p /\ uniquely_solvable p /\ strat_from_sudoku p = Ok st /\
  implemented l1 /\ Permutation l1 l2 /\ strat_solve l1 st = Ok (true, g1, ds1) /\ strat_solve l2 st = Ok (false, g2, ds2).
Proof. exact any_order_refuted. Qed.
Print Assumptions C76_any_order_refuted.

Definition singles_first := [HiddenSingles; NakedSingles; LockedCandidates].
Definition singles_last := [LockedCandidates; NakedSingles; HiddenSingles].
Example C76_case : implemented singles_first /\ implemented singles_last /\ covers singles_first singles_last /\ covers singles_last singles_first /\
  api (fresh puzzle4) (given puzzle4) nothing /\ (exists s, completion (given puzzle4) nothing s) /\
  (exists g ds, strat_solve singles_first (fresh puzzle4) = Ok (false, g, ds) /\ length (d_elims ds) = 14) /\
  (exists g ds, strat_solve singles_last (fresh puzzle4) = Ok (false, g, ds) /\ length (d_elims ds) = 47).
Proof.
  assert (W : wf_grid puzzle4) by (apply wf_gridb_ok; vm_compute; reflexivity).
  split; [intros S [<- | [<- | [<- | []]]]; discriminate | ]. split; [intros S [<- | [<- | [<- | []]]]; discriminate | ].
  split; [intros S S' [<- | [<- | [<- | []]]] [<- | []]; cbn; intuition discriminate | ].
  split; [intros S S' [<- | [<- | [<- | []]]] [<- | []]; cbn; intuition discriminate | ].
  split; [apply fresh_api, W | ]. split; [apply completion_ex; [exact W | exact puzzle4_unique] | ].
  split.
  - destruct (outcomeb_ok singles_first puzzle4 (fun ok _ ds => negb ok && (length (d_elims ds) =? 14)) ltac:(vm_compute; reflexivity)) as [[ | ] [g [ds [E B]]]]; [discriminate | ].
    exists g, ds. split; [exact E | apply Nat.eqb_eq, B].
  - destruct (outcomeb_ok singles_last puzzle4 (fun ok _ ds => negb ok && (length (d_elims ds) =? 47)) ltac:(vm_compute; reflexivity)) as [[ | ] [g [ds [E B]]]]; [discriminate | ].
    exists g, ds. split; [exact E | apply Nat.eqb_eq, B].
Qed.

(** * C77: the two solvers agree *)

Theorem C77_solvers_agree : forall l p st g ds limit, wf_grid p -> implemented l ->
  strat_from_sudoku p = Ok st \/ (exists clues, strat_from_clues p clues = Ok st) -> strat_solve l st = Ok (true, g, ds) ->
  api_is_uniquely_solvable p = Ok true /\ api_some_solution p = Ok (Some g) /\ api_solutions_up_to p limit = Ok (firstn limit [g]) /\
  api_solutions_count_up_to p limit = Ok (Nat.min limit 1) /\ api_solution p = Ok (if clue_count p <? 17 then None else Some g).
Proof. exact solvers_agree. Qed.
Print Assumptions C77_solvers_agree.
Theorem C77_digits_agree : forall l p st ok g ds limit sols s c, wf_grid p -> implemented l ->
  strat_from_sudoku p = Ok st \/ (exists clues, strat_from_clues p clues = Ok st) -> strat_solve l st = Ok (ok, g, ds) ->
  api_solutions_up_to p limit = Ok sols -> In s sols -> c < 81 -> at_ g c <> 0 -> at_ s c = at_ g c.
Proof. exact solvers_agree_digits. Qed.
Print Assumptions C77_digits_agree.
Example C77_case : exists st g ds, wf_grid puzzle2 /\ implemented [HiddenSingles; NakedSingles] /\ strat_from_sudoku puzzle2 = Ok st /\
  strat_solve [HiddenSingles; NakedSingles] st = Ok (true, g, ds) /\ clue_count puzzle2 = 28.
Proof.
  assert (W : wf_grid puzzle2) by (apply wf_gridb_ok; vm_compute; reflexivity). destruct puzzle2_solved as [g [ds E]].
  exists (fresh puzzle2), g, ds. split; [exact W | ]. split; [intros S [<- | [<- | []]]; discriminate | ]. split; [apply fresh_ok, W | ].
  split; [exact E | vm_compute; reflexivity].
Qed.

(** * C78: solvers and symmetries *)

Theorem C78_solver_symmetric : forall a p limit, sym_ok a -> wf_grid p ->
  api_solutions_count_up_to (act a p) limit = api_solutions_count_up_to p limit /\
  api_is_uniquely_solvable (act a p) = api_is_uniquely_solvable p /\
  (exists o, api_solution p = Ok o /\ api_solution (act a p) = Ok (option_map (act a) o)) /\
  (api_is_uniquely_solvable p = Ok true -> exists s, api_some_solution p = Ok (Some s) /\ api_some_solution (act a p) = Ok (Some (act a s))).
Proof. exact solver_symmetric. Qed.
Print Assumptions C78_solver_symmetric.
(** The only solution of a puzzle has all symmetries of the puzzle. *)
Theorem C78_solution_fixed : forall a p s, sym_ok a -> wf_grid p -> act a p = p -> solution_of p s ->
  (forall s', solution_of p s' -> s' = s) -> act a s = s.
Proof. exact unique_fixed. Qed.
Print Assumptions C78_solution_fixed.
Example C78_case : sym_ok stack_rotation /\ wf_grid puzzle1 /\ act stack_rotation puzzle1 <> puzzle1 /\ wf_grid most_canonical /\
  act stack_rotation most_canonical = most_canonical.
Proof.
  destruct C34_case as [_ [_ [O F]]]. split; [exact O | ]. split; [apply wf_gridb_ok; vm_compute; reflexivity | ].
  split; [vm_compute; discriminate | ]. split; [apply C74_case | exact F].
Qed.

(** * C09: the early exit of [solution] *)

(** Exactly when a solution is returned; the full statement of C09 (see [PropertiesSolver]) lacks the condition on the clues. *)
Theorem C09_solution_iff_partial : forall g s, wf_grid g ->
  (api_solution g = Ok (Some s) <-> 17 <= clue_count g /\ solution_of g s /\ forall s', solution_of g s' -> s' = s).
Proof. exact solution_iff. Qed.
Print Assumptions C09_solution_iff_partial.
(** The full statement is equivalent to the theorem on 17 clues. *)
Theorem C09_needs_17_clues_partial :
  (forall g s, wf_grid g -> solution_of g s -> (forall s', solution_of g s' -> s' = s) -> api_solution g = Ok (Some s)) <->
  (forall p, wf_grid p -> clue_count p < 17 -> ~ uniquely_solvable p).
Proof. exact complete_equiv. Qed.
Print Assumptions C09_needs_17_clues_partial.
(** A puzzle for which it would fail has at most 16 clues, at least 8 different digits, and no two lines of a band or stack empty. *)
Theorem C09_missed_puzzle_partial : forall p s, wf_grid p -> solution_of p s -> (forall s', solution_of p s' -> s' = s) ->
  api_solution p <> Ok (Some s) ->
  api_solution p = Ok None /\ clue_count p <= 16 /\ 8 <= digit_count p /\
  (forall i j, i < 9 -> j < 9 -> i <> j -> i / 3 = j / 3 -> ~ (empty_row p i /\ empty_row p j) /\ ~ (empty_col p i /\ empty_col p j)).
Proof. exact solution_missed. Qed.
Print Assumptions C09_missed_puzzle_partial.
Theorem C09_empty_rows_never_unique : forall p i j, wf_grid p -> i < 9 -> j < 9 -> i <> j -> i / 3 = j / 3 ->
  empty_row p i -> empty_row p j -> ~ uniquely_solvable p.
Proof. exact empty_rows_not_unique. Qed.
Print Assumptions C09_empty_rows_never_unique.
Theorem C09_empty_cols_never_unique : forall p i j, wf_grid p -> i < 9 -> j < 9 -> i <> j -> i / 3 = j / 3 ->
  empty_col p i -> empty_col p j -> ~ uniquely_solvable p.
Proof. exact empty_cols_not_unique. Qed.
Print Assumptions C09_empty_cols_never_unique.
(** All digits but those of the rows 7 and 8 do not determine these rows. *)
Example C09_empty_case : let p := firstn 63 solution1 ++ repeat 0 18 in wf_grid p /\ clue_count p = 63 /\ empty_row p 7 /\ empty_row p 8.
Proof.
  set (p := firstn 63 solution1 ++ repeat 0 18). assert (Z : forall c, 63 <= c -> at_ p c = 0).
  { intros c Hc. unfold at_, p. rewrite app_nth2 by (rewrite firstn_length; unfold ge; change (length solution1) with 81; lia). apply nth_repeat. }
  split; [apply wf_gridb_ok; vm_compute; reflexivity | ]. split; [vm_compute; reflexivity | ].
  split; intros c _ E; unfold row_of in E; apply Z; pose proof (Nat.div_mod c 9 ltac:(lia)); pose proof (Nat.mod_upper_bound c 9 ltac:(lia)); lia.
Qed.

(** * C20: the text in blocks *)

Theorem C20_display_layout : forall g, wf_grid g -> display_block g = block_text g.
Proof. exact display_layout. Qed.
Print Assumptions C20_display_layout.
Example C20_layout_case : wf_grid puzzle1 /\ length (block_text puzzle1) = 110 /\ row_text puzzle_none 0 = [53;53;95;32;95;95;95;32;95;95;95]%N.
Proof. split; [apply wf_gridb_ok | split]; vm_compute; reflexivity. Qed.
