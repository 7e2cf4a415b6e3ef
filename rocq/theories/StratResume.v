(** Interrupting and resuming: what the strategy solver finds depends on the digits and candidates alone. *)
From Coq Require Import List Arith NArith ZArith Lia Bool Permutation.
From Verif Require Import Spec ParseSpec TableSpec GeomSpec Solver Bits Geom Gen BitLemmas GridProofs BitsProofs GeomProofs GenProofs Strat StratFind StratSolve StratInv StratPos StratFound StratWalk StratWing StratMutant StratCall StratSpec StratHist StratStuck StratPush StratDeduce StratMain StratUse StratWhy StratWhyLemmas StratApi StratOrderSpec StratCertify StratBound StratOrder StratComplete Show ShowSpec ShowProofs ShowStrat RelateProofs Samples StratSamples.
Import ListNotations.

(** What a solver starts with may be among what the other one has found only in the end. *)
Lemma absorbed l1 l2 st1 st2 pl1 pl2 el1 el2 ok1 ok2 g1 g2 ds1 ds2 s : implemented l1 -> implemented l2 -> api st1 pl1 el1 -> api st2 pl2 el2 ->
  completion pl1 el1 s -> completion pl2 el2 s -> covers l2 l1 -> l2 <> [] ->
  strat_solve l1 st1 = Ok (ok1, g1, ds1) -> strat_solve l2 st2 = Ok (ok2, g2, ds2) ->
  (forall c d, pl1 c d -> In (c, d) (d_entries ds2)) -> (forall c d, el1 c d -> ~ alive (d_entries ds2) (d_elims ds2) c d) ->
  (ok1 = true -> ok2 = true) /\ (forall c, c < 81 -> at_ g1 c <> 0 -> at_ g2 c = at_ g1 c) /\
  (forall c d, alive (d_entries ds2) (d_elims ds2) c d -> alive (d_entries ds1) (d_elims ds1) c d).
Proof.
  intros I1 I2 A1 A2 Cs1 Cs Cv Ne R1 R2 Pl El. destruct l2 as [ | first rest]; [contradiction | ]. assert (Co : exists s, completion pl2 el2 s) by (exists s; exact Cs).
  destruct (solve_explained _ _ _ _ _ _ _ I1 A1 R1) as [r1 [_ [X1 [P1 Q1]]]]. destruct (solve_explained _ _ _ _ _ _ _ I2 A2 R2) as [r2 [_ [X2 [P2 Q2]]]].
  assert (Cs2 : completion (listed (d_entries ds2)) (listed (d_elims ds2)) s).
  { apply (completion_same (all_places pl2 r2) _ (all_removes el2 r2) _ s); [intros c d; symmetry; apply P2 | intros c d; symmetry; apply Q2 | ]. apply (explained_sound _ _ _ _ _ X2 Cs). }
  destruct (solve_grid _ _ _ _ _ _ _ I1 A1 R1) as [W1 [_ [S1 G1]]]. destruct (solve_grid _ _ _ _ _ _ _ I2 A2 R2) as [W2 [_ [S2 G2]]].
  assert (Main : (forall c d, In (c, d) (d_entries ds1) -> In (c, d) (d_entries ds2)) /\ (forall c d, In (c, d) (d_elims ds1) -> ~ alive (d_entries ds2) (d_elims ds2) c d)).
  { destruct ok2.
    - destruct (solve_ok _ _ _ _ _ _ I2 A2 R2) as [Sg [_ U]]. assert (Es := U s Cs). assert (Full : forall c, c < 81 -> In (c, at_ s c) (d_entries ds2)).
      { intros c Hc. apply G2. split; [exact Hc | ]. rewrite Es. destruct (proj1 (proj2 Sg) c Hc). auto. }
      split.
      + intros c d Hi. apply G1 in Hi. destruct Hi as [Hc [Hd Ed]]. assert (Q := S1 c Hc ltac:(lia) s Cs1). rewrite <- Ed, <- Q. apply Full, Hc.
      + intros c d _ [Hc [_ [_ V]]]. destruct (V c _ (Full c Hc)) as [N _]. apply N. reflexivity.
    - assert (NF : forall S S', In S l1 -> In S' (turns_into S) -> ~ fires (alive (d_entries ds2) (d_elims ds2)) S').
      { intros S S' Hs Hs'. apply (solve_gives_up first rest st2 pl2 el2 g2 ds2 S' I2 A2 R2 Co). exact (Cv S S' Hs Hs'). }
      destruct (run_order (d_entries ds2) (d_elims ds2) s Cs2 l1 NF r1 pl1 el1 Cs1 X1 Pl El) as [X Y].
      split; intros c d Q; [apply X, P1, Q | apply Y, Q1, Q]. }
  destruct Main as [Me Md].
  assert (Gr : forall c, c < 81 -> at_ g1 c <> 0 -> at_ g2 c = at_ g1 c).
  { intros c Hc N. assert (Hi : In (c, at_ g1 c) (d_entries ds1)) by (apply G1; split; [exact Hc | split; [lia | reflexivity]]). apply Me, G2 in Hi. apply Hi. }
  split; [ | split; [exact Gr | ]].
  - intros ->. destruct ok2; [reflexivity | exfalso]. destruct (solve_ok _ _ _ _ _ _ I1 A1 R1) as [Sg _]. destruct (gives_up_unfinished first rest st2 pl2 el2 g2 ds2 I2 A2 Co R2) as [c [Hc Z]].
    destruct (proj1 (proj2 Sg) c Hc) as [Lo _]. assert (Q := Gr c Hc ltac:(lia)). lia.
  - intros c d A. assert (A' := A). destruct A' as [Hc [Hd [_ V]]]. split; [exact Hc | ]. split; [exact Hd | ]. split; [intros Q; apply (Md c d Q A) | ]. intros c' d' Q. apply V, Me, Q.
Qed.

Lemma absorb_both l1 l2 st1 st2 pl1 pl2 el1 el2 ok1 ok2 g1 g2 ds1 ds2 s : implemented l1 -> implemented l2 -> api st1 pl1 el1 -> api st2 pl2 el2 ->
  completion pl1 el1 s -> completion pl2 el2 s -> covers l2 l1 -> covers l1 l2 -> l1 <> [] -> l2 <> [] ->
  strat_solve l1 st1 = Ok (ok1, g1, ds1) -> strat_solve l2 st2 = Ok (ok2, g2, ds2) ->
  (forall c d, pl1 c d -> In (c, d) (d_entries ds2)) -> (forall c d, el1 c d -> ~ alive (d_entries ds2) (d_elims ds2) c d) ->
  (forall c d, pl2 c d -> In (c, d) (d_entries ds1)) -> (forall c d, el2 c d -> ~ alive (d_entries ds1) (d_elims ds1) c d) ->
  ok1 = ok2 /\ g1 = g2 /\ forall c d, alive (d_entries ds1) (d_elims ds1) c d <-> alive (d_entries ds2) (d_elims ds2) c d.
Proof.
  intros I1 I2 A1 A2 S1 S2 C1 C2 N1 N2 R1 R2 P1 E1 P2 E2.
  destruct (absorbed l1 l2 st1 st2 pl1 pl2 el1 el2 ok1 ok2 g1 g2 ds1 ds2 s I1 I2 A1 A2 S1 S2 C1 N2 R1 R2 P1 E1) as [X1 [Y1 Z1]].
  destruct (absorbed l2 l1 st2 st1 pl2 pl1 el2 el1 ok2 ok1 g2 g1 ds2 ds1 s I2 I1 A2 A1 S2 S1 C2 N1 R2 R1 P2 E2) as [X2 [Y2 Z2]].
  split; [destruct ok1, ok2; auto; try (specialize (X1 eq_refl); congruence); specialize (X2 eq_refl); congruence | ]. split; [ | intros c d; split; auto].
  apply grid_eq; [apply (solve_grid _ _ _ _ _ _ _ I1 A1 R1) | apply (solve_grid _ _ _ _ _ _ _ I2 A2 R2) | ].
  intros c Hc. destruct (Nat.eq_dec (at_ g1 c) 0) as [E | E]; [ | symmetry; apply Y1; assumption]. destruct (Nat.eq_dec (at_ g2 c) 0) as [E' | E']; [congruence | apply Y2; assumption].
Qed.

(** Known facts are among the entries and eliminations of a run. *)
Lemma run_starts l st pl el ok g ds : implemented l -> api st pl el -> strat_solve l st = Ok (ok, g, ds) ->
  (forall c d, pl c d -> In (c, d) (d_entries ds)) /\ (forall c d, alive (d_entries ds) (d_elims ds) c d -> possible pl el c d).
Proof.
  intros Im A R. destruct (solve_explained _ _ _ _ _ _ _ Im A R) as [r [_ [_ [P Q]]]]. split; [intros c d H; apply P; left; exact H | ].
  intros c d [Hc [Hd [N V]]]. split; [exact Hc | ]. split; [exact Hd | ]. split; [intros H; apply N, Q; left; exact H | ]. intros c' d' H. apply V, P. left. exact H.
Qed.

(** * The same digits and candidates *)

Lemma same_state l1 l2 st1 st2 pl1 pl2 el1 el2 ok1 ok2 g1 g2 ds1 ds2 s : implemented l1 -> implemented l2 -> api st1 pl1 el1 -> api st2 pl2 el2 ->
  completion pl1 el1 s -> completion pl2 el2 s -> covers l2 l1 -> covers l1 l2 -> l1 <> [] -> l2 <> [] ->
  (forall c d, pl1 c d <-> pl2 c d) -> (forall c d, possible pl1 el1 c d <-> possible pl2 el2 c d) ->
  strat_solve l1 st1 = Ok (ok1, g1, ds1) -> strat_solve l2 st2 = Ok (ok2, g2, ds2) ->
  ok1 = ok2 /\ g1 = g2 /\ forall c d, alive (d_entries ds1) (d_elims ds1) c d <-> alive (d_entries ds2) (d_elims ds2) c d.
Proof.
  intros I1 I2 A1 A2 S1 S2 C1 C2 N1 N2 Pl Po R1 R2. destruct (run_starts _ _ _ _ _ _ _ I1 A1 R1) as [P1 Q1]. destruct (run_starts _ _ _ _ _ _ _ I2 A2 R2) as [P2 Q2].
  apply (absorb_both l1 l2 st1 st2 pl1 pl2 el1 el2 ok1 ok2 g1 g2 ds1 ds2 s); try assumption.
  - intros c d H. apply P2, Pl, H.
  - intros c d H Al. apply Q2, Po in Al. destruct Al as [_ [_ [N _]]]. exact (N H).
  - intros c d H. apply P1, Pl, H.
  - intros c d H Al. apply Q1, Po in Al. destruct Al as [_ [_ [N _]]]. exact (N H).
Qed.

(** What [grid_state] shows of a solvable solver *)
Lemma state_shows st pl el s g : api st pl el -> completion pl el s -> strat_grid_state st = Ok g -> ok_states g /\ (forall c d, pl c d <-> shown g c d) /\
  (forall c d, possible pl el c d <-> possible (shown g) (struck g) c d) /\ completion (shown g) (struck g) s.
Proof.
  intros A C E. destruct (api_grid_state st pl el A) as [g' [E' [Og Sh]]]. rewrite E in E'. injection E' as <-.
  destruct (show_ok st pl el A (solvable_unblocked pl el s C)) as [g' [E' [Lg Sg]]]. rewrite E in E'. injection E' as <-.
  assert (Cand : forall c m, c < 81 -> nth_error g c = Some (CCands m) -> forall d, 1 <= d <= 9 -> (N.testbit m (N.of_nat (d - 1)) = true <-> allowed pl el c d)).
  { intros c m Hc Hn. apply (proj2 (proj2 (Sg c Hc))). apply nth_error_nth. exact Hn. }
  split; [exact Og | ]. split; [intros c d; symmetry; apply Sh | ].
  assert (Po : forall c d, possible pl el c d <-> possible (shown g) (struck g) c d).
  { intros c d. split.
    - intros [Hc [Hd [N V]]]. split; [exact Hc | ]. split; [exact Hd | ]. split; [ | intros c' d' H; apply V, Sh, H].
      intros [_ [_ [m [Hn T]]]]. assert (Al : allowed pl el c d). { split; [exact Hd | ]. split; [exact N | ]. intros c' Hc' Pe H. destruct (V c' d H) as [_ Q]. apply Q. auto. }
      apply (Cand c m Hc Hn d Hd) in Al. rewrite Al in T. discriminate T.
    - intros [Hc [Hd [N V]]]. split; [exact Hc | ]. split; [exact Hd | ]. split; [ | intros c' d' H; apply V, Sh, H].
      intros He. destruct (nth_error g c) as [x | ] eqn:Hn; [ | apply nth_error_None in Hn; lia]. destruct x as [e | m].
      + destruct (V c e) as [Q _]; [split; assumption | apply Q; reflexivity].
      + apply N. split; [exact Hc | ]. split; [exact Hd | ]. exists m. split; [exact Hn | ]. destruct (N.testbit m (N.of_nat (d - 1))) eqn:T; [exfalso | reflexivity].
        apply (Cand c m Hc Hn d Hd) in T. destruct T as [_ [Q _]]. exact (Q He). }
  split; [exact Po | ]. destruct C as [So [C1 C2]]. split; [exact So | ]. split; [intros c d H; apply C1, Sh, H | ].
  intros c d [Hc [Hd [m [Hn T]]]] Eq. assert (Al : allowed pl el c d); [ | apply (Cand c m Hc Hn d Hd) in Al; rewrite Al in T; discriminate T].
  split; [exact Hd | ]. split; [intros He; exact (C2 c d He Eq) | ]. intros c' Hc' Pe H. apply C1 in H.
  apply (proj1 (proj2 (fit_solved false s So)) c c' Hc Hc' Pe Logic.I). congruence.
Qed.

(** Two solvers that show the same state find the same. *)
Lemma shown_same l1 l2 st1 st2 pl1 pl2 el1 el2 ok1 ok2 g1 g2 ds1 ds2 x : implemented l1 -> implemented l2 -> api st1 pl1 el1 -> api st2 pl2 el2 ->
  (exists s, completion pl1 el1 s) -> (exists s, completion pl2 el2 s) -> covers l2 l1 -> covers l1 l2 -> l1 <> [] -> l2 <> [] ->
  strat_grid_state st1 = Ok x -> strat_grid_state st2 = Ok x ->
  strat_solve l1 st1 = Ok (ok1, g1, ds1) -> strat_solve l2 st2 = Ok (ok2, g2, ds2) ->
  ok1 = ok2 /\ g1 = g2 /\ forall c d, alive (d_entries ds1) (d_elims ds1) c d <-> alive (d_entries ds2) (d_elims ds2) c d.
Proof.
  intros I1 I2 A1 A2 [s1 S1] [s2 S2] C1 C2 N1 N2 E1 E2 R1 R2.
  destruct (state_shows _ _ _ _ _ A1 S1 E1) as [_ [P1 [Q1 K1]]]. destruct (state_shows _ _ _ _ _ A2 S2 E2) as [_ [P2 [Q2 K2]]].
  apply (same_state l1 l2 st1 st2 pl1 pl2 el1 el2 ok1 ok2 g1 g2 ds1 ds2 s1); try assumption.
  - split; [apply K1 | ]. split; [intros c d H; apply (proj1 (proj2 S1)), P1, P2, H | ]. intros c d H Eq.
    assert (Hc : c < 81 /\ 1 <= d <= 9). { assert (Hi := proj2 (a_el _ _ _ (api_started _ _ _ A2) c d) H). exact (w_el _ (proj1 (inv_core _ (a_ready _ _ _ (api_started _ _ _ A2)))) c d Hi). }
    destruct Hc as [Hc Hd]. assert (Rg := proj1 (proj2 (proj1 S1))).
    (* the candidate is not possible in the second solver, so not in the first *)
    assert (NP : ~ possible pl1 el1 c d). { intros P. apply Q1, Q2 in P. destruct P as [_ [_ [N _]]]. exact (N H). }
    assert (Pl : pl1 c d).
    { destruct (nth_error x c) as [y | ] eqn:Hn; [ | apply nth_error_None in Hn; destruct (state_shows _ _ _ _ _ A1 S1 E1) as [[Lx _] _]; lia]. destruct y as [e | m].
      - assert (He : shown x c e) by (split; assumption). assert (Q := proj1 (proj2 K1) c e He). apply P1. rewrite <- Eq, Q. exact He.
      - exfalso. apply NP. split; [exact Hc | ]. split; [exact Hd | ]. split; [intros He; exact (proj2 (proj2 S1) c d He Eq) | ]. intros c' d' Hp. split.
        + intros <-. apply P1 in Hp. destruct Hp as [_ Hp]. congruence.
        + intros [Pe <-]. assert (Hc' : c' < 81) by (apply P1 in Hp; apply Hp). apply (proj1 (proj2 S1)) in Hp.
          apply (proj1 (proj2 (fit_solved false s1 (proj1 S1))) c c' Hc Hc' Pe Logic.I). congruence. }
    apply P1, P2 in Pl. apply (proj1 (proj2 S2)) in Pl. exact (proj2 (proj2 S2) c d H Pl).
  - intros c d. rewrite P1, P2. reflexivity.
  - intros c d. rewrite Q1, Q2. reflexivity.
Qed.

(** Saving the state with [grid_state] and restoring it with [from_grid_state] *)
Lemma restored l st pl el x st' ok g ds : implemented l -> l <> [] -> covers l l -> api st pl el -> (exists s, completion pl el s) ->
  strat_grid_state st = Ok x -> strat_from_grid_state x = Ok st' -> strat_solve l st = Ok (ok, g, ds) ->
  exists ds', strat_solve l st' = Ok (ok, g, ds') /\ forall c d, alive (d_entries ds) (d_elims ds) c d <-> alive (d_entries ds') (d_elims ds') c d.
Proof.
  intros Im Ne Cv A [s S] E F R. destruct (state_shows _ _ _ _ _ A S E) as [Ox [P [Q K]]]. assert (A' : api st' (shown x) (struck x)) by (apply api_states; assumption).
  destruct (solve_total l st' _ _ Im A') as [ok' [g' [ds' R']]].
  destruct (same_state l l st st' pl (shown x) el (struck x) ok ok' g g' ds ds' s Im Im A A' S K Cv Cv Ne Ne P Q R R') as [-> [-> H]]. exists ds'. split; [exact R' | exact H].
Qed.

(** Looking at a cell does no harm if the list covers itself. *)
Lemma looked_at l st pl el cell st' x ok g ds : implemented l -> l <> [] -> covers l l -> api st pl el -> (exists s, completion pl el s) -> cell < 81 ->
  strat_cell_state st cell = Ok (st', x) -> strat_solve l st = Ok (ok, g, ds) ->
  exists ds', strat_solve l st' = Ok (ok, g, ds') /\ forall c d, alive (d_entries ds) (d_elims ds) c d <-> alive (d_entries ds') (d_elims ds') c d.
Proof.
  intros Im Ne Cv A [s S] Hc E R. assert (A' : api st' pl el) by (apply (api_cell_state st pl el cell st' x A Hc (solvable_unblocked pl el s S) E)).
  destruct (solve_total l st' _ _ Im A') as [ok' [g' [ds' R']]].
  destruct (order_irrelevant l l st st' pl el ok ok' g g' ds ds' Im Im A A' (ex_intro _ s S) Ne Ne Cv Cv R R') as [-> [-> H]]. exists ds'. split; [exact R' | exact H].
Qed.

(** * Stages *)

(** Solving first with a list [l1] and then the grid that it returns with [l2] gives the same as [l2] alone. *)
Lemma staged l1 l2 p st st1 clues ok1 g1 ds1 ok g ds : implemented l1 -> implemented l2 -> l2 <> [] -> covers l2 l1 -> covers l2 l2 -> wf_grid p -> (exists s, solution_of p s) ->
  api st (given p) nothing -> strat_solve l1 st = Ok (ok1, g1, ds1) -> strat_from_sudoku g1 = Ok st1 \/ strat_from_clues g1 clues = Ok st1 -> strat_solve l2 st = Ok (ok, g, ds) ->
  exists ds', strat_solve l2 st1 = Ok (ok, g, ds') /\ forall c d, alive (d_entries ds) (d_elims ds) c d <-> alive (d_entries ds') (d_elims ds') c d.
Proof.
  intros I1 I2 Ne C1 C2 W [s So] A R1 F R. destruct (solve_grid _ _ _ _ _ _ _ I1 A R1) as [W1 [Ex1 [S1 G1]]]. destruct (solve_grid _ _ _ _ _ _ _ I2 A R) as [_ [Ex [_ G]]].
  assert (A1 : api st1 (given g1) nothing) by (destruct F as [F | F]; [apply api_sudoku; assumption | apply (api_clues g1 clues); assumption]).
  assert (C : completion (given p) nothing s). { split; [apply So | ]. split; [ | intros c d []]. intros c d [Hc [Hd <-]]. apply (proj2 So c Hc Hd). }
  assert (K : completion (given g1) nothing s). { split; [apply So | ]. split; [ | intros c d []]. intros c d [Hc [Hd <-]]. apply S1; assumption. }
  destruct (more_deduced l1 l2 st st _ _ _ _ ok1 ok g1 g ds1 ds I1 I2 A A (fun _ _ H => H) (fun _ _ H => H) (ex_intro _ s C) C1 Ne R1 R) as [_ [M _]].
  destruct (solve_total l2 st1 _ _ I2 A1) as [ok' [g' [ds' R']]]. destruct (run_starts _ _ _ _ _ _ _ I2 A1 R') as [P' _].
  destruct (absorb_both l2 l2 st st1 (given p) (given g1) nothing nothing ok ok' g g' ds ds' s I2 I2 A A1 C K C2 C2 Ne Ne R R') as [-> [-> H]].
  - intros c d [Hc [Hd <-]]. apply P'. split; [exact Hc | ]. split; [exact Hd | ]. apply Ex1. split; [exact Hc | auto].
  - intros c d [].
  - intros c d [Hc [Hd <-]]. apply G. split; [exact Hc | ]. split; [lia | ]. apply M; assumption.
  - intros c d [].
  - exists ds'. split; [exact R' | exact H].
Qed.

(** With naked singles in the first place a list can give up a puzzle and yet solve the grid that it returns. *)
Lemma again_refuted : exists p st l g ds st' g' ds', wf_grid p /\ uniquely_solvable p /\ implemented l /\ strat_from_sudoku p = Ok st /\
  strat_solve l st = Ok (false, g, ds) /\ strat_from_sudoku g = Ok st' /\ strat_solve l st' = Ok (true, g', ds').
Proof.
  assert (W : wf_grid puzzle2) by (apply wf_gridb_ok; vm_compute; reflexivity). set (l := [NakedSingles; HiddenSingles]).
  assert (Im : implemented l) by (intros S [<- | [<- | []]]; discriminate).
  destruct (outcomeb_ok l puzzle2 (fun ok g _ => negb ok && outcomeb l g (fun ok' _ _ => ok')) ltac:(vm_compute; reflexivity)) as [ok [g [ds [E B]]]].
  apply andb_prop in B. destruct B as [B1 B2]. apply negb_true_iff in B1. rewrite B1 in E. clear B1 ok.
  destruct (outcomeb_ok l g _ B2) as [ok' [g' [ds' [E' B']]]]. rewrite B' in E'. clear B2 B' ok'.
  assert (Wg : wf_grid g) by (apply (solve_grid _ _ _ _ _ _ _ Im (fresh_api puzzle2 W) E)).
  exists puzzle2, (fresh puzzle2), l, g, ds, (fresh g), g', ds'. split; [exact W | ]. split; [exact puzzle2_unique | ]. split; [exact Im | ].
  split; [apply fresh_ok, W | ]. split; [exact E | ]. split; [apply fresh_ok, Wg | exact E'].
Qed.
