(** Grids for the examples about the strategy solver, and runs that show where it differs from what is expected. *)
From Coq Require Import List Arith NArith ZArith Lia Bool.
From Verif Require Import Spec Solver Api ApiProofs GridProofs Samples Geom Gen GeomProofs Strat StratSolve StratUse StratWhy StratSpec StratApi.
Import ListNotations.

(** sudokus/Lines/easy_sudokus.txt:3 *)
Definition puzzle2 : grid :=
  [0;0;0;0;0;0;9;0;7; 0;0;0;4;2;0;1;8;0; 0;0;0;7;0;5;0;2;6;
   1;0;0;9;0;4;0;0;0; 0;5;0;0;0;0;0;4;0; 0;0;0;5;0;7;0;0;9;
   9;2;0;1;0;8;0;0;0; 0;3;4;0;5;9;0;0;0; 5;0;7;0;0;0;0;0;0].

(** sudokus/Lines/easy_sudokus.txt:7 *)
Definition puzzle3 : grid :=
  [0;4;3;0;8;0;2;5;0; 6;0;0;0;0;0;0;0;0; 0;0;0;0;0;1;0;9;4;
   9;0;0;0;0;4;0;7;0; 0;0;0;6;0;8;0;0;0; 0;1;0;2;0;0;0;0;3;
   8;2;0;5;0;0;0;0;0; 0;0;0;0;0;0;0;0;5; 0;3;4;0;9;0;7;1;0].

(** sudokus/Lines/medium_sudokus.txt:9 *)
Definition puzzle4 : grid :=
  [0;0;0;0;0;0;0;1;2; 4;0;0;0;9;0;0;0;0; 0;0;0;0;0;0;0;5;0;
   0;7;0;2;0;0;0;0;0; 6;0;0;0;0;0;4;0;0; 0;0;0;1;0;8;0;0;0;
   0;1;8;0;0;0;0;0;0; 0;0;0;0;3;0;7;0;0; 5;0;2;0;0;0;0;0;0].

(** sudokus/Lines/easy_sudokus.txt:15 *)
Definition puzzle5 : grid :=
  [0;0;0;0;2;0;0;4;0; 0;0;8;0;3;5;0;0;0; 0;0;0;0;7;0;6;0;2;
   0;3;1;0;4;6;9;7;0; 2;0;0;0;0;0;0;0;0; 0;0;0;5;0;1;2;0;3;
   0;4;9;0;0;0;7;3;0; 0;0;0;0;0;0;0;1;0; 8;0;0;0;0;4;0;0;0].

(** Clues without conflict that leave no candidate for cell 8 *)
Definition puzzle_blocked : grid := [1;2;3;4;5;6;7;8;0; 0;0;0;0;0;0;0;0;9] ++ repeat 0 63.

(** What [from_sudoku] returns, for the examples *)
Definition fresh (p : grid) : strat := match strat_from_sudoku p with Ok st => st | _ => strat_empty end.
Definition run (l : list strategy) (p : grid) := strat_solve l (fresh p).
(** The run ends, and its result satisfies [Q]. *)
Definition outcome (l : list strategy) (p : grid) (Q : bool -> grid -> deductions -> Prop) : Prop :=
  match run l p with Ok (ok, g, ds) => Q ok g ds | _ => False end.
Definition run_grid (l : list strategy) (p : grid) : grid := match run l p with Ok (_, g, _) => g | _ => [] end.
Definition run_deds (l : list strategy) (p : grid) : deductions := match run l p with Ok (_, _, ds) => ds | _ => mkDeds [] [] [] end.
Lemma outcome_weaken l p (Q R : bool -> grid -> deductions -> Prop) : outcome l p Q -> (forall ok g ds, Q ok g ds -> R ok g ds) -> outcome l p R.
Proof. unfold outcome. intros H I. destruct (run l p) as [[[ok g] ds] | | | ]; [apply I, H | exact H..]. Qed.
(** The same with a check that is computed *)
Definition outcomeb (l : list strategy) (p : grid) (q : bool -> grid -> deductions -> bool) : bool :=
  match run l p with Ok (ok, g, ds) => q ok g ds | _ => false end.
Lemma outcomeb_ok l p q : outcomeb l p q = true -> exists ok g ds, strat_solve l (fresh p) = Ok (ok, g, ds) /\ q ok g ds = true.
Proof. unfold outcomeb, run. intros H. destruct (strat_solve l (fresh p)) as [[[ok g] ds] | | | ]; [exists ok, g, ds; auto | discriminate..]. Qed.

Lemma fresh_ok p : wf_grid p -> strat_from_sudoku p = Ok (fresh p).
Proof. intros Wf. destruct (created_ex p Wf) as [st E]. unfold fresh. rewrite E. reflexivity. Qed.
Lemma fresh_api p : wf_grid p -> api (fresh p) (given p) nothing.
Proof. intros Wf. apply api_sudoku; [exact Wf | apply fresh_ok, Wf]. Qed.
Lemma unique_by_solver p : wf_gridb p = true -> api_is_uniquely_solvable p = Ok true -> uniquely_solvable p.
Proof. intros Wf E. apply wf_gridb_ok in Wf. destruct (uniquely_solvable_exact p Wf) as [b [Q R]]. rewrite E in Q. injection Q as <-. apply R. reflexivity. Qed.
Lemma completion_ex p : wf_grid p -> uniquely_solvable p -> exists s, completion (given p) nothing s.
Proof. intros Wf [s [So _]]. exists s. apply completion_given; assumption. Qed.

Lemma puzzle2_unique : uniquely_solvable puzzle2.
Proof. apply unique_by_solver; vm_compute; reflexivity. Qed.
Lemma puzzle3_unique : uniquely_solvable puzzle3.
Proof. apply unique_by_solver; vm_compute; reflexivity. Qed.
Lemma puzzle4_unique : uniquely_solvable puzzle4.
Proof. apply unique_by_solver; vm_compute; reflexivity. Qed.

(** A solvable puzzle has no blocked cell. *)
Lemma solvable_unblocked pl el s : completion pl el s -> unblocked pl el.
Proof.
  intros [[L [R Di]] [Pl El]] c Hc. exists (at_ s c). split; [ | intros d' Hp; symmetry; apply Pl, Hp]. split; [apply R, Hc | ]. split; [intros Q; apply (El c _ Q); reflexivity | ].
  intros c' Hc' Pe Q. apply Pl in Q. apply (Di c c' Hc Hc' Pe). congruence.
Qed.

Definition clash_free (p : grid) : Prop := forall c c', c < 81 -> c' < 81 -> peers c c' -> at_ p c <> 0 -> at_ p c <> at_ p c'.
Definition clash_freeb (p : grid) : bool :=
  forallb (fun c => forallb (fun c' => negb (peersb c c') || (at_ p c =? 0) || negb (at_ p c =? at_ p c')) (seq 0 81)) (seq 0 81).
Lemma clash_freeb_ok p : clash_freeb p = true -> clash_free p.
Proof.
  unfold clash_freeb, clash_free. rewrite forallb_forall. intros H c c' Hc Hc' Pe N E. specialize (H c ltac:(apply in_seq; lia)). rewrite forallb_forall in H. specialize (H c' ltac:(apply in_seq; lia)).
  rewrite !orb_true_iff, !negb_true_iff, Nat.eqb_eq, Nat.eqb_neq in H. apply peersb_iff in Pe. destruct H as [[H | H] | H]; [congruence | contradiction | contradiction].
Qed.

(** Naked singles can be left if hidden singles come later in the list. *)
Lemma naked_left : exists p st g ds c d, wf_grid p /\ uniquely_solvable p /\ strat_from_sudoku p = Ok st /\
  strat_solve [NakedSingles; HiddenSingles] st = Ok (false, g, ds) /\ c < 81 /\ at_ g c = 0 /\ 1 <= d <= 9 /\
  forall d', 1 <= d' <= 9 -> ((forall c', c' < 81 -> peers c c' -> at_ g c' <> d') <-> d' = d).
Proof.
  assert (Wf : wf_grid puzzle2) by (apply wf_gridb_ok; vm_compute; reflexivity).
  exists puzzle2, (fresh puzzle2), (run_grid [NakedSingles; HiddenSingles] puzzle2), (run_deds [NakedSingles; HiddenSingles] puzzle2), 2, 2.
  split; [exact Wf | ]. split; [exact puzzle2_unique | ]. split; [apply fresh_ok, Wf | ]. split; [vm_compute; reflexivity | ]. split; [lia | ]. split; [vm_compute; reflexivity | ]. split; [lia | ].
  set (g := run_grid _ _). intros d' Hd'. assert (B : forallb (fun d' => Bool.eqb (forallb (fun c' => negb (peersb 2 c') || negb (at_ g c' =? d')) (seq 0 81)) (d' =? 2)) (seq 1 9) = true) by (vm_compute; reflexivity).
  rewrite forallb_forall in B. specialize (B d' ltac:(apply in_seq; lia)). apply eqb_prop in B. rewrite <- (Nat.eqb_eq d' 2), <- B, forallb_forall. split.
  - intros H c' Hc'. apply in_seq in Hc'. destruct (peersb 2 c') eqn:E; [ | reflexivity]. apply peersb_iff in E. cbn [negb orb]. apply negb_true_iff, Nat.eqb_neq. apply H; [lia | exact E].
  - intros H c' Hc' Pe. specialize (H c' ltac:(apply in_seq; lia)). apply peersb_iff in Pe. rewrite Pe in H. cbn [negb orb] in H. apply negb_true_iff, Nat.eqb_neq in H. exact H.
Qed.

(** The candidates of a blocked puzzle are not brought up to date. *)
Lemma blocked_shows : exists p st l c m d c', wf_grid p /\ clash_free p /\ strat_from_sudoku p = Ok st /\ strat_grid_state st = Ok l /\
  c < 81 /\ c' < 81 /\ at_ p c = 0 /\ nth c l (CDigit 0) = CCands m /\ 1 <= d <= 9 /\ N.testbit m (N.of_nat (d - 1)) = true /\ peers c c' /\ at_ p c' = d.
Proof.
  assert (Wf : wf_grid puzzle_blocked) by (apply wf_gridb_ok; vm_compute; reflexivity).
  exists puzzle_blocked, (fresh puzzle_blocked), (match strat_grid_state (fresh puzzle_blocked) with Ok l => l | _ => [] end), 9, 511%N, 1, 0.
  split; [exact Wf | ]. split; [apply clash_freeb_ok; vm_compute; reflexivity | ]. split; [apply fresh_ok, Wf | ]. split; [vm_compute; reflexivity | ].
  split; [lia | ]. split; [lia | ]. split; [reflexivity | ]. split; [vm_compute; reflexivity | ]. split; [lia | ]. split; [reflexivity | ]. split; [ | reflexivity]. apply peersb_iff. reflexivity.
Qed.

(** [insert_candidate] accepts a digit that the cell has already, and a digit that its row has already. *)
Lemma insert_accepts : exists p st c d st1 c' d' st2, wf_grid p /\ uniquely_solvable p /\ strat_from_sudoku p = Ok st /\ c < 81 /\ c' < 81 /\
  (at_ p c = d /\ d <> 0 /\ insert_candidate st (c, d) = Ok (st1, true)) /\
  (at_ p c' = 0 /\ (exists k, k < 81 /\ peers c' k /\ at_ p k = d' /\ d' <> 0) /\ insert_candidate st (c', d') = Ok (st2, true)).
Proof.
  assert (Wf : wf_grid puzzle2) by (apply wf_gridb_ok; vm_compute; reflexivity).
  exists puzzle2, (fresh puzzle2), 6, 9, (match insert_candidate (fresh puzzle2) (6, 9) with Ok (s, _) => s | _ => strat_empty end),
    0, 9, (match insert_candidate (fresh puzzle2) (0, 9) with Ok (s, _) => s | _ => strat_empty end).
  split; [exact Wf | ]. split; [exact puzzle2_unique | ]. split; [apply fresh_ok, Wf | ]. split; [lia | ]. split; [lia | ]. split.
  - split; [reflexivity | ]. split; [discriminate | ]. vm_compute. reflexivity.
  - split; [reflexivity | ]. split; [exists 6; split; [lia | ]; split; [apply peersb_iff; reflexivity | split; [reflexivity | discriminate]] | ]. vm_compute. reflexivity.
Qed.

(** A solved grid is not recognised before a strategy has run. *)
Lemma solved_unrecognised : exists s st, solved s /\ strat_from_sudoku s = Ok st /\ strat_is_solved st = false /\ exists ds, strat_solve [] st = Ok (false, s, ds).
Proof.
  assert (So : solved solution1) by (apply solvedb_ok; vm_compute; reflexivity). assert (Wf := solved_wf _ So). exists solution1, (fresh solution1). split; [exact So | ].
  assert (E := fresh_ok _ Wf). split; [exact E | ]. destruct (fresh_unsolved _ _ Wf E) as [N [g [ds [R ->]]]]. split; [exact N | ]. exists ds. exact R.
Qed.

(** A digit placed in a cell where another one is possible *)
Lemma unjustified_case : ~ explained STRATEGY_ALL (given puzzle4) nothing [DNaked (0, 3)].
Proof.
  intros [[S [_ [_ [_ [_ [_ [_ Q]]]]]]] _]. assert (X : 8 = 3); [ | discriminate]. apply Q. split; [lia | ]. split; [lia | ]. split; [intros [] | ].
  intros c' d' [Hc [Nd E]]. assert (B : forallb (fun c' => (at_ puzzle4 c' =? 0) || (negb (0 =? c') && negb (peersb 0 c' && (8 =? at_ puzzle4 c')))) (seq 0 81) = true) by (vm_compute; reflexivity).
  rewrite forallb_forall in B. specialize (B c' ltac:(apply in_seq; lia)). rewrite orb_true_iff, andb_true_iff, !negb_true_iff, andb_false_iff, !Nat.eqb_neq, Nat.eqb_eq in B.
  destruct B as [B | [B1 B2]]; [congruence | ]. split; [exact B1 | ]. intros [Pe E8]. apply peersb_iff in Pe. destruct B2 as [B2 | B2]; [congruence | apply B2; congruence].
Qed.

(** A list of one strategy: the eliminations of its only pass leave a new pattern. *)
Definition aliveb (entries elims : list (nat * nat)) (c d : nat) : bool :=
  (c <? 81) && ((1 <=? d) && (d <=? 9)) && negb (existsb (fun x => (fst x =? c) && (snd x =? d)) elims) &&
  forallb (fun x => negb (c =? fst x) && negb (peersb c (fst x) && (d =? snd x))) entries.
Lemma aliveb_iff entries elims c d : aliveb entries elims c d = true <-> alive entries elims c d.
Proof.
  unfold aliveb, alive. rewrite !andb_true_iff, Nat.ltb_lt, !Nat.leb_le, negb_true_iff, forallb_forall.
  assert (X : existsb (fun x => (fst x =? c) && (snd x =? d)) elims = false <-> ~ In (c, d) elims).
  { rewrite <- not_true_iff_false, existsb_exists. split; intros N Q; apply N.
    - exists (c, d). cbn [fst snd]. rewrite !Nat.eqb_refl. auto.
    - destruct Q as [[a b] [Hi E]]. cbn [fst snd] in E. apply andb_true_iff in E. rewrite !Nat.eqb_eq in E. destruct E as [-> ->]. exact Hi. }
  rewrite X. assert (Y : (forall x, In x entries -> negb (c =? fst x) && negb (peersb c (fst x) && (d =? snd x)) = true) <-> (forall c' d', In (c', d') entries -> c <> c' /\ ~ (peers c c' /\ d = d'))).
  { split.
    - intros H c' d' Hi. specialize (H _ Hi). cbn [fst snd] in H. rewrite andb_true_iff, !negb_true_iff, Nat.eqb_neq, andb_false_iff, Nat.eqb_neq in H. destruct H as [A B]. split; [exact A | ].
      intros [Pe E]. apply peersb_iff in Pe. destruct B as [B | B]; [congruence | contradiction].
    - intros H [c' d'] Hi. specialize (H _ _ Hi). cbn [fst snd]. rewrite andb_true_iff, !negb_true_iff, Nat.eqb_neq, andb_false_iff, Nat.eqb_neq. destruct H as [A B]. split; [exact A | ].
      destruct (peersb c c') eqn:Pe; [right | left; reflexivity]. intros E. apply B. split; [apply peersb_iff, Pe | exact E]. }
  rewrite Y. tauto.
Qed.

Lemma single_strategy_left : exists p st g ds S0, wf_grid p /\ uniquely_solvable p /\ strat_from_sudoku p = Ok st /\ strat_solve [S0] st = Ok (false, g, ds) /\
  S0 <> NakedSingles /\ fires (alive (d_entries ds) (d_elims ds)) S0.
Proof.
  assert (Wf : wf_grid puzzle1) by (apply wf_gridb_ok; vm_compute; reflexivity).
  exists puzzle1, (fresh puzzle1), (run_grid [LockedCandidates] puzzle1), (run_deds [LockedCandidates] puzzle1), LockedCandidates.
  split; [exact Wf | ]. split; [apply unique_by_solver; vm_compute; reflexivity | ]. split; [apply fresh_ok, Wf | ]. split; [vm_compute; reflexivity | ]. split; [discriminate | ].
  cbn [fires]. set (en := d_entries _). set (el := d_elims _). exists 0, 18. split; [lia | ]. split; [lia | ]. left. exists 8.
  assert (B : forallb (fun c => negb (in_houseb 0 c) || negb (aliveb en el c 8) || in_houseb 18 c) (seq 0 81) = true) by (vm_compute; reflexivity). rewrite forallb_forall in B.
  assert (Y : existsb (fun c => in_houseb 0 c && aliveb en el c 8) (seq 0 81) = true) by (vm_compute; reflexivity). apply existsb_exists in Y.
  split; [ | split].
  - destruct Y as [c [_ Y]]. apply andb_true_iff in Y. exists c. split; [apply in_houseb_iff, Y | apply aliveb_iff, Y].
  - intros c Hh Al. specialize (B c). rewrite (proj2 (in_houseb_iff 0 c) Hh), (proj2 (aliveb_iff en el c 8) Al) in B. apply in_houseb_iff. apply B. apply in_seq. destruct Al. lia.
  - exists 10. split; [apply in_houseb_iff; reflexivity | ]. split; [rewrite <- in_houseb_iff; discriminate | ]. apply aliveb_iff. vm_compute. reflexivity.
Qed.

(** More than 2^8 eliminations *)
Lemma many_elims : exists p st g ds, wf_grid p /\ uniquely_solvable p /\ strat_from_sudoku p = Ok st /\
  strat_solve [NakedPairs; HiddenSingles] st = Ok (true, g, ds) /\ length (d_elims ds) > 256.
Proof.
  assert (Wf : wf_grid puzzle5) by (apply wf_gridb_ok; vm_compute; reflexivity).
  assert (B : outcomeb [NakedPairs; HiddenSingles] puzzle5 (fun ok _ ds => ok && (256 <? length (d_elims ds))) = true) by (vm_compute; reflexivity).
  apply outcomeb_ok in B. destruct B as [ok [g [ds [E B]]]]. apply andb_true_iff in B. destruct B as [-> B]. apply Nat.ltb_lt in B.
  exists puzzle5, (fresh puzzle5), g, ds. split; [exact Wf | ]. split; [apply unique_by_solver; vm_compute; reflexivity | ]. split; [apply fresh_ok, Wf | ]. split; [exact E | exact B].
Qed.

(** What a run of all strategies on a sudoku that they do not solve deduces *)
Lemma all_on_puzzle4 : outcome STRATEGY_ALL puzzle4 (fun ok g ds => (ok = false /\ length (filter (fun d => d =? 0) g) = 60 /\
    length (d_elims ds) = 35 /\ length (d_deds ds) = 12 /\ length (d_entries ds) = 21) /\
  match deds_iter ds with Ok r =>
    map ded_strategy r = [Ok NakedSingles; Ok HiddenSingles; Ok HiddenSingles; Ok HiddenSingles] ++ repeat (Ok LockedCandidates) 4 ++
      [Ok Swordfish; Ok Swordfish; Ok HiddenPairs; Ok HiddenPairs] /\
    firstn 2 r = [DNaked (63, 9); DHidden (26, 4) (Geom.HBlock 2)] /\
    nth_error r 4 = Some (DLocked 7 5 true [(11, 7); (12, 7); (14, 7)]) /\
    nth_error r 8 = Some (DBasicFish 1 146 292 [(20, 1); (23, 1); (29, 1); (35, 1); (77, 1); (80, 1)]) /\
    nth_error r 10 = Some (DSubsets 2 17 3 [(18, 3); (22, 6); (22, 7); (18, 8); (22, 8)]) | _ => False end).
Proof. vm_compute. repeat split; reflexivity. Qed.
