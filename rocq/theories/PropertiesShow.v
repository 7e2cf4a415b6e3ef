(** The theorems about texts with candidates and about looking at strategy solvers, each with a concrete case that meets its
    hypotheses. *)
From Coq Require Import List Arith NArith ZArith Lia Bool.
From Verif Require Import Spec ParseSpec Solver Samples GridProofs Geom Gen GeomProofs Strat StratSolve StratUse StratApi StratSamples Show ShowSpec ShowProofs ShowStrat ShowSamples.
Import ListNotations.

(** * C59: the text of a cell state *)

(** Digit, candidates in ascending order, or an underscore, filled up with spaces *)
Theorem C59_cell_state_text : forall w x, ok_state x -> cell_state_text w x = Ok (padded w (word_of x)).
Proof. exact cell_text. Qed.
Print Assumptions C59_cell_state_text.
Example C59_case : ok_state (CCands 261) /\ word_of (CCands 261) = [49; 51; 57]%N /\ cell_state_text 5 (CCands 261) = Ok [49; 51; 57; 32; 32]%N /\
  cell_state_text 3 (CCands 0) = Ok [95; 32; 32]%N /\ cell_state_text 0 (CDigit 7) = Ok [55]%N.
Proof. split; [apply ok_cands; lia | ]. vm_compute. auto. Qed.

(** * C60: tables with candidates *)

(** Both printers write the table of ShowSpec.v; [Display] for [GridState] leaves out the last line break. *)
Theorem C60_print_table : forall g, ok_states g -> print_grid_state g box_frame = Ok (unlines (table g)).
Proof. exact print_table. Qed.
Print Assumptions C60_print_table.
Theorem C60_grid_state_text : forall g, ok_states g -> exists t, grid_state_text g = Ok t /\ t ++ [10%N] = unlines (table g).
Proof. exact grid_state_table. Qed.
Print Assumptions C60_grid_state_text.
(** The lines of a table have the same length. *)
Theorem C60_table_shape : forall g, exists n, forall l, In l (table g) -> length l = n.
Proof. exact table_shape. Qed.
Print Assumptions C60_table_shape.
(** [from_grid_state_str] reads a table, with or without the last line break, and gets the printed grid up to single
    candidates. *)
Theorem C60_read_table : forall g, ok_states g -> read_grid_state (unlines (table g)) = Ok (map plain_state g).
Proof. exact read_table. Qed.
Print Assumptions C60_read_table.
Theorem C60_read_cut : forall g, ok_states g -> forall t, t ++ [10%N] = unlines (table g) -> read_grid_state t = Ok (map plain_state g).
Proof. exact read_cut. Qed.
Print Assumptions C60_read_cut.
(** Reading changes no solution: a single candidate and a digit say the same. *)
Theorem C60_read_solutions : forall g s, length g = 81 ->
  (completion (shown (map plain_state g)) (struck (map plain_state g)) s <-> completion (shown g) (struck g) s).
Proof. exact completion_plain. Qed.
Print Assumptions C60_read_solutions.
Example C60_case : ok_states states_sample /\ length (nth 0 (table states_sample) []) = 103 /\
  firstn 25 (nth 1 (table states_sample) []) = [9474; 32; 53]%N ++ repeat 32%N 10 ++ [49; 50]%N ++ repeat 32%N 9 ++ [95]%N /\
  nth_error (map plain_state states_sample) 3 = Some (CDigit 4) /\ nth_error states_sample 3 = Some (CCands 8).
Proof. split; [exact states_sample_ok | ]. vm_compute. auto. Qed.
(** * C61: the text of a strategy solver *)

(** Display of any solver made by the public functions, also of one without solution: a table that shows all placed digits, and
    further ones only if they follow. *)
Theorem C61_display_total : forall st pl el, api st pl el -> exists g, strat_text st = Ok (unlines (table g)) /\ ok_states g /\
  (forall c d, pl c d -> shown g c d) /\ (forall s, completion pl el s -> forall c d, shown g c d -> at_ s c = d).
Proof. exact api_text. Qed.
Print Assumptions C61_display_total.
(** If there is a solution, the candidates in the table are those that the digits in the table and the struck candidates
    allow, and the table has the same solutions as the solver. *)
Theorem C61_display_exact : forall st pl el s0, api st pl el -> completion pl el s0 -> exists g, strat_text st = Ok (unlines (table g)) /\ ok_states g /\
  (forall c d, pl c d -> shown g c d) /\
  (forall c m, nth_error g c = Some (CCands m) -> forall d, 1 <= d <= 9 -> (N.testbit m (N.of_nat (d - 1)) = true <-> allowed (shown g) el c d)) /\
  (forall s, completion pl el s <-> completion (shown g) (struck g) s).
Proof. exact api_text_exact. Qed.
Print Assumptions C61_display_exact.
(** A solver made from the text has the same solutions. *)
Theorem C61_display_read : forall st pl el s0, api st pl el -> completion pl el s0 ->
  exists t st' pl' el', strat_text st = Ok t /\ from_grid_state_str t = Ok st' /\ api st' pl' el' /\ (forall c d, pl c d -> pl' c d) /\
    forall s, completion pl el s <-> completion pl' el' s.
Proof. exact api_text_read. Qed.
Print Assumptions C61_display_read.
Example C61_case : api (fresh puzzle3) (given puzzle3) nothing /\ (exists s, completion (given puzzle3) nothing s) /\
  (exists t, strat_text (fresh puzzle3) = Ok t /\ firstn 9 (skipn 66 t) = [9474; 32; 49; 55; 32; 32; 32; 32; 52]%N) /\
  (exists t, strat_text (fresh puzzle_none) = Ok t /\ length (filter (N.eqb 10) t) = 13).
Proof. exact display_sample. Qed.

(** * C62: looking at any solver *)

(** [grid_state] and [cell_state] never panic, and show as digits exactly the placed ones, also for solvers without solution. *)
Theorem C62_grid_state_total : forall st pl el, api st pl el -> exists g, strat_grid_state st = Ok g /\ ok_states g /\ forall c d, shown g c d <-> pl c d.
Proof. exact api_grid_state. Qed.
Print Assumptions C62_grid_state_total.
Theorem C62_cell_state_total : forall st pl el c, api st pl el -> c < 81 -> exists st' x, strat_cell_state st c = Ok (st', x) /\ ok_state x /\ forall d, x = CDigit d <-> pl c d.
Proof. exact api_cell_total. Qed.
Print Assumptions C62_cell_state_total.
Example C62_case : api (fresh puzzle_none) (given puzzle_none) nothing /\ (forall s, ~ completion (given puzzle_none) nothing s).
Proof. exact none_sample. Qed.

(** * C63: looking at a cell *)

(** A call of [cell_state] processes the clues without looking for naked singles, so that [solve] with [NakedSingles] alone does
    not find them any more. *)
Theorem C63_cell_state_harmless_refuted : exists p st cell st' x l, wf_grid p /\ uniquely_solvable p /\ strat_from_sudoku p = Ok st /\
  cell < 81 /\ strat_cell_state st cell = Ok (st', x) /\
  (exists g ds, strat_solve l st = Ok (true, g, ds)) /\ (exists g ds, strat_solve l st' = Ok (false, g, ds)).
Proof. exact looking_harms. Qed.
Print Assumptions C63_cell_state_harmless_refuted.

(** * C64: reading any text as a table *)

(** Other texts: the i-th word that is an underscore or a number describes the i-th cell.  Every text consists of words. *)
Theorem C64_read_words : forall s ws, worded s ws -> ~ In 43%N s -> exists g, read_grid_state s = Ok g /\ ok_states g /\
  forall i x, nth_error g i = Some x -> match nth_error (filter cell_word ws) i with Some t => describes t x | None => x = CCands 0 end.
Proof. exact read_ok. Qed.
Print Assumptions C64_read_words.
Theorem C64_words_exist : forall s, exists ws, worded s ws.
Proof. exact worded_total. Qed.
Print Assumptions C64_words_exist.
(** A number with a plus sign counts as an entry, but makes the subtraction of '0' overflow. *)
Theorem C64_read_total_refuted : exists s, read_grid_state s = Panic.
Proof. exact plus_panics. Qed.
Print Assumptions C64_read_total_refuted.

Example C64_words_case : worded [32; 49; 51; 10; 97; 32; 95; 55]%N [[49; 51]; [97]; [95; 55]]%N /\ filter cell_word [[49; 51]; [97]; [95; 55]; [95]]%N = [[49; 51]; [95]]%N /\
  describes [49; 51]%N (CCands 5) /\ describes [49; 48; 49]%N (CDigit 1).
Proof. exact words_sample. Qed.
