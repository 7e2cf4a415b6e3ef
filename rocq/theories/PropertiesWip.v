(** C71-C73: the unfinished searches for avoidable rectangles and almost locked sets, and the links between candidates *)
From Coq Require Import List Arith NArith ZArith Lia Bool.
From Verif Require Import Spec TableSpec GeomSpec Solver Api ApiProofs Samples Geom Gen GeomProofs Strat StratSamples Wip WipSpec RectProofs AlsProofs LinkProofs WipSamples.
Import ListNotations.

(** * C71: avoidable rectangles *)

(** The callback is called once for each avoidable rectangle, with its lines and the digit to be avoided; the argument
    [stop_after_first] makes no difference. *)
Theorem C71_rectangles_exact : forall filled clues poss, wf_grid filled -> length clues = 81 -> digit_sets poss -> exists l, NoDup l /\
  (forall ls c d, In (ls, (c, d)) l <->
     exists r1 r2 c1 c2, avoidable filled clues (marks poss) r1 r2 c1 c2 c d /\ forall i, mem ls i <-> four_lines r1 r2 c1 c2 i) /\
  forall S stop (on : N -> cand -> S -> res S) s, find_rectangles filled clues poss stop on s = (s <- RectProofs.run on l s; Ok (s, true)).
Proof. exact rectangles_exact. Qed.
Print Assumptions C71_rectangles_exact.

(** If the clues have one solution, then the digit that is avoided is not the solution of the cell. *)
Theorem C71_rectangles_sound : forall filled clues poss stop s,
  wf_grid filled -> length clues = 81 -> digit_sets poss -> uniquely_solvable clues -> extends clues filled -> solution_of filled s ->
  exists l, find_rectangles filled clues poss stop (fun ls x acc => Ok (acc ++ [(ls, x)])) [] = Ok (l, true) /\
  forall ls c d, In (ls, (c, d)) l -> c < 81 /\ at_ s c <> d.
Proof. exact rectangles_sound. Qed.
Print Assumptions C71_rectangles_sound.

(** If the candidates are up to date, then a rectangle that would get a second solution is found. *)
Theorem C71_rectangles_complete : forall filled clues poss stop r k r' k' d b,
  wf_grid filled -> length clues = 81 -> digit_sets poss ->
  (forall c x, c < 81 -> x < 81 -> peers c x -> at_ filled x <> 0 -> ~ marks poss c (at_ filled x)) ->
  r < 9 -> k < 9 -> r' < 9 -> k' < 9 -> r <> r' -> k <> k' -> (r / 3 = r' / 3 <-> k / 3 <> k' / 3) ->
  at_ filled (9 * r + k) = 0 -> at_ filled (9 * r' + k') = d -> at_ filled (9 * r + k') = b -> at_ filled (9 * r' + k) = b ->
  d <> 0 -> b <> 0 -> d <> b ->
  at_ clues (9 * r' + k') = 0 -> at_ clues (9 * r + k') = 0 -> at_ clues (9 * r' + k) = 0 -> marks poss (9 * r + k) d ->
  exists l ls, find_rectangles filled clues poss stop (fun ls x acc => Ok (acc ++ [(ls, x)])) [] = Ok (l, true) /\
  In (ls, (9 * r + k, d)) l.
Proof. exact rectangles_complete. Qed.
Print Assumptions C71_rectangles_complete.

Example C71_case : wf_grid entered /\ digit_sets (free_digits entered) /\ uniquely_solvable puzzle1 /\ extends puzzle1 entered /\ solution_of entered solution1 /\
  find_rectangles entered puzzle1 (free_digits entered) true (fun ls x acc => Ok (acc ++ [(ls, x)])) [] = Ok ([(1632%N, (55, 1))], true) /\
  at_ solution1 55 = 7.
Proof.
  split; [apply wf_gridb_ok; vm_compute; reflexivity | ]. split; [apply digit_setsb_ok; vm_compute; reflexivity | ]. split; [apply unique_by_solver; vm_compute; reflexivity | ].
  assert (E : forall g h, forallb (fun c => (at_ g c =? 0) || (at_ h c =? at_ g c)) (seq 0 81) = true -> extends g h).
  { intros g h H c Hc N. rewrite forallb_forall in H. specialize (H c ltac:(apply in_seq; lia)). apply orb_true_iff in H. rewrite !Nat.eqb_eq in H. destruct H; [contradiction | assumption]. }
  split; [apply E; vm_compute; reflexivity | ]. split; [split; [apply solvedb_ok; vm_compute; reflexivity | apply E; vm_compute; reflexivity] | ].
  split; [vm_compute; reflexivity | reflexivity].
Qed.

(** * C72: almost locked sets *)

(** The table has, at index [k] and each house, exactly the almost locked sets of [k + 1] cells of the house, each once. *)
Theorem C72_sets_exact : forall poss, digit_sets poss -> exists t, find_als_sets poss = Ok t /\ length t = 8 /\ (forall k, k < 8 -> length (nth k t []) = 27) /\
  forall k h, k < 8 -> h < 27 -> NoDup (nth h (nth k t []) []) /\
    forall C D, In (C, D) (nth h (nth k t []) []) <-> almost_locked (marks poss) h (k + 1) (mem C) (fun d => 1 <= d /\ mem D (d - 1)).
Proof. exact als_sets_exact. Qed.
Print Assumptions C72_sets_exact.

(** False: the search that uses them reports success or failure.  It panics for all candidates (index 8 in a table of 8). *)
Theorem C72_search_returns_refuted : forall poss, digit_sets poss -> find_als poss = Panic.
Proof. exact als_panics. Qed.
Print Assumptions C72_search_returns_refuted.

(** In the first row, cells 0 and 3 have the candidates 4, 5, 9 together, cells 0 and 8 the candidates 4, 5, 7. *)
Definition als_at (t : res als_table) (k h : nat) : list (N * N) := match t with Ok t => nth h (nth k t []) [] | _ => [] end.
Definition first_row : list N := [24; 216; 0; 264; 0; 73; 0; 464; 80]%N ++ repeat 0%N 72.
Example C72_case : digit_sets first_row /\ als_at (find_als_sets first_row) 1 0 = [(9, 280); (257, 88)]%N /\ find_als first_row = Panic.
Proof. split; [apply digit_setsb_ok; vm_compute; reflexivity | ]. split; vm_compute; reflexivity. Qed.

(** * C73: links between candidates *)

(** Exactly these links are found: with two candidates in a cell, only the link between them; otherwise the links to the
    other candidates of the cell and to the other cells of each house that can have the digit. *)
Theorem C73_links_exact : forall poss pos, digit_sets poss -> places (marks poss) pos -> exists weak strong, find_direct_links poss pos = Ok (weak, strong) /\ forall x y,
  (In y (links_of strong x) <-> cell_pair (marks poss) x y \/ (~ paired (marks poss) x /\ exists h, house_pair (marks poss) h x y)) /\
  (In y (links_of weak x) <-> ~ paired (marks poss) x /\
     (in_cell (marks poss) x y \/ exists h, in_unit (marks poss) h x y /\ ~ house_pair (marks poss) h x y)).
Proof. exact links_exact. Qed.
Print Assumptions C73_links_exact.

(** Of two candidates with a strong link exactly one is right in each solution with these candidates; of two candidates with
    a weak link at most one. *)
Theorem C73_links_sound : forall poss pos, digit_sets poss -> places (marks poss) pos -> exists weak strong, find_direct_links poss pos = Ok (weak, strong) /\
  (forall x y, In y (links_of strong x) -> strong_link (marks poss) x y) /\ (forall x y, In y (links_of weak x) -> weak_link (marks poss) x y) /\
  forall s x y, fits (marks poss) s ->
    (In y (links_of strong x) -> (at_ s (fst x) = snd x <-> at_ s (fst y) <> snd y)) /\
    (In y (links_of weak x) -> ~ (at_ s (fst x) = snd x /\ at_ s (fst y) = snd y)).
Proof. exact links_sound. Qed.
Print Assumptions C73_links_sound.

(** No link is missed for a candidate that is not one of the only two of its cell. *)
Theorem C73_links_complete : forall poss pos, digit_sets poss -> places (marks poss) pos -> exists weak strong, find_direct_links poss pos = Ok (weak, strong) /\
  forall x y, ~ paired (marks poss) x ->
    (strong_link (marks poss) x y -> In y (links_of strong x)) /\ (weak_link (marks poss) x y -> In y (links_of strong x) \/ In y (links_of weak x)).
Proof. exact links_complete. Qed.
Print Assumptions C73_links_complete.

(** False: all strong links are found in both directions. *)
Theorem C73_all_links_refuted : exists poss pos s x y weak strong,
  digit_sets poss /\ places (marks poss) pos /\ fits (marks poss) s /\ find_direct_links poss pos = Ok (weak, strong) /\
  strong_link (marks poss) x y /\ strong_link (marks poss) y x /\ In x (links_of strong y) /\ ~ In y (links_of strong x) /\ ~ In y (links_of weak x).
Proof. exact link_missing. Qed.
Print Assumptions C73_all_links_refuted.

Example C73_case : digit_sets two_ones /\ places (marks two_ones) (table_of two_ones) /\ fits (marks two_ones) two_ones_solution /\
  house_pair (marks two_ones) 0 (5, 1) (0, 1) /\ cell_pair (marks two_ones) (0, 1) (0, 2).
Proof. split; [exact two_ones_sets | ]. split; [apply table_places | ]. split; [exact two_ones_fits | ]. split; [exact two_ones_pair | exact two_ones_cell]. Qed.
Definition found (r : res links) (x : cand) : list cand * list cand := match r with Ok (weak, strong) => (links_of weak x, links_of strong x) | _ => ([], []) end.
(** Two cells of a row only: 1 and 2 in the first one, 1, 2 and 3 in the other one *)
Definition few : list N := [3; 0; 0; 0; 0; 7; 0; 0; 0]%N ++ repeat 0%N 72.
Example C73_found : found (find_direct_links few (table_of few)) (0, 1) = ([], [(0, 2)]) /\
  found (find_direct_links few (table_of few)) (5, 1) = ([(5, 2); (5, 3)], [(0, 1)]).
Proof. split; vm_compute; reflexivity. Qed.
