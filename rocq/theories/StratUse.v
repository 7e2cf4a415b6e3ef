(** Specification: the state of a [StrategySolver] before solving, as seen by a user of the public functions.  A solver
    is described by the digits [pl c d] placed so far and the candidates [el c d] ruled out so far. *)
From Coq Require Import List Arith NArith Bool.
From Verif Require Import Spec Solver Gen Strat StratSolve.
Import ListNotations.

Definition facts := nat -> nat -> Prop.

(** The clues of a puzzle *)
Definition given (p : grid) : facts := fun c d => c < 81 /\ d <> 0 /\ at_ p c = d.
Definition nothing : facts := fun _ _ => False.
(** The digits and missing candidates of a grid with candidates; a set of digits has bit [d - 1] for digit [d] *)
Definition shown (g : list cell_state) : facts := fun c d => c < 81 /\ nth_error g c = Some (CDigit d).
Definition struck (g : list cell_state) : facts := fun c d => c < 81 /\ 1 <= d <= 9 /\ exists m, nth_error g c = Some (CCands m) /\ N.testbit m (N.of_nat (d - 1)) = false.
Definition ok_state (x : cell_state) : Prop :=
  match x with CDigit d => 1 <= d <= 9 | CCands m => forall i, N.testbit m (N.of_nat i) = true -> i < 9 end.
Definition ok_states (g : list cell_state) : Prop := length g = 81 /\ Forall ok_state g.

(** The solved grids that agree with what is known *)
Definition completion (pl el : facts) (s : grid) : Prop :=
  solved s /\ (forall c d, pl c d -> at_ s c = d) /\ (forall c d, el c d -> at_ s c <> d).

(** Digit [d] may go into cell [c]: it has not been ruled out and no other cell of a house of [c] holds it. *)
Definition allowed (pl el : facts) (c d : nat) : Prop := 1 <= d <= 9 /\ ~ el c d /\ forall c', c' < 81 -> peers c c' -> ~ pl c' d.
(** The placed digits are allowed, and every other cell has an allowed digit. *)
Definition unblocked (pl el : facts) : Prop :=
  forall c, c < 81 -> exists d, allowed pl el c d /\ forall d', pl c d' -> d' = d.

(** The solvers that the public functions produce.  [cell_state] keeps the caches it computes, and ignores
    contradictions; it is covered for states without blocked cells. *)
Inductive api : strat -> facts -> facts -> Prop :=
  | api_sudoku p st : wf_grid p -> strat_from_sudoku p = Ok st -> api st (given p) nothing
  | api_clues p clues st : wf_grid p -> strat_from_clues p clues = Ok st -> api st (given p) nothing
  | api_states g st : ok_states g -> strat_from_grid_state g = Ok st -> api st (shown g) (struck g)
  | api_insert st pl el c d st' : api st pl el -> c < 81 -> 1 <= d <= 9 -> insert_candidate st (c, d) = Ok (st', true) ->
      api st' (fun c' d' => pl c' d' \/ (c' = c /\ d' = d)) el
  | api_reject st pl el c d st' : api st pl el -> c < 81 -> 1 <= d <= 9 -> insert_candidate st (c, d) = Ok (st', false) -> api st' pl el
  | api_to_sudoku st pl el st' g : api st pl el -> to_sudoku st = Ok (st', g) -> api st' pl el
  | api_cell_state st pl el cell st' x : api st pl el -> cell < 81 -> unblocked pl el ->
      strat_cell_state st cell = Ok (st', x) -> api st' pl el.

(** All strategies except the unfinished one (src/strategy/strategies.rs:100) *)
Definition implemented (l : list strategy) : Prop := forall S, In S l -> S <> AvoidableRectangles.

(** The candidate that a deduction sets, the range of eliminations it refers to *)
Definition single_of (y : deduction range) (x : cand) : Prop := y = DNaked x \/ exists h, y = DHidden x h.
Definition range_of (x : deduction range) : option range :=
  match x with
  | DNaked _ | DHidden _ _ => None
  | DLocked _ _ _ r | DSubsets _ _ _ r | DBasicFish _ _ _ r | DFish _ _ _ r | DWing _ _ _ r | DAvoidable _ r => Some r
  end.
(** The ranges are not empty and follow each other from [a] to [b]. *)
Fixpoint tiles (a : nat) (ds : list (deduction range)) (b : nat) : Prop :=
  match ds with
  | [] => a = b
  | x :: t => match range_of x with None => tiles a t b | Some r => fst r = a /\ a < snd r /\ tiles (snd r) t b end
  end.
