(** Properties C23, C24, C52-C54: generation of solved grids and of puzzles. *)
From Coq Require Import List Arith NArith Permutation.
From Verif Require Import Spec SymSpec Solver SymGen Gen SymProofs GenProofs DefaultProofs Samples.
Import ListNotations.

(** * C23: solved for every random number generator *)

Theorem C23_generate_solved : forall perm rng, Permutation perm (seq 1 9) ->
  exists g, generate_solved perm rng = Ok g /\ solved g.
Proof. exact generate_solved_total. Qed.
Print Assumptions C23_generate_solved.

(** Non-trivial: a run with a shuffled first row and varying choices; the first row is kept. *)
Example C23_case : Permutation [3; 1; 4; 5; 9; 2; 6; 8; 7] (seq 1 9) /\
  match generate_solved [3; 1; 4; 5; 9; 2; 6; 8; 7] (fun i => i * 7 + 3) with
  | Ok g => firstn 9 g = [3; 1; 4; 5; 9; 2; 6; 8; 7] /\ nth 80 g 0 = 6
  | _ => False
  end.
Proof.
  split; [ | vm_compute; split; reflexivity]. apply NoDup_Permutation_bis.
  - apply (NoDup_nodup Nat.eq_dec [3; 1; 4; 5; 9; 2; 6; 8; 7]).
  - vm_compute. repeat constructor.
  - intros x Hx. apply in_seq. repeat (destruct Hx as [<- | Hx]; [repeat constructor | ]). destruct Hx.
Qed.

(** * C24: termination for every random number generator *)

(** 1460 nested loop iterations and guesses suffice, and fewer than 2^1460 random choices are made in total. *)
Theorem C24_search_bounded : forall perm rng stack, Permutation perm (seq 1 9) -> first_row (seq 0 9) perm [] = Ok stack ->
  let r := randomized_solve_one_f 1460 gen_new stack rng 0 in
  (exists g, fst r = Ok g /\ solved g) /\ (N.of_nat (snd r) < 2 ^ 1460)%N.
Proof. exact search_bounded. Qed.
Print Assumptions C24_search_bounded.

Example C24_case : first_row (seq 0 9) (seq 1 9) [] =
  Ok [(8, 9); (7, 8); (6, 7); (5, 6); (4, 5); (3, 4); (2, 3); (1, 2); (0, 1)].
Proof. vm_compute. reflexivity. Qed.

(** * C52: every solved grid can be generated *)

Theorem C52_every_grid_generated : forall s, solved s ->
  exists perm rng, Permutation perm (seq 1 9) /\ generate_solved perm rng = Ok s.
Proof. exact generate_solved_reach. Qed.
Print Assumptions C52_every_grid_generated.

(** Non-trivial: there is a solved grid. *)
Example C52_case : solved solution1.
Proof. apply solvedb_ok. vm_compute. reflexivity. Qed.

(** * C53: generated puzzles *)

Theorem C53_generate_puzzle : forall sym perm rng order, Permutation perm (seq 1 9) -> Permutation order (seq 0 81) ->
  exists g, generate_with_symmetry sym perm rng order = Ok g /\ wf_grid g /\ uniquely_solvable g /\ symmetric sym g /\
    forall c q, c < 81 -> at_ g c <> 0 -> class_removed sym c g q ->
      exists s1 s2, s1 <> s2 /\ solution_of q s1 /\ solution_of q s2.
Proof. exact generate_puzzle. Qed.
Print Assumptions C53_generate_puzzle.

(** [generate] without a symmetry asked for: the clues are symmetric under the rotation by 180 degrees, which takes cell [c]
    to cell [80 - c], and no clue can be removed together with the opposite one. *)
Theorem C53_generate_default : forall perm rng order, Permutation perm (seq 1 9) -> Permutation order (seq 0 81) ->
  exists g, generate perm rng order = Ok g /\ wf_grid g /\ uniquely_solvable g /\
    (forall c, c < 81 -> (at_ g (80 - c) = 0 <-> at_ g c = 0)) /\
    forall c q, c < 81 -> at_ g c <> 0 -> length q = 81 -> at_ q c = 0 -> at_ q (80 - c) = 0 ->
      (forall x, x < 81 -> x <> c -> x <> 80 - c -> at_ q x = at_ g x) ->
      exists s1 s2, s1 <> s2 /\ solution_of q s1 /\ solution_of q s2.
Proof. exact generate_default. Qed.
Print Assumptions C53_generate_default.

(** [generate_from]: no single clue can be removed. *)
Theorem C53_generate_from : forall src order, wf_grid src -> Permutation order (seq 0 81) -> uniquely_solvable src ->
  exists g, generate_from src order = Ok g /\ wf_grid g /\ (forall c, c < 81 -> at_ g c = 0 \/ at_ g c = at_ src c) /\
    uniquely_solvable g /\ (forall s, solution_of src s -> solution_of g s) /\
    forall c q, c < 81 -> at_ g c <> 0 -> length q = 81 -> at_ q c = 0 -> (forall x, x < 81 -> x <> c -> at_ q x = at_ g x) ->
      exists s1 s2, s1 <> s2 /\ solution_of q s1 /\ solution_of q s2.
Proof. exact generate_from_minimal. Qed.
Print Assumptions C53_generate_from.

(** Non-trivial: a generated puzzle with 25 clues *)
Example C53_case :
  match generate (seq 1 9) (fun i => i) (seq 0 81) with
  | Ok g => length (filter (fun d => negb (d =? 0)) g) = 25
  | _ => False
  end.
Proof. vm_compute. reflexivity. Qed.

(** * C54: minimality in the sense of single cells *)

(** The documentation of [generate_with_symmetry_from] says no cell can be removed without losing uniqueness.  That is false
    when a symmetry is asked for; C26 is what holds. *)
Theorem C54_single_cell_minimal_refuted : exists src order g c q,
  solved src /\ Permutation order (seq 0 81) /\ generate_with_symmetry_from src HalfRotation order = Ok g /\ c < 81 /\ at_ g c <> 0 /\
  length q = 81 /\ at_ q c = 0 /\ (forall x, x < 81 -> x <> c -> at_ q x = at_ g x) /\ uniquely_solvable q.
Proof. exact symmetric_not_minimal. Qed.
Print Assumptions C54_single_cell_minimal_refuted.
