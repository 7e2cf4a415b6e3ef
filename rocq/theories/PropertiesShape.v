(** What the results of [canonicalized] look like. *)
From Coq Require Import List Arith NArith.
From Verif Require Import Spec CanonSpec Solver Api Canon Samples CanonShape PropertiesCanon.
Import ListNotations.

(** * C96: the shape of canonical forms *)

(** The result for a solved grid begins with 1 to 9, 4, 5 and then 6 or 7.  Its first column is increasing in every band and
    the bands are in the order of the first digits. *)
Theorem C96_solved : forall s m n, solved s -> canonicalized s = Ok (Some (m, n)) ->
  firstn 11 m = [1; 2; 3; 4; 5; 6; 7; 8; 9; 4; 5] /\ (at_ m 11 = 6 \/ at_ m 11 = 7) /\
  (forall b i j, b < 3 -> i < j -> j < 3 -> at_ m (9 * (3 * b + i)) < at_ m (9 * (3 * b + j))) /\ at_ m 27 < at_ m 54.
Proof. exact canonicalized_shape_solved. Qed.
Print Assumptions C96_solved.

(** The result for a puzzle has exactly one solution, and the same holds for this solution. *)
Theorem C96_puzzle : forall p q n, wf_grid p -> canonicalized p = Ok (Some (q, n)) -> exists m, (forall s, solution_of q s <-> s = m) /\
  firstn 11 m = [1; 2; 3; 4; 5; 6; 7; 8; 9; 4; 5] /\ (at_ m 11 = 6 \/ at_ m 11 = 7) /\
  (forall b i j, b < 3 -> i < j -> j < 3 -> at_ m (9 * (3 * b + i)) < at_ m (9 * (3 * b + j))) /\ at_ m 27 < at_ m 54.
Proof. exact canonicalized_shape. Qed.
Print Assumptions C96_puzzle.

(** Both digits occur in the twelfth place. *)
Example C96_case : (exists n, canonicalized most_canonical = Ok (Some (most_canonical, n))) /\ at_ most_canonical 11 = 6 /\
  solved solution1 /\ (exists m n, canonicalized solution1 = Ok (Some (m, n)) /\ at_ m 11 = 7) /\
  wf_grid puzzle1 /\ exists q n, canonicalized puzzle1 = Ok (Some (q, n)).
Proof.
  destruct C34_case as [_ [E _]]. split; [exists 648; exact E | ]. split; [reflexivity | ]. destruct C32_case as [So Q]. split; [exact So | ]. split.
  - destruct (canonicalized solution1) as [[[m n] | ] | | | ]; try (destruct Q; fail). exists m, n. split; [reflexivity | ]. destruct Q as [_ Q].
    unfold at_. rewrite <- (firstn_skipn 12 m), Q. reflexivity.
  - destruct C33_case as [W [_ [_ Q2]]]. split; [exact W | ]. destruct (canonicalized puzzle1) as [[[q n] | ] | | | ]; try (destruct Q2; fail). exists q, n. reflexivity.
Qed.
