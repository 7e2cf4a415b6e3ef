(** Property C84: exactly which puzzles can be generated. *)
From Coq Require Import List Arith NArith Lia Bool Permutation.
From Verif Require Import Spec SymSpec ReachSpec Solver SymGen Gen GridProofs SymProofs GenProofs ReachProofs Samples PropertiesSym PropertiesGen.
Import ListNotations.

(** Puzzles made from a given one: all or no clues of each class are kept. *)
Theorem C84_from_exact : forall src sym p, wf_grid src -> uniquely_solvable src ->
  (exists order, Permutation order (seq 0 81) /\ generate_with_symmetry_from src sym order = Ok p) <->
  wf_grid p /\ whole_classes sym src p /\ uniquely_solvable p /\ class_minimal sym p.
Proof. exact from_exact. Qed.
Print Assumptions C84_from_exact.

(** Generated puzzles are exactly the symmetric puzzles with one solution from which no class of clues can be removed. *)
Theorem C84_generated_exact : forall sym p,
  (exists perm rng order, Permutation perm (seq 1 9) /\ Permutation order (seq 0 81) /\ generate_with_symmetry sym perm rng order = Ok p) <->
  wf_grid p /\ uniquely_solvable p /\ symmetric sym p /\ class_minimal sym p.
Proof. exact generated_exact. Qed.
Print Assumptions C84_generated_exact.

(** Without symmetry: exactly the minimal puzzles. *)
Theorem C84_minimal_puzzles : forall p,
  (exists perm rng order, Permutation perm (seq 1 9) /\ Permutation order (seq 0 81) /\ generate_with_symmetry NoSymmetry perm rng order = Ok p) <->
  wf_grid p /\ uniquely_solvable p /\ minimal p.
Proof. exact generated_minimal. Qed.
Print Assumptions C84_minimal_puzzles.

(** Both sides occur: a puzzle of 25 clues, one of 28 from [solution1]; a solved grid is never generated. *)
Example C84_case :
  (exists p, wf_grid p /\ uniquely_solvable p /\ symmetric HalfRotation p /\ class_minimal HalfRotation p /\ length (filter (fun d => negb (d =? 0)) p) = 25) /\
  (exists p, wf_grid p /\ whole_classes HalfRotation solution1 p /\ uniquely_solvable p /\ class_minimal HalfRotation p /\ length (filter (fun d => negb (d =? 0)) p) = 28) /\
  wf_grid solution1 /\ uniquely_solvable solution1 /\ ~ minimal solution1.
Proof.
  destruct C25_case as [P [S [U C]]]. assert (W := solved_wf _ S). split; [ | split; [ | split; [exact W | split; [exact U | ]]]].
  - clear C. assert (X := C53_case). rewrite generate_half in X. destruct (generate_with_symmetry HalfRotation (seq 1 9) (fun i => i) (seq 0 81)) as [p | | | ] eqn:E; try contradiction.
    assert (G := proj1 (generated_exact HalfRotation p)). destruct G as [A [B [C' D]]].
    { exists (seq 1 9), (fun i => i), (seq 0 81). split; [reflexivity | ]. split; [reflexivity | exact E]. }
    clear E. exists p. auto 6.
  - destruct (generate_with_symmetry_from solution1 HalfRotation (seq 0 81)) as [p | | | ] eqn:E; try contradiction.
    destruct (proj1 (from_exact solution1 HalfRotation p W U)) as [A [B [C' D]]]; [exists (seq 0 81); split; [reflexivity | exact E] | ].
    clear E. exists p. destruct C as [C _]. auto 6.
  - clear C. intros M. apply (M 0 (lset solution1 0 0)); [lia | vm_compute; discriminate | | ].
    + split; [reflexivity | ]. split; [reflexivity | ]. intros x Hx N. rewrite at_lset by (vm_compute; lia).
      apply Nat.eqb_neq in N. rewrite N. reflexivity.
    + exists solution1. split; [split; [exact S | ] | ].
      * intros c Hc N. rewrite at_lset in * by (vm_compute; lia). destruct (c =? 0); [contradiction | reflexivity].
      * intros s' [S' E]. apply grid_ext; [apply S' | apply S | ].
        assert (Q : forall c, c < 81 -> c <> 0 -> at_ s' c = at_ solution1 c).
        { intros c Hc N. assert (Z := E c Hc). rewrite at_lset in Z by (vm_compute; lia). apply Nat.eqb_neq in N. rewrite N in Z. apply Z.
          assert (R := proj1 (proj2 S) c Hc). lia. }
        intros c Hc. destruct (Nat.eq_dec c 0) as [-> | N]; [ | apply Q; assumption].
        (* the first row has one digit left *)
        destruct (row_has_digit s' 0 (at_ solution1 0) S' ltac:(lia) (proj1 (proj2 S) 0 Hc)) as [x [Hx [Rx Ex]]].
        destruct (Nat.eq_dec x 0) as [-> | N]; [exact Ex | exfalso]. rewrite Q in Ex by assumption.
        apply N. apply (solved_same solution1 x 0 S Hx Hc Ex). left. exact Rx.
Qed.
