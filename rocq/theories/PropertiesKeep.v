(** Properties C85 and C86: puzzles that are left as they are, and the clues of generated puzzles. *)
From Coq Require Import List Arith NArith Lia Bool Permutation.
From Verif Require Import Spec RelateSpec SymSpec ReachSpec KeepSpec Solver SymGen Gen GridProofs SymProofs GenProofs ReachProofs KeepProofs Samples PropertiesSym.
Import ListNotations.

(** * C85: unchanged puzzles *)

(** A grid, valid or not, is given back unchanged exactly if no class of its clues can be removed to leave one solution. *)
Theorem C85_unchanged_exact : forall src sym order, wf_grid src -> Permutation order (seq 0 81) ->
  (generate_with_symmetry_from src sym order = Ok src <->
   forall c q, c < 81 -> at_ src c <> 0 -> class_removed sym c src q -> ~ uniquely_solvable q).
Proof. exact unchanged_iff. Qed.
Print Assumptions C85_unchanged_exact.

(** Making a puzzle from a made puzzle changes nothing, whatever the random order. *)
Theorem C85_idempotent : forall src sym order order' g, wf_grid src -> uniquely_solvable src ->
  Permutation order (seq 0 81) -> Permutation order' (seq 0 81) ->
  generate_with_symmetry_from src sym order = Ok g -> generate_with_symmetry_from g sym order' = Ok g.
Proof. exact generate_idempotent. Qed.
Print Assumptions C85_idempotent.

(** A puzzle of 28 clues that is not changed any more; the solved grid it was made from is changed. *)
Example C85_case : exists g, wf_grid solution1 /\ uniquely_solvable solution1 /\ generate_with_symmetry_from solution1 HalfRotation (seq 0 81) = Ok g /\
  length (filter (fun d => negb (d =? 0)) g) = 28 /\ generate_with_symmetry_from g HalfRotation (rev (seq 0 81)) = Ok g /\ ~ class_minimal HalfRotation solution1.
Proof.
  destruct C25_case as [P [S [U C]]]. assert (W := solved_wf _ S). assert (I := unchanged_iff solution1 HalfRotation (seq 0 81) W P).
  assert (J := generate_idempotent solution1 HalfRotation (seq 0 81) (rev (seq 0 81))).
  destruct (generate_with_symmetry_from solution1 HalfRotation (seq 0 81)) as [g | | | ]; try contradiction. exists g.
  split; [exact W | ]. split; [exact U | ]. split; [reflexivity | ]. destruct C as [C _]. split; [exact C | ].
  split; [apply J; auto; apply Permutation_sym, Permutation_rev | ]. intros M. apply I in M. assert (E : g = solution1) by congruence.
  rewrite E in C. vm_compute in C. discriminate.
Qed.

(** * C86: the clues of generated puzzles *)

Theorem C86_generated_clues : forall sym perm rng order p, Permutation perm (seq 1 9) -> Permutation order (seq 0 81) ->
  generate_with_symmetry sym perm rng order = Ok p ->
  8 <= digit_count p /\ 8 <= clue_count p /\
  (forall i j, i < 9 -> j < 9 -> i <> j -> i / 3 = j / 3 -> ~ (empty_row p i /\ empty_row p j) /\ ~ (empty_col p i /\ empty_col p j)).
Proof. exact generated_clues. Qed.
Print Assumptions C86_generated_clues.

(** Without symmetry *)
Theorem C86_minimal_clues : forall perm rng order p, Permutation perm (seq 1 9) -> Permutation order (seq 0 81) ->
  generate_with_symmetry NoSymmetry perm rng order = Ok p ->
  never_full row_of p /\ never_full col_of p /\ never_full block_of p /\ (forall d, 1 <= d <= 9 -> clues_of p d <= 8) /\ clue_count p <= 72.
Proof. exact minimal_clues. Qed.
Print Assumptions C86_minimal_clues.

(** There are such runs, and a puzzle that is not minimal breaks every limit. *)
Example C86_case : (exists rng p, generate_with_symmetry NoSymmetry [3; 1; 4; 5; 9; 2; 6; 8; 7] rng (rev (seq 0 81)) = Ok p) /\
  digit_count puzzle_none = 1 /\ clue_count solution1 = 81 /\ clues_of solution1 4 = 9 /\ ~ never_full block_of solution1.
Proof.
  split.
  - exists (fun i => i). destruct (generate_puzzle NoSymmetry [3; 1; 4; 5; 9; 2; 6; 8; 7] (fun i => i) (rev (seq 0 81))) as [p [E _]].
    + apply NoDup_Permutation_bis.
      * apply (NoDup_nodup Nat.eq_dec [3; 1; 4; 5; 9; 2; 6; 8; 7]).
      * vm_compute. repeat constructor.
      * intros x Hx. apply in_seq. repeat (destruct Hx as [<- | Hx]; [repeat constructor | ]). destruct Hx.
    + apply Permutation_sym, Permutation_rev.
    + exists p. exact E.
  - split; [vm_compute; reflexivity | ]. split; [vm_compute; reflexivity | ]. split; [vm_compute; reflexivity | ].
    intros H. destruct (H 0 ltac:(lia)) as [c [Hc [_ Z]]]. destruct C25_case as [_ [S _]]. assert (X := proj1 (proj2 S) c Hc). lia.
Qed.
