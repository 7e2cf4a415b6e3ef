(** Properties C25-C28: making a puzzle by removing clues. *)
From Coq Require Import List Arith Lia Permutation.
From Verif Require Import Spec SymSpec Solver Api SymGen SymProofs Samples.
Import ListNotations.

(** * C25: clues and unique solution are kept *)

Theorem C25_generate_total : forall src sym order, wf_grid src -> Permutation order (seq 0 81) ->
  exists g, generate_with_symmetry_from src sym order = Ok g /\ wf_grid g.
Proof. exact generate_total. Qed.
Print Assumptions C25_generate_total.

Theorem C25_generate_keeps_solution : forall src sym order g, wf_grid src -> Permutation order (seq 0 81) ->
  generate_with_symmetry_from src sym order = Ok g ->
  (forall c, c < 81 -> at_ g c = 0 \/ at_ g c = at_ src c) /\
  forall s, solution_of src s -> (forall s', solution_of src s' -> s' = s) ->
    solution_of g s /\ forall s', solution_of g s' -> s' = s.
Proof. exact generate_keeps. Qed.
Print Assumptions C25_generate_keeps_solution.

(** Non-trivial: a solved grid reduced to 28 clues by removing classes of the rotation by 180 degrees *)
Example C25_case :
  Permutation (seq 0 81) (seq 0 81) /\ solved solution1 /\ uniquely_solvable solution1 /\
  match generate_with_symmetry_from solution1 HalfRotation (seq 0 81) with
  | Ok g => length (filter (fun d => negb (d =? 0)) g) = 28 /\ nth 10 g 0 = 6
  | _ => False
  end.
Proof.
  split; [reflexivity | ]. assert (S : solved solution1) by (apply solvedb_ok; vm_compute; reflexivity).
  split; [exact S | ]. split; [apply solved_unique; exact S | ]. vm_compute. split; reflexivity.
Qed.

(** * C26: minimality *)

Theorem C26_generate_minimal : forall src sym order g c q,
  wf_grid src -> Permutation order (seq 0 81) -> uniquely_solvable src ->
  generate_with_symmetry_from src sym order = Ok g -> c < 81 -> at_ g c <> 0 -> class_removed sym c g q ->
  exists s1 s2, s1 <> s2 /\ solution_of q s1 /\ solution_of q s2.
Proof. exact generate_minimal. Qed.
Print Assumptions C26_generate_minimal.

Theorem C26_generate_minimal_single : forall src order g c q,
  wf_grid src -> Permutation order (seq 0 81) -> uniquely_solvable src ->
  generate_with_symmetry_from src NoSymmetry order = Ok g -> c < 81 -> at_ g c <> 0 ->
  length q = 81 -> at_ q c = 0 -> (forall x, x < 81 -> x <> c -> at_ q x = at_ g x) ->
  exists s1 s2, s1 <> s2 /\ solution_of q s1 /\ solution_of q s2.
Proof. exact generate_minimal_single. Qed.
Print Assumptions C26_generate_minimal_single.

(** Non-trivial: cell 10 keeps its clue in the puzzle above; emptying it and its image, cell 70, gives a [class_removed]
    grid for which the solver finds two solutions. *)
Example C26_case :
  orbit HalfRotation 10 70 /\
  match generate_with_symmetry_from solution1 HalfRotation (seq 0 81) with
  | Ok g => nth 10 g 0 <> 0 /\
      match clear_cells [10; 70] (repeat false 81) g with
      | Ok (_, q) => api_is_uniquely_solvable q = Ok false
      | _ => False
      end
  | _ => False
  end.
Proof.
  split; [apply (orbit_step HalfRotation 10 10 rotate_180); [apply orbit_refl | left; reflexivity] | ].
  vm_compute. split; [discriminate | reflexivity].
Qed.

(** * C27: symmetry *)

Theorem C27_generate_symmetric : forall src sym order g, solved src -> Permutation order (seq 0 81) ->
  generate_with_symmetry_from src sym order = Ok g -> symmetric sym g.
Proof. exact generate_symmetric_solved. Qed.
Print Assumptions C27_generate_symmetric.

Theorem C27_generate_preserves_symmetry : forall src sym order g, wf_grid src -> Permutation order (seq 0 81) ->
  symmetric sym src -> generate_with_symmetry_from src sym order = Ok g -> symmetric sym g.
Proof. exact generate_symmetric. Qed.
Print Assumptions C27_generate_preserves_symmetry.

Theorem C27_corresponding_cells_exact : forall sym c, c < 81 ->
  forall x, In x (corresponding_cells sym c) <-> orbit sym c x.
Proof. exact corresponding_cells_orbit. Qed.
Print Assumptions C27_corresponding_cells_exact.

(** Non-trivial: an orbit with eight cells, and a grid with a symmetric pattern that is not full *)
Example C27_case :
  corresponding_cells Dihedral 1 = [1; 7; 73; 79; 9; 17; 63; 71] /\ symmetric HalfRotation puzzle1 /\
  ~ symmetric VerticalMirror (5 :: repeat 0 80).
Proof.
  split; [vm_compute; reflexivity | ]. split.
  - intros f c [<- | []] Hc.
    assert (X : forallb (fun c => Bool.eqb (at_ puzzle1 (rotate_180 c) =? 0) (at_ puzzle1 c =? 0)) (seq 0 81) = true)
      by (vm_compute; reflexivity).
    rewrite forallb_forall in X. specialize (X c). rewrite in_seq in X. specialize (X ltac:(lia)).
    apply Bool.eqb_prop in X. rewrite <- !Nat.eqb_eq, X. reflexivity.
  - intros H. destruct (H mirror_v 0 (or_introl eq_refl) ltac:(lia)) as [H1 _].
    specialize (H1 eq_refl). discriminate H1.
Qed.

(** * C28: sources without a unique solution *)

Theorem C28_multiple_unchanged : forall src sym order s1 s2, wf_grid src -> Permutation order (seq 0 81) ->
  solution_of src s1 -> solution_of src s2 -> s1 <> s2 -> generate_with_symmetry_from src sym order = Ok src.
Proof. exact generate_multiple. Qed.
Print Assumptions C28_multiple_unchanged.

(** The other half of the documented behaviour is false: an invalid grid can be changed. *)
Theorem C28_invalid_unchanged_refuted : exists src sym order g,
  wf_grid src /\ Permutation order (seq 0 81) /\ (forall s, ~ solution_of src s) /\
  generate_with_symmetry_from src sym order = Ok g /\ g <> src.
Proof. exact invalid_changed. Qed.
Print Assumptions C28_invalid_unchanged_refuted.

(** What holds for an invalid source instead: it is returned as it is or made uniquely solvable. *)
Theorem C28_invalid_partial : forall src sym order g, wf_grid src -> Permutation order (seq 0 81) ->
  (forall s, ~ solution_of src s) -> generate_with_symmetry_from src sym order = Ok g ->
  g = src \/ uniquely_solvable g.
Proof. exact generate_invalid. Qed.
Print Assumptions C28_invalid_partial.

(** Non-trivial: a grid with many solutions is given back. *)
Example C28_case : generate_with_symmetry_from puzzle_many Dihedral (rev (seq 0 81)) = Ok puzzle_many.
Proof. vm_compute. reflexivity. Qed.
