(** Properties C90, C91: the canonical form of puzzles. *)
From Coq Require Import List Arith NArith.
From Verif Require Import Spec CanonSpec ShuffleSpec Solver Api Canon ApiProofs EquivProofs CanonApi RelateProofs Samples CanonIdem CanonOrbit PropertiesCanon.
Import ListNotations.

(** * C90: the result of [canonicalized] is its own canonical form *)

(** For puzzles as for solved grids *)
Theorem C90_idempotent : forall p q n, wf_grid p -> canonicalized p = Ok (Some (q, n)) -> canonicalized q = Ok (Some (q, n)).
Proof. exact canonicalized_idempotent. Qed.
Print Assumptions C90_idempotent.

(** Exactly those puzzles are left alone whose solution is the smallest of its class. *)
Theorem C90_fixed_exactly : forall q, wf_grid q ->
  ((exists n, canonicalized q = Ok (Some (q, n))) <-> exists m, api_solution q = Ok (Some m) /\ minlex_of m m).
Proof. exact canonicalized_fixed_iff. Qed.
Print Assumptions C90_fixed_exactly.

Lemma puzzle_sym_fixed : wf_grid puzzle_sym /\ api_solution puzzle_sym = Ok (Some most_canonical) /\ minlex_of most_canonical most_canonical.
Proof.
  split; [apply wf_gridb_ok; vm_compute; reflexivity | ]. split; [vm_compute; reflexivity | ].
  destruct C34_case as [So [E _]]. destruct (C32_canonical_minlex most_canonical So) as [m [n [E' [M _]]]].
  assert (X := eq_trans (eq_sym E') E). clear - X M. injection X as -> _. exact M.
Qed.

(** A puzzle with three empty cells, left alone *)
Example C90_case : wf_grid puzzle_sym /\ clue_count puzzle_sym = 78 /\ exists n, canonicalized puzzle_sym = Ok (Some (puzzle_sym, n)).
Proof.
  destruct puzzle_sym_fixed as [W [E M]]. split; [exact W | ]. split; [vm_compute; reflexivity | ].
  apply (C90_fixed_exactly puzzle_sym W). exists most_canonical. split; assumption.
Qed.

(** * C91: the results for all puzzles of one class *)

(** Two puzzles with the same result are equivalent. *)
Theorem C91_same_result : forall p p' q n n', wf_grid p -> wf_grid p' ->
  canonicalized p = Ok (Some (q, n)) -> canonicalized p' = Ok (Some (q, n')) -> equivalent p p'.
Proof. exact same_result_equivalent. Qed.
Print Assumptions C91_same_result.

(** The results for the puzzles of a class are the images of one of them under the symmetries of its solution. *)
Theorem C91_results_exactly : forall p q n m, wf_grid p -> canonicalized p = Ok (Some (q, n)) -> solution_of q m -> forall q',
  ((exists p' n', equivalent p p' /\ canonicalized p' = Ok (Some (q', n'))) <-> exists b, sym_ok b /\ act b m = m /\ q' = act b q).
Proof. exact results_orbit. Qed.
Print Assumptions C91_results_exactly.

(** Their number times the number of symmetries of the puzzle is the number that is returned. *)
Theorem C91_results_count : forall p q n j, wf_grid p -> canonicalized p = Ok (Some (q, n)) -> automorphism_count p j ->
  exists k, exactly k (fun q' => exists p' n', equivalent p p' /\ canonicalized p' = Ok (Some (q', n'))) /\ k * j = n.
Proof. exact results_count. Qed.
Print Assumptions C91_results_count.

(** There is one result for the whole class, as the documentation says, exactly if the puzzle has all symmetries of its
    solution. *)
Theorem C91_one_result : forall p q n, wf_grid p -> canonicalized p = Ok (Some (q, n)) ->
  ((forall p' q' n', equivalent p p' -> canonicalized p' = Ok (Some (q', n')) -> q' = q) <-> automorphism_count p n).
Proof. exact one_result. Qed.
Print Assumptions C91_one_result.

(** A puzzle with two different results in its class: it lacks some of the 648 symmetries of its solution. *)
Example C91_case : exists n, canonicalized puzzle_sym = Ok (Some (puzzle_sym, n)) /\ solution_of puzzle_sym most_canonical /\
  (exists p' n', equivalent puzzle_sym p' /\ canonicalized p' = Ok (Some (act stack_rotation puzzle_sym, n'))) /\
  act stack_rotation puzzle_sym <> puzzle_sym /\ ~ automorphism_count puzzle_sym n.
Proof.
  destruct puzzle_sym_fixed as [W [Es _]]. destruct C90_case as [_ [_ [n E]]]. exists n. destruct (proj1 (solution_iff puzzle_sym most_canonical W) Es) as [_ [So _]].
  assert (R : exists p' n', equivalent puzzle_sym p' /\ canonicalized p' = Ok (Some (act stack_rotation puzzle_sym, n'))).
  { apply (C91_results_exactly puzzle_sym puzzle_sym n most_canonical W E So). exists stack_rotation. destruct C34_case as [_ [_ [Hs Fs]]]. split; [exact Hs | split; [exact Fs | reflexivity]]. }
  assert (D : act stack_rotation puzzle_sym <> puzzle_sym). { intros H. assert (X : nth 0 (act stack_rotation puzzle_sym) 7 = nth 0 puzzle_sym 7) by (rewrite H; reflexivity). vm_compute in X. discriminate X. }
  split; [exact E | ]. split; [exact So | ]. split; [exact R | ]. split; [exact D | ].
  intros A. destruct R as [p' [n' [H1 H2]]]. apply D. apply (proj2 (C91_one_result puzzle_sym puzzle_sym n W E) A p' _ n' H1 H2).
Qed.
