(** Properties C12 (second part), C29-C34, C55: shuffling and the canonical form. *)
From Coq Require Import List Arith NArith Permutation.
From Verif Require Import Spec CanonSpec Solver Api Canon ApiProofs EquivProofs TransProofs CanonApi Samples.
Import ListNotations.

(** * C12: the number of clues survives shuffling *)

Theorem C12_n_clues_shuffle : forall g perm tr rng, wf_grid g ->
  exists g', shuffle g perm tr rng = Ok g' /\ api_n_clues g' = api_n_clues g.
Proof. exact shuffle_n_clues. Qed.
Print Assumptions C12_n_clues_shuffle.
Example C12_shuffle_case : match shuffle puzzle1 123456 true (fun i => i * i + 3) with
  | Ok g => api_n_clues g = 32 /\ firstn 9 (skipn 18 g) = [0; 5; 6; 9; 1; 0; 0; 2; 3] | _ => False end.
Proof. vm_compute. split; reflexivity. Qed.

(** * C29: shuffling stays in the class *)

Theorem C29_shuffle_class : forall g perm tr rng, wf_grid g -> exists g', shuffle g perm tr rng = Ok g' /\
  equivalent g g' /\ equivalent g' g /\ wf_grid g' /\ clue_count g' = clue_count g /\ (solved g' <-> solved g) /\
  (uniquely_solvable g' <-> uniquely_solvable g) /\ forall n, n_solutions g' n <-> n_solutions g n.
Proof. exact shuffle_class. Qed.
Print Assumptions C29_shuffle_class.

(** Non-trivial: the shuffled puzzle differs from the original and is uniquely solvable. *)
Example C29_case : match shuffle puzzle1 99999 true (fun i => 5 * i + 2) with
  | Ok g => g <> puzzle1 /\ api_is_uniquely_solvable g = Ok true | _ => False end.
Proof. vm_compute. split; [discriminate | reflexivity]. Qed.

(** * C30: the random transformation is genuine *)

Theorem C30_random_genuine : forall perm tr rng, exists t, trans_random perm tr rng = Ok t /\ Permutation (t_digits t) (seq 1 9) /\
  exists rows cols, line_perm rows /\ line_perm cols /\ forall g, wf_grid g ->
    trans_apply t g = Ok (act (Sym tr rows cols (t_digits t)) g) /\
    forall c, c < 81 -> (at_ (act (Sym tr rows cols (t_digits t)) g) c = 0 <-> at_ g (source (Sym tr rows cols (t_digits t)) c) = 0).
Proof. exact random_genuine. Qed.
Print Assumptions C30_random_genuine.
Example C30_case : exists t, trans_random 271828 true (fun i => 7 * i * i + 4) = Ok t /\
  t_digits t = [1; 7; 8; 9; 5; 6; 3; 4; 2] /\ t_rows t = [(2, 0); (1, 0); (2, 0)].
Proof. eexists. split; [vm_compute; reflexivity | split; reflexivity]. Qed.

(** * C31: the canonical form is invariant *)

(** For solved grids it decides equivalence, as the documentation says; the automorphism counts agree as well. *)
Theorem C31_canonical_iff_equivalent : forall s s', solved s -> solved s' ->
  (equivalent s s' <-> canonicalized s = canonicalized s').
Proof. exact canonicalized_iff. Qed.
Print Assumptions C31_canonical_iff_equivalent.

(** Equivalent puzzles: equivalent results with the same, canonical solution. *)
Theorem C31_puzzles_same_solution : forall p p' q q' n n', wf_grid p -> equivalent p p' ->
  canonicalized p = Ok (Some (q, n)) -> canonicalized p' = Ok (Some (q', n')) ->
  equivalent q q' /\ n = n' /\ exists m, (forall s, solution_of q s <-> s = m) /\ (forall s, solution_of q' s <-> s = m).
Proof. exact canonicalized_puzzles_solution. Qed.
Print Assumptions C31_puzzles_same_solution.

(** Equivalent puzzles whose solution has no automorphism other than the identity: the same result. *)
Theorem C31_puzzles_partial : forall p p' q q' n, wf_grid p -> equivalent p p' ->
  canonicalized p = Ok (Some (q, n)) -> canonicalized p' = Ok (Some (q', n)) -> n = 1 -> q = q'.
Proof. exact canonicalized_puzzles. Qed.
Print Assumptions C31_puzzles_partial.

(** A symmetry used in the examples: the stacks are rotated and the digits renamed accordingly; it fixes [most_canonical]. *)
Definition stack_rotation : sym := Sym false (seq 0 9) [3; 4; 5; 6; 7; 8; 0; 1; 2] [7; 8; 9; 1; 2; 3; 4; 5; 6].

Example C31_solved_case : solved most_canonical /\ solved solution1 /\ canonicalized most_canonical <> canonicalized solution1 /\
  sym_ok stack_rotation /\ solved (act stack_rotation solution1) /\ act stack_rotation solution1 <> solution1 /\
  canonicalized (act stack_rotation solution1) = canonicalized solution1.
Proof.
  split; [apply solvedb_ok; vm_compute; reflexivity | ]. split; [apply solvedb_ok; vm_compute; reflexivity | ].
  split; [vm_compute; discriminate | ]. split; [apply sym_okb_ok; vm_compute; reflexivity | ].
  split; [apply solvedb_ok; vm_compute; reflexivity | ]. split; [vm_compute; discriminate | vm_compute; reflexivity].
Qed.

Example C31_puzzles_case : match canonicalized puzzle1, canonicalized (act stack_rotation puzzle1) with
  | Ok (Some (q, n)), Ok (Some (q', n')) => q = q' /\ n = 1 /\ n' = 1 /\ q <> puzzle1 | _, _ => False end.
Proof. vm_compute. repeat (split; [reflexivity | ]). discriminate. Qed.

(** Without that restriction it is false: the two puzzles below are related by an automorphism of their common
    solution, so that the same transformation is applied to both. *)
Theorem C31_puzzles_refuted : exists p p' q q' n, wf_grid p /\ uniquely_solvable p /\ equivalent p p' /\
  canonicalized p = Ok (Some (q, n)) /\ canonicalized p' = Ok (Some (q', n)) /\ q <> q'.
Proof.
  exists puzzle_sym, (act stack_rotation puzzle_sym). do 3 eexists.
  assert (W : wf_grid puzzle_sym) by (apply wf_gridb_ok; vm_compute; reflexivity). split; [exact W | ].
  split. { destruct (uniquely_solvable_exact _ W) as [b [E H]]. apply H. vm_compute in E. injection E as <-. reflexivity. }
  split. { exists stack_rotation. split; [apply sym_okb_ok; vm_compute; reflexivity | reflexivity]. }
  split; [vm_compute; reflexivity | ]. split; [vm_compute; reflexivity | discriminate].
Qed.
Print Assumptions C31_puzzles_refuted.

(** * C32: the smallest equivalent grid *)

Theorem C32_canonical_minlex : forall s, solved s -> exists m n, canonicalized s = Ok (Some (m, n)) /\ minlex_of s m /\
  canonicalized m = Ok (Some (m, n)).
Proof. exact canonicalized_minlex. Qed.
Print Assumptions C32_canonical_minlex.
Example C32_case : solved solution1 /\ match canonicalized solution1 with
  | Ok (Some (m, _)) => m <> solution1 /\ firstn 12 m = [1; 2; 3; 4; 5; 6; 7; 8; 9; 4; 5; 7] | _ => False end.
Proof. split; [apply solvedb_ok; vm_compute; reflexivity | ]. vm_compute. split; [discriminate | reflexivity]. Qed.

(** * C33: total, and defined exactly on solvable input *)

Theorem C33_canonicalized_total : forall p, wf_grid p -> exists o, canonicalized p = Ok o /\
  (o = None <-> ~ solved p /\ api_solution p = Ok None) /\
  forall q n, o = Some (q, n) -> exists s a, (forall s', solution_of p s' <-> s' = s) /\ sym_ok a /\ q = act a p /\
    (forall s', solution_of q s' <-> s' = act a s) /\ minlex_of s (act a s) /\ automorphism_count s n.
Proof. exact canonicalized_total. Qed.
Print Assumptions C33_canonicalized_total.
Example C33_case : wf_grid puzzle1 /\ wf_grid puzzle_many /\ canonicalized puzzle_many = Ok None /\
  match canonicalized puzzle1 with Ok (Some (q, 1)) => api_n_clues q = 32 | _ => False end.
Proof.
  split; [apply wf_gridb_ok; vm_compute; reflexivity | ]. split; [apply wf_gridb_ok; vm_compute; reflexivity | ].
  split; vm_compute; reflexivity.
Qed.

(** * C34: the number of automorphisms *)

Theorem C34_automorphism_count : forall s, solved s ->
  exists m n, canonicalized s = Ok (Some (m, n)) /\ automorphism_count s n /\ 1 <= n.
Proof. exact canonicalized_count. Qed.
Print Assumptions C34_automorphism_count.
Example C34_case : solved most_canonical /\ canonicalized most_canonical = Ok (Some (most_canonical, 648)) /\
  sym_ok stack_rotation /\ act stack_rotation most_canonical = most_canonical.
Proof.
  split; [apply solvedb_ok; vm_compute; reflexivity | ]. split; [vm_compute; reflexivity | ].
  split; [apply sym_okb_ok; vm_compute; reflexivity | vm_compute; reflexivity].
Qed.

(** * C55: random choices and symmetries correspond one to one *)

(** [nth_rng draws] answers the [i]-th request with the [i]-th element of [draws]. *)
Theorem C55_random_bijective : forall s, sym_ok s ->
  exists perm tr draws, ((perm < 362880)%N /\ length draws = 8 /\ Forall (fun x => x < 6) draws /\
    exists t, trans_random perm tr (nth_rng draws) = Ok t /\ sym_of t = s) /\
  forall perm' tr' draws', (perm' < 362880)%N -> length draws' = 8 -> Forall (fun x => x < 6) draws' ->
    (exists t, trans_random perm' tr' (nth_rng draws') = Ok t /\ sym_of t = s) -> perm' = perm /\ tr' = tr /\ draws' = draws.
Proof. exact random_bijective. Qed.
Print Assumptions C55_random_bijective.

(** [sym_of t] is what [apply] does. *)
Theorem C55_apply_is_sym : forall t g, trans_ok t -> wf_grid g -> trans_apply t g = Ok (act (sym_of t) g).
Proof. exact trans_apply_act. Qed.
Print Assumptions C55_apply_is_sym.

Theorem C55_shuffle_reaches_class : forall g g', wf_grid g -> equivalent g g' -> exists perm tr rng, shuffle g perm tr rng = Ok g'.
Proof. exact shuffle_reach. Qed.
Print Assumptions C55_shuffle_reaches_class.
Example C55_case : sym_ok stack_rotation /\ act stack_rotation puzzle1 <> puzzle1.
Proof. split; [apply sym_okb_ok; vm_compute; reflexivity | vm_compute; discriminate]. Qed.
