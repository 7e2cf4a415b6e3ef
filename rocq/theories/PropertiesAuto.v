(** Properties C82 and C83: the number of automorphisms; rotations and mirror images. *)
From Coq Require Import List Arith NArith ZArith Lia Bool Permutation.
From Verif Require Import Spec CanonSpec ShuffleSpec AutoSpec Solver Api Canon ApiProofs EquivProofs CanonApi TransProofs ShuffleProofs Samples
  AutoBound AutoProofs PropertiesCanon PropertiesRelate.
Import ListNotations.

(** * C82: at most 648 automorphisms *)

Theorem C82_at_most_648 : forall s, solved s -> forall n, automorphism_count s n -> n <= 648.
Proof. exact automorphisms_bound. Qed.
Print Assumptions C82_at_most_648.
Theorem C82_puzzle_at_most_648 : forall p s n, wf_grid p -> solution_of p s -> (forall s', solution_of p s' -> s' = s) ->
  automorphism_count p n -> n <= 648.
Proof. exact puzzle_bound. Qed.
Print Assumptions C82_puzzle_at_most_648.
(** The bound is attained. *)
Lemma highest_attained : exists s, solved s /\ automorphism_count s 648.
Proof. exists most_canonical. split; [apply C34_case | exact most_canonical_automorphisms]. Qed.
Theorem C82_highest : exists s, solved s /\ automorphism_count s 648.
Proof. exact highest_attained. Qed.
Print Assumptions C82_highest.
Theorem C82_reported_count : forall s m n, solved s -> canonicalized s = Ok (Some (m, n)) -> n <= 648.
Proof. exact canonicalized_bound. Qed.
Print Assumptions C82_reported_count.
(** A puzzle with one solution has at least 2 * 9! * 6^8 / 648 different shuffled forms. *)
Theorem C82_many_shuffles : forall p s, wf_grid p -> solution_of p s -> (forall s', solution_of p s' -> s' = s) ->
  exists m, exactly m (equivalent p) /\ (1881169920 <= N.of_nat m)%N.
Proof. exact shuffles_many. Qed.
Print Assumptions C82_many_shuffles.
(** With several solutions there can be more: all symmetries are automorphisms of the empty board. *)
Theorem C82_several_solutions_more : exists p n, wf_grid p /\ automorphism_count p n /\ N.of_nat n = 1218998108160%N.
Proof. exact empty_symmetries. Qed.
Print Assumptions C82_several_solutions_more.
Example C82_case : solved most_canonical /\ automorphism_count most_canonical 648 /\ wf_grid most_canonical /\
  solution_of most_canonical most_canonical /\ (forall s', solution_of most_canonical s' -> s' = most_canonical) /\
  exists m, canonicalized most_canonical = Ok (Some (m, 648)).
Proof.
  destruct C34_case as [So [E _]]. destruct C74_case as [W [A _]].
  split; [exact So | ]. split; [exact A | ]. split; [exact W | ]. split; [split; [exact So | intros c _ _; reflexivity] | ].
  split; [ | eexists; exact E].
  intros s' [S' X]. apply (nth_ext _ _ 0 0); [rewrite (proj1 S'), (proj1 So); reflexivity | ].
  intros c Hc. rewrite (proj1 S') in Hc. apply (X c Hc). assert (R := proj1 (proj2 So) c Hc). lia.
Qed.

(** * C83: rotations and mirror images *)

Theorem C83_turns_are_shuffles : forall g g', wf_grid g -> turned g g' ->
  exists x : draw, fair x /\ shuffle g (fst (fst x)) (snd (fst x)) (nth_rng (snd x)) = Ok g'.
Proof. exact turned_shuffle. Qed.
Print Assumptions C83_turns_are_shuffles.
(** Four quarter turns, two mirrorings, and the upside-down and diagonal mirror images; [turned] has all of these. *)
Theorem C83_eight_turns : forall g, wf_grid g ->
  (forall g', turned g g' <-> In g' [g; quarter_turn g; quarter_turn (quarter_turn g); quarter_turn (quarter_turn (quarter_turn g));
    mirrored g; quarter_turn (mirrored g); quarter_turn (quarter_turn (mirrored g)); quarter_turn (quarter_turn (quarter_turn (mirrored g)))]) /\
  (forall r k, r < 9 -> k < 9 ->
     at_ (quarter_turn g) (9 * k + (8 - r)) = at_ g (9 * r + k) /\ at_ (mirrored g) (9 * r + (8 - k)) = at_ g (9 * r + k) /\
     at_ (quarter_turn (mirrored g)) (9 * (8 - k) + (8 - r)) = at_ g (9 * r + k)).
Proof. exact eight_turns. Qed.
Print Assumptions C83_eight_turns.
Example C83_case : wf_grid puzzle1 /\ turned puzzle1 (mirrored (quarter_turn puzzle1)) /\ mirrored (quarter_turn puzzle1) <> puzzle1 /\
  quarter_turn puzzle1 <> puzzle1 /\ quarter_turn (quarter_turn puzzle1) <> puzzle1.
Proof.
  split; [apply wf_gridb_ok; vm_compute; reflexivity | ]. split; [repeat constructor | ].
  split; [vm_compute; discriminate | ]. split; vm_compute; discriminate.
Qed.
