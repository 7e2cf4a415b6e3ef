(** The generators with a fixed symmetry, without reference to symmetries. *)
From Coq Require Import List Arith ZArith ZifyNat Lia Permutation.
From Verif Require Import Spec SymSpec Solver SymGen Gen GridProofs SymProofs GenProofs.
Import ListNotations.
Ltac Zify.zify_post_hook ::= Z.to_euclidean_division_equations.

Lemma rotate_180_eq c : c < 81 -> rotate_180 c = 80 - c.
Proof. intros H. unfold rotate_180, rotate_90, cell_of, row_of, col_of. lia. Qed.

Lemma orbit_half c x : c < 81 -> (orbit HalfRotation c x <-> x = c \/ x = 80 - c).
Proof.
  intros Hc. split.
  - intros H. induction H as [ | y f H IH Hin]; [left; reflexivity | ].
    cbn [maps_of In] in Hin. destruct Hin as [<- | []].
    destruct IH as [-> | ->]; rewrite rotate_180_eq by lia; lia.
  - intros [-> | ->]; [constructor | ]. rewrite <- (rotate_180_eq c Hc). apply orbit_step; [constructor | left; reflexivity].
Qed.

Lemma generate_default perm rng order : Permutation perm (seq 1 9) -> Permutation order (seq 0 81) ->
  exists g, generate perm rng order = Ok g /\ wf_grid g /\ uniquely_solvable g /\
    (forall c, c < 81 -> (at_ g (80 - c) = 0 <-> at_ g c = 0)) /\
    forall c q, c < 81 -> at_ g c <> 0 -> length q = 81 -> at_ q c = 0 -> at_ q (80 - c) = 0 ->
      (forall x, x < 81 -> x <> c -> x <> 80 - c -> at_ q x = at_ g x) ->
      exists s1 s2, s1 <> s2 /\ solution_of q s1 /\ solution_of q s2.
Proof.
  intros Pm Po. destruct (generate_puzzle HalfRotation perm rng order Pm Po) as [g [E [W [U [Sy M]]]]].
  exists g. split; [exact E | ]. split; [exact W | ]. split; [exact U | ]. split.
  - intros c Hc. rewrite <- (rotate_180_eq c Hc). apply Sy; [left; reflexivity | exact Hc].
  - intros c q Hc N Lq Q0 Q1 Q. apply (M c q Hc N). split; [exact Lq | ]. intros x Hx. split; intros K.
    + apply (orbit_half c x Hc) in K. destruct K as [-> | ->]; assumption.
    + apply Q; [exact Hx | | ]; intros Ex; apply K; apply (orbit_half c x Hc); auto.
Qed.

Lemma generate_from_minimal src order : wf_grid src -> Permutation order (seq 0 81) -> uniquely_solvable src ->
  exists g, generate_from src order = Ok g /\ wf_grid g /\ (forall c, c < 81 -> at_ g c = 0 \/ at_ g c = at_ src c) /\
    uniquely_solvable g /\ (forall s, solution_of src s -> solution_of g s) /\
    forall c q, c < 81 -> at_ g c <> 0 -> length q = 81 -> at_ q c = 0 -> (forall x, x < 81 -> x <> c -> at_ q x = at_ g x) ->
      exists s1 s2, s1 <> s2 /\ solution_of q s1 /\ solution_of q s2.
Proof.
  intros W Po U. destruct (generate_total src NoSymmetry order W Po) as [g [E Wg]].
  destruct (generate_keeps src NoSymmetry order g W Po E) as [K1 K2].
  exists g. split; [exact E | ]. split; [exact Wg | ]. split; [exact K1 | ]. split; [ | split].
  - destruct U as [s [U1 U2]]. exists s. apply K2; assumption.
  - intros s Hs. destruct U as [s0 [U1 U2]]. rewrite (U2 s Hs). apply K2; assumption.
  - intros c q. exact (generate_minimal_single src order g c q W Po U E).
Qed.
