(** Automorphisms of puzzles; rotations and mirror images as shuffles. *)
From Coq Require Import List Arith NArith ZArith ZifyNat ZifyN ZifyBool Lia Bool Permutation.
From Verif Require Import Spec CanonSpec ShuffleSpec AutoSpec BitLemmas GridProofs ApiProofs EquivProofs Solver Api Canon TransProofs CanonApi ShuffleProofs RelateProofs AutoBound.
Import ListNotations.
Ltac Zify.zify_post_hook ::= Z.to_euclidean_division_equations.

Lemma puzzle_bound p s n : wf_grid p -> solution_of p s -> (forall s', solution_of p s' -> s' = s) -> automorphism_count p n -> n <= 648.
Proof.
  intros W So U [l [N [H <-]]]. assert (Hs : solved s) by (apply So).
  destruct (class_size s (solved_wf s Hs)) as [m [_ [A _]]]. pose proof A as [k [_ [Hk L]]].
  apply Nat.le_trans with m; [ | apply (automorphisms_bound s Hs); exact A]. rewrite <- L. apply NoDup_incl_length; [exact N | ].
  intros a I. apply H in I. destruct I as [O F]. apply Hk. split; [exact O | ]. apply (unique_fixed a p s); assumption.
Qed.

Lemma canonicalized_bound s m n : solved s -> canonicalized s = Ok (Some (m, n)) -> n <= 648.
Proof.
  intros Hs E. destruct (canonicalized_count s Hs) as [m' [n' [E' [A _]]]]. rewrite E in E'. injection E' as _ <-.
  apply (automorphisms_bound s Hs). exact A.
Qed.

Lemma shuffles_many p s : wf_grid p -> solution_of p s -> (forall s', solution_of p s' -> s' = s) ->
  exists m, exactly m (equivalent p) /\ (1881169920 <= N.of_nat m)%N.
Proof.
  intros W So U. destruct (class_size p W) as [n [m [A [E M]]]]. exists m. split; [exact E | ].
  assert (B := puzzle_bound p s n W So U A). assert (C : (N.of_nat n <= 648)%N) by lia. clear - M C. nia.
Qed.

Definition empty_board : grid := repeat 0 81.

Lemma empty_act s : sym_ok s -> act s empty_board = empty_board.
Proof.
  intros O. unfold act. change empty_board with (map (fun _ : nat => 0) (seq 0 81)) at 2. apply map_ext. intros c.
  replace (at_ empty_board (source s c)) with 0; [reflexivity | ]. unfold at_, empty_board. symmetry. 
  destruct (Nat.lt_ge_cases (source s c) 81) as [L | L]; [apply nth_repeat | apply nth_overflow; rewrite repeat_length; exact L].
Qed.

Lemma empty_automorphisms n : automorphism_count empty_board n -> N.of_nat n = 1218998108160%N.
Proof.
  intros A. assert (W : wf_grid empty_board) by (split; [reflexivity | apply Forall_forall; intros x I; apply repeat_spec in I; subst x; lia]).
  destruct (class_size empty_board W) as [n' [m [A' [[l [N [H L]]] M]]]].
  rewrite (automorphism_count_fun _ _ _ A A').
  assert (Q : forall x, In x l <-> x = empty_board).
  { intros x. rewrite H. split; [intros [s [O E]]; rewrite <- E; apply empty_act; exact O | intros ->; apply equiv_refl; exact W]. }
  assert (E : m = 1).
  { destruct l as [ | a [ | b l]]; [exfalso; apply (proj2 (Q empty_board) eq_refl) | symmetry; exact L | ].
    exfalso. inversion N as [ | ? ? X _]; subst. apply X. left.
    rewrite (proj1 (Q a) (or_introl eq_refl)). apply Q. right. left. reflexivity. }
  rewrite E in M. change (N.of_nat 1) with 1%N in M. rewrite N.mul_1_l in M. exact M.
Qed.

(** ** Rotations and mirror images *)

Definition reversed : list nat := [8; 7; 6; 5; 4; 3; 2; 1; 0].
Lemma reversed_line : line_perm reversed.
Proof.
  split; [apply Permutation_sym, (Permutation_rev (seq 0 9)) | ].
  intros i j Hi Hj E. assert (N : forall i, i < 9 -> nth i reversed 0 = 8 - i) by (intros x Hx; do 9 (destruct x as [ | x]; [reflexivity | ]); lia).
  rewrite !N by assumption. lia.
Qed.

Lemma rename_same d : d <= 9 -> rename (seq 1 9) d = d.
Proof. intros H. do 10 (destruct d as [ | d]; [reflexivity | ]). lia. Qed.

Lemma reversed_nth i : i < 9 -> nth i reversed 0 = 8 - i.
Proof. intros H. do 9 (destruct i as [ | i]; [reflexivity | ]). lia. Qed.

Lemma quarter_equiv g : wf_grid g -> equivalent g (quarter_turn g).
Proof.
  intros W. exists (Sym true (seq 0 9) reversed (seq 1 9)). split; [split; [apply seq_line | split; [apply reversed_line | reflexivity]] | ].
  unfold act, quarter_turn. apply map_ext_in. intros c I. apply in_seq in I. cbn [s_digits]. rewrite rename_same by (apply wf_le; exact W).
  unfold source. cbn [s_tr s_rows s_cols]. rewrite reversed_nth, seq_nth by lia. reflexivity.
Qed.

Lemma mirror_equiv g : wf_grid g -> equivalent g (mirrored g).
Proof.
  intros W. exists (Sym false (seq 0 9) reversed (seq 1 9)). split; [split; [apply seq_line | split; [apply reversed_line | reflexivity]] | ].
  unfold act, mirrored. apply map_ext_in. intros c I. apply in_seq in I. cbn [s_digits]. rewrite rename_same by (apply wf_le; exact W).
  unfold source. cbn [s_tr s_rows s_cols]. rewrite reversed_nth, seq_nth by lia. reflexivity.
Qed.

Lemma turned_equiv g g' : wf_grid g -> turned g g' -> equivalent g g' /\ wf_grid g'.
Proof.
  intros W T.
  assert (S : forall h h', wf_grid h -> equivalent g h -> equivalent h h' -> equivalent g h' /\ wf_grid h').
  { intros h h' Wh E E'. split; [apply (equiv_trans g h h'); assumption | ]. destruct E' as [s [O <-]]. apply act_wf; assumption. }
  induction T as [ | h T [E Wh] | h T [E Wh]]; [split; [apply equiv_refl; exact W | exact W] | | ];
    apply (S h); try assumption; [apply quarter_equiv | apply mirror_equiv]; exact Wh.
Qed.

Lemma turned_shuffle g g' : wf_grid g -> turned g g' ->
  exists x : draw, fair x /\ shuffle g (fst (fst x)) (snd (fst x)) (nth_rng (snd x)) = Ok g'.
Proof.
  intros W T. destruct (turned_equiv g g' W T) as [[s [O <-]] _]. destruct (choice_surj s O) as [x [F E]]. exists x. split; [exact F | ].
  rewrite choice_shuffle by exact W. rewrite E. reflexivity.
Qed.

(** The square has eight symmetries. *)

Lemma at_quarter g c : c < 81 -> at_ (quarter_turn g) c = at_ g (9 * (8 - c mod 9) + c / 9).
Proof.
  intros H. unfold quarter_turn, at_ at 1. rewrite (nth_indep _ 0 (at_ g (9 * (8 - 0 mod 9) + 0 / 9))) by (rewrite map_length, seq_length; exact H).
  rewrite (map_nth (fun c => at_ g (9 * (8 - c mod 9) + c / 9))), seq_nth by exact H. reflexivity.
Qed.
Lemma at_mirror g c : c < 81 -> at_ (mirrored g) c = at_ g (9 * (c / 9) + (8 - c mod 9)).
Proof.
  intros H. unfold mirrored, at_ at 1. rewrite (nth_indep _ 0 (at_ g (9 * (0 / 9) + (8 - 0 mod 9)))) by (rewrite map_length, seq_length; exact H).
  rewrite (map_nth (fun c => at_ g (9 * (c / 9) + (8 - c mod 9)))), seq_nth by exact H. reflexivity.
Qed.
Lemma quarter_length g : length (quarter_turn g) = 81. Proof. unfold quarter_turn. rewrite map_length. apply seq_length. Qed.
Lemma mirror_length g : length (mirrored g) = 81. Proof. unfold mirrored. rewrite map_length. apply seq_length. Qed.

Lemma cells_ext (a b : grid) : length a = 81 -> length b = 81 -> (forall c, c < 81 -> at_ a c = at_ b c) -> a = b.
Proof. intros La Lb H. apply (nth_ext _ _ 0 0); [lia | ]. intros c Hc. apply H. lia. Qed.

Lemma four_quarters g : length g = 81 -> quarter_turn (quarter_turn (quarter_turn (quarter_turn g))) = g.
Proof.
  intros L. apply cells_ext; [apply quarter_length | exact L | ]. intros c Hc.
  rewrite at_quarter by exact Hc. rewrite at_quarter by lia. rewrite at_quarter by lia. rewrite at_quarter by lia. f_equal. lia.
Qed.
Lemma two_mirrors g : length g = 81 -> mirrored (mirrored g) = g.
Proof.
  intros L. apply cells_ext; [apply mirror_length | exact L | ]. intros c Hc.
  rewrite at_mirror by exact Hc. rewrite at_mirror by lia. f_equal. lia.
Qed.
Lemma mirror_quarter g : mirrored (quarter_turn g) = quarter_turn (quarter_turn (quarter_turn (mirrored g))).
Proof.
  apply cells_ext; [apply mirror_length | apply quarter_length | ]. intros c Hc.
  rewrite at_mirror by exact Hc. rewrite at_quarter by lia. rewrite at_quarter by exact Hc. rewrite at_quarter by lia. rewrite at_quarter by lia.
  rewrite at_mirror by lia. f_equal. lia.
Qed.

Lemma eight_turns g : wf_grid g ->
  (forall g', turned g g' <-> In g' [g; quarter_turn g; quarter_turn (quarter_turn g); quarter_turn (quarter_turn (quarter_turn g));
    mirrored g; quarter_turn (mirrored g); quarter_turn (quarter_turn (mirrored g)); quarter_turn (quarter_turn (quarter_turn (mirrored g)))]) /\
  (forall r k, r < 9 -> k < 9 ->
     at_ (quarter_turn g) (9 * k + (8 - r)) = at_ g (9 * r + k) /\ at_ (mirrored g) (9 * r + (8 - k)) = at_ g (9 * r + k) /\
     at_ (quarter_turn (mirrored g)) (9 * (8 - k) + (8 - r)) = at_ g (9 * r + k)).
Proof.
  intros [L _]. assert (Lm := mirror_length g). split.
  - intros g'. split.
    + assert (Q4 := four_quarters g L). assert (QM4 := four_quarters _ Lm). assert (M2 := two_mirrors g L).
      intros T. induction T as [ | h T IH | h T IH]; [left; reflexivity | | ]; cbn [In] in IH.
      * repeat (destruct IH as [<- | IH]; [cbn [In]; rewrite ?Q4, ?QM4; tauto | ]). contradiction.
      * repeat (destruct IH as [<- | IH]; [cbn [In]; rewrite ?mirror_quarter, ?M2, ?Q4, ?four_quarters by (exact L || exact Lm || apply quarter_length); tauto | ]).
        contradiction.
    + intros I. cbn [In] in I. repeat (destruct I as [<- | I]; [repeat constructor | ]). contradiction.
  - intros r k Hr Hk. split; [ | split].
    + rewrite at_quarter by lia. f_equal. lia.
    + rewrite at_mirror by lia. f_equal. lia.
    + rewrite at_quarter by lia. rewrite at_mirror by lia. f_equal. lia.
Qed.

Lemma empty_symmetries : exists p n, wf_grid p /\ automorphism_count p n /\ N.of_nat n = 1218998108160%N.
Proof.
  assert (W : wf_grid empty_board) by (split; [reflexivity | apply Forall_forall; intros x I; apply repeat_spec in I; subst x; lia]).
  destruct (class_size empty_board W) as [n [_ [A _]]]. exists empty_board, n. split; [exact W | ]. split; [exact A | apply empty_automorphisms; exact A].
Qed.
