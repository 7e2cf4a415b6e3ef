(** The puzzles that generation can produce are exactly the minimal ones. *)
From Coq Require Import List Arith NArith ZArith ZifyNat Lia Bool Permutation.
From Verif Require Import Spec Solver Api BitLemmas GridProofs ApiProofs SymSpec ReachSpec SymGen SymProofs Gen GenProofs.
Import ListNotations.

Lemma two_not_unique q s1 s2 : s1 <> s2 -> solution_of q s1 -> solution_of q s2 -> ~ uniquely_solvable q.
Proof. intros N S1 S2 [s [_ U]]. apply N. rewrite (U s1 S1), (U s2 S2). reflexivity. Qed.

Lemma orbit_lt sym c x : c < 81 -> orbit sym c x -> x < 81.
Proof. intros Hc O. destruct (class_facts sym c Hc) as [_ [F1 [F2 _]]]. apply F1, F2, O. Qed.

(** ** All or no clues of each class are kept *)

Lemma whole_refl sym g : whole_classes sym g g.
Proof. intros c _. right. reflexivity. Qed.

Lemma whole_clear sym src cur c : c < 81 -> whole_classes sym src cur -> whole_classes sym src (clear (corresponding_cells sym c) cur).
Proof.
  intros Hc H d Hd. destruct (class_facts sym c Hc) as [[t Ft] [C1 [C2 C3]]]. destruct (class_facts sym d Hd) as [[t' Ft'] [D1 [D2 D3]]].
  assert (Dd : In d (corresponding_cells sym d)) by (rewrite Ft'; left; reflexivity).
  assert (Hx : forall x, orbit sym d x -> at_ (clear (corresponding_cells sym c) cur) x = if memb d (corresponding_cells sym c) then 0 else at_ cur x).
  { intros x O. assert (X := orbit_lt sym d x Hd O). apply D2 in O. rewrite at_clear by exact X.
    replace (memb x (corresponding_cells sym c)) with (memb d (corresponding_cells sym c)); [reflexivity | ].
    apply eq_iff_eq_true. rewrite !memb_iff. split; intros I.
    - apply (C3 d x I). exact O.
    - apply (C3 x d I). apply (D3 x d O). exact Dd. }
  destruct (memb d (corresponding_cells sym c)).
  - left. exact Hx.
  - destruct (H d Hd) as [Z | Z]; [left | right]; intros x O; rewrite (Hx x O); apply Z; exact O.
Qed.

Lemma loop_whole sym src order : forall v cur g, (forall c, In c order -> c < 81) -> length v = 81 -> wf_grid cur -> whole_classes sym src cur ->
  removal_loop order sym v cur = Ok g -> whole_classes sym src g.
Proof.
  induction order as [ | c order IH]; intros v cur g Ho Lv W H R.
  - injection R as <-. exact H.
  - assert (Hc : c < 81) by (apply Ho; left; reflexivity).
    assert (Ho' : forall x, In x order -> x < 81) by (intros x Hx; apply Ho; right; exact Hx).
    destruct (class_facts sym c Hc) as [[t Ft] [F1 [F2 F3]]]. cbn [removal_loop] in R.
    assert (G1 : aget (corresponding_cells sym c) 0 = Ok c) by (rewrite Ft; reflexivity).
    assert (G2 : aget v c = Ok (nth c v false)) by (unfold aget; rewrite (nth_error_nth' v false) by lia; reflexivity).
    rewrite G1 in R. cbn [bind] in R. rewrite G2 in R. cbn [bind] in R. destruct (nth c v false) eqn:Seen; [exact (IH v cur g Ho' Lv W H R) | ].
    destruct (clear_cells_spec (corresponding_cells sym c) v cur Lv (proj1 W) F1) as [v' [Rc [Lv' V']]]. rewrite Rc in R. cbn [bind] in R.
    assert (Wt := clear_wf (corresponding_cells sym c) cur W).
    destruct (uniquely_solvable_exact _ Wt) as [u [Ru Hu]]. rewrite Ru in R. cbn [bind] in R.
    destruct u; [apply (IH v' _ g Ho' Lv' Wt); [apply whole_clear; assumption | exact R] | apply (IH v' cur g Ho' Lv' W H R)].
Qed.

(** ** A suitable order of the cells *)

Section Reach.
Variables (sym : symmetry) (src p s : grid).
Hypothesis Wp : wf_grid p.
Hypothesis Ws : wf_grid src.
Hypothesis Sub : extends p src.
Hypothesis Sol : solution_of src s.
Hypothesis Up : uniquely_solvable p.
Hypothesis Wh : whole_classes sym src p.
Hypothesis Mi : class_minimal sym p.

Definition hollow (c : nat) : bool := forallb (fun x => at_ p x =? 0) (corresponding_cells sym c).

Lemma hollow_iff c : c < 81 -> (hollow c = true <-> forall x, In x (corresponding_cells sym c) -> at_ p x = 0).
Proof. intros _. unfold hollow. rewrite forallb_forall. split; intros H x I; apply Nat.eqb_eq; apply H; exact I. Qed.

(** Cells without a clue in their class come first. *)
Definition good_order : list nat := filter hollow (seq 0 81) ++ filter (fun c => negb (hollow c)) (seq 0 81).

Lemma split_perm {A} (f : A -> bool) l : Permutation (filter f l ++ filter (fun x => negb (f x)) l) l.
Proof.
  induction l as [ | x l IH]; [constructor | ]. cbn [filter]. destruct (f x); cbn [negb app].
  - constructor. exact IH.
  - apply Permutation_sym. apply Permutation_cons_app. apply Permutation_sym. exact IH.
Qed.

Lemma good_order_perm : Permutation good_order (seq 0 81).
Proof. apply split_perm. Qed.

Lemma second_half order : (forall c, In c order -> c < 81 /\ hollow c = false) -> forall v, length v = 81 ->
  removal_loop order sym v p = Ok p.
Proof.
  induction order as [ | c order IH]; intros H v Lv; [reflexivity | ].
  destruct (H c (or_introl eq_refl)) as [Hc Nh]. assert (H' : forall x, In x order -> x < 81 /\ hollow x = false) by (intros x I; apply H; right; exact I).
  destruct (class_facts sym c Hc) as [[t Ft] [F1 [F2 F3]]]. cbn [removal_loop].
  assert (G1 : aget (corresponding_cells sym c) 0 = Ok c) by (rewrite Ft; reflexivity).
  assert (G2 : aget v c = Ok (nth c v false)) by (unfold aget; rewrite (nth_error_nth' v false) by lia; reflexivity).
  rewrite G1. cbn [bind]. rewrite G2. cbn [bind]. destruct (nth c v false) eqn:Seen; [apply IH; assumption | ].
  destruct (clear_cells_spec (corresponding_cells sym c) v p Lv (proj1 Wp) F1) as [v' [Rc [Lv' _]]]. rewrite Rc. cbn [bind].
  destruct (uniquely_solvable_exact _ (clear_wf (corresponding_cells sym c) p Wp)) as [u [Ru Hu]]. rewrite Ru. cbn [bind].
  assert (X : exists x, In x (corresponding_cells sym c) /\ at_ p x <> 0).
  { unfold hollow in Nh. clear - Nh. induction (corresponding_cells sym c) as [ | x l IHl]; [discriminate | ]. cbn [forallb] in Nh.
    destruct (at_ p x =? 0) eqn:E; [cbn [andb] in Nh; destruct (IHl Nh) as [y [I N]]; exists y; split; [right; exact I | exact N] | ].
    exists x. split; [left; reflexivity | apply Nat.eqb_neq; exact E]. }
  destruct X as [x [Ix Nx]]. assert (Hx := F1 x Ix). destruct (class_facts sym x Hx) as [_ [_ [X2 _]]].
  destruct u; [exfalso | apply IH; assumption].
  apply (Mi x (clear (corresponding_cells sym c) p) Hx Nx); [ | apply Hu; reflexivity].
  split; [apply of_fun_length | ]. intros y Hy. rewrite at_clear by exact Hy.
  assert (E : orbit sym x y <-> memb y (corresponding_cells sym c) = true) by (rewrite memb_iff, <- X2; apply F3; exact Ix).
  destruct (memb y (corresponding_cells sym c)); split; intros O; try reflexivity; exfalso; [apply O, E; reflexivity | apply E in O; discriminate].
Qed.

Lemma first_half order order2 : forall v cur, (forall c, In c order -> c < 81 /\ hollow c = true) -> (forall c, In c order2 -> c < 81 /\ hollow c = false) ->
  length v = 81 -> wf_grid cur -> extends p cur -> extends cur src ->
  (forall c, c < 81 -> nth c v false = true -> at_ cur c = 0) ->
  (forall c, c < 81 -> hollow c = true -> In c order \/ nth c v false = true) ->
  removal_loop (order ++ order2) sym v cur = Ok p.
Proof.
  induction order as [ | c order IH]; intros v cur H1 H2 Lv Wc Ep Es V A.
  - assert (E : cur = p); [ | rewrite E; apply second_half; assumption].
    apply grid_ext; [apply Wc | apply Wp | ]. intros x Hx. destruct (hollow x) eqn:Hh.
    + destruct (A x Hx Hh) as [[] | Vx]. rewrite (V x Hx Vx). symmetry. apply (proj1 (hollow_iff x Hx) Hh).
      destruct (class_facts sym x Hx) as [[t ->] _]. left. reflexivity.
    + destruct (class_facts sym x Hx) as [_ [_ [F2 _]]].
      assert (Q : at_ p x = at_ src x).
      { destruct (Wh x Hx) as [Z | Z]; [ | apply Z; apply orbit_refl]. exfalso.
        rewrite (proj2 (hollow_iff x Hx)) in Hh; [discriminate | ]. intros y I. apply Z, F2, I. }
      destruct (Nat.eq_dec (at_ p x) 0) as [Z | N]; [ | apply Ep; assumption].
      destruct (Nat.eq_dec (at_ cur x) 0) as [Z' | N']; [congruence | ]. assert (Y := Es x Hx N'). congruence.
  - destruct (H1 c (or_introl eq_refl)) as [Hc Hh]. assert (H1' : forall x, In x order -> x < 81 /\ hollow x = true) by (intros x I; apply H1; right; exact I).
    destruct (class_facts sym c Hc) as [[t Ft] [F1 [F2 F3]]]. cbn [app removal_loop].
    assert (G1 : aget (corresponding_cells sym c) 0 = Ok c) by (rewrite Ft; reflexivity).
    assert (G2 : aget v c = Ok (nth c v false)) by (unfold aget; rewrite (nth_error_nth' v false) by lia; reflexivity).
    rewrite G1. cbn [bind]. rewrite G2. cbn [bind]. destruct (nth c v false) eqn:Seen.
    + apply IH; try assumption. intros x Hx Hxh. destruct (A x Hx Hxh) as [[<- | I] | Vx]; auto.
    + destruct (clear_cells_spec (corresponding_cells sym c) v cur Lv (proj1 Wc) F1) as [v' [Rc [Lv' V']]]. rewrite Rc. cbn [bind].
      assert (Wt := clear_wf (corresponding_cells sym c) cur Wc).
      destruct (uniquely_solvable_exact _ Wt) as [u [Ru Hu]]. rewrite Ru. cbn [bind].
      assert (Ep' : extends p (clear (corresponding_cells sym c) cur)).
      { intros x Hx N. rewrite at_clear by exact Hx. destruct (memb x (corresponding_cells sym c)) eqn:M; [ | apply Ep; assumption].
        exfalso. apply N. apply (proj1 (hollow_iff c Hc) Hh). apply memb_iff. exact M. }
      assert (Es' : extends (clear (corresponding_cells sym c) cur) src) by (eapply extends_trans; [apply clear_extends | exact Es]).
      assert (Uc : uniquely_solvable (clear (corresponding_cells sym c) cur)).
      { exists s. split; [apply (solution_sub src); assumption | ]. destruct Up as [s0 [S0 U0]]. intros s' Hs'.
        rewrite (U0 s') by (apply (solution_sub _ _ _ Ep' Hs')). symmetry. apply U0. apply (solution_sub src); assumption. }
      assert (Tu : u = true) by (apply Hu; exact Uc). rewrite Tu. apply IH; try assumption.
      * intros x Hx Vx. rewrite at_clear by exact Hx. rewrite V' in Vx by exact Hx. destruct (memb x (corresponding_cells sym c)); [reflexivity | ].
        apply V; assumption.
      * intros x Hx Hxh. rewrite V' by exact Hx. destruct (A x Hx Hxh) as [[<- | I] | Vx]; [ | left; exact I | right; rewrite Vx; apply orb_true_r].
        right. apply orb_true_iff. left. apply memb_iff. rewrite Ft. left. reflexivity.
Qed.

Lemma reach_from : generate_with_symmetry_from src sym good_order = Ok p.
Proof.
  unfold generate_with_symmetry_from, good_order. apply first_half; try assumption.
  - intros c I. apply filter_In in I. destruct I as [I E]. apply in_seq in I. split; [lia | exact E].
  - intros c I. apply filter_In in I. destruct I as [I E]. apply in_seq in I. split; [lia | ]. destruct (hollow c); [discriminate | reflexivity].
  - reflexivity.
  - apply extends_refl.
  - intros c _ X. rewrite nth_repeat_false in X. discriminate.
  - intros c Hc Hh. left. apply filter_In. split; [apply in_seq; lia | exact Hh].
Qed.

End Reach.

Lemma from_exact src sym p : wf_grid src -> uniquely_solvable src ->
  (exists order, Permutation order (seq 0 81) /\ generate_with_symmetry_from src sym order = Ok p) <->
  wf_grid p /\ whole_classes sym src p /\ uniquely_solvable p /\ class_minimal sym p.
Proof.
  intros W U. split.
  - intros [order [P R]]. destruct (generate_total src sym order W P) as [g [R' Wg]]. rewrite R in R'. injection R' as <-.
    split; [exact Wg | ]. split; [ | split].
    + apply (loop_whole sym src order (repeat false 81) src); [intros c I; apply (order_cells order P); exact I | reflexivity | exact W | apply whole_refl | exact R].
    + destruct (generate_keeps src sym order p W P R) as [_ K]. pose proof U as [s [U1 U2]]. exists s. apply K; assumption.
    + intros c q Hc N Q. destruct (generate_minimal src sym order p c q W P U R Hc N Q) as [s1 [s2 [D [S1 S2]]]]. apply (two_not_unique q s1 s2); assumption.
  - intros [Wp [Wh [Up Mi]]]. destruct U as [s [Ss _]]. exists (good_order sym p). split; [apply good_order_perm | ].
    apply (reach_from sym src p s); try assumption.
    intros c Hc N. destruct (Wh c Hc) as [Z | Z]; [exfalso; apply N; apply Z; apply orbit_refl | symmetry; apply Z; apply orbit_refl].
Qed.

Lemma whole_of_symmetric sym p s : solution_of p s -> symmetric sym p -> whole_classes sym s p.
Proof.
  intros [_ E] S c Hc. assert (S' := proj1 (symmetric_iff_class sym p) S). destruct (class_facts sym c Hc) as [_ [F1 [F2 _]]].
  destruct (Nat.eq_dec (at_ p c) 0) as [Z | N].
  - left. intros x O. apply (S' c x Hc); [apply F2; exact O | exact Z].
  - right. intros x O. symmetry. apply E; [apply (orbit_lt sym c x Hc O) | ]. intros Z. apply N. apply (S' c x Hc); [apply F2; exact O | exact Z].
Qed.

Lemma generated_exact sym p :
  (exists perm rng order, Permutation perm (seq 1 9) /\ Permutation order (seq 0 81) /\ generate_with_symmetry sym perm rng order = Ok p) <->
  wf_grid p /\ uniquely_solvable p /\ symmetric sym p /\ class_minimal sym p.
Proof.
  split.
  - intros [perm [rng [order [Pp [Po R]]]]]. destruct (generate_puzzle sym perm rng order Pp Po) as [g [R' [Wg [Ug [Sg M]]]]].
    rewrite R in R'. injection R' as <-. split; [exact Wg | ]. split; [exact Ug | ]. split; [exact Sg | ].
    intros c q Hc N Q. destruct (M c q Hc N Q) as [s1 [s2 [D [S1 S2]]]]. apply (two_not_unique q s1 s2); assumption.
  - intros [Wp [Up [Sp Mp]]]. pose proof Up as [s [Ss _]]. assert (So : solved s) by apply Ss.
    destruct (generate_solved_reach s So) as [perm [rng [Pp R]]].
    destruct (proj2 (from_exact s sym p (solved_wf s So) (solved_unique s So))) as [order [Po Rf]].
    + split; [exact Wp | ]. split; [apply whole_of_symmetric; assumption | ]. split; assumption.
    + exists perm, rng, order. split; [exact Pp | ]. split; [exact Po | ]. unfold generate_with_symmetry. rewrite R. exact Rf.
Qed.

Lemma no_orbit c x : orbit NoSymmetry c x <-> x = c.
Proof. split; [intros O; induction O as [ | ? ? _ _ []]; reflexivity | intros ->; apply orbit_refl]. Qed.

Lemma minimal_no_symmetry p : class_minimal NoSymmetry p <-> minimal p.
Proof.
  split; intros M c q Hc N Q; apply (M c q Hc N).
  - destruct Q as [L [Z E]]. split; [exact L | ]. intros x Hx. rewrite no_orbit. split; [intros ->; exact Z | intros D; apply E; assumption].
  - destruct Q as [L E]. split; [exact L | ]. split; [apply (E c Hc); apply orbit_refl | ]. intros x Hx D. apply (E x Hx). rewrite no_orbit. exact D.
Qed.

Lemma generated_minimal p :
  (exists perm rng order, Permutation perm (seq 1 9) /\ Permutation order (seq 0 81) /\ generate_with_symmetry NoSymmetry perm rng order = Ok p) <->
  wf_grid p /\ uniquely_solvable p /\ minimal p.
Proof.
  rewrite generated_exact, minimal_no_symmetry. assert (S : symmetric NoSymmetry p) by (intros f c []). tauto.
Qed.

Lemma generate_half perm rng order : generate perm rng order = generate_with_symmetry HalfRotation perm rng order.
Proof. reflexivity. Qed.
