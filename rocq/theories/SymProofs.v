(** The generation of puzzles by removal of clues. *)
From Coq Require Import List Arith NArith ZArith ZifyNat Lia Bool Permutation.
From Verif Require Import Spec Samples Tables Solver Api BitLemmas GridProofs ApiProofs SymSpec SymGen.
Import ListNotations.
Ltac Zify.zify_post_hook ::= Z.to_euclidean_division_equations.

(** * Symmetry classes *)

Definition memb (c : nat) (l : list nat) : bool := existsb (Nat.eqb c) l.
Lemma memb_iff c l : memb c l = true <-> In c l.
Proof. apply existsb_nat_eq. Qed.

Definition all_symmetries : list symmetry :=
  [VerticalMirror; HorizontalMirror; VerticalAndHorizontalMirror; DiagonalMirror; AntidiagonalMirror; BidiagonalMirror;
   QuarterRotation; HalfRotation; Dihedral; NoSymmetry].
Lemma all_symmetries_in s : In s all_symmetries.
Proof. destruct s; cbn; tauto. Qed.

(** all images of [c] under at most [n] maps *)
Fixpoint images (s : symmetry) (n : nat) (l : list nat) : list nat :=
  match n with O => l | S n' => images s n' (l ++ flat_map (fun c => map (fun f => f c) (maps_of s)) l) end.

Lemma images_orbit s c n : forall l, (forall x, In x l -> orbit s c x) -> forall x, In x (images s n l) -> orbit s c x.
Proof.
  induction n as [ | n IH]; intros l H x Hx; [apply H; exact Hx | ]. cbn [images] in Hx. eapply IH; [ | exact Hx].
  intros y Hy. apply in_app_or in Hy. destruct Hy as [Hy | Hy]; [apply H; exact Hy | ].
  apply in_flat_map in Hy. destruct Hy as [z [Hz Hy]]. apply in_map_iff in Hy. destruct Hy as [f [<- Hf]].
  apply orbit_step; [apply H; exact Hz | exact Hf].
Qed.

Definition class_ok (s : symmetry) (c : nat) : bool :=
  let cc := corresponding_cells s c in
  match cc with x :: _ => x =? c | [] => false end &&
  forallb (fun x => x <? 81) cc &&
  forallb (fun x => memb x (images s 2 [c])) cc &&
  forallb (fun x => forallb (fun f => memb (f x) cc) (maps_of s)) cc &&
  forallb (fun x => forallb (fun y => memb y cc) (corresponding_cells s x) &&
                    forallb (fun y => memb y (corresponding_cells s x)) cc) cc.

Lemma class_sweep : forallb (fun s => forallb (class_ok s) (seq 0 81)) all_symmetries = true.
Proof. vm_compute. reflexivity. Qed.

Lemma class_facts s c : c < 81 ->
  (exists t, corresponding_cells s c = c :: t) /\
  (forall x, In x (corresponding_cells s c) -> x < 81) /\
  (forall x, In x (corresponding_cells s c) <-> orbit s c x) /\
  (forall x y, In x (corresponding_cells s c) -> (In y (corresponding_cells s x) <-> In y (corresponding_cells s c))).
Proof.
  intros Hc. pose proof class_sweep as X. rewrite forallb_forall in X. specialize (X s (all_symmetries_in s)).
  pose proof (sweep1 81 _ X c Hc) as Y. clear X. cbv beta in Y. unfold class_ok in Y. rewrite !andb_true_iff, !forallb_forall in Y.
  destruct Y as [[[[H1 H2] H3] H4] H5].
  assert (E : exists t, corresponding_cells s c = c :: t).
  { destruct (corresponding_cells s c) as [ | x t]; [discriminate | ]. apply Nat.eqb_eq in H1. subst. exists t. reflexivity. }
  split; [exact E | ]. split; [intros x Hx; apply Nat.ltb_lt; auto | ]. split.
  - intros x. split.
    + intros Hx. apply (images_orbit s c 2 [c]); [ | apply memb_iff; auto]. intros y [<- | []]. apply orbit_refl.
    + intros O. induction O as [ | c' f _ IH Hf].
      * destruct E as [t ->]. left. reflexivity.
      * specialize (H4 c' IH). rewrite forallb_forall in H4. apply memb_iff. auto.
  - intros x y Hx. specialize (H5 x Hx). rewrite andb_true_iff, !forallb_forall in H5. destruct H5 as [H5 H6].
    split; intros Hy; apply memb_iff; auto.
Qed.

(** * Emptying cells *)

Definition clear (l : list nat) (g : grid) : grid := of_fun (fun c => if memb c l then 0 else at_ g c).

Lemma at_clear l g c : c < 81 -> at_ (clear l g) c = if memb c l then 0 else at_ g c.
Proof. intros H. unfold clear. rewrite at_of_fun by exact H. reflexivity. Qed.

Lemma wf_of_at g : length g = 81 -> (forall c, c < 81 -> at_ g c <= 9) -> wf_grid g.
Proof.
  intros L H. split; [exact L | ]. apply Forall_forall. intros d Hd. apply (in_at g d L) in Hd. destruct Hd as [c [Hc <-]]. auto.
Qed.
Lemma clear_wf l g : wf_grid g -> wf_grid (clear l g).
Proof.
  intros W. apply wf_of_at; [apply of_fun_length | ]. intros c Hc. rewrite at_clear by exact Hc.
  destruct (memb c l); [lia | apply wf_at; exact W].
Qed.
Lemma clear_extends l g : extends (clear l g) g.
Proof. intros c Hc. rewrite at_clear by exact Hc. destruct (memb c l); [congruence | reflexivity]. Qed.
Lemma clear_ext l l' g : (forall c, In c l <-> In c l') -> clear l g = clear l' g.
Proof.
  intros H. apply grid_ext; try apply of_fun_length. intros c Hc. rewrite !at_clear by exact Hc.
  assert (E : memb c l = memb c l'). { apply eq_iff_eq_true. rewrite !memb_iff. apply H. }
  rewrite E. reflexivity.
Qed.
Lemma clear_mono l g g' : extends g g' -> extends (clear l g) (clear l g').
Proof.
  intros E c Hc. rewrite !at_clear by exact Hc. destruct (memb c l); [congruence | apply E; exact Hc].
Qed.

Lemma extends_refl g : extends g g.
Proof. intros c _ _. reflexivity. Qed.
Lemma extends_trans a b c : extends a b -> extends b c -> extends a c.
Proof. intros H1 H2 x Hx N. rewrite (H2 x Hx); [apply H1; assumption | rewrite (H1 x Hx N); exact N]. Qed.
Lemma solution_sub p q s : extends q p -> solution_of p s -> solution_of q s.
Proof. intros E [S X]. split; [exact S | eapply extends_trans; eassumption]. Qed.

Lemma at_lset (l : grid) i v c : i < length l -> at_ (lset l i v) c = if c =? i then v else at_ l c.
Proof.
  unfold at_. revert i c. induction l as [ | x l IH]; intros i c H; [cbn in H; lia | ].
  destruct i as [ | i], c as [ | c]; cbn [lset nth Nat.eqb]; try reflexivity. apply IH. cbn [length] in H. lia.
Qed.
Lemma lset_length' {A} (l : list A) i v : length (lset l i v) = length l.
Proof. revert i. induction l as [ | x l IH]; intros [ | i]; cbn [lset length]; auto. Qed.
Lemma nth_lset {A} (l : list A) i v c d : i < length l -> nth c (lset l i v) d = if c =? i then v else nth c l d.
Proof.
  revert i c. induction l as [ | x l IH]; intros i c H; [cbn in H; lia | ].
  destruct i as [ | i], c as [ | c]; cbn [lset nth Nat.eqb]; try reflexivity. apply IH. cbn [length] in H. lia.
Qed.

Lemma clear_cells_spec cells : forall v g, length v = 81 -> length g = 81 -> (forall c, In c cells -> c < 81) ->
  exists v', clear_cells cells v g = Ok (v', clear cells g) /\ length v' = 81 /\
  forall c, c < 81 -> nth c v' false = memb c cells || nth c v false.
Proof.
  induction cells as [ | x cells IH]; intros v g Lv Lg H.
  - exists v. cbn [clear_cells]. split; [ | split; [exact Lv | reflexivity]]. do 2 f_equal.
    apply grid_ext; [exact Lg | apply of_fun_length | ]. intros c Hc. rewrite at_clear by exact Hc. reflexivity.
  - cbn [clear_cells]. assert (Hx : x < 81) by (apply H; left; reflexivity). unfold aset. rewrite Lv, Lg.
    replace (x <? 81) with true by (symmetry; apply Nat.ltb_lt; exact Hx). cbn [bind].
    destruct (IH (lset v x true) (lset g x 0)) as [v' [E [L' V]]].
    + rewrite lset_length'. exact Lv.
    + rewrite lset_length'. exact Lg.
    + intros c Hc. apply H. right. exact Hc.
    + exists v'. split; [ | split; [exact L' | ]].
      * rewrite E. do 2 f_equal. apply grid_ext; try apply of_fun_length. intros c Hc. rewrite !at_clear by exact Hc.
        rewrite at_lset by lia. unfold memb. cbn [existsb]. destruct (Nat.eqb_spec c x) as [-> | N]; cbn [orb]; [ | reflexivity].
        destruct (existsb _ _); reflexivity.
      * intros c Hc. rewrite V by exact Hc. rewrite nth_lset by lia. unfold memb. cbn [existsb].
        destruct (c =? x), (existsb (Nat.eqb c) cells); reflexivity.
Qed.

(** * The loop *)

Definition blocked (sym : symmetry) (src cur : grid) (c : nat) : Prop :=
  at_ cur c <> 0 -> exists cur', wf_grid cur' /\ extends cur cur' /\ extends cur' src /\
    ~ uniquely_solvable (clear (corresponding_cells sym c) cur').

Lemma blocked_mono sym src cur cur2 c : c < 81 -> extends cur2 cur -> blocked sym src cur c -> blocked sym src cur2 c.
Proof.
  intros Hc E B N. destruct B as [cur' [W [E1 [E2 U]]]].
  - rewrite (E c Hc N). exact N.
  - exists cur'. repeat split; try apply W; try assumption. eapply extends_trans; eassumption.
Qed.

Lemma symmetric_iff_class sym g : symmetric sym g <->
  forall c x, c < 81 -> In x (corresponding_cells sym c) -> (at_ g x = 0 <-> at_ g c = 0).
Proof.
  split.
  - intros H c x Hc Hx. assert (F := class_facts sym c Hc). destruct F as [_ [F1 [F2 _]]]. apply F2 in Hx.
    assert (X : x < 81 /\ (at_ g x = 0 <-> at_ g c = 0)); [ | apply X].
    induction Hx as [ | c' f O [L IH] Hf]; [split; [exact Hc | reflexivity] | ].
    split; [apply F1, F2, orbit_step; assumption | ]. rewrite <- IH. apply H; assumption.
  - intros H f c Hf Hc. apply H; [exact Hc | ].
    apply (proj1 (proj2 (proj2 (class_facts sym c Hc))) (f c)). apply orbit_step; [apply orbit_refl | exact Hf].
Qed.

Lemma clear_symmetric sym c g : c < 81 -> symmetric sym g -> symmetric sym (clear (corresponding_cells sym c) g).
Proof.
  intros Hc. rewrite !symmetric_iff_class. intros H d x Hd Hx.
  assert (Fd := class_facts sym d Hd). destruct Fd as [[t Ft] [F1 [F2 F3]]]. specialize (F1 x Hx).
  rewrite !at_clear by assumption.
  assert (E : memb x (corresponding_cells sym c) = memb d (corresponding_cells sym c)).
  { apply eq_iff_eq_true. rewrite !memb_iff. assert (Fc := class_facts sym c Hc). destruct Fc as [_ [_ [_ C3]]].
    assert (Dd : In d (corresponding_cells sym d)) by (rewrite Ft; left; reflexivity).
    split; intros I.
    - apply (C3 x d I). apply (F3 x d Hx). exact Dd.
    - apply (C3 d x I). exact Hx. }
  rewrite E. destruct (memb d _); [tauto | apply H; assumption].
Qed.

Lemma removal_loop_spec sym src order : forall v cur, (forall c, In c order -> c < 81) -> length v = 81 -> wf_grid cur ->
  extends cur src ->
  (forall c x, c < 81 -> nth c v false = true -> In x (corresponding_cells sym c) -> nth x v false = true) ->
  (forall c, c < 81 -> nth c v false = true -> blocked sym src cur c) ->
  exists g, removal_loop order sym v cur = Ok g /\ wf_grid g /\ extends g cur /\
    (symmetric sym cur -> symmetric sym g) /\
    (forall c, c < 81 -> In c order \/ nth c v false = true -> blocked sym src g c) /\
    (g = cur \/ uniquely_solvable g).
Proof.
  induction order as [ | c order IH]; intros v cur Ho Lv W E V B.
  - exists cur. cbn [removal_loop]. split; [reflexivity | ]. split; [exact W | ]. split; [apply extends_refl | ].
    split; [auto | ]. split; [ | left; reflexivity]. intros x Hx [[] | Hv]. apply B; assumption.
  - assert (Hc : c < 81) by (apply Ho; left; reflexivity).
    assert (Ho' : forall x, In x order -> x < 81) by (intros x Hx; apply Ho; right; exact Hx).
    destruct (class_facts sym c Hc) as [[t Ft] [F1 [F2 F3]]]. cbn [removal_loop].
    assert (G1 : aget (corresponding_cells sym c) 0 = Ok c) by (rewrite Ft; reflexivity).
    assert (G2 : aget v c = Ok (nth c v false)) by (unfold aget; rewrite (nth_error_nth' v false) by lia; reflexivity).
    rewrite G1. cbn [bind]. rewrite G2. cbn [bind]. destruct (nth c v false) eqn:Seen.
    + destruct (IH v cur Ho' Lv W E V B) as [g [R [Wg [Eg [Sg [Bg Ug]]]]]]. exists g. split; [exact R | ].
      split; [exact Wg | ]. split; [exact Eg | ]. split; [exact Sg | ]. split; [ | exact Ug].
      intros x Hx [[<- | Hi] | Hv]; apply Bg; auto.
    + destruct (clear_cells_spec (corresponding_cells sym c) v cur Lv (proj1 W) F1) as [v' [R [Lv' V']]]. rewrite R. cbn [bind].
      assert (Wt := clear_wf (corresponding_cells sym c) cur W).
      destruct (uniquely_solvable_exact _ Wt) as [u [Ru Hu]]. rewrite Ru. cbn [bind].
      assert (Cl : forall a b, a < 81 -> nth a v' false = true -> In b (corresponding_cells sym a) -> nth b v' false = true).
      { intros a b Ha Hv Hb. assert (Fa := class_facts sym a Ha). destruct Fa as [[ta Fta] [A1 [A2 A3]]]. rewrite V' in Hv by exact Ha.
        rewrite V' by (apply A1; exact Hb). apply orb_true_iff in Hv. apply orb_true_iff. destruct Hv as [Hv | Hv].
        - left. apply memb_iff in Hv. apply memb_iff. apply (F3 a b Hv). exact Hb.
        - right. apply (V a b Ha Hv Hb). }
      destruct u.
      * assert (Et := clear_extends (corresponding_cells sym c) cur).
        destruct (IH v' (clear (corresponding_cells sym c) cur) Ho' Lv' Wt (extends_trans _ _ _ Et E) Cl) as [g [Rg [Wg [Eg [Sg [Bg Ug]]]]]].
        { intros x Hx Hv. rewrite V' in Hv by exact Hx. apply orb_true_iff in Hv. destruct Hv as [Hv | Hv].
          - intros N. rewrite at_clear, Hv in N by exact Hx. contradiction.
          - apply (blocked_mono sym src cur); auto. }
        exists g. split; [exact Rg | ]. split; [exact Wg | ]. split; [eapply extends_trans; eassumption | ].
        split; [intros S; apply Sg, clear_symmetric; assumption | ]. split.
        -- intros x Hx [[<- | Hi] | Hv]; apply Bg; auto.
           ++ right. rewrite V' by exact Hx. apply orb_true_iff. left. apply memb_iff. rewrite Ft. left. reflexivity.
           ++ right. rewrite V' by exact Hx. rewrite Hv. apply orb_true_r.
        -- right. destruct Ug as [-> | Ug]; [apply Hu; reflexivity | exact Ug].
      * destruct (IH v' cur Ho' Lv' W E Cl) as [g [Rg [Wg [Eg [Sg [Bg Ug]]]]]].
        { intros x Hx Hv. rewrite V' in Hv by exact Hx. apply orb_true_iff in Hv. destruct Hv as [Hv | Hv]; [ | auto].
          apply memb_iff in Hv. intros _. exists cur. split; [exact W | ]. split; [apply extends_refl | ]. split; [exact E | ].
          rewrite (clear_ext (corresponding_cells sym x) (corresponding_cells sym c)) by (intros y; apply F3; exact Hv).
          intros U. apply Hu in U. discriminate. }
        exists g. split; [exact Rg | ]. split; [exact Wg | ]. split; [exact Eg | ]. split; [exact Sg | ]. split; [ | exact Ug].
        intros x Hx [[<- | Hi] | Hv]; apply Bg; auto.
        -- right. rewrite V' by exact Hx. apply orb_true_iff. left. apply memb_iff. rewrite Ft. left. reflexivity.
        -- right. rewrite V' by exact Hx. rewrite Hv. apply orb_true_r.
Qed.

Lemma order_cells order : Permutation order (seq 0 81) -> (forall c, In c order <-> c < 81).
Proof.
  intros P c. split; intros H.
  - apply (Permutation_in _ P) in H. apply in_seq in H. lia.
  - apply (Permutation_in _ (Permutation_sym P)). apply in_seq. lia.
Qed.

Lemma nth_repeat_false c n : nth c (repeat false n) false = false.
Proof. revert c. induction n as [ | n IH]; intros [ | c]; cbn [repeat nth]; auto. Qed.

Lemma generate_spec src sym order : wf_grid src -> Permutation order (seq 0 81) ->
  exists g, generate_with_symmetry_from src sym order = Ok g /\ wf_grid g /\ extends g src /\
    (symmetric sym src -> symmetric sym g) /\ (forall c, c < 81 -> blocked sym src g c) /\
    (g = src \/ uniquely_solvable g).
Proof.
  intros W P. unfold generate_with_symmetry_from. assert (O := order_cells order P).
  destruct (removal_loop_spec sym src order (repeat false 81) src) as [g [R [Wg [Eg [Sg [Bg Ug]]]]]].
  - intros c Hc. apply O. exact Hc.
  - reflexivity.
  - exact W.
  - apply extends_refl.
  - intros c x _ H. rewrite nth_repeat_false in H. discriminate.
  - intros c _ H. rewrite nth_repeat_false in H. discriminate.
  - exists g. split; [exact R | ]. split; [exact Wg | ]. split; [exact Eg | ]. split; [exact Sg | ]. split; [ | exact Ug].
    intros c Hc. apply Bg; [exact Hc | left; apply O; exact Hc].
Qed.

(** * The properties *)

Lemma generate_total src sym order : wf_grid src -> Permutation order (seq 0 81) ->
  exists g, generate_with_symmetry_from src sym order = Ok g /\ wf_grid g.
Proof. intros W P. destruct (generate_spec src sym order W P) as [g [R [Wg _]]]. eauto. Qed.

Lemma generate_keeps src sym order g : wf_grid src -> Permutation order (seq 0 81) ->
  generate_with_symmetry_from src sym order = Ok g ->
  (forall c, c < 81 -> at_ g c = 0 \/ at_ g c = at_ src c) /\
  forall s, solution_of src s -> (forall s', solution_of src s' -> s' = s) ->
    solution_of g s /\ forall s', solution_of g s' -> s' = s.
Proof.
  intros W P R. destruct (generate_spec src sym order W P) as [g' [R' [Wg [Eg [_ [_ Ug]]]]]]. rewrite R in R'. injection R' as <-.
  split.
  - intros c Hc. destruct (Nat.eq_dec (at_ g c) 0) as [Z | N]; [left; exact Z | right; symmetry; apply Eg; assumption].
  - intros s Hs U. assert (Sg := solution_sub _ _ _ Eg Hs). split; [exact Sg | ].
    destruct Ug as [-> | [s0 [_ U0]]]; [exact U | ]. intros s' Hs'. rewrite (U0 s' Hs'). symmetry. apply U0. exact Sg.
Qed.

Lemma two_solutions q s : wf_grid q -> solution_of q s -> ~ uniquely_solvable q ->
  exists s1 s2, s1 <> s2 /\ solution_of q s1 /\ solution_of q s2.
Proof.
  intros W S U. destruct (api_list q W) as [L [ND [IN _]]]. rewrite (unique_iff_length q L ND IN) in U.
  destruct L as [ | s1 [ | s2 L]].
  - apply IN in S. destruct S.
  - destruct U. reflexivity.
  - exists s1, s2. inversion ND as [ | ? ? N1 _]; subst. split; [intros ->; apply N1; left; reflexivity | ].
    split; apply IN; [left | right; left]; reflexivity.
Qed.

Lemma generate_minimal src sym order g c q : wf_grid src -> Permutation order (seq 0 81) -> uniquely_solvable src ->
  generate_with_symmetry_from src sym order = Ok g -> c < 81 -> at_ g c <> 0 -> class_removed sym c g q ->
  exists s1 s2, s1 <> s2 /\ solution_of q s1 /\ solution_of q s2.
Proof.
  intros W P [s [Hs _]] R Hc N [Lq Q]. destruct (generate_spec src sym order W P) as [g' [R' [Wg [Eg [_ [Bg _]]]]]].
  rewrite R in R'. injection R' as <-. destruct (Bg c Hc N) as [cur [Wc [E1 [E2 U]]]].
  destruct (class_facts sym c Hc) as [_ [_ [F2 _]]].
  assert (Eq : q = clear (corresponding_cells sym c) g).
  { apply grid_ext; [exact Lq | apply of_fun_length | ]. intros x Hx. rewrite at_clear by exact Hx. destruct (Q x Hx) as [Q1 Q2].
    destruct (memb x (corresponding_cells sym c)) eqn:M.
    - apply Q1, F2, memb_iff. exact M.
    - apply Q2. intros O. apply F2, memb_iff in O. congruence. }
  subst q.
  assert (Sc : solution_of (clear (corresponding_cells sym c) cur) s).
  { apply (solution_sub src); [ | exact Hs]. eapply extends_trans; [apply clear_extends | exact E2]. }
  destruct (two_solutions _ s (clear_wf _ _ Wc) Sc U) as [s1 [s2 [D [S1 S2]]]]. exists s1, s2. split; [exact D | ].
  split; (eapply solution_sub; [apply clear_mono; exact E1 | assumption]).
Qed.

Lemma generate_minimal_single src order g c q : wf_grid src -> Permutation order (seq 0 81) -> uniquely_solvable src ->
  generate_with_symmetry_from src NoSymmetry order = Ok g -> c < 81 -> at_ g c <> 0 ->
  length q = 81 -> at_ q c = 0 -> (forall x, x < 81 -> x <> c -> at_ q x = at_ g x) ->
  exists s1 s2, s1 <> s2 /\ solution_of q s1 /\ solution_of q s2.
Proof.
  intros W P U R Hc N Lq Q0 Q. eapply (generate_minimal src NoSymmetry order g c q); try eassumption. split; [exact Lq | ].
  assert (O : forall x, orbit NoSymmetry c x -> x = c). { intros x O. induction O as [ | ? ? ? _ []]. reflexivity. }
  intros x Hx. split.
  - intros X. rewrite (O x X). exact Q0.
  - intros X. apply Q; [exact Hx | ]. intros ->. apply X. apply orbit_refl.
Qed.

Lemma full_symmetric sym g : (forall c, c < 81 -> at_ g c <> 0) -> symmetric sym g.
Proof.
  intros H. apply symmetric_iff_class. intros c x Hc Hx. assert (Hx' : x < 81) by (apply (class_facts sym c Hc); exact Hx).
  specialize (H c Hc) as H1. specialize (H x Hx'). tauto.
Qed.

Lemma generate_symmetric src sym order g : wf_grid src -> Permutation order (seq 0 81) -> symmetric sym src ->
  generate_with_symmetry_from src sym order = Ok g -> symmetric sym g.
Proof.
  intros W P S R. destruct (generate_spec src sym order W P) as [g' [R' [_ [_ [Sg _]]]]]. rewrite R in R'. injection R' as <-. auto.
Qed.

Lemma generate_symmetric_solved src sym order g : solved src -> Permutation order (seq 0 81) ->
  generate_with_symmetry_from src sym order = Ok g -> symmetric sym g.
Proof.
  intros S P R. eapply generate_symmetric; [apply solved_wf; exact S | exact P | | exact R].
  apply full_symmetric. intros c Hc. destruct S as [_ [H _]]. specialize (H c Hc). lia.
Qed.

Lemma generate_multiple src sym order s1 s2 : wf_grid src -> Permutation order (seq 0 81) ->
  solution_of src s1 -> solution_of src s2 -> s1 <> s2 -> generate_with_symmetry_from src sym order = Ok src.
Proof.
  intros W P S1 S2 D. destruct (generate_spec src sym order W P) as [g [R [_ [Eg [_ [_ [-> | [s [_ U]]]]]]]]]; [exact R | ].
  destruct D. rewrite (U s1), (U s2) by (eapply solution_sub; eassumption). reflexivity.
Qed.

Lemma solved_unique s : solved s -> uniquely_solvable s.
Proof.
  intros S. exists s. split; [split; [exact S | apply extends_refl] | ]. intros s' [S' E]. apply grid_ext; [apply S' | apply S | ].
  intros c Hc. apply E; [exact Hc | ]. destruct S as [_ [H _]]. specialize (H c Hc). lia.
Qed.

(** An invalid source that is not returned as it is: a solved grid with one wrong digit in cell 0. *)
Definition wrong_source : grid := 9 :: tl solution1.

Lemma wrong_source_invalid s : ~ solution_of wrong_source s.
Proof.
  intros [[_ [_ S]] E]. apply (S 0 3); [lia | lia | | ].
  - split; [lia | left; reflexivity].
  - rewrite (E 0) by (vm_compute; lia). rewrite (E 3) by (vm_compute; lia). reflexivity.
Qed.

Lemma removal_step c t sym v g v' tmp : aget (corresponding_cells sym c) 0 = Ok c -> aget v c = Ok false ->
  clear_cells (corresponding_cells sym c) v g = Ok (v', tmp) -> api_is_uniquely_solvable tmp = Ok true ->
  removal_loop (c :: t) sym v g = removal_loop t sym v' tmp.
Proof.
  intros H1 H2 H3 H4. cbn [removal_loop]. rewrite H1. cbn [bind]. rewrite H2. cbn [bind]. rewrite H3. cbn [bind]. rewrite H4. reflexivity.
Qed.

Lemma wrong_source_changed : exists g, generate_with_symmetry_from wrong_source NoSymmetry (seq 0 81) = Ok g /\ g <> wrong_source.
Proof.
  assert (W : wf_grid wrong_source) by (apply wf_gridb_ok; vm_compute; reflexivity).
  assert (E : generate_with_symmetry_from wrong_source NoSymmetry (seq 0 81) =
              removal_loop (seq 1 80) NoSymmetry (true :: repeat false 80) (0 :: tl solution1)).
  { assert (A1 : aget (corresponding_cells NoSymmetry 0) 0 = Ok 0) by reflexivity.
    assert (A2 : aget (repeat false 81) 0 = Ok false) by reflexivity.
    assert (A3 : clear_cells (corresponding_cells NoSymmetry 0) (repeat false 81) wrong_source = Ok (true :: repeat false 80, 0 :: tl solution1))
      by reflexivity.
    assert (A4 : api_is_uniquely_solvable (0 :: tl solution1) = Ok true) by (vm_compute; reflexivity).
    unfold generate_with_symmetry_from. assert (A5 : seq 0 81 = 0 :: seq 1 80) by reflexivity. rewrite A5.
    exact (removal_step _ _ _ _ _ _ _ A1 A2 A3 A4). }
  destruct (removal_loop_spec NoSymmetry (0 :: tl solution1) (seq 1 80) (true :: repeat false 80) (0 :: tl solution1)) as [g [R [Wg [Eg _]]]].
  - intros c Hc. apply in_seq in Hc. lia.
  - reflexivity.
  - apply wf_gridb_ok. vm_compute. reflexivity.
  - apply extends_refl.
  - intros c x Hc H [<- | []]. exact H.
  - intros c Hc H N. destruct c as [ | c]; [destruct N; reflexivity | ]. cbn [nth] in H. rewrite nth_repeat_false in H. discriminate.
  - exists g. split; [rewrite E; exact R | ]. intros ->. assert (X := Eg 0 ltac:(lia)). vm_compute in X. specialize (X ltac:(discriminate)). discriminate.
Qed.

Lemma invalid_changed : exists src sym order g,
  wf_grid src /\ Permutation order (seq 0 81) /\ (forall s, ~ solution_of src s) /\
  generate_with_symmetry_from src sym order = Ok g /\ g <> src.
Proof.
  destruct wrong_source_changed as [g [R N]]. exists wrong_source, NoSymmetry, (seq 0 81), g.
  split; [apply wf_gridb_ok; vm_compute; reflexivity | ]. split; [reflexivity | ]. split; [exact wrong_source_invalid | ].
  split; [exact R | exact N].
Qed.

Lemma generate_invalid src sym order g : wf_grid src -> Permutation order (seq 0 81) ->
  (forall s, ~ solution_of src s) -> generate_with_symmetry_from src sym order = Ok g ->
  g = src \/ uniquely_solvable g.
Proof.
  intros W P _ R. destruct (generate_spec src sym order W P) as [g' [R' [_ [_ [_ [_ U]]]]]]. rewrite R in R'. injection R' as <-.
  exact U.
Qed.

Lemma corresponding_cells_orbit sym c : c < 81 -> forall x, In x (corresponding_cells sym c) <-> orbit sym c x.
Proof. intros H. apply (class_facts sym c H). Qed.
