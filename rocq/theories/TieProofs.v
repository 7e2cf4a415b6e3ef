(** How generation by removal of clues is related to symmetries of grids, and the symmetries of patterns to each other. *)
From Coq Require Import List Arith NArith ZArith ZifyNat Lia Bool Permutation.
From Verif Require Import Spec Samples CanonSpec RelateSpec Solver Api BitLemmas GridProofs ApiProofs SymSpec ReachSpec SymGen SymProofs EquivProofs StratSym RelateProofs CanonApi GenProofs KeepProofs TieSpec.
Import ListNotations.
Ltac Zify.zify_post_hook ::= Z.to_euclidean_division_equations.

(** * Generation commutes with symmetries *)

Lemma clear_act a t s c cur : sym_ok a -> carries a t s -> c < 81 ->
  clear (corresponding_cells s c) (act a cur) = act a (clear (corresponding_cells t (source a c)) cur).
Proof.
  intros Oa K Hc. apply grid_ext; [apply of_fun_length | apply act_length | ]. intros x Hx.
  assert (Sc := source_lt a c Oa). assert (Sx := source_lt a x Oa).
  rewrite at_clear, !at_act, at_clear by assumption.
  destruct (class_facts s c Hc) as [_ [_ [F _]]]. destruct (class_facts t (source a c) Sc) as [_ [_ [F' _]]].
  assert (E : memb x (corresponding_cells s c) = memb (source a x) (corresponding_cells t (source a c))).
  { apply eq_true_iff_eq. rewrite !memb_iff, F, F'. apply K; assumption. }
  rewrite <- E. destruct (memb x (corresponding_cells s c)); reflexivity.
Qed.

Lemma unique_act a p : sym_ok a -> wf_grid p -> (uniquely_solvable (act a p) <-> uniquely_solvable p).
Proof.
  intros Oa W. assert (Wa := act_wf a p Oa W). destruct (solver_symmetric a p 0 Oa W) as [_ [E _]].
  destruct (uniquely_solvable_exact p W) as [b [R H]]. destruct (uniquely_solvable_exact (act a p) Wa) as [b' [R' H']].
  rewrite R, R' in E. injection E as ->. rewrite <- H, <- H'. reflexivity.
Qed.

Lemma loop_act a t s order : sym_ok a -> carries a t s -> forall v w cur, (forall c, In c order -> c < 81) ->
  length v = 81 -> length w = 81 -> (forall x, x < 81 -> nth x v false = nth (source a x) w false) -> wf_grid cur ->
  exists g, removal_loop (map (source a) order) t w cur = Ok g /\ removal_loop order s v (act a cur) = Ok (act a g).
Proof.
  intros Oa K. induction order as [ | c order IH]; intros v w cur Ho Lv Lw Vw W; [exists cur; split; reflexivity | ].
  assert (Hc := Ho c (or_introl eq_refl)). assert (Ho' : forall x, In x order -> x < 81) by (intros x Hx; apply Ho; right; exact Hx).
  assert (Sc := source_lt a c Oa). cbn [map].
  destruct (loop_step s c order v (act a cur) Hc Lv (act_wf a cur Oa W)) as [v' [u [Lv' [V' [Hu E]]]]]. rewrite E.
  destruct (loop_step t (source a c) (map (source a) order) w cur Sc Lw W) as [w' [u' [Lw' [W' [Hu' E']]]]]. rewrite E'.
  clear E E'. rewrite <- (Vw c Hc). destruct (nth c v false); [apply IH; assumption | ].
  assert (Vw' : forall x, x < 81 -> nth x v' false = nth (source a x) w' false).
  { intros x Hx. rewrite V', W' by (try apply source_lt; assumption). f_equal; [ | apply Vw; exact Hx].
    destruct (class_facts s c Hc) as [_ [_ [F _]]]. destruct (class_facts t (source a c) Sc) as [_ [_ [F' _]]].
    apply eq_true_iff_eq. rewrite !memb_iff, F, F'. apply K; assumption. }
  rewrite (clear_act a t s c cur Oa K Hc) in *. assert (Wc := clear_wf (corresponding_cells t (source a c)) cur W).
  assert (Eu : u = u').
  { apply eq_true_iff_eq. rewrite Hu, Hu'. apply unique_act; assumption. }
  subst u'. destruct u; apply IH; assumption.
Qed.

Lemma generate_act a t s src order : sym_ok a -> carries a t s -> wf_grid src -> Permutation order (seq 0 81) ->
  exists g, generate_with_symmetry_from src t (map (source a) order) = Ok g /\ generate_with_symmetry_from (act a src) s order = Ok (act a g).
Proof.
  intros Oa K W P. apply loop_act; try assumption; try reflexivity.
  - intros c. apply order_cells. exact P.
  - intros x _. rewrite !nth_repeat_false. reflexivity.
Qed.

Lemma no_symmetry_orbit c x : orbit NoSymmetry c x <-> x = c.
Proof. split; [intros O; destruct O as [ | c' f _ []]; reflexivity | intros ->; apply orbit_refl]. Qed.

Lemma carries_none a : sym_ok a -> carries a NoSymmetry NoSymmetry.
Proof.
  intros Oa c c' Hc Hc'. rewrite !no_symmetry_orbit. split; [intros ->; reflexivity | ].
  intros E. rewrite <- (source_inv a c Oa Hc), <- (source_inv a c' Oa Hc'), E. reflexivity.
Qed.

Lemma source_same a b c : s_tr a = s_tr b -> s_rows a = s_rows b -> s_cols a = s_cols b -> source a c = source b c.
Proof. intros E1 E2 E3. unfold source. rewrite E1, E2, E3. reflexivity. Qed.

Lemma carries_renames a s : renames a -> carries a s s.
Proof.
  intros [E1 [E2 E3]] c c' Hc Hc'.
  rewrite !(source_same a (Sym false (seq 0 9) (seq 0 9) (seq 1 9))) by assumption. rewrite !source_id by assumption. reflexivity.
Qed.

(** Classes that agree under a map of cells *)
Definition carries_check (f : nat -> nat) (t s : symmetry) : bool :=
  forallb (fun c => let l := map f (corresponding_cells s c) in let m := corresponding_cells t (f c) in
    forallb (fun x => memb x m) l && forallb (fun x => memb x l) m) (seq 0 81).

Lemma carries_checked a f t s : sym_ok a -> (forall c, c < 81 -> source a c = f c) -> carries_check f t s = true -> carries a t s.
Proof.
  intros Oa Ef C c c' Hc Hc'. assert (Y := sweep1 81 _ C c Hc). cbv beta zeta in Y. rewrite andb_true_iff, !forallb_forall in Y. destruct Y as [Y1 Y2].
  assert (Sc := source_lt a c Oa). rewrite <- (Ef c Hc) in Y1, Y2.
  destruct (class_facts s c Hc) as [_ [B [F _]]]. destruct (class_facts t (source a c) Sc) as [_ [_ [F' _]]]. rewrite <- F, <- F'.
  split; intros I.
  - apply memb_iff, Y1. rewrite (Ef c' Hc'). apply in_map, I.
  - apply Y2, memb_iff, in_map_iff in I. destruct I as [z [Ez Iz]]. assert (Hz := B z Iz).
    rewrite <- (Ef z Hz) in Ez. rewrite <- (source_inv a c' Oa Hc'), <- Ez, source_inv by assumption. exact Iz.
Qed.

Lemma line_id i : i < 9 -> nth i (seq 0 9) 0 = i.
Proof. intros H. rewrite seq_nth by exact H. reflexivity. Qed.

Lemma line_rev i : i < 9 -> nth i (rev (seq 0 9)) 0 = 8 - i.
Proof. intros H. rewrite rev_nth by (rewrite seq_length; exact H). rewrite seq_length, seq_nth by lia. lia. Qed.

Lemma transposes_source a c : transposes a -> c < 81 -> source a c = mirror_d c.
Proof.
  intros [E1 [E2 E3]] Hc. unfold source, mirror_d, cell_of, row_of, col_of. rewrite E1, E2, E3, !line_id by lia. reflexivity.
Qed.

Lemma reverses_source a c : reverses a -> c < 81 -> source a c = mirror_v c.
Proof.
  intros [E1 [E2 E3]] Hc. unfold source, mirror_v, cell_of, row_of, col_of. rewrite E1, E2, E3, line_id, line_rev by lia. reflexivity.
Qed.

Lemma transpose_sweep : forallb (fun s => carries_check mirror_d (transposed s) s) all_symmetries = true.
Proof. vm_compute. reflexivity. Qed.
Lemma reverse_sweep : forallb (fun s => carries_check mirror_v (reversed s) s) all_symmetries = true.
Proof. vm_compute. reflexivity. Qed.

Lemma carries_transposes a s : sym_ok a -> transposes a -> carries a (transposed s) s.
Proof.
  intros Oa T. apply (carries_checked a mirror_d _ _ Oa); [intros c; apply transposes_source, T | ].
  exact (proj1 (forallb_forall _ _) transpose_sweep s (all_symmetries_in s)).
Qed.

Lemma carries_reverses a s : sym_ok a -> reverses a -> carries a (reversed s) s.
Proof.
  intros Oa T. apply (carries_checked a mirror_v _ _ Oa); [intros c; apply reverses_source, T | ].
  exact (proj1 (forallb_forall _ _) reverse_sweep s (all_symmetries_in s)).
Qed.

(** * The symmetries of patterns *)

(** The maps of the board by number *)
Definition bmap (i : nat) : nat -> nat := nth i board_maps (fun c => c).

Lemma board_map_lt i c : c < 81 -> bmap i c < 81.
Proof.
  intros Hc. unfold bmap, board_maps. do 8 (destruct i as [ | i]; [cbn [nth]; unfold rotate_180, rotate_90, mirror_v, mirror_h, mirror_d, mirror_a, cell_of, row_of, col_of; lia | ]).
  destruct i; exact Hc.
Qed.

(** products in the group of the board *)
Definition product_row (i : nat) : list nat :=
  nth i [[0;1;2;3;4;5;6;7]; [1;0;6;5;7;3;2;4]; [2;6;0;7;5;4;1;3]; [3;7;5;0;6;2;4;1]; [4;5;7;6;0;1;3;2]; [5;4;3;1;2;6;7;0]; [6;2;1;4;3;7;0;5]; [7;3;4;2;1;0;5;6]] [].
Definition product (i j : nat) : nat := nth j (product_row i) 0.

Lemma product_sweep : forallb (fun i => forallb (fun j => forallb (fun c => bmap i (bmap j c) =? bmap (product i j) c) (seq 0 81)) (seq 0 8)) (seq 0 8) = true.
Proof. vm_compute. reflexivity. Qed.

Lemma product_map i j c : i < 8 -> j < 8 -> c < 81 -> bmap i (bmap j c) = bmap (product i j) c.
Proof.
  intros Hi Hj Hc. assert (X := sweep1 8 _ product_sweep i Hi). cbv beta in X. apply (fun X => sweep1 8 _ X j Hj) in X. cbv beta in X.
  apply (fun X => sweep1 81 _ X c Hc) in X. apply Nat.eqb_eq in X. exact X.
Qed.

Lemma invariant_product g i j : i < 8 -> j < 8 -> invariant (bmap i) g -> invariant (bmap j) g -> invariant (bmap (product i j)) g.
Proof.
  intros Hi Hj I J c Hc. rewrite <- product_map by assumption. rewrite (I _ (board_map_lt j c Hc)). apply J, Hc.
Qed.

(** everything reached by products *)
Fixpoint closure (n : nat) (l : list nat) : list nat :=
  match n with O => l | S n' => closure n' (nodup Nat.eq_dec (l ++ flat_map (fun i => map (product i) l) l)) end.

Lemma product_lt i j : product i j < 8.
Proof.
  unfold product, product_row. do 8 (destruct i as [ | i]; [do 8 (destruct j as [ | j]; [cbn; lia | ]); destruct j; cbn; lia | ]).
  destruct i; destruct j; cbn; lia.
Qed.

Lemma closure_invariant n g : forall l, (forall i, In i l -> i < 8 /\ invariant (bmap i) g) -> forall i, In i (closure n l) -> i < 8 /\ invariant (bmap i) g.
Proof.
  induction n as [ | n IH]; intros l H i Hi; [apply H, Hi | ]. cbn [closure] in Hi. refine (IH _ _ i Hi). intros j Hj.
  apply nodup_In, in_app_or in Hj. destruct Hj as [Hj | Hj]; [apply H, Hj | ].
  apply in_flat_map in Hj. destruct Hj as [x [Hx Hj]]. apply in_map_iff in Hj. destruct Hj as [y [<- Hy]].
  destruct (H x Hx) as [L1 I1]. destruct (H y Hy) as [L2 I2]. split; [apply product_lt | apply invariant_product; assumption].
Qed.

(** the maps that leave patterns of a symmetry as they are, and those documented *)
Definition group_of (s : symmetry) : list nat :=
  match s with
  | VerticalMirror => [0; 1] | HorizontalMirror => [0; 2] | VerticalAndHorizontalMirror => [0; 1; 2; 6]
  | DiagonalMirror => [0; 3] | AntidiagonalMirror => [0; 4] | BidiagonalMirror => [0; 3; 4; 6]
  | QuarterRotation => [0; 5; 6; 7] | HalfRotation => [0; 6] | Dihedral => seq 0 8 | NoSymmetry => [0]
  end.
Definition generators (s : symmetry) : list nat :=
  match s with
  | VerticalMirror => [1] | HorizontalMirror => [2] | VerticalAndHorizontalMirror => [1; 2]
  | DiagonalMirror => [3] | AntidiagonalMirror => [4] | BidiagonalMirror => [3; 4]
  | QuarterRotation => [5; 6] | HalfRotation => [6] | Dihedral => [1; 2; 3; 4; 5; 6] | NoSymmetry => []
  end.

Lemma maps_generators s : maps_of s = map bmap (generators s).
Proof. destruct s; reflexivity. Qed.

Definition within (l m : list nat) : bool := forallb (fun x => memb x m) l.
Lemma within_ok l m : within l m = true -> forall x, In x l -> In x m.
Proof. intros H x Hx. apply memb_iff. exact (proj1 (forallb_forall _ _) H x Hx). Qed.

Lemma group_sweep : forallb (fun s => within (group_of s) (seq 0 8) && within (generators s) (group_of s) && within (group_of s) (closure 2 (0 :: generators s))) all_symmetries = true.
Proof. vm_compute. reflexivity. Qed.

Lemma group_facts s : (forall i, In i (group_of s) -> i < 8) /\ (forall i, In i (generators s) -> In i (group_of s)) /\
  (forall i, In i (group_of s) -> In i (closure 2 (0 :: generators s))).
Proof.
  assert (X := proj1 (forallb_forall _ _) group_sweep s (all_symmetries_in s)). cbv beta in X. rewrite !andb_true_iff in X. destruct X as [[X1 X2] X3].
  split; [intros i Hi; apply (within_ok _ _ X1), in_seq in Hi; lia | ]. split; apply within_ok; assumption.
Qed.

Lemma invariant_id g : invariant (bmap 0) g.
Proof. intros c _. reflexivity. Qed.

Lemma symmetric_group s g : symmetric s g <-> forall i, In i (group_of s) -> invariant (bmap i) g.
Proof.
  destruct (group_facts s) as [G1 [G2 G3]]. split.
  - intros H i Hi. refine (proj2 (closure_invariant 2 g (0 :: generators s) _ i (G3 i Hi))).
    intros j [<- | Hj]; [split; [lia | apply invariant_id] | ]. split; [apply G1, G2, Hj | ]. intros c Hc. apply H; [ | exact Hc].
    rewrite maps_generators. apply in_map, Hj.
  - intros H f c Hf Hc. rewrite maps_generators in Hf. apply in_map_iff in Hf. destruct Hf as [i [<- Hi]]. apply (H i (G2 i Hi) c Hc).
Qed.

Lemma board_map_index f : In f board_maps -> exists i, i < 8 /\ f = bmap i.
Proof. intros H. apply (In_nth _ _ (fun c => c)) in H. destruct H as [i [Hi <-]]. exists i. split; [exact Hi | reflexivity]. Qed.

Lemma join_sweep : forallb (fun s => forallb (fun i => existsb (fun t => within (group_of s) (group_of t) && memb i (group_of t) &&
  within (group_of t) (closure 2 (i :: group_of s))) all_symmetries) (seq 0 8)) all_symmetries = true.
Proof. vm_compute. reflexivity. Qed.

Lemma join_symmetry s i : i < 8 -> exists t, forall g, symmetric t g <-> invariant (bmap i) g /\ symmetric s g.
Proof.
  intros Hi. assert (X := proj1 (forallb_forall _ _) join_sweep s (all_symmetries_in s)). cbv beta in X.
  apply (fun X => sweep1 8 _ X i Hi) in X. cbv beta in X. apply existsb_exists in X. destruct X as [t [_ X]].
  rewrite !andb_true_iff in X. destruct X as [[X1 X2] X3]. exists t. intros g. rewrite !symmetric_group. split.
  - intros H. split; [apply H, memb_iff, X2 | ]. intros j Hj. apply H, (within_ok _ _ X1), Hj.
  - intros [Ii H] j Hj. refine (proj2 (closure_invariant 2 g (i :: group_of s) _ j (within_ok _ _ X3 j Hj))).
    intros k [<- | Hk]; [split; assumption | ]. split; [apply (proj1 (group_facts s)), Hk | apply H, Hk].
Qed.

Lemma symmetries_complete fs : (forall f, In f fs -> In f board_maps) ->
  exists s, forall g, symmetric s g <-> forall f, In f fs -> invariant f g.
Proof.
  induction fs as [ | f fs IH]; intros H.
  - exists NoSymmetry. intros g. split; [intros _ f [] | intros _ f c []].
  - destruct IH as [s Hs]; [intros x Hx; apply H; right; exact Hx | ].
    destruct (board_map_index f (H f (or_introl eq_refl))) as [i [Hi ->]]. destruct (join_symmetry s i Hi) as [t Ht].
    exists t. intros g. rewrite Ht, Hs. split; [intros [I1 I2] x [<- | Hx]; auto | ].
    intros I1. split; [apply I1; left; reflexivity | intros x Hx; apply I1; right; exact Hx].
Qed.

(** Which symmetries imply which *)
Definition symmetry_eqb (s t : symmetry) : bool :=
  match s, t with
  | VerticalMirror, VerticalMirror | HorizontalMirror, HorizontalMirror | VerticalAndHorizontalMirror, VerticalAndHorizontalMirror
  | DiagonalMirror, DiagonalMirror | AntidiagonalMirror, AntidiagonalMirror | BidiagonalMirror, BidiagonalMirror
  | QuarterRotation, QuarterRotation | HalfRotation, HalfRotation | Dihedral, Dihedral | NoSymmetry, NoSymmetry => true
  | _, _ => false
  end.
Lemma symmetry_eqb_ok s t : symmetry_eqb s t = true -> s = t.
Proof. destruct s, t; intros H; try discriminate; reflexivity. Qed.

Lemma implied_sweep : forallb (fun s => forallb (fun t => within (group_of t) (group_of s)) (implied s) &&
  forallb (fun t => implb (forallb (fun i => memb (bmap i 1) (corresponding_cells s 1)) (group_of t)) (existsb (symmetry_eqb t) (implied s))) all_symmetries)
  all_symmetries = true.
Proof. vm_compute. reflexivity. Qed.

Lemma implied_group s t : In t (implied s) -> forall i, In i (group_of t) -> In i (group_of s).
Proof.
  intros I. assert (X := proj1 (forallb_forall _ _) implied_sweep s (all_symmetries_in s)). cbv beta in X.
  apply andb_true_iff in X. destruct X as [X _]. rewrite forallb_forall in X. apply within_ok, X, I.
Qed.

Definition pattern_of (s : symmetry) : grid := of_fun (fun c => if memb c (corresponding_cells s 1) then 1 else 0).

Lemma pattern_wf s : wf_grid (pattern_of s).
Proof.
  apply wf_of_at; [apply of_fun_length | ]. intros c Hc. unfold pattern_of. rewrite at_of_fun by exact Hc. destruct (memb c _); lia.
Qed.

Lemma pattern_symmetric s : symmetric s (pattern_of s).
Proof.
  assert (H1 : 1 < 81) by lia. apply symmetric_group. intros i Hi c Hc. assert (Hb := board_map_lt i c Hc). unfold pattern_of. rewrite !at_of_fun by assumption.
  destruct (class_facts s 1 H1) as [_ [_ [F _]]].
  assert (E : memb (bmap i c) (corresponding_cells s 1) = memb c (corresponding_cells s 1)); [ | rewrite E; reflexivity].
  assert (X : forallb (fun s => forallb (fun i => forallb (fun c => Bool.eqb (memb (bmap i c) (corresponding_cells s 1)) (memb c (corresponding_cells s 1))) (seq 0 81)) (group_of s)) all_symmetries = true) by (vm_compute; reflexivity).
  rewrite forallb_forall in X. specialize (X s (all_symmetries_in s)). cbv beta in X. rewrite forallb_forall in X. specialize (X i Hi). cbv beta in X.
  apply (fun X => sweep1 81 _ X c Hc) in X. apply Bool.eqb_prop, X.
Qed.

Lemma implied_exact s t : (forall g, wf_grid g -> symmetric s g -> symmetric t g) <-> In t (implied s).
Proof.
  split.
  - intros H. specialize (H _ (pattern_wf s) (pattern_symmetric s)). rewrite symmetric_group in H. assert (H1 : 1 < 81) by lia.
    assert (X := proj1 (forallb_forall _ _) implied_sweep s (all_symmetries_in s)). cbv beta in X.
    apply andb_true_iff in X. destruct X as [_ X]. rewrite forallb_forall in X. specialize (X t (all_symmetries_in t)). cbv beta in X.
    assert (C : forallb (fun i => memb (bmap i 1) (corresponding_cells s 1)) (group_of t) = true).
    { apply forallb_forall. intros i Hi. specialize (H i Hi 1 H1). assert (Hb := board_map_lt i 1 H1). unfold pattern_of in H.
      rewrite !at_of_fun in H by assumption. destruct (class_facts s 1 H1) as [[r Er] _].
      assert (M : memb 1 (corresponding_cells s 1) = true) by (apply memb_iff; rewrite Er; left; reflexivity). rewrite M in H.
      destruct (memb (bmap i 1) (corresponding_cells s 1)); [reflexivity | ]. destruct H as [H _]. specialize (H eq_refl). discriminate. }
    rewrite C in X. cbn [implb] in X. apply existsb_exists in X. destruct X as [t' [I E]]. apply symmetry_eqb_ok in E. subst t'. exact I.
  - intros I g _ H. rewrite symmetric_group in *. intros i Hi. apply H, (implied_group s t I), Hi.
Qed.

(** * A finer symmetry first *)

Lemma group_orbit s i c : In i (group_of s) -> c < 81 -> orbit s c (bmap i c).
Proof.
  intros Hi Hc. destruct (class_facts s c Hc) as [_ [_ [F _]]]. apply F.
  assert (X : forallb (fun s => forallb (fun i => forallb (fun c => memb (bmap i c) (corresponding_cells s c)) (seq 0 81)) (group_of s)) all_symmetries = true) by (vm_compute; reflexivity).
  rewrite forallb_forall in X. specialize (X s (all_symmetries_in s)). cbv beta in X. rewrite forallb_forall in X. specialize (X i Hi). cbv beta in X.
  apply (fun X => sweep1 81 _ X c Hc) in X. apply memb_iff, X.
Qed.

Lemma orbit_trans s a b c : orbit s a b -> orbit s b c -> orbit s a c.
Proof. intros H O. induction O as [ | c f _ IH Hf]; [exact H | apply orbit_step; assumption]. Qed.

Lemma implied_orbit s t c x : In t (implied s) -> c < 81 -> orbit t c x -> orbit s c x.
Proof.
  intros I Hc O. assert (Q : orbit s c x /\ x < 81); [ | apply Q]. induction O as [ | x f _ [IH Hx] Hf]; [split; [apply orbit_refl | exact Hc] | ].
  rewrite maps_generators in Hf. apply in_map_iff in Hf. destruct Hf as [i [<- Hi]]. split; [ | apply board_map_lt, Hx].
  eapply orbit_trans; [exact IH | ]. apply group_orbit; [ | exact Hx]. apply (implied_group s t I), (proj1 (proj2 (group_facts t))), Hi.
Qed.

Lemma finer_first src s t order order' g : wf_grid src -> uniquely_solvable src -> In t (implied s) ->
  Permutation order (seq 0 81) -> Permutation order' (seq 0 81) ->
  generate_with_symmetry_from src t order = Ok g -> generate_with_symmetry_from g s order' = Ok g.
Proof.
  intros W U I P P' R. destruct (generate_total src t order W P) as [g' [R' Wg]]. rewrite R in R'. injection R' as <-.
  assert (Ug : uniquely_solvable g).
  { destruct U as [s0 [So U0]]. destruct (generate_keeps src t order g W P R) as [_ K]. exists s0. apply K; assumption. }
  assert (M : forall c q, c < 81 -> at_ g c <> 0 -> class_removed s c g q -> ~ uniquely_solvable q).
  { intros c q Hc Nz Q Uq. assert (Eq := removed_clear s c g q Hc Q).
    set (q' := clear (corresponding_cells t c) g). assert (C' : class_removed t c g q').
    { apply clear_removed; [exact Hc | ]. destruct (class_facts t c Hc) as [[r Er] _]. rewrite Er. left. reflexivity. }
    destruct (generate_minimal src t order g c q' W P U R Hc Nz C') as [s1 [s2 [D [S1 S2]]]].
    assert (Ex : extends q q').
    { intros x Hx N. destruct Q as [_ Q]. destruct C' as [_ C']. destruct (Q x Hx) as [Q1 Q2]. destruct (C' x Hx) as [C1 C2].
      destruct (class_facts t c Hc) as [_ [_ [F _]]]. destruct (class_facts s c Hc) as [_ [_ [Fs _]]].
      assert (N' : ~ orbit s c x) by (intros O; apply N, Q1, O). rewrite (Q2 N'). apply C2. intros O. apply N', (implied_orbit s t); assumption. }
    destruct Uq as [s0 [_ U0]]. apply D. rewrite (U0 s1), (U0 s2); [reflexivity | | ]; apply (solution_sub q'); assumption. }
  apply unchanged_iff; assumption.
Qed.

(** * Where this fails *)

Lemma coarser_first : exists src s t order order' g, solved src /\ In t (implied s) /\ Permutation order (seq 0 81) /\ Permutation order' (seq 0 81) /\
  generate_with_symmetry_from src s order = Ok g /\ generate_with_symmetry_from g t order' <> Ok g.
Proof.
  destruct symmetric_not_minimal as [src [order [g [c [q [So [P [R [Hc [Nz [L [Z [Q U]]]]]]]]]]]]].
  exists src, HalfRotation, NoSymmetry, order, (seq 0 81), g. split; [exact So | ]. split; [left; reflexivity | ]. split; [exact P | ]. split; [reflexivity | ].
  split; [exact R | ]. intros E. destruct (generate_total src HalfRotation order (solved_wf _ So) P) as [g' [R' Wg]]. rewrite R in R'. injection R' as <-.
  refine (proj1 (unchanged_iff g NoSymmetry (seq 0 81) Wg (Permutation_refl _)) E c q Hc Nz _ U). split; [exact L | ]. intros x Hx.
  rewrite no_symmetry_orbit. split; [intros ->; exact Z | apply Q, Hx].
Qed.

Definition first_rows : sym := Sym false [1; 0; 2; 3; 4; 5; 6; 7; 8] (seq 0 9) (seq 1 9).

Lemma half_run : match generate_with_symmetry_from solution1 HalfRotation (seq 0 81) with Ok g => (at_ g 10 =? 6) && (at_ g 79 =? 0) | _ => false end = true.
Proof. vm_compute. reflexivity. Qed.

Lemma any_symmetry_refuted : exists a src s order g, sym_ok a /\ solved src /\ Permutation order (seq 0 81) /\
  generate_with_symmetry_from src s (map (source a) order) = Ok g /\ generate_with_symmetry_from (act a src) s order <> Ok (act a g).
Proof.
  assert (Oa : sym_ok first_rows) by (apply sym_okb_ok; vm_compute; reflexivity).
  assert (So : solved solution1) by (apply solvedb_ok; vm_compute; reflexivity).
  assert (P := source_perm first_rows Oa).
  assert (M : map (source first_rows) (map (source first_rows) (seq 0 81)) = seq 0 81) by (vm_compute; reflexivity).
  destruct (generate_total solution1 HalfRotation (seq 0 81) (solved_wf _ So) (Permutation_refl _)) as [g [R W]].
  assert (X := half_run). rewrite R in X. apply andb_true_iff in X. destruct X as [X1 X2]. apply Nat.eqb_eq in X1, X2.
  exists first_rows, solution1, HalfRotation, (map (source first_rows) (seq 0 81)), g. rewrite M.
  split; [exact Oa | ]. split; [exact So | ]. split; [exact P | ]. split; [exact R | ]. intros E.
  assert (Sy := generate_symmetric_solved _ _ _ _ (act_solved first_rows _ Oa So) P E).
  specialize (Sy rotate_180 1 (or_introl eq_refl) ltac:(lia)). change (rotate_180 1) with 79 in Sy.
  rewrite !at_act in Sy by lia. change (source first_rows 79) with 79 in Sy. change (source first_rows 1) with 10 in Sy.
  rewrite X1, X2 in Sy. destruct Sy as [Sy _]. specialize (Sy eq_refl). discriminate Sy.
Qed.
