(** Puzzles that generation leaves as they are, and the number of clues of generated puzzles. *)
From Coq Require Import List Arith NArith ZArith ZifyNat Lia Bool Permutation.
From Verif Require Import Spec RelateSpec Solver Api BitLemmas GridProofs ApiProofs SymSpec ReachSpec KeepSpec SymGen SymProofs Gen GenProofs ReachProofs RelateProofs.
Import ListNotations.

(** One step of the loop over the cells *)
Lemma loop_step sym c order v cur : c < 81 -> length v = 81 -> wf_grid cur ->
  exists v' u, length v' = 81 /\
    (forall x, x < 81 -> nth x v' false = memb x (corresponding_cells sym c) || nth x v false) /\
    (u = true <-> uniquely_solvable (clear (corresponding_cells sym c) cur)) /\
    removal_loop (c :: order) sym v cur =
      if nth c v false then removal_loop order sym v cur
      else removal_loop order sym v' (if u then clear (corresponding_cells sym c) cur else cur).
Proof.
  intros Hc Lv W. destruct (class_facts sym c Hc) as [[t Ft] [F1 _]]. cbn [removal_loop].
  assert (G1 : aget (corresponding_cells sym c) 0 = Ok c) by (rewrite Ft; reflexivity).
  assert (G2 : aget v c = Ok (nth c v false)) by (unfold aget; rewrite (nth_error_nth' v false) by lia; reflexivity).
  rewrite G1. cbn [bind]. rewrite G2. cbn [bind].
  destruct (clear_cells_spec (corresponding_cells sym c) v cur Lv (proj1 W) F1) as [v' [Rc [Lv' V']]].
  destruct (uniquely_solvable_exact _ (clear_wf (corresponding_cells sym c) cur W)) as [u [Ru Hu]].
  exists v', u. split; [exact Lv' | ]. split; [exact V' | ]. split; [exact Hu | ].
  destruct (nth c v false); [reflexivity | ]. rewrite Rc. cbn [bind]. rewrite Ru. reflexivity.
Qed.

Lemma loop_shrinks sym order : forall v cur g, (forall c, In c order -> c < 81) -> length v = 81 -> wf_grid cur ->
  removal_loop order sym v cur = Ok g -> extends g cur.
Proof.
  induction order as [ | c order IH]; intros v cur g Ho Lv W R; [injection R as <-; apply extends_refl | ].
  assert (Ho' : forall x, In x order -> x < 81) by (intros x Hx; apply Ho; right; exact Hx).
  destruct (loop_step sym c order v cur (Ho c (or_introl eq_refl)) Lv W) as [v' [u [Lv' [_ [_ E]]]]]. rewrite E in R.
  destruct (nth c v false); [exact (IH v cur g Ho' Lv W R) | ]. destruct u; [ | exact (IH v' cur g Ho' Lv' W R)].
  eapply extends_trans; [exact (IH v' _ g Ho' Lv' (clear_wf _ cur W) R) | apply clear_extends].
Qed.

(** The cleared grid is the one of the specification. *)
Lemma clear_removed sym c x p : c < 81 -> In x (corresponding_cells sym c) -> class_removed sym x p (clear (corresponding_cells sym c) p).
Proof.
  intros Hc Ix. destruct (class_facts sym c Hc) as [_ [F1 [F2 F3]]]. assert (Hx := F1 x Ix).
  destruct (class_facts sym x Hx) as [_ [_ [X2 _]]].
  split; [apply of_fun_length | ]. intros y Hy. rewrite at_clear by exact Hy.
  assert (E : orbit sym x y <-> memb y (corresponding_cells sym c) = true) by (rewrite memb_iff, <- X2; apply F3; exact Ix).
  destruct (memb y (corresponding_cells sym c)); split; intros O; try reflexivity; exfalso; [apply O, E; reflexivity | apply E in O; discriminate].
Qed.

Lemma removed_clear sym c p q : c < 81 -> class_removed sym c p q -> q = clear (corresponding_cells sym c) p.
Proof.
  intros Hc [L Q]. destruct (class_facts sym c Hc) as [[t Ft] _].
  destruct (clear_removed sym c c p Hc ltac:(rewrite Ft; left; reflexivity)) as [L' Q'].
  destruct (class_facts sym c Hc) as [_ [_ [F2 _]]].
  apply grid_ext; [exact L | exact L' | ]. intros x Hx. rewrite at_clear by exact Hx. destruct (memb x (corresponding_cells sym c)) eqn:M.
  - apply (Q x Hx). apply F2, memb_iff, M.
  - apply (Q x Hx). rewrite <- F2, <- memb_iff, M. discriminate.
Qed.

Lemma loop_stays sym p order : wf_grid p -> class_minimal sym p -> forall v, (forall c, In c order -> c < 81) -> length v = 81 ->
  removal_loop order sym v p = Ok p.
Proof.
  intros W M. induction order as [ | c order IH]; intros v Ho Lv; [reflexivity | ].
  assert (Ho' : forall x, In x order -> x < 81) by (intros x Hx; apply Ho; right; exact Hx).
  assert (Hc := Ho c (or_introl eq_refl)).
  destruct (loop_step sym c order v p Hc Lv W) as [v' [u [Lv' [_ [Hu E]]]]]. rewrite E.
  destruct (nth c v false); [apply IH; assumption | ].
  destruct u; [ | apply IH; assumption]. replace (clear (corresponding_cells sym c) p) with p; [apply IH; assumption | ].
  apply grid_ext; [apply W | apply of_fun_length | ]. intros x Hx. rewrite at_clear by exact Hx.
  destruct (memb x (corresponding_cells sym c)) eqn:Mx; [ | reflexivity]. apply memb_iff in Mx.
  destruct (Nat.eq_dec (at_ p x) 0) as [Z | N]; [exact Z | exfalso].
  apply (M x _ Hx N (clear_removed sym c x p Hc Mx)). apply Hu. reflexivity.
Qed.

Lemma loop_unchanged sym p order : wf_grid p -> forall v, (forall c, In c order -> c < 81) -> length v = 81 ->
  removal_loop order sym v p = Ok p -> forall x, In x order -> nth x v false = false -> at_ p x <> 0 ->
  ~ uniquely_solvable (clear (corresponding_cells sym x) p).
Proof.
  intros W. induction order as [ | c order IH]; intros v Ho Lv R x Ix Vx Nx U; [destruct Ix | ].
  assert (Ho' : forall y, In y order -> y < 81) by (intros y Hy; apply Ho; right; exact Hy).
  assert (Hc := Ho c (or_introl eq_refl)). assert (Hx := Ho x Ix).
  destruct (class_facts sym c Hc) as [[t Ft] [F1 [F2 F3]]].
  destruct (loop_step sym c order v p Hc Lv W) as [v' [u [Lv' [V' [Hu E]]]]]. rewrite E in R.
  destruct (nth c v false) eqn:Vc.
  - destruct Ix as [-> | Ix]; [congruence | ]. exact (IH v Ho' Lv R x Ix Vx Nx U).
  - destruct (memb x (corresponding_cells sym c)) eqn:Mx.
    + assert (Q : clear (corresponding_cells sym x) p = clear (corresponding_cells sym c) p).
      { symmetry. apply removed_clear; [exact Hx | ]. apply clear_removed; [exact Hc | apply memb_iff; exact Mx]. }
      rewrite Q in U. assert (Tu := proj2 Hu U). rewrite Tu in R.
      assert (Z := loop_shrinks sym order v' _ p Ho' Lv' (clear_wf (corresponding_cells sym c) p W) R x Hx Nx).
      rewrite at_clear, Mx in Z by exact Hx. congruence.
    + assert (Ix' : In x order).
      { destruct Ix as [<- | Ix]; [ | exact Ix]. exfalso. assert (Y : memb c (corresponding_cells sym c) = true) by (apply memb_iff; rewrite Ft; left; reflexivity). congruence. }
      assert (Vx' : nth x v' false = false) by (rewrite V', Mx by exact Hx; exact Vx).
      assert (R' : removal_loop order sym v' p = Ok p).
      { destruct u; [ | exact R]. rewrite <- R. f_equal. apply grid_ext; [apply W | apply of_fun_length | ]. intros y Hy.
        rewrite at_clear by exact Hy. destruct (memb y (corresponding_cells sym c)) eqn:My; [ | reflexivity].
        destruct (Nat.eq_dec (at_ p y) 0) as [Z | N]; [exact Z | exfalso].
        assert (Z := loop_shrinks sym order v' _ p Ho' Lv' (clear_wf (corresponding_cells sym c) p W) R y Hy N).
        rewrite at_clear, My in Z by exact Hy. congruence. }
      exact (IH v' Ho' Lv' R' x Ix' Vx' Nx U).
Qed.

Lemma unchanged_iff src sym order : wf_grid src -> Permutation order (seq 0 81) ->
  (generate_with_symmetry_from src sym order = Ok src <-> class_minimal sym src).
Proof.
  intros W P. assert (Ho : forall c, In c order -> c < 81) by (intros c I; apply (order_cells order P); exact I). split.
  - intros R c q Hc N Q U. rewrite (removed_clear sym c src q Hc Q) in U.
    apply (loop_unchanged sym src order W (repeat false 81) Ho eq_refl R c); try assumption.
    + apply (Permutation_in c (Permutation_sym P)). apply in_seq. lia.
    + apply nth_repeat_false.
  - intros M. apply loop_stays; [exact W | exact M | exact Ho | reflexivity].
Qed.

Lemma generate_idempotent src sym order order' g : wf_grid src -> uniquely_solvable src -> Permutation order (seq 0 81) -> Permutation order' (seq 0 81) ->
  generate_with_symmetry_from src sym order = Ok g -> generate_with_symmetry_from g sym order' = Ok g.
Proof.
  intros W U P P' R. destruct (proj1 (from_exact src sym g W U)) as [Wg [_ [_ M]]]; [exists order; split; assumption | ].
  apply unchanged_iff; assumption.
Qed.

(** * How many clues generated puzzles have *)

Definition without (c : nat) (p : grid) : grid := lset p c 0.

Lemma without_removed c p : wf_grid p -> c < 81 -> clue_removed c p (without c p).
Proof.
  intros [L _] Hc. unfold without. split; [rewrite lset_length'; exact L | ]. split.
  - rewrite at_lset by lia. rewrite Nat.eqb_refl. reflexivity.
  - intros x Hx N. rewrite at_lset by lia. apply Nat.eqb_neq in N. rewrite N. reflexivity.
Qed.

(** A clue of a minimal puzzle is not determined by the others. *)
Lemma clue_needed p s c : wf_grid p -> minimal p -> solution_of p s -> (forall s', solution_of p s' -> s' = s) -> c < 81 -> at_ p c <> 0 ->
  exists s', solved s' /\ (forall x, x < 81 -> x <> c -> at_ p x <> 0 -> at_ s' x = at_ s x) /\ at_ s' c <> at_ s c.
Proof.
  intros W M S U Hc N. pose proof (without_removed c p W Hc) as Q. specialize (M c _ Hc N Q).
  destruct Q as [Lq [Zq Eq]]. assert (Wq : wf_grid (without c p)).
  { split; [exact Lq | ]. apply Forall_forall. intros d I. apply (In_nth _ _ 0) in I. destruct I as [i [Hi E]]. rewrite Lq in Hi. fold (at_ (without c p) i) in E.
    destruct (Nat.eq_dec i c) as [-> | Ni]; [lia | ]. rewrite Eq in E by assumption. destruct W as [Lp F]. rewrite Forall_forall in F. apply F.
    rewrite <- E. apply nth_In. lia. }
  assert (Sq : solution_of (without c p) s).
  { split; [apply S | ]. intros x Hx Nx. destruct (Nat.eq_dec x c) as [-> | Ni]; [congruence | ]. rewrite Eq in * by assumption. apply S; assumption. }
  destruct (n_solutions_exists _ Wq) as [n Hn].
  destruct Hn as [l [ND [Il Ln]]].
  assert (Y : exists s', In s' l /\ s' <> s).
  { destruct (Nat.eq_dec n 1) as [-> | N1].
    - exfalso. apply M. exists s. split; [exact Sq | ]. intros s' Hs'. apply Il in Hs'. apply Il in Sq.
      destruct l as [ | a [ | b l]]; try discriminate Ln. destruct Hs' as [<- | []]. destruct Sq as [<- | []]. reflexivity.
    - apply Il in Sq. destruct l as [ | a [ | b l]]; [destruct Sq | exfalso; apply N1; rewrite <- Ln; reflexivity | ].
      inversion ND as [ | ? ? Na _]; subst. destruct (list_eq_dec Nat.eq_dec a s) as [-> | D].
      + exists b. split; [right; left; reflexivity | ]. intros ->. apply Na. left. reflexivity.
      + exists a. split; [left; reflexivity | exact D]. }
  destruct Y as [s' [I' D]]. apply Il in I'. destruct I' as [So' E']. exists s'. split; [exact So' | ].
  assert (A : forall x, x < 81 -> x <> c -> at_ p x <> 0 -> at_ s' x = at_ s x).
  { intros x Hx Nx Np. transitivity (at_ p x); [ | symmetry; apply S; assumption]. rewrite <- Eq by assumption. apply E'; [exact Hx | ].
    rewrite Eq by assumption. exact Np. }
  split; [exact A | ]. intros E. apply D. apply U. split; [exact So' | ]. intros x Hx Np.
  transitivity (at_ s x); [ | apply S; assumption]. destruct (Nat.eq_dec x c) as [-> | Nx]; [exact E | apply A; assumption].
Qed.

Lemma house_never_full f p s : (forall r v, r < 9 -> 1 <= v <= 9 -> forall t, solved t -> exists c, c < 81 /\ f c = r /\ at_ t c = v) ->
  (forall t c c', solved t -> c < 81 -> c' < 81 -> at_ t c = at_ t c' -> f c = f c' -> c = c') ->
  wf_grid p -> minimal p -> solution_of p s -> (forall s', solution_of p s' -> s' = s) -> never_full f p.
Proof.
  intros Has Same W M S U h Hh. destruct (Has h 1 Hh ltac:(lia) s (proj1 S)) as [c [Hc [Fc _]]].
  destruct (Nat.eq_dec (at_ p c) 0) as [Z | N]; [exists c; auto | ].
  destruct (clue_needed p s c W M S U Hc N) as [s' [S' [A D]]].
  destruct (Has h (at_ s c) Hh (proj1 (proj2 (proj1 S)) c Hc) s' S') as [x [Hx [Fx Ex]]].
  destruct (Nat.eq_dec x c) as [-> | Nx]; [contradiction | ].
  destruct (Nat.eq_dec (at_ p x) 0) as [Z | Np]; [exists x; auto | exfalso].
  apply Nx. apply (Same s); [apply S | exact Hx | exact Hc | | congruence]. rewrite <- (A x Hx Nx Np). exact Ex.
Qed.

Lemma rows_never_full p s : wf_grid p -> minimal p -> solution_of p s -> (forall s', solution_of p s' -> s' = s) ->
  never_full row_of p /\ never_full col_of p /\ never_full block_of p.
Proof.
  intros W M S U. split; [ | split]; apply (house_never_full _ p s); try assumption.
  - intros r v Hr Hv t Ht. apply row_has_digit; assumption.
  - intros t c c' Ht Hc Hc' E F. apply (solved_same t c c' Ht Hc Hc' E). auto.
  - intros r v Hr Hv t Ht. apply col_has_digit; assumption.
  - intros t c c' Ht Hc Hc' E F. apply (solved_same t c c' Ht Hc Hc' E). auto.
  - intros r v Hr Hv t Ht. apply block_has_digit; assumption.
  - intros t c c' Ht Hc Hc' E F. apply (solved_same t c c' Ht Hc Hc' E). auto.
Qed.

(** Some place of each digit is not given. *)
Lemma digit_hidden p s d : wf_grid p -> minimal p -> solution_of p s -> (forall s', solution_of p s' -> s' = s) -> 1 <= d <= 9 ->
  exists c, c < 81 /\ at_ s c = d /\ at_ p c = 0.
Proof.
  intros W M S U Hd. destruct (row_has_digit s 0 d (proj1 S) ltac:(lia) Hd) as [c [Hc [_ Ec]]].
  destruct (Nat.eq_dec (at_ p c) 0) as [Z | N]; [exists c; auto | ].
  destruct (clue_needed p s c W M S U Hc N) as [s' [S' [A D]]].
  assert (Rc : row_of c < 9) by (unfold row_of; lia).
  destruct (row_has_digit s' (row_of c) d S' Rc Hd) as [x [Hx [Rx Ex]]].
  assert (Kx : col_of x < 9) by (unfold col_of; lia).
  destruct (col_has_digit s (col_of x) d (proj1 S) Kx Hd) as [y [Hy [Cy Ey]]].
  destruct (Nat.eq_dec (at_ p y) 0) as [Z | Np]; [exists y; auto | exfalso].
  assert (Nxc : x <> c) by (intros ->; congruence).
  destruct (Nat.eq_dec y c) as [-> | Nyc].
  - apply Nxc. clear - Rx Cy. unfold row_of, col_of in *. lia.
  - assert (E : x = y).
    { apply (solved_same s' x y S' Hx Hy); [rewrite (A y Hy Nyc Np); congruence | auto]. }
    subst y. apply Nyc. apply (solved_same s x c (proj1 S) Hx Hc); [congruence | left; exact Rx].
Qed.

(** ** Counting *)

Lemma filter_le {A} (f g : A -> bool) l : (forall x, In x l -> f x = true -> g x = true) -> length (filter f l) <= length (filter g l).
Proof.
  induction l as [ | x l IH]; intros H; [reflexivity | ]. assert (IH' := IH (fun y Hy => H y (or_intror Hy))). cbn [filter].
  destruct (f x) eqn:F; [rewrite (H x (or_introl eq_refl) F); cbn [length]; lia | destruct (g x); cbn [length]; lia].
Qed.
Lemma filter_lt {A} (f g : A -> bool) l y : (forall x, In x l -> f x = true -> g x = true) -> In y l -> f y = false -> g y = true ->
  length (filter f l) < length (filter g l).
Proof.
  induction l as [ | x l IH]; intros H Iy Fy Gy; [destruct Iy | ]. assert (H' : forall z, In z l -> f z = true -> g z = true) by (intros z Hz; apply H; right; exact Hz).
  cbn [filter]. destruct Iy as [-> | Iy].
  - rewrite Fy, Gy. cbn [length]. assert (Q := filter_le f g l H'). lia.
  - assert (Q := IH H' Iy Fy Gy). destruct (f x) eqn:F; [rewrite (H x (or_introl eq_refl) F); cbn [length]; lia | destruct (g x); cbn [length]; lia].
Qed.

Lemma digit_at_most_9 s d : solved s -> clues_of s d <= 9.
Proof.
  intros S. unfold clues_of. set (l := filter _ _).
  assert (ND : NoDup (map row_of l)).
  { assert (X : forall m, (forall c, In c m -> c < 81 /\ at_ s c = d) -> NoDup m -> NoDup (map row_of m)).
    { induction m as [ | a m IH]; intros H N; [constructor | ]. inversion N as [ | ? ? Na Nm]; subst. cbn [map]. constructor.
      - intros I. apply in_map_iff in I. destruct I as [b [Rb Ib]]. destruct (H a (or_introl eq_refl)) as [Ha Ea]. destruct (H b (or_intror Ib)) as [Hb Eb].
        apply Na. rewrite (solved_same s a b S Ha Hb); [exact Ib | congruence | left; auto].
      - apply IH; [intros c Hc; apply H; right; exact Hc | exact Nm]. }
    apply X; [ | apply NoDup_filter, seq_NoDup]. intros c I. apply filter_In in I. destruct I as [I E]. apply in_seq in I. apply Nat.eqb_eq in E. split; [lia | exact E]. }
  rewrite <- (map_length row_of l). change 9 with (length (seq 0 9)). apply NoDup_incl_length; [exact ND | ].
  intros r I. apply in_map_iff in I. destruct I as [c [<- I]]. apply filter_In in I. destruct I as [I _]. apply in_seq in I. apply in_seq. unfold row_of. lia.
Qed.

Lemma digit_at_most_8 p s d : wf_grid p -> minimal p -> solution_of p s -> (forall s', solution_of p s' -> s' = s) -> 1 <= d <= 9 -> clues_of p d <= 8.
Proof.
  intros W M S U Hd. destruct (digit_hidden p s d W M S U Hd) as [c [Hc [Es Ep]]].
  assert (L : clues_of p d < clues_of s d).
  { apply (filter_lt _ _ _ c).
    - intros x I E. apply in_seq in I. apply Nat.eqb_eq in E. apply Nat.eqb_eq. rewrite <- E. apply S; lia.
    - apply in_seq. lia.
    - apply Nat.eqb_neq. lia.
    - apply Nat.eqb_eq. exact Es. }
  assert (Q := digit_at_most_9 s d (proj1 S)). lia.
Qed.

Lemma filter_split {A} (f : A -> bool) l : length (filter f l) + length (filter (fun x => negb (f x)) l) = length l.
Proof. induction l as [ | x l IH]; [reflexivity | ]. cbn [filter]. destruct (f x); cbn [negb length]; lia. Qed.

Lemma never_full_count p : never_full row_of p -> clue_count p <= 72.
Proof.
  intros H. unfold clue_count. assert (E := filter_split (fun c => at_ p c =? 0) (seq 0 81)). rewrite seq_length in E.
  set (l := filter (fun c => at_ p c =? 0) (seq 0 81)) in *. enough (9 <= length l) by lia.
  rewrite <- (map_length row_of l). change 9 with (length (seq 0 9)) at 1. apply NoDup_incl_length; [apply seq_NoDup | ].
  intros r I. apply in_seq in I. destruct (H r ltac:(lia)) as [c [Hc [<- Z]]]. apply in_map. apply filter_In. split; [apply in_seq; lia | apply Nat.eqb_eq; exact Z].
Qed.

Lemma digits_le_clues p : digit_count p <= clue_count p.
Proof.
  unfold digit_count, clue_count. set (l := filter _ (seq 0 81)). rewrite <- (map_length (at_ p) l).
  apply NoDup_incl_length; [apply NoDup_filter, seq_NoDup | ]. intros d I. apply filter_In in I. destruct I as [I E]. apply in_seq in I.
  unfold digit_used in E. apply existsb_exists in E. destruct E as [c [Ic Ec]]. apply Nat.eqb_eq in Ec. rewrite <- Ec. apply in_map. apply filter_In.
  split; [exact Ic | ]. apply negb_true_iff, Nat.eqb_neq. lia.
Qed.

Lemma generated_clues sym perm rng order p : Permutation perm (seq 1 9) -> Permutation order (seq 0 81) ->
  generate_with_symmetry sym perm rng order = Ok p ->
  8 <= digit_count p /\ 8 <= clue_count p /\
  (forall i j, i < 9 -> j < 9 -> i <> j -> i / 3 = j / 3 -> ~ (empty_row p i /\ empty_row p j) /\ ~ (empty_col p i /\ empty_col p j)).
Proof.
  intros Pp Po R. destruct (proj1 (generated_exact sym p)) as [W [U _]]; [exists perm, rng, order; auto | ].
  assert (D : 8 <= digit_count p).
  { destruct (Nat.lt_ge_cases (digit_count p) 8) as [L | G]; [exfalso; apply (few_digits_not_unique p L U) | exact G]. }
  split; [exact D | ]. split; [assert (Q := digits_le_clues p); lia | ].
  intros i j Hi Hj Nij Ech. split; intros [A B]; [apply (empty_rows_not_unique p i j) | apply (empty_cols_not_unique p i j)]; assumption.
Qed.

Lemma minimal_clues perm rng order p : Permutation perm (seq 1 9) -> Permutation order (seq 0 81) ->
  generate_with_symmetry NoSymmetry perm rng order = Ok p ->
  never_full row_of p /\ never_full col_of p /\ never_full block_of p /\ (forall d, 1 <= d <= 9 -> clues_of p d <= 8) /\ clue_count p <= 72.
Proof.
  intros Pp Po R. destruct (proj1 (generated_minimal p)) as [W [U M]]; [exists perm, rng, order; auto | ]. destruct U as [s [S U]].
  destruct (rows_never_full p s W M S U) as [A [B C]]. split; [exact A | ]. split; [exact B | ]. split; [exact C | ].
  split; [ | apply never_full_count; exact A]. intros d Hd. apply (digit_at_most_8 p s d); assumption.
Qed.
