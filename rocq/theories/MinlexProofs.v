(** Proofs about Canon: lexicographic order, sorting of rows and bands ([find_minimal_transformation_for_band]). *)
From Coq Require Import List Arith NArith ZArith ZifyNat ZifyN ZifyBool Lia Bool Permutation Sorted.
From Verif Require Import Spec CanonSpec Solver Parse Canon BitLemmas GridProofs GenProofs EquivProofs TransProofs.
Import ListNotations.
Ltac Zify.zify_post_hook ::= Z.to_euclidean_division_equations.

(** * Lexicographic order *)

Lemma lex_refl a : lex_nat a a = Eq.
Proof. induction a as [ | x a IH]; [reflexivity | ]. cbn [lex_nat]. rewrite Nat.compare_refl. exact IH. Qed.

Lemma lex_eq a : forall b, lex_nat a b = Eq -> a = b.
Proof.
  induction a as [ | x a IH]; intros [ | y b]; cbn [lex_nat]; try discriminate; [reflexivity | ].
  destruct (Nat.compare_spec x y); try discriminate. intros E. subst. f_equal. apply IH. exact E.
Qed.

Lemma lex_anti a : forall b, lex_nat b a = CompOpp (lex_nat a b).
Proof.
  induction a as [ | x a IH]; intros [ | y b]; cbn [lex_nat]; try reflexivity.
  rewrite (Nat.compare_antisym x y). destruct (Nat.compare x y); cbn [CompOpp]; try reflexivity. apply IH.
Qed.

Definition le_l (a b : list nat) : Prop := lex_nat a b <> Gt.

Lemma le_refl_l a : le_l a a.
Proof. unfold le_l. rewrite lex_refl. discriminate. Qed.

Lemma le_trans_l a : forall b c, le_l a b -> le_l b c -> le_l a c.
Proof.
  unfold le_l. induction a as [ | x a IH]; intros b c; destruct b as [ | y b], c as [ | z c]; cbn [lex_nat]; try congruence.
  destruct (Nat.compare_spec x y), (Nat.compare_spec y z); try congruence; subst.
  - rewrite Nat.compare_refl. apply IH.
  - intros _ _. replace (y ?= z) with Lt by (symmetry; apply Nat.compare_lt_iff; assumption). discriminate.
  - intros _ _. replace (x ?= z) with Lt by (symmetry; apply Nat.compare_lt_iff; assumption). discriminate.
  - intros _ _. replace (x ?= z) with Lt by (symmetry; apply Nat.compare_lt_iff; lia). discriminate.
Qed.

Lemma lt_le_l a b : lex_nat a b = Lt -> le_l a b.
Proof. unfold le_l. congruence. Qed.

Lemma le_cases a b : le_l a b -> a = b \/ lex_nat a b = Lt.
Proof. unfold le_l. destruct (lex_nat a b) eqn:E; intros H; [left; apply lex_eq; exact E | right; reflexivity | congruence]. Qed.

Lemma le_anti a b : le_l a b -> le_l b a -> a = b.
Proof.
  intros H1 H2. destruct (le_cases _ _ H1) as [E | E]; [exact E | ]. unfold le_l in H2. rewrite lex_anti, E in H2. cbn in H2. congruence.
Qed.

Lemma gt_lt a b : lex_nat a b = Gt -> lex_nat b a = Lt.
Proof. intros E. rewrite lex_anti, E. reflexivity. Qed.

Lemma lt_trans_l a b c : lex_nat a b = Lt -> le_l b c -> lex_nat a c = Lt.
Proof.
  intros E H. destruct (lex_nat a c) eqn:F; [ | reflexivity | ].
  - apply lex_eq in F. subst c. unfold le_l in H. rewrite lex_anti, E in H. cbn in H. congruence.
  - exfalso. exact (le_trans_l a b c (lt_le_l _ _ E) H F).
Qed.

Lemma lex_app a : forall b c d, length a = length c ->
  lex_nat (a ++ b) (c ++ d) = match lex_nat a c with Eq => lex_nat b d | r => r end.
Proof.
  induction a as [ | x a IH]; intros b [ | y c] d L; try discriminate L; [reflexivity | ]. cbn [app lex_nat].
  destruct (x ?= y); try reflexivity. apply IH. cbn in L. lia.
Qed.

Lemma lex_lt_iff a : forall b, length a = length b -> (lex_nat a b = Lt <-> lex_lt a b).
Proof.
  induction a as [ | x a IH]; intros [ | y b] L; try discriminate L.
  - split; [discriminate | ]. intros [p [u [v [s [t [E _]]]]]]. destruct p; discriminate E.
  - cbn [lex_nat]. destruct (Nat.compare_spec x y) as [E | E | E].
    + subst y. rewrite IH by (cbn in L; lia). split.
      * intros [p [u [v [s [t [E1 [E2 H]]]]]]]. exists (x :: p), u, v, s, t. rewrite E1, E2. auto.
      * intros [p [u [v [s [t [E1 [E2 H]]]]]]]. destruct p as [ | p0 p].
        -- injection E1 as -> ->. injection E2 as <- <-. lia.
        -- injection E1 as -> ->. injection E2 as ->. exists p, u, v, s, t. auto.
    + split; [intros _ | reflexivity]. exists [], x, y, a, b. auto.
    + split; [discriminate | ]. intros [p [u [v [s [t [E1 [E2 H]]]]]]]. destruct p as [ | p0 p].
      * injection E1 as -> ->. injection E2 as <- <-. lia.
      * injection E1 as -> ->. injection E2 as -> ->. lia.
Qed.

Lemma lex_le_iff a b : length a = length b -> (le_l a b <-> lex_le a b).
Proof.
  intros L. unfold lex_le. rewrite <- lex_lt_iff by exact L. split; [apply le_cases | ].
  intros [-> | E]; [apply le_refl_l | apply lt_le_l; exact E].
Qed.

(** A sorted list is the smallest of its permutations. *)
Lemma sorted_min l : forall l', StronglySorted lt l -> Permutation l l' -> le_l l l'.
Proof.
  induction l as [ | x l IH]; intros l' S P.
  - apply Permutation_nil in P. subst. apply le_refl_l.
  - destruct l' as [ | y l']; [exfalso; exact (Permutation_nil_cons (Permutation_sym P)) | ].
    apply StronglySorted_inv in S. destruct S as [S F]. unfold le_l. cbn [lex_nat].
    assert (H : y = x \/ x < y).
    { assert (I : In y (x :: l)) by (apply (Permutation_in _ (Permutation_sym P)); left; reflexivity).
      destruct I as [-> | I]; [left; reflexivity | right]. rewrite Forall_forall in F. apply F. exact I. }
    destruct H as [-> | H].
    + rewrite Nat.compare_refl. apply IH; [exact S | ]. apply Permutation_cons_inv in P. exact P.
    + replace (x ?= y) with Lt by (symmetry; apply Nat.compare_lt_iff; exact H). discriminate.
Qed.

(** * Grids as nine rows *)

Section Rows.
(** rows of nine cells whose first cells tell them apart *)
Variable RW : nat -> list nat.
Hypothesis RW_len : forall x, length (RW x) = 9.
Definition key (x : nat) : nat := nth 0 (RW x) 0.
Hypothesis key_inj : forall x y, x < 9 -> y < 9 -> key x = key y -> x = y.

Definition cat (l : list nat) : list nat := concat (map RW l).

Lemma cat_length l : length (cat l) = 9 * length l.
Proof. unfold cat. induction l as [ | x l IH]; [reflexivity | ]. cbn [map concat]. rewrite app_length, RW_len, IH. cbn [length]. lia. Qed.

Lemma cat_app a b : cat (a ++ b) = cat a ++ cat b.
Proof. unfold cat. rewrite map_app. apply concat_app. Qed.

Lemma lex_row x y : x < 9 -> y < 9 -> lex_nat (RW x) (RW y) = Nat.compare (key x) (key y).
Proof.
  intros Hx Hy. destruct (Nat.eq_dec x y) as [-> | N]; [rewrite lex_refl, Nat.compare_refl; reflexivity | ].
  assert (K : key x <> key y) by (intros E; apply N, key_inj; assumption).
  unfold key in *. pose proof (RW_len x) as Lx. pose proof (RW_len y) as Ly. destruct (RW x) as [ | u a]; [discriminate Lx | ].
  destruct (RW y) as [ | v b]; [discriminate Ly | ]. cbn [nth] in *. cbn [lex_nat]. destruct (Nat.compare_spec u v); [contradiction | reflexivity | reflexivity].
Qed.

Lemma lex_cat a : forall b, length a = length b -> Forall (fun x => x < 9) a -> Forall (fun x => x < 9) b ->
  lex_nat (cat a) (cat b) = lex_nat (map key a) (map key b).
Proof.
  induction a as [ | x a IH]; intros [ | y b] L Fa Fb; try discriminate L; [reflexivity | ].
  apply Forall_cons_iff in Fa, Fb. destruct Fa as [Hx Fa], Fb as [Hy Fb].
  unfold cat. cbn [map concat]. rewrite lex_app by (rewrite !RW_len; reflexivity). rewrite lex_row by assumption. cbn [lex_nat].
  destruct (key x ?= key y); try reflexivity. apply IH; [cbn in L; lia | exact Fa | exact Fb].
Qed.

Lemma keys_eq a : forall b, length a = length b -> Forall (fun x => x < 9) a -> Forall (fun x => x < 9) b -> map key a = map key b -> a = b.
Proof.
  induction a as [ | x a IH]; intros [ | y b] L Fa Fb E; try discriminate L; [reflexivity | ].
  apply Forall_cons_iff in Fa, Fb. destruct Fa as [Hx Fa], Fb as [Hy Fb]. cbn [map] in E. injection E as E1 E2.
  f_equal; [apply key_inj; assumption | apply IH; try assumption; cbn in L; lia].
Qed.

(** ** Sorting three rows *)

Definition sel (p : nat * nat) (l : list nat) : list nat := map (fun i => nth i l 0) (p3l p).

Lemma slice_cat pre x post : slice (cat (pre ++ x :: post)) (9 * length pre) 9 = Ok (RW x).
Proof.
  unfold slice, assert_. rewrite cat_length, app_length. cbn [length]. replace (_ <=? _) with true by lia. cbn [bind]. f_equal.
  rewrite cat_app, skipn_app. rewrite skipn_all2 by (rewrite cat_length; lia). rewrite cat_length. rewrite Nat.sub_diag. cbn [app].
  unfold cat. cbn [map concat]. rewrite skipn_O. rewrite firstn_app, RW_len, Nat.sub_diag, firstn_O, app_nil_r.
  apply firstn_all2. rewrite RW_len. lia.
Qed.

Lemma slice3 pre x y z post : slice (cat (pre ++ x :: y :: z :: post)) (9 * length pre) 27 = Ok (cat [x; y; z]).
Proof.
  unfold slice, assert_. rewrite cat_length, app_length. cbn [length]. replace (_ <=? _) with true by lia. cbn [bind]. f_equal.
  rewrite cat_app, skipn_app. rewrite skipn_all2 by (rewrite cat_length; lia). rewrite cat_length. rewrite Nat.sub_diag, skipn_O. cbn [app].
  change (x :: y :: z :: post) with ([x; y; z] ++ post). rewrite cat_app, firstn_app, cat_length. cbn [length].
  rewrite firstn_all2 by (rewrite cat_length; cbn [length]; lia). replace (27 - 9 * 3) with 0 by lia. rewrite firstn_O. apply app_nil_r.
Qed.

Lemma min_row3 x y z : x < 9 -> y < 9 -> z < 9 -> exists i, i < 3 /\ min_row (cat [x; y; z]) 0 3 = Ok i /\
  key (nth i [x; y; z] 0) <= key x /\ key (nth i [x; y; z] 0) <= key y /\ key (nth i [x; y; z] 0) <= key z.
Proof.
  intros Hx Hy Hz. unfold min_row. cbn [seq for_each bind].
  assert (S0 : slice (cat [x; y; z]) (9 * (0 + 0)) 9 = Ok (RW x)) by exact (slice_cat [] x [y; z]).
  assert (S1 : slice (cat [x; y; z]) (9 * (1 + 0)) 9 = Ok (RW y)) by exact (slice_cat [x] y [z]).
  assert (S2 : slice (cat [x; y; z]) (9 * (2 + 0)) 9 = Ok (RW z)) by exact (slice_cat [x; y] z []).
  rewrite S0, S1, S2. cbn [bind].
  rewrite lex_row by assumption. destruct (Nat.compare_spec (key x) (key y)); cbn [bind]; rewrite lex_row by assumption;
    match goal with |- context[Nat.compare ?a ?b] => destruct (Nat.compare_spec a b) end; cbn [bind];
    eexists; (split; [ | split; [reflexivity | ]]); cbn [nth]; lia.
Qed.

Lemma min_row2 x y z : x < 9 -> y < 9 -> z < 9 -> exists i, i < 2 /\ min_row (cat [x; y; z]) 1 2 = Ok i /\
  key (nth i [y; z] 0) <= key y /\ key (nth i [y; z] 0) <= key z.
Proof.
  intros Hx Hy Hz. unfold min_row. cbn [seq for_each bind].
  assert (S1 : slice (cat [x; y; z]) (9 * (0 + 1)) 9 = Ok (RW y)) by exact (slice_cat [x] y [z]).
  assert (S2 : slice (cat [x; y; z]) (9 * (1 + 1)) 9 = Ok (RW z)) by exact (slice_cat [x; y] z []).
  rewrite S1, S2. cbn [bind].
  rewrite lex_row by assumption. destruct (Nat.compare_spec (key y) (key z)); cbn [bind];
    eexists; (split; [ | split; [reflexivity | ]]); cbn [nth]; lia.
Qed.

Lemma swap_rows3 a b x y z : a < 3 -> b < 3 -> swap_rows_in_band (cat [x; y; z]) a b = Ok (cat (swapped [x; y; z] a b)).
Proof.
  intros Ha Hb.
  assert (E : (swap_rows_in_band (seq 0 27) a b) = Ok (concat (map (fun i => seq (9 * i) 9) (swapped [0; 1; 2] a b)))).
  { apply res_eqb_ok. apply (sweep2 3 3 (fun a b => res_eqb (swap_rows_in_band (seq 0 27) a b) (Ok (concat (map (fun i => seq (9 * i) 9) (swapped [0; 1; 2] a b))))));
      [vm_compute; reflexivity | exact Ha | exact Hb]. }
  rewrite (natural_apply 27 (fun l => swap_rows_in_band l a b) _ (cat [x; y; z]) (natural_rows_in_band a b) E) by (rewrite cat_length; reflexivity).
  f_equal. clear E.
  assert (R : forall i, i < 3 -> map (fun i => nth i (cat [x; y; z]) 0) (seq (9 * i) 9) = RW (nth i [x; y; z] 0)).
  { intros i Hi. unfold cat. cbn [map concat]. rewrite app_nil_r.
    pose proof (RW_len x) as Lx. pose proof (RW_len y) as Ly. pose proof (RW_len z) as Lz.
    destruct i as [ | [ | [ | i]]]; [ | | | lia]; cbn [nth]; revert Lx Ly Lz;
      generalize (RW x), (RW y), (RW z); intros A B C LA LB LC;
      do 10 (destruct A as [ | ? A]; try discriminate LA); do 10 (destruct B as [ | ? B]; try discriminate LB);
      do 10 (destruct C as [ | ? C]; try discriminate LC); reflexivity. }
  destruct a as [ | [ | [ | a]]]; [ | | | lia]; (destruct b as [ | [ | [ | b]]]; [ | | | lia]);
    cbn [swapped lset nth map concat]; rewrite ?map_app, ?app_nil_r;
    rewrite ?(R 0), ?(R 1), ?(R 2) by lia; unfold cat; cbn [map concat nth]; rewrite ?app_nil_r; reflexivity.
Qed.

Lemma sort_rows_spec pre x y z post band : length pre = 3 * band -> x < 9 -> y < 9 -> z < 9 -> x <> y -> x <> z -> y <> z ->
  exists p, p3ok p /\ sort_rows (cat (pre ++ [x; y; z] ++ post)) band = Ok (cat (pre ++ sel p [x; y; z] ++ post), p) /\
    StronglySorted lt (map key (sel p [x; y; z])).
Proof.
  intros L Hx Hy Hz N1 N2 N3. unfold sort_rows. cbn [app].
  replace (band * 27) with (9 * length pre) by lia. rewrite slice3. cbn [bind].
  destruct (min_row3 x y z Hx Hy Hz) as [i [Hi [Ei [M1 [M2 M3]]]]]. rewrite Ei. cbn [bind].
  rewrite swap_rows3 by lia. cbn [bind].
  assert (F : forall a b, a < 9 -> b < 9 -> a <> b -> key a <> key b) by (intros a b Ha Hb Nab E; apply Nab, key_inj; assumption).
  assert (A1 : firstn (9 * length pre) (cat (pre ++ x :: y :: z :: post)) = cat pre).
  { rewrite cat_app, firstn_app, firstn_all2 by (rewrite cat_length; lia). rewrite cat_length, Nat.sub_diag, firstn_O. apply app_nil_r. }
  assert (A2 : skipn (9 * length pre + 27) (cat (pre ++ x :: y :: z :: post)) = cat post).
  { change (x :: y :: z :: post) with ([x; y; z] ++ post). rewrite app_assoc, cat_app, skipn_app.
    rewrite skipn_all2 by (rewrite cat_length, app_length; cbn [length]; lia). rewrite cat_length, app_length. cbn [length].
    replace (_ - _) with 0 by lia. reflexivity. }
  assert (S : exists u v w, swapped [x; y; z] 0 i = [u; v; w] /\ u < 9 /\ v < 9 /\ w < 9 /\ key u < key v /\ key u < key w /\ key v <> key w /\
     (forall j, j < 2 -> sel (i, j) [x; y; z] = swapped [u; v; w] 1 (1 + j))).
  { destruct i as [ | [ | [ | i]]]; [ | | | lia]; cbn [swapped lset nth] in *; eexists; eexists; eexists; (split; [reflexivity | ]);
      pose proof (F x y Hx Hy N1); pose proof (F x z Hx Hz N2); pose proof (F y z Hy Hz N3);
      (do 6 (split; [lia | ])); (intros [ | [ | j]] Hj; [reflexivity | reflexivity | lia]). }
  destruct S as [u [v [w [-> [Hu [Hv [Hw [K1 [K2 [K3 Sel]]]]]]]]]].
  destruct (min_row2 u v w Hu Hv Hw) as [j [Hj [Ej [M4 M5]]]]. rewrite Ej. cbn [bind].
  rewrite swap_rows3 by lia. cbn [bind]. unfold p3_from_choices, assert_. replace (i <? 3) with true by lia. replace (j <? 2) with true by lia.
  cbn [bind]. exists (i, j). split; [split; assumption | ]. rewrite A1, A2. rewrite (Sel j Hj). split.
  - rewrite !cat_app. reflexivity.
  - clear Sel. destruct j as [ | [ | j]]; [ | | lia]; cbn [Nat.add swapped lset nth map] in *;
      repeat (first [apply SSorted_cons | apply SSorted_nil | apply Forall_cons | apply Forall_nil]); lia.
Qed.

End Rows.

(** * find_minimal_transformation_for_band *)

Definition mcols (m : min_band) : list nat := lp (m_stack m) (m_cols m).

Definition wfm0 (m : min_band) : Prop :=
  m_band m < 3 /\ p3ok (m_row m) /\ p3ok (m_stack m) /\
  (exists c0 c1 c2, m_cols m = [c0; c1; c2] /\ p3ok c0 /\ p3ok c1 /\ p3ok c2) /\ Permutation (m_digits m) (seq 1 9).

(** Row [r] of the source after the column permutation and the relabelling of [m] *)
Definition RWm (g : grid) (m : min_band) (r : nat) : list nat :=
  map (fun k => rename (m_digits m) (at_ (base (m_transposed m) g) (9 * r + nth k (mcols m) 0))) (seq 0 9).

Lemma RWm_length g m r : length (RWm g m r) = 9.
Proof. unfold RWm. rewrite map_length. apply seq_length. Qed.

Lemma mcols_line m : wfm0 m -> line_perm (mcols m).
Proof.
  intros [_ [_ [Hs [[c0 [c1 [c2 [E [C0 [C1 C2]]]]]] _]]]]. unfold mcols, lp. rewrite E. cbn [nth]. apply lp3_line; assumption.
Qed.

Lemma RC_rows r k g : length r = 9 -> RC r k g = concat (map (fun x => map (fun j => at_ g (9 * x + nth j k 0)) (seq 0 9)) r).
Proof. intros L. do 10 (destruct r as [ | ? r]; try discriminate L). reflexivity. Qed.

Lemma act_rows g m r : wfm0 m -> line_perm r ->
  act (Sym (m_transposed m) r (mcols m) (m_digits m)) g = cat (RWm g m) r.
Proof.
  intros W Hr. rewrite act_RC; [ | split; [exact Hr | split; [apply mcols_line; exact W | apply W]]].
  cbn [s_tr s_rows s_cols s_digits]. rewrite RC_rows by (apply line_length; exact Hr). unfold cat, RWm.
  rewrite concat_map, map_map. reflexivity.
Qed.

Lemma at_solved_le h c : solved h -> c < 81 -> 1 <= at_ h c <= 9.
Proof. intros H. apply H. Qed.

Lemma key_inj_m g m x y : solved g -> wfm0 m -> x < 9 -> y < 9 -> key (RWm g m) x = key (RWm g m) y -> x = y.
Proof.
  intros Hg W Hx Hy E. unfold key, RWm in E. rewrite !nth_map_seq in E by lia.
  pose proof (base_solved (m_transposed m) g Hg) as S. pose proof (line_lt _ 0 (mcols_line m W)) as Lk.
  apply rename_inj in E; [ | apply W | apply S; lia | apply S; lia].
  destruct (Nat.eq_dec x y) as [H | N]; [exact H | exfalso]. revert E. apply S; try lia.
  split; [lia | ]. right. left. unfold col_of. lia.
Qed.

Definition chute (i : nat) : list nat := [3 * i; 3 * i + 1; 3 * i + 2].

Lemma p3l_perm p : p3ok p -> Permutation (p3l p) [0; 1; 2].
Proof.
  intros H. apply p3_all in H. cbn in H.
  repeat (destruct H as [<- | H]; [unfold p3l; cbn [fst snd Nat.add Nat.mul nth perms3]; try apply Permutation_refl | ]); [ | | | | | contradiction].
  - apply perm_swap.
  - apply (Permutation_trans (l' := [1; 2; 0])); [apply perm_swap | ]. apply (Permutation_trans (l' := [1; 0; 2])); [apply perm_skip, perm_swap | apply perm_swap].
  - apply perm_skip, perm_swap.
  - apply (Permutation_trans (l' := [1; 0; 2])); [apply perm_skip, perm_swap | apply perm_swap].
  - apply (Permutation_trans (l' := [0; 2; 1])); [apply perm_swap | apply perm_skip, perm_swap].
Qed.

Lemma chute_perm i p : p3ok p -> Permutation (map (fun j => 3 * i + j) (p3l p)) (chute i).
Proof. intros H. eapply Permutation_trans; [apply Permutation_map, p3l_perm, H | ]. cbn [map]. unfold chute. rewrite Nat.add_0_r. apply Permutation_refl. Qed.

Lemma lp3_bands b c2 r0 r1 r2 : lp3 (b, c2) r0 r1 r2 =
  map (fun j => 3 * nth 0 (p3l (b, c2)) 0 + j) (p3l r0) ++ map (fun j => 3 * nth 1 (p3l (b, c2)) 0 + j) (p3l r1) ++
  map (fun j => 3 * nth 2 (p3l (b, c2)) 0 + j) (p3l r2).
Proof. reflexivity. Qed.

(** Keys of the rows in the order of [find_minimal_for_band] against every other order with the same first band. *)
Section MinRows.
Variable RW : nat -> list nat.
Hypothesis RW_len : forall x, length (RW x) = 9.
Hypothesis K_inj : forall x y, x < 9 -> y < 9 -> key RW x = key RW y -> x = y.

Lemma sorted_rows_min b c2 r0 r1 r2 c2' r1' r2' : b < 3 -> c2 < 2 -> c2' < 2 -> p3ok r0 -> p3ok r1 -> p3ok r2 -> p3ok r1' -> p3ok r2' ->
  let A := map (fun j => 3 * nth 1 (p3l (b, c2)) 0 + j) (p3l r1) in
  let B := map (fun j => 3 * nth 2 (p3l (b, c2)) 0 + j) (p3l r2) in
  StronglySorted lt (map (key RW) A) -> StronglySorted lt (map (key RW) B) -> nth 0 (map (key RW) A) 0 < nth 0 (map (key RW) B) 0 ->
  le_l (map (key RW) (lp3 (b, c2) r0 r1 r2)) (map (key RW) (lp3 (b, c2') r0 r1' r2')).
Proof.
  intros Hb H2 H2' R0 R1 R2 R1' R2' A B SA SB HAB. rewrite !lp3_bands. fold A B.
  assert (F : nth 0 (p3l (b, c2)) 0 = nth 0 (p3l (b, c2')) 0).
  { apply Nat.eqb_eq. apply (sweep3 3 2 2 (fun b x y => nth 0 (p3l (b, x)) 0 =? nth 0 (p3l (b, y)) 0)); try assumption. vm_compute. reflexivity. }
  rewrite <- F. rewrite !map_app. unfold le_l. rewrite lex_app by reflexivity. rewrite lex_refl.
  assert (PA : Permutation A (chute (nth 1 (p3l (b, c2)) 0))) by (apply chute_perm; assumption).
  assert (PB : Permutation B (chute (nth 2 (p3l (b, c2)) 0))) by (apply chute_perm; assumption).
  pose proof (chute_perm (nth 1 (p3l (b, c2')) 0) r1' R1') as PA'. pose proof (chute_perm (nth 2 (p3l (b, c2')) 0) r2' R2') as PB'.
  set (A' := map (fun j => 3 * nth 1 (p3l (b, c2')) 0 + j) (p3l r1')) in *. set (B' := map (fun j => 3 * nth 2 (p3l (b, c2')) 0 + j) (p3l r2')) in *.
  assert (LA : length (map (key RW) A) = 3) by (rewrite map_length, (Permutation_length PA); reflexivity).
  assert (LA' : length (map (key RW) A') = 3) by (rewrite map_length, (Permutation_length PA'); reflexivity).
  rewrite lex_app by lia.
  destruct (Nat.eq_dec c2 c2') as [<- | N].
  - pose proof (sorted_min _ (map (key RW) A') SA (Permutation_map _ (Permutation_trans PA (Permutation_sym PA')))) as M1.
    pose proof (sorted_min _ (map (key RW) B') SB (Permutation_map _ (Permutation_trans PB (Permutation_sym PB')))) as M2.
    unfold le_l in *. destruct (lex_nat (map (key RW) A) (map (key RW) A')); congruence.
  - assert (X : nth 1 (p3l (b, c2')) 0 = nth 2 (p3l (b, c2)) 0).
    { assert (implb (negb (c2 =? c2')) (nth 1 (p3l (b, c2')) 0 =? nth 2 (p3l (b, c2)) 0) = true) as E; [ | lia].
      apply (sweep3 3 2 2 (fun b x y => implb (negb (x =? y)) (nth 1 (p3l (b, y)) 0 =? nth 2 (p3l (b, x)) 0))); try assumption. vm_compute. reflexivity. }
    rewrite X in PA'. assert (P : Permutation (map (key RW) B) (map (key RW) A')) by (apply Permutation_map; eapply Permutation_trans; [exact PB | apply Permutation_sym; exact PA']).
    destruct (map (key RW) A) as [ | a la] eqn:EA; [discriminate LA | ]. destruct (map (key RW) A') as [ | a' la'] eqn:EA'; [discriminate LA' | ].
    assert (LB : length (map (key RW) B) = 3) by (rewrite (Permutation_length P); exact LA').
    destruct (map (key RW) B) as [ | b0 lb] eqn:EB; [discriminate LB | ]. cbn [nth] in HAB.
    assert (a < a').
    { assert (I : In a' (b0 :: lb)) by (apply (Permutation_in _ (Permutation_sym P)); left; reflexivity).
      apply StronglySorted_inv in SB. destruct SB as [_ SF]. rewrite Forall_forall in SF. destruct I as [<- | I]; [exact HAB | specialize (SF a' I); lia]. }
    cbn [lex_nat]. replace (a ?= a') with Lt by (symmetry; apply Nat.compare_lt_iff; assumption). discriminate.
Qed.
End MinRows.

Definition trans_of (m : min_band) (c2 : nat) (r1 r2 : p3) : transformation :=
  mkTrans (m_transposed m) (m_band m, c2) (m_stack m) [m_row m; r1; r2] (m_cols m) (m_digits m).

Lemma trans_of_ok m c2 r1 r2 : wfm0 m -> c2 < 2 -> p3ok r1 -> p3ok r2 -> trans_ok (trans_of m c2 r1 r2).
Proof.
  intros [Hb [Hr [Hs [Hc Hd]]]] H2 H1' H2'. split; [split; assumption | ]. split; [exact Hs | ]. split; [ | split; [exact Hc | exact Hd]].
  exists (m_row m), r1, r2. auto.
Qed.

Lemma sym_trans_of m c2 r1 r2 : sym_of (trans_of m c2 r1 r2) = Sym (m_transposed m) (lp3 (m_band m, c2) (m_row m) r1 r2) (mcols m) (m_digits m).
Proof. reflexivity. Qed.

Lemma lp3_lt b r0 r1 r2 : p3ok b -> p3ok r0 -> p3ok r1 -> p3ok r2 -> Forall (fun x => x < 9) (lp3 b r0 r1 r2) /\ length (lp3 b r0 r1 r2) = 9.
Proof.
  intros Hb H0 H1 H2. pose proof (lp3_line b r0 r1 r2 Hb H0 H1 H2) as H. split; [ | apply line_length; exact H].
  apply Forall_forall. intros x Hx. apply (Permutation_in _ (proj1 H)), in_seq in Hx. lia.
Qed.

Lemma act_trans_of g m c2 r1 r2 : wfm0 m -> c2 < 2 -> p3ok r1 -> p3ok r2 ->
  act (sym_of (trans_of m c2 r1 r2)) g = cat (RWm g m) (lp3 (m_band m, c2) (m_row m) r1 r2).
Proof.
  intros W H2 H1' H2'. rewrite sym_trans_of. apply act_rows; [exact W | ]. destruct W as [Hb [Hr _]]. apply lp3_line; try assumption. split; assumption.
Qed.

Lemma chute_map i p : p3ok p -> sel p (chute i) = map (fun j => 3 * i + j) (p3l p).
Proof.
  intros H. apply p3_all in H. cbn in H. repeat (destruct H as [<- | H]; [unfold sel, p3l, chute; cbn [fst snd Nat.add Nat.mul nth perms3 map]; rewrite ?Nat.add_0_r; reflexivity | ]). contradiction.
Qed.

Lemma chute_id i : map (fun j => 3 * i + j) (p3l id3) = chute i.
Proof. unfold p3l, id3, chute. cbn [fst snd Nat.add Nat.mul nth perms3 map]. rewrite Nat.add_0_r. reflexivity. Qed.

Lemma comp_bands b x r0 r1 r2 : b < 3 -> x < 2 -> p3ok r0 -> p3ok r1 -> p3ok r2 ->
  comp_l (lp3 (b, 0) r0 r1 r2) (lp3 (0, x) id3 id3 id3) = lp3 (b, x) r0 (if x =? 1 then r2 else r1) (if x =? 1 then r1 else r2).
Proof.
  intros Hb Hx H0 H1 H2.
  assert (S : forallb (fun b => forallb (fun x => forallb (fun '(r0, r1, r2) =>
     listb_eq (comp_l (lp3 (b, 0) r0 r1 r2) (lp3 (0, x) id3 id3 id3)) (lp3 (b, x) r0 (if x =? 1 then r2 else r1) (if x =? 1 then r1 else r2)))
     (list_prod (list_prod all_p3 all_p3) all_p3)) (seq 0 2)) (seq 0 3) = true) by (vm_compute; reflexivity).
  pose proof (sweep2 3 2 _ S b x Hb Hx) as S'. cbv beta in S'. rewrite forallb_forall in S'. apply listb_eq_iff.
  apply (S' (r0, r1, r2)). apply in_p3_3; assumption.
Qed.

Lemma CI_line l : line_perm l -> comp_l idl l = l.
Proof.
  intros Hl. rewrite <- (map_id l) at 2. apply map_ext_in. intros i Hi. unfold idl. apply seq_nth.
  destruct Hl as [P _]. apply (Permutation_in _ P), in_seq in Hi. lia.
Qed.

Lemma solved_wf' g : solved g -> wf_grid g.
Proof.
  intros H. split; [apply H | ]. apply Forall_forall. intros x Hx. apply (In_nth _ _ 0) in Hx. destruct Hx as [c [Hc <-]].
  apply H. rewrite <- (proj1 H). exact Hc.
Qed.

Lemma find_minimal_spec g m : solved g -> wfm0 m -> exists c2 r1 r2, c2 < 2 /\ p3ok r1 /\ p3ok r2 /\
  find_minimal_for_band g m = Ok (act (sym_of (trans_of m c2 r1 r2)) g, trans_of m c2 r1 r2) /\
  forall c2' r1' r2', c2' < 2 -> p3ok r1' -> p3ok r2' ->
    le_l (act (sym_of (trans_of m c2 r1 r2)) g) (act (sym_of (trans_of m c2' r1' r2')) g) /\
    (act (sym_of (trans_of m c2 r1 r2)) g = act (sym_of (trans_of m c2' r1' r2')) g -> (c2', r1', r2') = (c2, r1, r2)).
Proof.
  intros Hg W. pose proof (solved_wf' g Hg) as Wg. pose proof W as [Hb [Hr [Hs [[k0 [k1 [k2 [Ek [K0 [K1 K2]]]]]] Hd]]]].
  set (b := m_band m) in *. set (RW := RWm g m).
  assert (RL : forall x, length (RW x) = 9) by (apply RWm_length).
  assert (KI : forall x y, x < 9 -> y < 9 -> key RW x = key RW y -> x = y) by (intros x y; apply key_inj_m; assumption).
  assert (Ib : p3ok (b, 0)) by (split; cbn; lia). pose proof id3_ok as I3. pose proof seq_line as IL. fold idl in IL.
  set (h := base (m_transposed m) g).
  assert (Lh : length h = 81) by (apply base_length, Hg).
  (* up to the relabelling *)
  assert (E1 : forall rest, find_minimal_for_band g m = rest -> rest = (
     r2 <- sort_rows (cat RW (lp3 (b, 0) (m_row m) id3 id3)) 1;
     let '(g, row_perm2) := r2 in
     r3 <- sort_rows g 2;
     let '(g, row_perm3) := r3 in
     b1 <- slice g 27 27;
     let needs_switch := slice_lt (skipn 54 g) b1 in
     let band_choice2 := if needs_switch then 1 else 0 in
     let '(row_perm2, row_perm3) := if needs_switch then (row_perm3, row_perm2) else (row_perm2, row_perm3) in
     g <- swap_bands g 1 (1 + band_choice2);
     bp <- p3_from_choices b band_choice2;
     Ok (g, mkTrans (m_transposed m) bp (m_stack m) [m_row m; row_perm2; row_perm3] (m_cols m) (m_digits m)))).
  { intros rest <-. unfold find_minimal_for_band.
    assert (E0 : (if m_transposed m then transpose g else @Ok (list nat) g) = Ok h).
    { unfold h, base. destruct (m_transposed m); [apply transpose_op, Hg | reflexivity]. }
    rewrite E0. cbn [bind]. rewrite <- (RC_id h Lh) at 1. fold b.
    rewrite band0_op by (try apply RC_length; assumption). cbn [bind]. rewrite RC_comp by (try apply lp_line1; assumption).
    rewrite row0_op by (try apply RC_length; assumption). cbn [bind]. rewrite RC_comp by (try apply lp_line3; assumption).
    rewrite stacks_op by (try apply RC_length; assumption). cbn [bind]. rewrite RC_comp by (try apply lp_line1; assumption).
    rewrite Ek. rewrite cols_op by (try apply RC_length; assumption). cbn [bind]. rewrite RC_comp by (try apply lp_line3; assumption).
    rewrite mapping_op; [ | apply digits_facts; exact Hd | apply RC_wf, base_wf, Wg]. cbn [bind]. rewrite <- Ek.
    match goal with |- context[RC ?r ?k h] => replace (map (rename (m_digits m)) (RC r k h)) with (cat RW (lp3 (b, 0) (m_row m) id3 id3)) end; [reflexivity | ].
    rewrite !(CI_line) by (assumption || apply lp_line1; assumption).
    rewrite !comp_id_r by (apply line_length; repeat apply comp_line; first [assumption | apply lp_line1; assumption | apply lp_line3; assumption]).
    rewrite !comp_lp by assumption.
    unfold RW. rewrite <- act_rows by (try assumption; apply lp3_line; assumption).
    rewrite act_RC by (split; [apply lp3_line; assumption | split; [apply mcols_line; exact W | exact Hd]]). cbn [s_tr s_rows s_cols s_digits].
    f_equal. unfold mcols, lp. rewrite Ek. reflexivity. }
  specialize (E1 _ eq_refl). rewrite E1. clear E1.
  assert (N0 : nth 1 (p3l (b, 0)) 0 < 3 /\ nth 2 (p3l (b, 0)) 0 < 3).
  { pose proof (sweep1 3 (fun b => (nth 1 (p3l (b, 0)) 0 <? 3) && (nth 2 (p3l (b, 0)) 0 <? 3)) eq_refl b Hb) as X. cbv beta in X. lia. }
  destruct N0 as [N1 N2]. set (i1 := nth 1 (p3l (b, 0)) 0) in *. set (i2 := nth 2 (p3l (b, 0)) 0) in *.
  set (P0 := map (fun j => 3 * nth 0 (p3l (b, 0)) 0 + j) (p3l (m_row m))).
  assert (LP0 : length P0 = 3) by (unfold P0; rewrite map_length, (Permutation_length (p3l_perm _ Hr)); reflexivity).
  assert (D : forall r1 r2, p3ok r1 -> p3ok r2 -> lp3 (b, 0) (m_row m) r1 r2 = P0 ++ sel r1 (chute i1) ++ sel r2 (chute i2)).
  { intros r1 r2 H1 H2. rewrite !chute_map by assumption. reflexivity. }
  assert (Dchute : forall i, sel id3 (chute i) = chute i) by (intros i; rewrite chute_map by assumption; apply chute_id).
  rewrite D by assumption. rewrite !Dchute.
  assert (CH : forall i, i < 3 -> exists x y z, chute i = [x; y; z] /\ x < 9 /\ y < 9 /\ z < 9 /\ x <> y /\ x <> z /\ y <> z).
  { intros i Hi. eexists; eexists; eexists. split; [reflexivity | lia]. }
  destruct (CH i1 N1) as [x1 [y1 [z1 [Q1 [A1 [A2 [A3 [A4 [A5 A6]]]]]]]]]. destruct (CH i2 N2) as [x2 [y2 [z2 [Q2 [B1 [B2 [B3 [B4 [B5 B6]]]]]]]]].
  rewrite Q1. destruct (sort_rows_spec RW RL KI P0 x1 y1 z1 (chute i2) 1 LP0 A1 A2 A3 A4 A5 A6) as [p [Hp [Ep Sp]]].
  rewrite Ep. cbn [bind]. rewrite <- Q1 in *. rewrite Q2. rewrite <- (app_nil_r [x2; y2; z2]), !app_assoc.
  rewrite <- (app_assoc _ [x2; y2; z2] []).
  assert (LS : forall p i, p3ok p -> length (sel p (chute i)) = 3) by (intros p' i Hp'; unfold sel; rewrite map_length, (Permutation_length (p3l_perm p' Hp')); reflexivity).
  assert (LP1 : length (P0 ++ sel p (chute i1)) = 3 * 2) by (rewrite app_length, LP0, LS by exact Hp; reflexivity).
  destruct (sort_rows_spec RW RL KI (P0 ++ sel p (chute i1)) x2 y2 z2 [] 2 LP1 B1 B2 B3 B4 B5 B6) as [q [Hq [Eq Sq]]].
  rewrite Eq. cbn [bind]. rewrite <- Q2 in *. rewrite app_nil_r. rewrite <- app_assoc.
  assert (LF : forall p i, p3ok p -> i < 3 -> Forall (fun x => x < 9) (sel p (chute i))).
  { intros p' i Hp' Hi. rewrite chute_map by exact Hp'. apply Forall_forall. intros x Hx. apply (Permutation_in _ (chute_perm i p' Hp')) in Hx.
    unfold chute in Hx. cbn in Hx. lia. }
  (* the comparison of the two bands *)
  assert (S27 : slice (cat RW (P0 ++ sel p (chute i1) ++ sel q (chute i2))) 27 27 = Ok (cat RW (sel p (chute i1)))).
  { destruct (sel p (chute i1)) as [ | u [ | v [ | w [ | ]]]] eqn:Es; try (pose proof (LS p i1 Hp) as X; rewrite Es in X; discriminate X).
    replace 27 with (9 * length P0) at 1 by (rewrite LP0; reflexivity). apply slice3; assumption. }
  rewrite S27. cbn [bind].
  assert (S54 : skipn 54 (cat RW (P0 ++ sel p (chute i1) ++ sel q (chute i2))) = cat RW (sel q (chute i2))).
  { rewrite app_assoc, (cat_app RW (P0 ++ sel p (chute i1))), skipn_app. rewrite skipn_all2 by (rewrite cat_length, LP1 by assumption; lia).
    rewrite cat_length, LP1 by assumption. reflexivity. }
  rewrite S54. unfold slice_lt. rewrite lex_cat by (try assumption; try (apply LF; assumption); rewrite !LS by assumption; reflexivity).
  (* first keys differ *)
  set (ka := map (key RW) (sel p (chute i1))) in *. set (kb := map (key RW) (sel q (chute i2))) in *.
  assert (Lka : length ka = 3) by (unfold ka; rewrite map_length; apply LS; exact Hp).
  assert (Lkb : length kb = 3) by (unfold kb; rewrite map_length; apply LS; exact Hq).
  assert (Ni : i1 <> i2).
  { pose proof (sweep1 3 (fun b => negb (nth 1 (p3l (b, 0)) 0 =? nth 2 (p3l (b, 0)) 0)) eq_refl b Hb). unfold i1, i2. cbv beta in *. lia. }
  assert (Nk : nth 0 ka 0 <> nth 0 kb 0).
  { unfold ka, kb. rewrite (nth_indep _ 0 (key RW 0)) by (rewrite map_length, LS by exact Hp; lia).
    rewrite (nth_indep (map (key RW) (sel q (chute i2))) 0 (key RW 0)) by (rewrite map_length, LS by exact Hq; lia). rewrite !map_nth. intros X.
    assert (I1 : In (nth 0 (sel p (chute i1)) 0) (sel p (chute i1))) by (apply nth_In; rewrite LS by exact Hp; lia).
    assert (I2 : In (nth 0 (sel q (chute i2)) 0) (sel q (chute i2))) by (apply nth_In; rewrite LS by exact Hq; lia).
    pose proof (LF p i1 Hp N1) as F1. pose proof (LF q i2 Hq N2) as F2. rewrite Forall_forall in F1, F2.
    apply KI in X; [ | apply F1; exact I1 | apply F2; exact I2].
    rewrite chute_map in I1, I2 by assumption. apply (Permutation_in _ (chute_perm _ _ Hp)) in I1. apply (Permutation_in _ (chute_perm _ _ Hq)) in I2.
    rewrite !chute_map in X by assumption. rewrite X in I1. unfold chute in I1, I2. cbn [In] in I1, I2. lia. }
  assert (Cmp : lex_nat kb ka = Nat.compare (nth 0 kb 0) (nth 0 ka 0)).
  { destruct ka as [ | a ka']; [discriminate Lka | ]. destruct kb as [ | b0 kb']; [discriminate Lkb | ]. cbn [nth lex_nat] in *.
    destruct (Nat.compare_spec b0 a); [congruence | reflexivity | reflexivity]. }
  rewrite Cmp. clear Cmp.
  set (sw := match nth 0 kb 0 ?= nth 0 ka 0 with Lt => true | _ => false end).
  set (x := if sw then 1 else 0). assert (Hx : x < 2) by (unfold x; destruct sw; lia).
  rewrite <- D by assumption.
  assert (Bop : swap_bands (cat RW (lp3 (b, 0) (m_row m) p q)) 1 (1 + x) =
    Ok (cat RW (lp3 (b, x) (m_row m) (if x =? 1 then q else p) (if x =? 1 then p else q)))).
  { unfold RW. rewrite <- act_rows by (try assumption; apply lp3_line; assumption).
    rewrite act_RC by (split; [apply lp3_line; assumption | split; [apply mcols_line; exact W | exact Hd]]). cbn [s_tr s_rows s_cols s_digits].
    rewrite (natural_bands 1 (1 + x)). rewrite band1_op by (try apply RC_length; assumption). cbn [rmap bind]. f_equal.
    rewrite RC_comp by (try assumption; apply lp_line1; split; cbn; lia).
    rewrite comp_id_r by (apply line_length, mcols_line; exact W). rewrite comp_bands by assumption.
    rewrite <- act_rows; [ | exact W | apply lp3_line; try assumption; [split; assumption | destruct (x =? 1); assumption | destruct (x =? 1); assumption]].
    rewrite act_RC; [reflexivity | ]. split; [ | split; [apply mcols_line; exact W | exact Hd]].
    apply lp3_line; try assumption; [split; assumption | destruct (x =? 1); assumption | destruct (x =? 1); assumption]. }
  exists x, (if x =? 1 then q else p), (if x =? 1 then p else q).
  assert (Ob : p3ok (b, x)) by (split; assumption).
  assert (O1 : p3ok (if x =? 1 then q else p)) by (destruct (x =? 1); assumption).
  assert (O2 : p3ok (if x =? 1 then p else q)) by (destruct (x =? 1); assumption).
  split; [exact Hx | ]. split; [exact O1 | ]. split; [exact O2 | ].
  split.
  - rewrite act_trans_of by assumption. fold b RW.
    assert (Pair : @eq (p3 * p3) (if sw then @pair p3 p3 q p else @pair p3 p3 p q) (if x =? 1 then q else p, if x =? 1 then p else q)) by (unfold x; destruct sw; reflexivity).
    cbv zeta. rewrite Pair. fold x. rewrite Bop. cbn [bind]. unfold p3_from_choices, assert_. replace (b <? 3) with true by lia. replace (x <? 2) with true by lia.
    reflexivity.
  - intros c2' r1' r2' Hc2' H1' H2'. rewrite !act_trans_of by assumption. fold b RW.
    assert (Ob' : p3ok (b, c2')) by (split; assumption).
    destruct (lp3_lt (b, x) (m_row m) _ _ Ob Hr O1 O2) as [F1 L1]. destruct (lp3_lt (b, c2') (m_row m) _ _ Ob' Hr H1' H2') as [F2 L2].
    split.
    + unfold le_l. rewrite lex_cat by (try assumption; rewrite L1, L2; reflexivity).
      (* the second and third band of the result *)
      assert (XB : map (fun j => 3 * nth 1 (p3l (b, x)) 0 + j) (p3l (if x =? 1 then q else p)) = (if x =? 1 then sel q (chute i2) else sel p (chute i1)) /\
                   map (fun j => 3 * nth 2 (p3l (b, x)) 0 + j) (p3l (if x =? 1 then p else q)) = (if x =? 1 then sel p (chute i1) else sel q (chute i2))).
      { rewrite !chute_map by assumption. unfold i1, i2.
        pose proof (sweep1 3 (fun b => (nth 1 (p3l (b, 1)) 0 =? nth 2 (p3l (b, 0)) 0) && (nth 2 (p3l (b, 1)) 0 =? nth 1 (p3l (b, 0)) 0)) eq_refl b Hb) as X. cbv beta in X.
        destruct x as [ | [ | x']]; [ | | lia]; cbn [Nat.eqb]; [split; reflexivity | ].
        apply andb_true_iff in X. rewrite !Nat.eqb_eq in X. destruct X as [-> ->]. split; reflexivity. }
      apply sorted_rows_min; try assumption; rewrite ?(proj1 XB), ?(proj2 XB).
      * destruct (x =? 1); assumption.
      * destruct (x =? 1); assumption.
      * unfold x, sw. destruct (Nat.compare_spec (nth 0 kb 0) (nth 0 ka 0)); cbn [Nat.eqb]; fold ka kb; [congruence | assumption | assumption].
    + intros E. assert (K : map (key RW) (lp3 (b, x) (m_row m) (if x =? 1 then q else p) (if x =? 1 then p else q)) = map (key RW) (lp3 (b, c2') (m_row m) r1' r2')).
      { apply lex_eq. rewrite <- lex_cat by (try assumption; rewrite L1, L2; reflexivity). rewrite E. apply lex_refl. }
      apply keys_eq in K; try assumption; [ | rewrite L1, L2; reflexivity].
      apply lp3_inj in K; try assumption. destruct K as [K1' [_ [K3 K4]]]. injection K1' as K1'. congruence.
Qed.
