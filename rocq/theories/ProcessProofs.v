(** The propagation step for one digit in one band: from table lookups to statements about cells. *)
From Coq Require Import List Arith NArith ZArith ZifyNat Lia Bool.
From Verif Require Import Spec Tables Solver BitLemmas TableProofs.
Import ListNotations.
Ltac Zify.zify_post_hook ::= Z.to_euclidean_division_equations.

Lemma any_in_stack_iff s k : any_in_stack s k = true <-> exists j, j / 3 = k /\ s j = true.
Proof.
  unfold any_in_stack. rewrite !orb_true_iff. split.
  - intros [[H | H] | H].
    + exists (3 * k). split; [lia | exact H].
    + exists (3 * k + 1). split; [lia | exact H].
    + exists (3 * k + 2). split; [lia | exact H].
  - intros [j [E H]].
    assert (Hj : j = 3 * k \/ j = 3 * k + 1 \/ j = 3 * k + 2) by lia.
    destruct Hj as [-> | [-> | ->]]; auto.
Qed.

Lemma clo_ext f g t : (forall t, t < 9 -> f t = g t) -> clo f t = clo g t.
Proof.
  intros H. unfold clo, has_placement. simpl. rewrite !H by lia. reflexivity.
Qed.

Lemma clo_iff s t : clo s t = true <->
  exists p, In p perms3 /\ nth (t / 3) p 0 = t mod 3 /\ forall r, r < 3 -> s (3 * r + nth r p 0) = true.
Proof.
  unfold clo. rewrite existsb_exists. split.
  - intros [p [Hp H]]. apply andb_true_iff in H. destruct H as [H1 H2]. apply Nat.eqb_eq in H1.
    exists p. split; [exact Hp | ]. split; [exact H1 | ]. intros r Hr.
    unfold has_placement in H2. rewrite forallb_forall in H2. apply H2. simpl. lia.
  - intros [p [Hp [H1 H2]]]. exists p. split; [exact Hp | ]. apply andb_true_iff. split.
    + apply Nat.eqb_eq. exact H1.
    + unfold has_placement. apply forallb_forall. intros r Hr. apply H2. simpl in Hr. lia.
Qed.

Lemma perms3_range p r : In p perms3 -> r < 3 -> nth r p 0 < 3.
Proof.
  intros Hp Hr. simpl in Hp.
  destruct Hp as [<- | [<- | [<- | [<- | [<- | [<- | []]]]]]];
    do 3 (destruct r; [simpl; lia | ]); lia.
Qed.

Lemma perms3_surj p k : In p perms3 -> k < 3 -> exists r, r < 3 /\ nth r p 0 = k.
Proof.
  intros Hp Hr.
  assert (H : existsb (fun r => nth r p 0 =? k) [0;1;2] = true).
  { simpl in Hp.
    destruct Hp as [<- | [<- | [<- | [<- | [<- | [<- | []]]]]]];
    do 3 (destruct k; [reflexivity | ]); lia. }
  apply existsb_exists in H. destruct H as [r [Hr' E]]. apply Nat.eqb_eq in E.
  exists r. split; [simpl in Hr'; lia | exact E].
Qed.

Lemma perms3_complete f : (forall r, r < 3 -> f r < 3) ->
  (forall r r', r < 3 -> r' < 3 -> r <> r' -> f r <> f r') ->
  In [f 0; f 1; f 2] perms3.
Proof.
  intros H1 H2.
  pose proof (H1 0 ltac:(lia)). pose proof (H1 1 ltac:(lia)). pose proof (H1 2 ltac:(lia)).
  pose proof (H2 0 1 ltac:(lia) ltac:(lia) ltac:(lia)).
  pose proof (H2 0 2 ltac:(lia) ltac:(lia) ltac:(lia)).
  pose proof (H2 1 2 ltac:(lia) ltac:(lia) ltac:(lia)).
  destruct (f 0) as [ | [ | [ | a]]]; destruct (f 1) as [ | [ | [ | b]]]; destruct (f 2) as [ | [ | [ | c]]];
    try lia; simpl; tauto.
Qed.

Lemma clo_in s t : t < 9 -> clo s t = true -> s t = true.
Proof.
  intros Ht H. apply clo_iff in H. destruct H as [p [Hp [E H]]].
  specialize (H (t / 3) ltac:(lia)). rewrite E in H.
  replace (3 * (t / 3) + t mod 3) with t in H by lia. exact H.
Qed.

Lemma lonely_iff s t : lonely s t = true <->
  clo s t = true /\
  forall t', t' < 9 -> clo s t' = true -> (t' / 3 = t / 3 \/ t' mod 3 = t mod 3) -> t' = t.
Proof.
  unfold lonely. rewrite andb_true_iff, forallb_forall. split.
  - intros [H1 H2]. split; [exact H1 | ]. intros t' Ht' Hc Hs.
    specialize (H2 t'). rewrite in_seq in H2. specialize (H2 ltac:(lia)).
    rewrite Hc in H2. simpl in H2. rewrite orb_false_r in H2. apply orb_true_iff in H2.
    destruct H2 as [H2 | H2]; [apply Nat.eqb_eq; exact H2 | ].
    apply negb_true_iff in H2. apply orb_false_iff in H2. destruct H2 as [H2 H3].
    apply Nat.eqb_neq in H2. apply Nat.eqb_neq in H3. lia.
  - intros [H1 H2]. split; [exact H1 | ]. intros t' Ht'. apply in_seq in Ht'.
    destruct (Nat.eqb_spec t' t); [reflexivity | ]. simpl.
    destruct (clo s t') eqn:E; simpl; [ | apply orb_true_r].
    rewrite orb_false_r. apply negb_true_iff. apply orb_false_iff.
    split; apply Nat.eqb_neq; intros Hx; apply n; apply H2; auto; lia.
Qed.

Lemma lonely_ext f g t : (forall t, t < 9 -> f t = g t) -> lonely f t = lonely g t.
Proof.
  intros H. apply eq_true_iff_eq. rewrite !lonely_iff, (clo_ext f g) by exact H.
  split; intros [H1 H2]; (split; [exact H1 | ]); intros t' Ht' Hc; apply H2; auto.
  - rewrite (clo_ext f g) by exact H. exact Hc.
  - rewrite <- (clo_ext f g) by exact H. exact Hc.
Qed.

Lemma only_col_iff s x : only_col s x = true <->
  s x = true /\ forall y, y < 9 -> s y = true -> y / 3 = x / 3 -> y = x.
Proof.
  unfold only_col. rewrite andb_true_iff, forallb_forall. split.
  - intros [H1 H2]. split; [exact H1 | ]. intros y Hy Hs E.
    specialize (H2 y). rewrite in_seq in H2. specialize (H2 ltac:(lia)).
    rewrite Hs, E, Nat.eqb_refl in H2. simpl in H2. rewrite !orb_false_r in H2.
    apply Nat.eqb_eq. exact H2.
  - intros [H1 H2]. split; [exact H1 | ]. intros y Hy. apply in_seq in Hy.
    destruct (Nat.eqb_spec y x); [reflexivity | ]. simpl.
    destruct (s y) eqn:E; simpl; [ | apply orb_true_r].
    rewrite orb_false_r. apply negb_true_iff. apply Nat.eqb_neq. intros Hx. apply n. apply H2; auto. lia.
Qed.

Lemma single_in_stack_iff s k : k < 3 -> (single_in_stack s k = true <->
  exists x, x < 9 /\ x / 3 = k /\ only_col s x = true).
Proof.
  intros Hk. unfold single_in_stack. rewrite existsb_exists. split.
  - intros [x [Hx H]]. apply in_seq in Hx. apply andb_true_iff in H. destruct H as [H1 H2].
    apply Nat.eqb_eq in H1. exists x. split; [lia | auto].
  - intros [x [Hx [E H]]]. exists x. split; [apply in_seq; lia | ]. rewrite E, Nat.eqb_refl, H. reflexivity.
Qed.

(** * The masks computed by [process] *)

Definition shrink_of (old : N) : N :=
  N.lor (N.lor (nth (N.to_nat (N.land old LOW9)) shrink_mask_tbl 0%N)
               (N.shiftl (nth (N.to_nat (N.land (N.shiftr old 9%N) LOW9)) shrink_mask_tbl 0%N) 3%N))
        (N.shiftl (nth (N.to_nat (N.shiftr old 18%N)) shrink_mask_tbl 0%N) 6%N).
Definition pc_of (old : N) : N := N.land old (nth (N.to_nat (shrink_of old)) locked_same_band_tbl 0%N).
Definition cols_of (pc : N) : N := N.land (N.lor (N.lor pc (N.shiftr pc 9%N)) (N.shiftr pc 18%N)) LOW9.
Definition no_of (pc : N) : N := nth (N.to_nat (cols_of pc)) locked_neighbor_band_tbl 0%N.
Definition solved_rows_of (old : N) : N :=
  nth (N.to_nat (N.land (nth (N.to_nat (shrink_of old)) locked_minirows_tbl 0%N)
                        (nth (N.to_nat (cols_of (pc_of old))) column_single_tbl 0%N))) shrink_mask_tbl 0%N.
Definition solved_cells_of (old : N) : N :=
  N.land (nth (N.to_nat (solved_rows_of old)) row_mask_tbl 0%N) (pc_of old).

Lemma lt512_land_LOW9 m : (N.land m LOW9 < 512)%N.
Proof.
  change 512%N with (2 ^ 9)%N. apply bits_lt_pow2. intros i Hi. rewrite N.land_spec.
  rewrite (bits_ge_pow2 LOW9 9) by (reflexivity || lia). apply andb_false_r.
Qed.

Lemma lt512_shiftr18 m : m27 m -> (N.shiftr m 18 < 512)%N.
Proof.
  intros H. change 512%N with (2 ^ 9)%N. apply bits_lt_pow2. intros i Hi.
  rewrite N.shiftr_spec by lia. apply (bits_ge_pow2 m 27); [exact H | lia].
Qed.

Lemma nat_lt512 m : (m < 512)%N -> N.to_nat m < 512.
Proof. lia. Qed.

Lemma tb_to_nat m : N.of_nat (N.to_nat m) = m.
Proof. apply N2Nat.id. Qed.

Lemma tb_lt8 m i : (m < 8)%N -> 3 <= i -> tb m i = false.
Proof. intros H Hi. apply (bits_ge_pow2 m 3); [exact H | lia]. Qed.

Lemma shrink_of_tb old t : m27 old -> t < 9 -> tb (shrink_of old) t = any_in_stack (tb old) t.
Proof.
  intros H Ht. unfold shrink_of. rewrite !tb_lor.
  pose proof (nat_lt512 _ (lt512_land_LOW9 old)) as L0.
  pose proof (nat_lt512 _ (lt512_land_LOW9 (N.shiftr old 9%N))) as L1.
  pose proof (nat_lt512 _ (lt512_shiftr18 old H)) as L2.
  pose proof (shrink_tbl_lt _ L0) as B0.
  pose proof (shrink_tbl_lt _ L1) as B1.
  change 3%N with (N.of_nat 3). change 6%N with (N.of_nat 6).
  assert (Hc : t < 3 \/ 3 <= t < 6 \/ 6 <= t < 9) by lia.
  destruct Hc as [Hc | [Hc | Hc]].
  - rewrite !tb_shiftl_low by lia. rewrite !orb_false_r. rewrite shrink_tbl by (lia || exact Hc).
    rewrite tb_to_nat. unfold any_in_stack. rewrite !tb_land, !tb_LOW9.
    rewrite !(proj2 (Nat.ltb_lt _ _)) by lia. rewrite !andb_true_r. reflexivity.
  - rewrite (tb_shiftl_low _ 6) by lia. rewrite (tb_lt8 _ _ B0) by lia.
    rewrite tb_shiftl_high by lia. rewrite orb_false_r, orb_false_l.
    rewrite shrink_tbl by lia.
    rewrite tb_to_nat. unfold any_in_stack. rewrite !tb_land, !tb_LOW9.
    change 9%N with (N.of_nat 9). rewrite !tb_shiftr.
    rewrite !(proj2 (Nat.ltb_lt _ _)) by lia. rewrite !andb_true_r.
    f_equal; [f_equal | ]; f_equal; lia.
  - rewrite (tb_lt8 _ _ B0) by lia.
    rewrite !tb_shiftl_high by lia. rewrite (tb_lt8 _ _ B1) by lia.
    rewrite !orb_false_l. rewrite shrink_tbl by lia.
    rewrite tb_to_nat. unfold any_in_stack.
    change 18%N with (N.of_nat 18). rewrite !tb_shiftr.
    f_equal; [f_equal | ]; f_equal; lia.
Qed.

Lemma shrink_of_lt old : m27 old -> (shrink_of old < 512)%N.
Proof.
  intros H. unfold shrink_of. change 512%N with (2 ^ 9)%N. apply bits_lt_pow2. intros i Hi.
  pose proof (shrink_tbl_lt _ (nat_lt512 _ (lt512_land_LOW9 old))) as B0.
  pose proof (shrink_tbl_lt _ (nat_lt512 _ (lt512_land_LOW9 (N.shiftr old 9%N)))) as B1.
  pose proof (shrink_tbl_lt _ (nat_lt512 _ (lt512_shiftr18 old H))) as B2.
  rewrite !N.lor_spec. rewrite !N.shiftl_spec_high' by lia.
  rewrite (bits_ge_pow2 _ 3 i B0) by lia.
  rewrite (bits_ge_pow2 _ 3 (i - 3) B1) by lia.
  rewrite (bits_ge_pow2 _ 3 (i - 6) B2) by lia. reflexivity.
Qed.

Lemma pc_of_m27 old : m27 old -> m27 (pc_of old).
Proof. intros H. apply m27_land_l. exact H. Qed.

Lemma pc_of_tb old i : m27 old -> i < 27 ->
  tb (pc_of old) i = tb old i && clo (any_in_stack (tb old)) (i / 3).
Proof.
  intros H Hi. unfold pc_of. rewrite tb_land. destruct (tb old i) eqn:E; [ | reflexivity]. rewrite !andb_true_l.
  rewrite locked_same_tbl.
  - rewrite tb_to_nat. apply clo_ext. intros t Ht. apply shrink_of_tb; assumption.
  - apply nat_lt512. apply shrink_of_lt. exact H.
  - exact Hi.
  - rewrite tb_to_nat. rewrite shrink_of_tb by (assumption || lia).
    apply any_in_stack_iff. exists i. auto.
Qed.

Lemma cols_of_lt pc : (cols_of pc < 512)%N.
Proof. apply lt512_land_LOW9. Qed.

Lemma cols_of_iff pc x : x < 9 -> m27 pc -> (tb (cols_of pc) x = true <->
  exists i, i < 27 /\ i mod 9 = x /\ tb pc i = true).
Proof.
  intros Hx Hpc. unfold cols_of. rewrite tb_land, tb_LOW9, !tb_lor.
  change 9%N with (N.of_nat 9). change 18%N with (N.of_nat 18). rewrite !tb_shiftr.
  rewrite (proj2 (Nat.ltb_lt x 9)) by lia. rewrite andb_true_r, !orb_true_iff. split.
  - intros [[H | H] | H].
    + exists x. split; [lia | ]. split; [lia | exact H].
    + exists (x + 9). split; [lia | ]. split; [lia | exact H].
    + exists (x + 18). split; [lia | ]. split; [lia | exact H].
  - intros [i [Hi [E H]]].
    assert (Hc : i = x \/ i = x + 9 \/ i = x + 18) by lia.
    destruct Hc as [-> | [-> | ->]]; auto.
Qed.

(** Existence of a way to place the digit once in every row and block of the band within [m]:
    [f r] is the cell (bit) used in row [r]. *)
Definition placement (m : N) (f : nat -> nat) : Prop :=
  forall r, r < 3 ->
    f r < 27 /\ f r / 9 = r /\ tb m (f r) = true /\
    forall r', r' < 3 -> r <> r' -> f r mod 9 / 3 <> f r' mod 9 / 3.

Lemma placement_pc old f r : m27 old -> placement old f -> r < 3 -> tb (pc_of old) (f r) = true.
Proof.
  intros H Hf Hr. destruct (Hf r Hr) as [Hlt [Hrow [Hb _]]].
  rewrite pc_of_tb by assumption. rewrite Hb, andb_true_l. apply clo_iff.
  exists [f 0 mod 9 / 3; f 1 mod 9 / 3; f 2 mod 9 / 3]. split; [ | split].
  - apply (perms3_complete (fun r => f r mod 9 / 3)).
    + intros q Hq. lia.
    + intros q q' Hq Hq' Hne. apply Hf; assumption.
  - replace (f r / 3 / 3) with r by lia.
    do 3 (destruct r as [ | r]; [simpl nth; lia | ]). lia.
  - intros q Hq. destruct (Hf q Hq) as [Hlt' [Hrow' [Hb' _]]].
    apply any_in_stack_iff. exists (f q). split; [ | exact Hb'].
    do 3 (destruct q as [ | q]; [simpl nth; lia | ]). lia.
Qed.

Lemma pc_zero_no_placement old f : m27 old -> pc_of old = 0%N -> placement old f -> False.
Proof.
  intros H E Hf. pose proof (placement_pc old f 0 H Hf ltac:(lia)) as Hb.
  rewrite E, tb_0 in Hb. discriminate.
Qed.

Section PC.
  Variable old : N.
  Hypothesis Hold : m27 old.
  Let pc := pc_of old.
  Hypothesis Hnz : pc <> 0%N.

  Lemma pc_clo i : i < 27 -> tb pc i = true -> clo (any_in_stack (tb old)) (i / 3) = true.
  Proof.
    intros Hi H. unfold pc in H. rewrite pc_of_tb in H by assumption. apply andb_true_iff in H. apply H.
  Qed.

  Lemma clo_pc t : t < 9 -> clo (any_in_stack (tb old)) t = true -> exists i, i < 27 /\ i / 3 = t /\ tb pc i = true.
  Proof.
    intros Ht H. pose proof (clo_in _ _ Ht H) as Hs. apply any_in_stack_iff in Hs.
    destruct Hs as [i [E Hi]]. exists i. split; [lia | ]. split; [exact E | ].
    unfold pc. rewrite pc_of_tb by (assumption || lia). rewrite Hi, E, H. reflexivity.
  Qed.

  Lemma pc_placement : exists p, In p perms3 /\ forall r, r < 3 -> clo (any_in_stack (tb old)) (3 * r + nth r p 0) = true.
  Proof.
    destruct (eqb0_tb pc) as [i Hi]; [apply N.eqb_neq; exact Hnz | ].
    assert (Hlt : i < 27).
    { destruct (Nat.lt_ge_cases i 27); [lia | ].
      rewrite tb_high27 in Hi; [discriminate | apply pc_of_m27; exact Hold | lia]. }
    apply pc_clo in Hi; [ | exact Hlt]. apply clo_iff in Hi. destruct Hi as [p [Hp [_ H]]].
    exists p. split; [exact Hp | ]. intros r Hr. apply clo_iff. exists p. split; [exact Hp | ].
    pose proof (perms3_range p r Hp Hr). split; [ | exact H].
    replace ((3 * r + nth r p 0) / 3) with r by lia. lia.
  Qed.

  Lemma pc_row r : r < 3 -> exists i, i < 27 /\ i / 9 = r /\ tb pc i = true.
  Proof.
    intros Hr. destruct pc_placement as [p [Hp H]]. specialize (H r Hr).
    pose proof (perms3_range p r Hp Hr).
    apply clo_pc in H; [ | lia]. destruct H as [i [Hi [E Hb]]]. exists i. split; [exact Hi | ].
    split; [lia | exact Hb].
  Qed.

  Lemma pc_block k : k < 3 -> exists i, i < 27 /\ i mod 9 / 3 = k /\ tb pc i = true.
  Proof.
    intros Hk. destruct pc_placement as [p [Hp H]].
    destruct (perms3_surj p k Hp Hk) as [r [Hr E]]. specialize (H r Hr). rewrite E in H.
    apply clo_pc in H; [ | lia]. destruct H as [i [Hi [E' Hb]]]. exists i. split; [exact Hi | ].
    split; [lia | exact Hb].
  Qed.

  (** a column is removed from the other bands iff it is the only possible one in its stack *)
  Lemma no_of_iff i : i < 27 -> (tb (no_of pc) i = false <->
    (exists j, j < 27 /\ j mod 9 = i mod 9 /\ tb pc j = true) /\
    forall j, j < 27 -> tb pc j = true -> j mod 9 / 3 = i mod 9 / 3 -> j mod 9 = i mod 9).
  Proof.
    intros Hi. unfold no_of. rewrite locked_neighbor_tbl by (exact Hi || apply nat_lt512, cols_of_lt).
    rewrite tb_to_nat, negb_false_iff, only_col_iff.
    pose proof (pc_of_m27 old Hold) as Hpc. fold pc in Hpc.
    rewrite cols_of_iff by (assumption || lia). split.
    - intros [H1 H2]. split; [exact H1 | ]. intros j Hj Hb E. apply H2; [lia | | lia].
      apply cols_of_iff; [lia | exact Hpc | ]. exists j. auto.
    - intros [H1 H2]. split; [exact H1 | ]. intros y Hy Hb E.
      apply cols_of_iff in Hb; [ | lia | exact Hpc]. destruct Hb as [j [Hj [Ej Hb]]].
      rewrite <- Ej. apply H2; auto. lia.
  Qed.

  Lemma solved_cells_iff i : i < 27 -> (tb (solved_cells_of old) i = true <->
    tb pc i = true /\
    forall j, j < 27 -> tb pc j = true -> (j / 9 = i / 9 \/ j mod 9 / 3 = i mod 9 / 3) -> j = i).
  Proof.
    intros Hi. unfold solved_cells_of. fold pc.
    pose proof (pc_of_m27 old Hold) as Hpc. fold pc in Hpc.
    pose proof (nat_lt512 _ (shrink_of_lt old Hold)) as Ls.
    pose proof (nat_lt512 _ (cols_of_lt pc)) as Lc.
    assert (Lx : (N.land (nth (N.to_nat (shrink_of old)) locked_minirows_tbl 0%N)
                         (nth (N.to_nat (cols_of pc)) column_single_tbl 0%N) < 512)%N).
    { change 512%N with (2 ^ 9)%N. apply bits_lt_pow2. intros k Hk. rewrite N.land_spec.
      rewrite (bits_ge_pow2 (nth _ locked_minirows_tbl _) 9 k); [reflexivity | | exact Hk].
      apply locked_minirows_tbl_lt. exact Ls. }
    pose proof (shrink_tbl_lt _ (nat_lt512 _ Lx)) as L8.
    rewrite tb_land, row_mask_tbl_spec; [ | unfold solved_rows_of; fold pc; lia | exact Hi].
    rewrite tb_to_nat. unfold solved_rows_of. fold pc.
    rewrite shrink_tbl by lia. rewrite tb_to_nat, andb_true_iff, any_in_stack_iff.
    assert (Hany : forallb (any_in_stack (tb (cols_of pc))) [0; 1; 2] = true).
    { apply forallb_forall. intros k Hk. assert (Hk3 : k < 3) by (simpl in Hk; lia).
      destruct (pc_block k Hk3) as [j [Hj [E Hb]]]. apply any_in_stack_iff. exists (j mod 9).
      split; [exact E | ]. apply cols_of_iff; [lia | exact Hpc | ]. exists j. auto. }
    assert (Hlon : forall t, t < 9 -> tb (N.land (nth (N.to_nat (shrink_of old)) locked_minirows_tbl 0%N)
                         (nth (N.to_nat (cols_of pc)) column_single_tbl 0%N)) t =
                   lonely (any_in_stack (tb old)) t && single_in_stack (tb (cols_of pc)) (t mod 3)).
    { intros t Ht. rewrite tb_land, locked_minirows_tbl_spec, column_single_tbl_spec by lia.
      rewrite !tb_to_nat, Hany, andb_true_l. f_equal.
      apply lonely_ext. intros; apply shrink_of_tb; assumption. }
    split.
    - intros [[t [Et Ht]] Hb]. split; [exact Hb | ].
      assert (Ht9 : t < 9) by lia. rewrite Hlon in Ht by exact Ht9.
      apply andb_true_iff in Ht. destruct Ht as [Hl Hs]. apply lonely_iff in Hl. destruct Hl as [_ Hl].
      apply single_in_stack_iff in Hs; [ | lia]. destruct Hs as [x [Hx [Ex Ho]]].
      apply only_col_iff in Ho. destruct Ho as [_ Ho].
      assert (Hti : i / 3 = t) by (apply Hl; [lia | apply pc_clo; assumption | left; lia]).
      intros j Hj Hbj Hor.
      assert (Htj : j / 3 = t) by (apply Hl; [lia | apply pc_clo; assumption | lia]).
      assert (C1 : i mod 9 = x).
      { apply Ho; [lia | apply cols_of_iff; [lia | exact Hpc | exists i; auto] | lia]. }
      assert (C2 : j mod 9 = x).
      { apply Ho; [lia | apply cols_of_iff; [lia | exact Hpc | exists j; auto] | lia]. }
      lia.
    - intros [Hb Hu]. split; [ | exact Hb]. exists (i / 3). split; [lia | ].
      rewrite Hlon by lia. apply andb_true_iff. split.
      + apply lonely_iff. split; [apply pc_clo; assumption | ]. intros t' Ht' Hc Hor.
        apply clo_pc in Hc; [ | exact Ht']. destruct Hc as [j [Hj [E Hbj]]].
        assert (j = i) by (apply Hu; [exact Hj | exact Hbj | lia]). subst. reflexivity.
      + apply single_in_stack_iff; [lia | ]. exists (i mod 9). split; [lia | ]. split; [lia | ].
        apply only_col_iff. split; [apply cols_of_iff; [lia | exact Hpc | exists i; auto] | ].
        intros y Hy Hc E. apply cols_of_iff in Hc; [ | exact Hy | exact Hpc].
        destruct Hc as [j [Hj [Ej Hbj]]].
        assert (j = i) by (apply Hu; [exact Hj | exact Hbj | lia]). subst. reflexivity.
  Qed.
End PC.
