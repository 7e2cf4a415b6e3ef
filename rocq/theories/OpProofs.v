(** Effect of candidate insertion and removal on the set of candidates. *)
From Coq Require Import List Arith NArith ZArith ZifyNat Lia Bool.
From Verif Require Import Spec Tables Solver BitLemmas GridProofs TableProofs ProcessProofs StateProofs.
Import ListNotations.
Ltac Zify.zify_post_hook ::= Z.to_euclidean_division_equations.

Definition candb (st : state) (d c : nat) : bool := tb (pm st (3 * d + c / 27)) (c mod 27).
Lemma candb_true st d c : candb st d c = true <-> cand st d c.
Proof. reflexivity. Qed.
Lemma candb_false st d c : candb st d c = false <-> ~ cand st d c.
Proof. unfold cand, candb. rewrite not_true_iff_false. reflexivity. Qed.
Lemma cand_dec st d c : {cand st d c} + {~ cand st d c}.
Proof. unfold cand. apply bool_dec. Qed.
Lemma uns_dec st c : {uns st c} + {~ uns st c}.
Proof. unfold uns. apply bool_dec. Qed.

Lemma wf_set_poss st l : wf st -> length l = 27 -> (forall j, m27 (nth j l 0%N)) -> wf (set_poss st l).
Proof. intros [] H1 H2. constructor; simpl; auto. Qed.

(** Two cells of the same band. *)
Lemma same_band_cell c c' : c / 27 = c' / 27 -> c mod 27 = c' mod 27 -> c = c'.
Proof. lia. Qed.

(** Removing one candidate with xor (src/solver.rs:391, 449). *)
Lemma xor_spec st d c : wf st -> d < 9 -> c < 81 -> cand st d c ->
  exists l, amod (poss st) (3 * d + c / 27) (fun x => N.lxor x (2 ^ N.of_nat (c mod 27))) = Ok l /\
    wf (set_poss st l) /\
    forall d' c', d' < 9 -> c' < 81 ->
      (cand (set_poss st l) d' c' <-> cand st d' c' /\ ~ (d' = d /\ c' = c)).
Proof.
  intros W Hd Hc Hcand.
  assert (Hlen : 3 * d + c / 27 < length (poss st)) by (rewrite (wf_poss_len st W); lia).
  rewrite amod_ok by exact Hlen. eexists. split; [reflexivity | ]. split.
  - apply wf_set_poss; [exact W | rewrite lset_length; apply (wf_poss_len st W) | ].
    apply lset_m27; [apply (wf_poss st W) | ]. apply m27_lxor; [apply (wf_poss st W) | apply m27_pow2; lia].
  - intros d' c' Hd' Hc'. unfold cand at 1, pm. cbn [poss set_poss set_unsolved]. rewrite nth_lset by exact Hlen.
    destruct (Nat.eqb_spec (3 * d' + c' / 27) (3 * d + c / 27)) as [E | E].
    + assert (d' = d) by lia. assert (Eb : c' / 27 = c / 27) by lia. subst d'.
      cbv beta. rewrite tb_lxor, tb_pow2. unfold cand in *. unfold pm in *. rewrite Eb.
      destruct (Nat.eqb_spec (c' mod 27) (c mod 27)) as [E1 | E1].
      * assert (c' = c) by (apply same_band_cell; assumption). subst c'. rewrite Hcand. simpl.
        split; [discriminate | intros [_ H]; tauto].
      * rewrite xorb_false_r. split; [intros H; split; [exact H | ] | intros [H _]; exact H].
        intros [_ ->]. apply E1. reflexivity.
    + split; [intros H; split; [exact H | ] | intros [H _]; exact H].
      intros [-> ->]. apply E. reflexivity.
Qed.

Lemma self_mask_ok c : c < 81 -> nonconflicting_cells_same_band c = Ok (nth c self_mask_tbl 0%N).
Proof.
  intros H. apply aget_ok. change (length self_mask_tbl) with 81. exact H.
Qed.

(** [self_mask] keeps, in the band of [c], the cells that share no row and no block with [c], and [c]. *)
Lemma self_mask_cell c c' : c < 81 -> c' < 81 -> c' / 27 = c / 27 ->
  (tb (nth c self_mask_tbl 0%N) (c' mod 27) = true <->
   ~ (c' <> c /\ (row_of c' = row_of c \/ block_of c' = block_of c))).
Proof.
  intros Hc Hc' E. rewrite self_mask_tbl_spec by (assumption || lia).
  destruct (cell_parts c Hc) as [P1 [P2 [P3 [P4 [P5 P6]]]]].
  destruct (cell_parts c' Hc') as [Q1 [Q2 [Q3 [Q4 [Q5 Q6]]]]].
  rewrite orb_true_iff, negb_true_iff, orb_false_iff, !Nat.eqb_neq, Nat.eqb_eq.
  rewrite P4, P6, Q4, Q6. lia.
Qed.

Lemma insert_by_mask_spec st d c : wf st -> d < 9 -> c < 81 -> cand st d c ->
  exists l, insert_candidate_by_mask st (3 * d + c / 27) (2 ^ N.of_nat (c mod 27)) = Ok (set_poss st l) /\
    wf (set_poss st l) /\
    forall d' c', d' < 9 -> c' < 81 ->
      (cand (set_poss st l) d' c' <->
       cand st d' c' /\ ~ (d' = d /\ c' / 27 = c / 27 /\ c' <> c /\ (row_of c' = row_of c \/ block_of c' = block_of c))).
Proof.
  intros W Hd Hc Hcand.
  assert (Hlen : 3 * d + c / 27 < length (poss st)) by (rewrite (wf_poss_len st W); lia).
  unfold insert_candidate_by_mask. rewrite (aget_ok _ _ 0%N) by exact Hlen. cbn [bind].
  rewrite popcount1_pow2 by lia. cbn [negb]. rewrite land_pow2_zero.
  unfold cand, pm in Hcand. rewrite Hcand. cbn [negb].
  replace ((3 * d + c / 27) mod 3 * 27 + bit_pos (2 ^ N.of_nat (c mod 27))) with c by (rewrite bit_pos_pow2; lia).
  rewrite self_mask_ok by exact Hc. cbn [bind].
  rewrite amod_ok by exact Hlen. cbn [bind]. eexists. split; [reflexivity | ]. split.
  - apply wf_set_poss; [exact W | rewrite lset_length; apply (wf_poss_len st W) | ].
    apply lset_m27; [apply (wf_poss st W) | ]. apply m27_land_l, (wf_poss st W).
  - intros d' c' Hd' Hc'. unfold cand at 1, pm. cbn [poss set_poss set_unsolved]. rewrite nth_lset by exact Hlen.
    destruct (Nat.eqb_spec (3 * d' + c' / 27) (3 * d + c / 27)) as [E | E].
    + assert (d' = d) by lia. assert (Eb : c' / 27 = c / 27) by lia. subst d'.
      rewrite tb_land, andb_true_iff, self_mask_cell by assumption.
      unfold cand, pm. rewrite Eb. tauto.
    + unfold cand, pm. split; [intros H; split; [exact H | ] | intros [H _]; exact H].
      intros [-> [E1 _]]. apply E. rewrite E1. reflexivity.
Qed.

(** A loop that modifies all positions of a list of indices. *)
Lemma for_each_amod_all (L : list nat) (f : N -> N) l : NoDup L ->
  (forall i, In i L -> i < length l) ->
  exists l', for_each L (fun i l => amod l i f) l = Ok l' /\ length l' = length l /\
    forall j, nth j l' 0%N = if existsb (Nat.eqb j) L then f (nth j l 0%N) else nth j l 0%N.
Proof.
  intros Hnd Hlt. destruct (for_each_amod L (fun _ => false) f Hnd l Hlt) as [l' [E [H1 H2]]].
  exists l'. split; [exact E | ]. split; [exact H1 | ]. intros j. rewrite H2, andb_true_r. reflexivity.
Qed.

Lemma neighbor_mask_cell c c' : c < 81 -> c' < 81 ->
  (tb (nonconflicting_cells_neighbor_bands c) (c' mod 27) = true <-> col_of c' <> col_of c).
Proof.
  intros Hc Hc'. 
  assert (H : eqb (tb (nonconflicting_cells_neighbor_bands c) (c' mod 27)) (negb (col_of c' =? col_of c)) = true).
  { apply (sweep2 81 81 (fun c c' => eqb (tb (nonconflicting_cells_neighbor_bands c) (c' mod 27))
        (negb (col_of c' =? col_of c)))); [vm_compute; reflexivity | exact Hc | exact Hc']. }
  apply eqb_prop in H. rewrite H, negb_true_iff, Nat.eqb_neq. reflexivity.
Qed.

Record insert_post (st st' : state) (d c : nat) : Prop := mkip {
  ip_wf : wf st';
  ip_prev : prev st' = prev st;
  ip_cand : forall d' c', d' < 9 -> c' < 81 ->
    (cand st' d' c' <-> cand st d' c' /\ ~ (d' = d /\ peers c c') /\ ~ (d' <> d /\ c' = c));
  ip_uns : forall c', c' < 81 -> (uns st' c' <-> uns st c' /\ c' <> c)
}.

Lemma insert_candidate_spec st c d : wf st -> d < 9 -> c < 81 ->
  (insert_candidate st c (d + 1) = Unsolv /\ ~ cand st d c) \/
  (exists st', insert_candidate st c (d + 1) = Ok st' /\ cand st d c /\ insert_post st st' d c).
Proof.
  intros W Hd Hc. unfold insert_candidate.
  set (b := c / 27). assert (Hb : b < 3) by (unfold b; lia).
  replace ((d + 1 - 1) * 3 + b) with (3 * d + b) by lia.
  rewrite shiftl_1. set (mask := (2 ^ N.of_nat (c mod 27))%N).
  assert (Hlen : 3 * d + b < length (poss st)) by (rewrite (wf_poss_len st W); lia).
  rewrite (aget_ok _ _ 0%N) by exact Hlen. cbn [bind].
  assert (Ez : (N.land (nth (3 * d + b) (poss st) 0%N) mask =? 0)%N = negb (candb st d c))
    by apply land_pow2_zero.
  rewrite Ez.
  destruct (candb st d c) eqn:Hcand.
  2: { left. split; [reflexivity | ]. apply candb_false. exact Hcand. }
  right. cbn [negb]. apply candb_true in Hcand.
  rewrite amod_ok by (rewrite (wf_uns_len st W); exact Hb). cbn [bind].
  rewrite self_mask_ok by exact Hc. cbn [bind].
  rewrite amod_ok by exact Hlen. cbn [bind].
  rewrite neighbor_ok by assumption. cbn [bind fst snd].
  rewrite amod_ok by (rewrite lset_length, (wf_poss_len st W); lia). cbn [bind].
  rewrite amod_ok by (rewrite !lset_length, (wf_poss_len st W); lia). cbn [bind].
  match goal with |- context [for_each (band_subbands b) _ ?L] => set (p3 := L) end.
  destruct (for_each_amod_all (band_subbands b) (fun x => N.ldiff x mask) p3 (band_subbands_NoDup b))
    as [p4 [E [Hl Hn]]].
  { intros i Hi. unfold p3. rewrite !lset_length, (wf_poss_len st W). apply (band_subbands_lt b i); assumption. }
  rewrite E. cbn [bind].
  assert (Hl4 : length p4 = 27) by (rewrite Hl; unfold p3; rewrite !lset_length; apply (wf_poss_len st W)).
  rewrite amod_ok by (rewrite Hl4; lia). cbn [bind].
  eexists. split; [reflexivity | ]. split; [exact Hcand | ].
  set (st' := set_unsolved _ _).
  set (no := nonconflicting_cells_neighbor_bands c) in *.
  set (sm := nth c self_mask_tbl 0%N) in *.
  assert (Hpm : forall j, j < 27 -> pm st' j =
    if j =? 3 * d + b then N.lor (N.ldiff (N.land (pm st j) sm) mask) mask
    else if j / 3 =? d then N.land (pm st j) no
    else if j mod 3 =? b then N.ldiff (pm st j) mask
    else pm st j).
  { intros j Hj. unfold pm at 1. unfold st'. cbn [poss set_poss set_unsolved]. rewrite nth_lset by (rewrite Hl4; lia).
    rewrite !Hn, !in_band_subbands by (assumption || lia).
    unfold p3. rewrite !nth_lset by (rewrite ?lset_length, (wf_poss_len st W); lia).
    fold (pm st j).
    destruct (Nat.eqb_spec j (3 * d + b)) as [-> | Hne].
    - replace ((3 * d + b) mod 3 =? b) with true by (symmetry; apply Nat.eqb_eq; lia).
      replace (3 * d + b =? 3 * d + (b + 2) mod 3) with false by (symmetry; apply Nat.eqb_neq; lia).
      replace (3 * d + b =? 3 * d + (b + 1) mod 3) with false by (symmetry; apply Nat.eqb_neq; lia).
      rewrite Nat.eqb_refl. reflexivity.
    - destruct (Nat.eqb_spec (j / 3) d) as [Ed | Ed].
      + replace (j mod 3 =? b) with false by (symmetry; apply Nat.eqb_neq; lia).
        destruct (Nat.eqb_spec j (3 * d + (b + 2) mod 3)) as [-> | H1].
        * replace (3 * d + (b + 2) mod 3 =? 3 * d + (b + 1) mod 3) with false
            by (symmetry; apply Nat.eqb_neq; lia).
          replace (3 * d + (b + 2) mod 3 =? 3 * d + b) with false by (symmetry; apply Nat.eqb_neq; lia).
          reflexivity.
        * replace (j =? 3 * d + (b + 1) mod 3) with true by (symmetry; apply Nat.eqb_eq; lia).
          replace (3 * d + (b + 1) mod 3 =? 3 * d + b) with false by (symmetry; apply Nat.eqb_neq; lia).
          f_equal. unfold pm. f_equal. lia.
      + replace (j =? 3 * d + (b + 2) mod 3) with false by (symmetry; apply Nat.eqb_neq; lia).
        replace (j =? 3 * d + (b + 1) mod 3) with false by (symmetry; apply Nat.eqb_neq; lia).
        reflexivity. }
  assert (Hmask : m27 mask) by (apply m27_pow2; lia).
  constructor.
  - constructor; simpl.
    + rewrite lset_length. exact Hl4.
    + apply nth_m27. intros j Hj. change (j < length (poss st')) in Hj.
      replace (length (poss st')) with 27 in Hj by (unfold st'; simpl; rewrite lset_length; auto).
      change (m27 (pm st' j)). rewrite Hpm by exact Hj.
      pose proof (wf_poss st W j).
      destruct (j =? 3 * d + b); [apply m27_lor; [apply m27_ldiff, m27_land_l; assumption | exact Hmask] | ].
      destruct (j / 3 =? d); [apply m27_land_l; assumption | ].
      destruct (j mod 3 =? b); [apply m27_ldiff; assumption | assumption].
    + apply (wf_prev_len st W).
    + apply (wf_prev st W).
    + rewrite lset_length. apply (wf_uns_len st W).
    + apply lset_m27; [apply (wf_uns st W) | ]. apply m27_ldiff, (wf_uns st W).
    + apply (wf_pairs_len st W).
    + apply (wf_pairs st W).
  - reflexivity.
  - intros d' c' Hd' Hc'.
    destruct (cell_parts c Hc) as [P1 [P2 [P3 [P4 [P5 P6]]]]].
    destruct (cell_parts c' Hc') as [Q1 [Q2 [Q3 [Q4 [Q5 Q6]]]]].
    assert (Hcol : c' / 27 = c / 27 -> col_of c' = col_of c -> block_of c' = block_of c) by lia.
    assert (Hrow : c' / 27 <> c / 27 -> row_of c' <> row_of c) by lia.
    assert (Hblk : c' / 27 <> c / 27 -> block_of c' <> block_of c) by lia.
    unfold cand at 1. rewrite Hpm by lia.
    destruct (Nat.eqb_spec (3 * d' + c' / 27) (3 * d + b)) as [E1 | E1].
    + assert (d' = d) by lia. subst d'. assert (Eb : c' / 27 = c / 27) by (unfold b in *; lia).
      rewrite tb_lor, tb_ldiff, tb_land. unfold mask. rewrite tb_pow2.
      fold (candb st d c'). unfold peers.
      destruct (Nat.eqb_spec (c' mod 27) (c mod 27)) as [E2 | E2].
      * assert (c' = c) by (apply same_band_cell; assumption). subst c'.
        rewrite orb_true_r. split; [intros _ | reflexivity]. split; [exact Hcand | ]. split; [tauto | tauto].
      * cbn [negb]. rewrite andb_true_r, orb_false_r, andb_true_iff. unfold sm.
        rewrite self_mask_cell, candb_true by assumption.
        assert (c' <> c) by (intros ->; apply E2; reflexivity).
        split.
        -- intros [H1 H2]. split; [exact H1 | ]. split; [ | tauto].
           intros [_ [_ [H3 | [H3 | H3]]]]; apply H2; (split; [assumption | ]);
             [left | right | right]; auto.
        -- intros [H1 [H2 _]]. split; [exact H1 | ]. intros [_ H3]. apply H2. split; [reflexivity | ].
           split; [auto | ]. destruct H3 as [H3 | H3]; auto.
    + destruct (Nat.eqb_spec ((3 * d' + c' / 27) / 3) d) as [E2 | E2].
      * assert (d' = d) by lia. subst d'. assert (Eb : c' / 27 <> c / 27) by (unfold b in *; lia).
        rewrite tb_land, andb_true_iff. unfold no. rewrite neighbor_mask_cell by assumption.
        fold (candb st d c'). rewrite candb_true. specialize (Hrow Eb). specialize (Hblk Eb). unfold peers.
        split.
        -- intros [H1 H2]. split; [exact H1 | ]. split; [ | tauto].
           intros [_ [_ [H3 | [H3 | H3]]]]; auto.
        -- intros [H1 [H2 _]]. split; [exact H1 | ]. intros H3. apply H2. split; [reflexivity | ].
           split; [intros ->; apply Eb; reflexivity | auto].
      * assert (Hdd : d' <> d) by lia.
        destruct (Nat.eqb_spec ((3 * d' + c' / 27) mod 3) b) as [E3 | E3].
        -- assert (Eb : c' / 27 = c / 27) by (unfold b in *; lia).
           rewrite tb_ldiff, andb_true_iff, negb_true_iff. unfold mask. rewrite tb_pow2, Nat.eqb_neq.
           fold (candb st d' c'). rewrite candb_true. split.
           ++ intros [H1 H2]. split; [exact H1 | ]. split; [tauto | ]. intros [_ ->]. apply H2. reflexivity.
           ++ intros [H1 [_ H2]]. split; [exact H1 | ]. intros H3. apply H2. split; [exact Hdd | ].
              apply same_band_cell; assumption.
        -- fold (candb st d' c'). rewrite candb_true. split; [ | tauto]. intros H. split; [exact H | ].
           split; [tauto | ]. intros [_ ->]. apply E3. unfold b. lia.
  - intros c' Hc'. unfold uns at 1, um, st'. cbn [unsolved set_unsolved set_poss].
    rewrite nth_lset by (rewrite (wf_uns_len st W); exact Hb).
    destruct (Nat.eqb_spec (c' / 27) b) as [Eb | Eb].
    + rewrite tb_ldiff, andb_true_iff, negb_true_iff. unfold mask. rewrite tb_pow2, Nat.eqb_neq.
      unfold uns, um. rewrite Eb. split; intros [H1 H2]; (split; [exact H1 | ]).
      * intros ->. apply H2. reflexivity.
      * intros H3. apply H2. apply same_band_cell; assumption.
    + fold (um st (c' / 27)). fold (uns st c'). split; [intros H; split; [exact H | ] | tauto].
      intros ->. apply Eb. reflexivity.
Qed.
