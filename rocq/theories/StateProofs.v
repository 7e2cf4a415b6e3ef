(** Solver states seen as sets of candidates (digit, cell), and the effect of every operation on them. *)
From Coq Require Import List Arith NArith ZArith ZifyNat Lia Bool.
From Verif Require Import Spec Tables Solver BitLemmas GridProofs TableProofs ProcessProofs.
Import ListNotations.

(** Mask of one subband. *)
Definition pm (st : state) (sb : nat) : N := nth sb (poss st) 0%N.
Definition qm (st : state) (sb : nat) : N := nth sb (prev st) 0%N.
Definition um (st : state) (b : nat) : N := nth b (unsolved st) 0%N.
Definition prm (st : state) (b : nat) : N := nth b (pairs st) 0%N.

(** digit [d] (0..8) is a candidate of cell [c] *)
Definition cand (st : state) (d c : nat) : Prop := tb (pm st (3 * d + c / 27)) (c mod 27) = true.
(** same, for the masks saved by the last propagation step *)
Definition pcand (st : state) (d c : nat) : Prop := tb (qm st (3 * d + c / 27)) (c mod 27) = true.
(** cell [c] is marked as unsolved *)
Definition uns (st : state) (c : nat) : Prop := tb (um st (c / 27)) (c mod 27) = true.

Record wf (st : state) : Prop := mkwf {
  wf_poss_len : length (poss st) = 27;
  wf_poss : forall sb, m27 (pm st sb);
  wf_prev_len : length (prev st) = 27;
  wf_prev : forall sb, m27 (qm st sb);
  wf_uns_len : length (unsolved st) = 3;
  wf_uns : forall b, m27 (um st b);
  wf_pairs_len : length (pairs st) = 3;
  wf_pairs : forall b, m27 (prm st b)
}.

Lemma nth_m27 (l : list N) : (forall j, j < length l -> m27 (nth j l 0%N)) -> forall j, m27 (nth j l 0%N).
Proof.
  intros H j. destruct (Nat.lt_ge_cases j (length l)) as [Hj | Hj]; [auto | ].
  rewrite nth_overflow by exact Hj. apply m27_0.
Qed.

Lemma lset_m27 (l : list N) i x : (forall j, m27 (nth j l 0%N)) -> m27 x -> forall j, m27 (nth j (lset l i x) 0%N).
Proof.
  intros H Hx. apply nth_m27. intros j Hj. rewrite lset_length in Hj.
  destruct (Nat.lt_ge_cases i (length l)) as [Hi | Hi].
  - rewrite nth_lset by exact Hi. destruct (j =? i); auto.
  - assert (E : forall (l : list N) i x, length l <= i -> lset l i x = l).
    { clear. induction l as [ | h t IH]; intros [ | i] x H; simpl in *; try lia; auto. f_equal. apply IH. lia. }
    rewrite E by exact Hi. apply H.
Qed.

Lemma in_band_subbands b j : b < 3 -> j < 27 ->
  existsb (Nat.eqb j) (band_subbands b) = (j mod 3 =? b).
Proof.
  intros Hb Hj. apply eqb_prop.
  apply (sweep2 3 27 (fun b j => eqb (existsb (Nat.eqb j) (band_subbands b)) (j mod 3 =? b)));
    [vm_compute; reflexivity | exact Hb | exact Hj].
Qed.

Lemma band_subbands_lt b i : b < 3 -> In i (band_subbands b) -> i < 27.
Proof.
  intros Hb H. apply in_map_iff in H. destruct H as [d [<- Hd]]. simpl in Hd. lia.
Qed.

Lemma band_subbands_NoDup b : NoDup (band_subbands b).
Proof.
  unfold band_subbands. apply NoDup_map_on.
  - repeat constructor; simpl; intuition congruence.
  - intros. lia.
Qed.

(** A loop that modifies selected positions of a list. *)
Lemma for_each_amod (L : list nat) (p : nat -> bool) (f : N -> N) : NoDup L -> forall l,
  (forall i, In i L -> i < length l) ->
  exists l', for_each L (fun i l => if p i then Ok l else amod l i f) l = Ok l' /\ length l' = length l /\
    forall j, nth j l' 0%N = if existsb (Nat.eqb j) L && negb (p j) then f (nth j l 0%N) else nth j l 0%N.
Proof.
  induction L as [ | a t IH]; intros Hnd l Hlt.
  - exists l. repeat split. 
  - inversion Hnd; subst. simpl for_each. destruct (p a) eqn:Hp.
    + simpl bind. destruct (IH H2 l) as [l' [E [Hl Hn]]]; [intros; apply Hlt; right; assumption | ].
      exists l'. split; [exact E | ]. split; [exact Hl | ]. intros j. rewrite Hn. simpl existsb.
      destruct (Nat.eqb_spec j a) as [-> | ]; [ | reflexivity].
      rewrite Hp. rewrite !andb_false_r. reflexivity.
    + assert (Ha : a < length l) by (apply Hlt; left; reflexivity).
      rewrite amod_ok by exact Ha. simpl bind.
      destruct (IH H2 (lset l a (f (nth a l 0%N)))) as [l' [E [Hl Hn]]].
      { intros i Hi. rewrite lset_length. apply Hlt. right. exact Hi. }
      exists l'. split; [exact E | ]. split; [rewrite Hl; apply lset_length | ].
      intros j. rewrite Hn, nth_lset by exact Ha. simpl existsb.
      destruct (Nat.eqb_spec j a) as [-> | ]; [ | reflexivity].
      rewrite Hp. simpl. destruct (existsb (Nat.eqb a) t) eqn:Ex; [ | reflexivity].
      apply existsb_nat_eq in Ex. contradiction.
Qed.

(** * [process] *)

Lemma neighbor_ok d b : d < 9 -> b < 3 ->
  neighbor_subbands (3 * d + b) = Ok (3 * d + (b + 1) mod 3, 3 * d + (b + 2) mod 3).
Proof.
  intros Hd Hb. unfold neighbor_subbands.
  rewrite (aget_ok _ _ (0, 0)) by (change (length neighbor_subbands_tbl) with 27; lia).
  rewrite neighbor_tbl by assumption. reflexivity.
Qed.

Lemma process_eq st d b : wf st -> d < 9 -> b < 3 ->
  let sb := 3 * d + b in
  let old := pm st sb in
  let pc := pc_of old in
  let sc := solved_cells_of old in
  if (pc =? 0)%N then process st sb = Unsolv
  else exists p4,
    process st sb = Ok (mkState p4 (lset (prev st) sb pc) (lset (unsolved st) b (N.ldiff (um st b) sc)) (pairs st)) /\
    length p4 = 27 /\
    forall j, j < 27 -> nth j p4 0%N =
      if j =? sb then pc
      else if j / 3 =? d then N.land (pm st j) (no_of pc)
      else if j mod 3 =? b then N.ldiff (pm st j) sc
      else pm st j.
Proof.
  intros W Hd Hb sb old pc sc.
  assert (Hsb : sb < 27) by (unfold sb; lia).
  assert (Hold : m27 old) by (apply (wf_poss st W)).
  assert (Eg : aget (poss st) sb = Ok old) by (apply aget_ok; rewrite (wf_poss_len st W); exact Hsb).
  unfold process. rewrite Eg. cbn [bind].
  rewrite shrink_mask_ok by apply lt512_land_LOW9. cbn [bind].
  rewrite shrink_mask_ok by apply lt512_land_LOW9. cbn [bind].
  rewrite shrink_mask_ok by (apply lt512_shiftr18; exact Hold). cbn [bind].
  fold (shrink_of old).
  rewrite locked_same_ok by (apply shrink_of_lt; exact Hold). cbn [bind].
  fold (pc_of old). fold pc. unfold NONE.
  destruct (pc =? 0)%N eqn:Epc; [reflexivity | ]. apply N.eqb_neq in Epc.
  rewrite aset_ok by (rewrite (wf_prev_len st W); exact Hsb). cbn [bind].
  rewrite aset_ok by (rewrite (wf_poss_len st W); exact Hsb). cbn [bind].
  fold (cols_of pc).
  rewrite locked_neighbor_ok by apply cols_of_lt. cbn [bind]. fold (no_of pc).
  replace (neighbor_subbands sb) with (Ok (3 * d + (b + 1) mod 3, 3 * d + (b + 2) mod 3))
    by (symmetry; apply neighbor_ok; assumption).
  cbn [bind fst snd].
  rewrite amod_ok by (rewrite lset_length, (wf_poss_len st W); lia). cbn [bind].
  rewrite amod_ok by (rewrite !lset_length, (wf_poss_len st W); lia). cbn [bind].
  rewrite locked_minirows_ok by (apply shrink_of_lt; exact Hold). cbn [bind].
  rewrite column_single_ok by apply cols_of_lt. cbn [bind].
  pose proof (locked_minirows_tbl_lt _ (nat_lt512 _ (shrink_of_lt old Hold))) as L1.
  assert (Lx : (N.land (nth (N.to_nat (shrink_of old)) locked_minirows_tbl 0%N)
                       (nth (N.to_nat (cols_of pc)) column_single_tbl 0%N) < 512)%N).
  { change 512%N with (2 ^ 9)%N. apply bits_lt_pow2. intros k Hk. rewrite N.land_spec.
    rewrite (bits_ge_pow2 _ 9 k L1); [reflexivity | exact Hk]. }
  rewrite shrink_mask_ok by exact Lx. cbn [bind].
  rewrite row_mask_ok by (apply shrink_tbl_lt, nat_lt512, Lx). cbn [bind].
  assert (Emod : sb mod 3 = b) by (unfold sb; lia). rewrite Emod.
  rewrite amod_ok by (rewrite (wf_uns_len st W); exact Hb). cbn [bind].
  match goal with |- context [lset (unsolved st) b (N.ldiff _ ?X)] => change X with sc end.
  match goal with |- context [for_each (band_subbands b) _ ?L] => set (p3 := L) end.
  destruct (for_each_amod (band_subbands b) (fun i => i =? sb) (fun x => N.ldiff x sc)
              (band_subbands_NoDup b) p3) as [p4 [E [Hl Hn]]].
  { intros i Hi. unfold p3. rewrite !lset_length, (wf_poss_len st W). apply (band_subbands_lt b i); assumption. }
  rewrite E. cbn [bind]. exists p4. split; [reflexivity | ].
  split; [rewrite Hl; unfold p3; rewrite !lset_length; apply (wf_poss_len st W) | ].
  intros j Hj. rewrite Hn, in_band_subbands by assumption.
  unfold p3. rewrite !nth_lset by (rewrite ?lset_length, (wf_poss_len st W); lia).
  fold (pm st j).
  destruct (Nat.eqb_spec j sb) as [-> | Hne].
  - rewrite andb_false_r. 
    replace (sb =? 3 * d + (b + 2) mod 3) with false by (symmetry; apply Nat.eqb_neq; unfold sb; lia).
    replace (sb =? 3 * d + (b + 1) mod 3) with false by (symmetry; apply Nat.eqb_neq; unfold sb; lia).
    reflexivity.
  - rewrite andb_true_r.
    destruct (Nat.eqb_spec (j / 3) d) as [Ed | Ed].
    + replace (j mod 3 =? b) with false by (symmetry; apply Nat.eqb_neq; unfold sb in Hne; lia).
      destruct (Nat.eqb_spec j (3 * d + (b + 2) mod 3)) as [-> | H1].
      * replace (3 * d + (b + 2) mod 3 =? 3 * d + (b + 1) mod 3) with false
          by (symmetry; apply Nat.eqb_neq; lia).
        replace (3 * d + (b + 2) mod 3 =? sb) with false by (symmetry; apply Nat.eqb_neq; unfold sb; lia).
        reflexivity.
      * replace (j =? 3 * d + (b + 1) mod 3) with true by (symmetry; apply Nat.eqb_eq; unfold sb in Hne; lia).
        replace (3 * d + (b + 1) mod 3 =? sb) with false by (symmetry; apply Nat.eqb_neq; unfold sb; lia).
        f_equal. unfold pm. f_equal. unfold sb in Hne. lia.
    + replace (j =? 3 * d + (b + 2) mod 3) with false by (symmetry; apply Nat.eqb_neq; lia).
      replace (j =? 3 * d + (b + 1) mod 3) with false by (symmetry; apply Nat.eqb_neq; lia).
      reflexivity.
Qed.

(** ** Cell level statement *)

(** digit [d] placed once in every row and block of band [b], on candidates only *)
Definition cell_placement (st : state) (d b : nat) (f : nat -> nat) : Prop :=
  forall r, r < 3 ->
    f r < 81 /\ row_of (f r) = 3 * b + r /\ cand st d (f r) /\
    forall r', r' < 3 -> r <> r' -> block_of (f r) <> block_of (f r').

(** [m] is the only possible column of its stack in band [b] for column of [c] *)
Definition forced_col (m : nat -> Prop) (b c : nat) : Prop :=
  (exists c0, c0 < 81 /\ c0 / 27 = b /\ col_of c0 = col_of c /\ m c0) /\
  (forall c1, c1 < 81 -> c1 / 27 = b -> m c1 -> col_of c1 / 3 = col_of c / 3 -> col_of c1 = col_of c).

(** [c] is the only cell of [m] in its row and in its block *)
Definition lone_cell (m : nat -> Prop) (b c : nat) : Prop :=
  m c /\ forall c1, c1 < 81 -> c1 / 27 = b -> m c1 ->
         (row_of c1 = row_of c \/ block_of c1 = block_of c) -> c1 = c.

Lemma cell_parts c : c < 81 ->
  c / 27 < 3 /\ c mod 27 < 27 /\ c = 27 * (c / 27) + c mod 27 /\
  row_of c = 3 * (c / 27) + c mod 27 / 9 /\ col_of c = c mod 27 mod 9 /\
  block_of c = 3 * (c / 27) + c mod 27 mod 9 / 3.
Proof. intros H. unfold row_of, col_of, block_of, row_of, col_of. lia. Qed.

Lemma cell_make b i : b < 3 -> i < 27 -> 
  27 * b + i < 81 /\ (27 * b + i) / 27 = b /\ (27 * b + i) mod 27 = i /\
  row_of (27 * b + i) = 3 * b + i / 9 /\ col_of (27 * b + i) = i mod 9 /\
  block_of (27 * b + i) = 3 * b + i mod 9 / 3.
Proof. intros H. unfold row_of, col_of, block_of, row_of, col_of. lia. Qed.

Record process_post (st st' : state) (d b : nat) : Prop := mkpp {
  pp_wf : wf st';
  pp_pairs : pairs st' = pairs st;
  pp_keep : forall f r, cell_placement st d b f -> r < 3 -> cand st' d (f r);
  pp_sub : forall c, c < 81 -> c / 27 = b -> cand st' d c -> cand st d c;
  pp_row : forall r, r < 3 -> exists c, c < 81 /\ row_of c = 3 * b + r /\ cand st' d c;
  pp_block : forall k, k < 3 -> exists c, c < 81 /\ block_of c = 3 * b + k /\ cand st' d c;
  pp_other_band : forall c, c < 81 -> c / 27 <> b ->
    (cand st' d c <-> cand st d c /\ ~ forced_col (cand st' d) b c);
  pp_other_digit : forall d' c, d' < 9 -> d' <> d -> c < 81 -> c / 27 = b ->
    (cand st' d' c <-> cand st d' c /\ ~ lone_cell (cand st' d) b c);
  pp_other : forall d' c, d' < 9 -> d' <> d -> c < 81 -> c / 27 <> b -> (cand st' d' c <-> cand st d' c);
  pp_uns : forall c, c < 81 -> c / 27 = b ->
    (uns st' c <-> uns st c /\ ~ lone_cell (cand st' d) b c);
  pp_uns_other : forall c, c < 81 -> c / 27 <> b -> (uns st' c <-> uns st c);
  pp_prev : qm st' (3 * d + b) = pm st' (3 * d + b);
  pp_prev_nz : qm st' (3 * d + b) <> 0%N;
  pp_prev_other : forall sb, sb <> 3 * d + b -> qm st' sb = qm st sb
}.

Lemma process_spec st d b : wf st -> d < 9 -> b < 3 ->
  (process st (3 * d + b) = Unsolv /\ forall f, ~ cell_placement st d b f) \/
  (exists st', process st (3 * d + b) = Ok st' /\ process_post st st' d b).
Proof.
  intros W Hd Hb. pose proof (process_eq st d b W Hd Hb) as H. cbv zeta in H.
  set (sb := 3 * d + b) in *. set (old := pm st sb) in *. set (pc := pc_of old) in *.
  set (sc := solved_cells_of old) in *.
  assert (Hold : m27 old) by (apply (wf_poss st W)).
  assert (Hpc : m27 pc) by (apply pc_of_m27; exact Hold).
  assert (Hplace : forall f, cell_placement st d b f -> placement old (fun r => f r - 27 * b)).
  { intros f Hf r Hr. destruct (Hf r Hr) as [F1 [F2 [F3 F4]]].
    destruct (cell_parts _ F1) as [P1 [P2 [P3 [P4 [P5 P6]]]]].
    assert (Eb : f r / 27 = b) by lia.
    unfold cand in F3. rewrite Eb in F3. fold sb in F3. fold old in F3.
    replace (f r - 27 * b) with (f r mod 27) by lia.
    split; [lia | ]. split; [lia | ]. split; [exact F3 | ].
    intros r' Hr' Hne. specialize (F4 r' Hr' Hne). destruct (Hf r' Hr') as [G1 [G2 _]].
    destruct (cell_parts _ G1) as [Q1 [Q2 [Q3 [Q4 [Q5 Q6]]]]].
    replace (f r' - 27 * b) with (f r' mod 27) by lia. lia. }
  destruct (pc =? 0)%N eqn:Epc.
  - left. split; [exact H | ]. intros f Hf. apply N.eqb_eq in Epc.
    apply (pc_zero_no_placement old _ Hold Epc (Hplace f Hf)).
  - right. apply N.eqb_neq in Epc. destruct H as [p4 [E [Hl Hn]]].
    eexists. split; [exact E | ]. clear E.
    set (st' := mkState p4 _ _ _).
    assert (Hsb : sb < 27) by (unfold sb; lia).
    assert (Ed : sb / 3 = d) by (unfold sb; lia).
    assert (Em : sb mod 3 = b) by (unfold sb; lia).
    assert (Hpm : forall j, j < 27 -> pm st' j =
      if j =? sb then pc
      else if j / 3 =? d then N.land (pm st j) (no_of pc)
      else if j mod 3 =? b then N.ldiff (pm st j) sc
      else pm st j) by exact Hn.
    assert (Hpc_sb : pm st' sb = pc) by (rewrite Hpm, Nat.eqb_refl by exact Hsb; reflexivity).
    (* candidates of digit d in band b are the bits of pc *)
    assert (Hc : forall c, c / 27 = b -> (cand st' d c <-> tb pc (c mod 27) = true)).
    { intros c Ec. unfold cand. rewrite Ec. fold sb. rewrite Hpc_sb. reflexivity. }
    assert (Hlone : forall c, c < 81 -> c / 27 = b ->
              (lone_cell (cand st' d) b c <-> tb sc (c mod 27) = true)).
    { intros c Hc81 Ec. destruct (cell_parts c Hc81) as [P1 [P2 [P3 [P4 [P5 P6]]]]].
      unfold sc. rewrite (solved_cells_iff old Hold Epc _ P2). fold pc.
      unfold lone_cell. rewrite Hc by exact Ec. split.
      - intros [L1 L2]. split; [exact L1 | ]. intros j Hj Hbj Hor.
        destruct (cell_make b j Hb Hj) as [M1 [M2 [M3 [M4 [M5 M6]]]]].
        assert (27 * b + j = c).
        { apply L2; [exact M1 | exact M2 | apply Hc; [exact M2 | rewrite M3; exact Hbj] | lia]. }
        lia.
      - intros [L1 L2]. split; [exact L1 | ]. intros c1 H81 E1 Hc1 Hor.
        destruct (cell_parts c1 H81) as [Q1 [Q2 [Q3 [Q4 [Q5 Q6]]]]].
        apply Hc in Hc1; [ | exact E1].
        assert (c1 mod 27 = c mod 27) by (apply L2; [exact Q2 | exact Hc1 | lia]). lia. }
    assert (Hforce : forall c, c < 81 -> (forced_col (cand st' d) b c <-> tb (no_of pc) (c mod 27) = false)).
    { intros c Hc81. destruct (cell_parts c Hc81) as [P1 [P2 [P3 [P4 [P5 P6]]]]].
      unfold pc. rewrite (no_of_iff old Hold Epc _ P2). fold pc.
      unfold forced_col. split.
      - intros [[c0 [F1 [F2 [F3 F4]]]] F5]. destruct (cell_parts c0 F1) as [Q1 [Q2 [Q3 [Q4 [Q5 Q6]]]]].
        split.
        + exists (c0 mod 27). split; [exact Q2 | ]. split; [lia | ]. apply Hc; assumption.
        + intros j Hj Hbj Ej. destruct (cell_make b j Hb Hj) as [M1 [M2 [M3 [M4 [M5 M6]]]]].
          assert (col_of (27 * b + j) = col_of c).
          { apply F5; [exact M1 | exact M2 | apply Hc; [exact M2 | rewrite M3; exact Hbj] | lia]. }
          lia.
      - intros [[j [F1 [F2 F3]]] F5]. split.
        + destruct (cell_make b j Hb F1) as [M1 [M2 [M3 [M4 [M5 M6]]]]].
          exists (27 * b + j). split; [exact M1 | ]. split; [exact M2 | ]. split; [lia | ].
          apply Hc; [exact M2 | ]. rewrite M3. exact F3.
        + intros c1 H81 E1 Hc1 Ec. destruct (cell_parts c1 H81) as [Q1 [Q2 [Q3 [Q4 [Q5 Q6]]]]].
          apply Hc in Hc1; [ | exact E1]. rewrite Q5, P5. apply F5; [exact Q2 | exact Hc1 | lia]. }
    constructor.
    + constructor; simpl.
      * exact Hl.
      * apply nth_m27. intros j Hj. change (j < length p4) in Hj. rewrite Hl in Hj.
        change (nth j (poss st') 0%N) with (pm st' j).
        rewrite Hpm by exact Hj.
        destruct (j =? sb); [exact Hpc | ].
        destruct (j / 3 =? d); [apply m27_land_l, (wf_poss st W) | ].
        destruct (j mod 3 =? b); [apply m27_ldiff, (wf_poss st W) | apply (wf_poss st W)].
      * rewrite lset_length. apply (wf_prev_len st W).
      * apply lset_m27; [apply (wf_prev st W) | exact Hpc].
      * rewrite lset_length. apply (wf_uns_len st W).
      * apply lset_m27; [apply (wf_uns st W) | ]. apply m27_ldiff, (wf_uns st W).
      * apply (wf_pairs_len st W).
      * apply (wf_pairs st W).
    + reflexivity.
    + intros f r Hf Hr. destruct (Hf r Hr) as [F1 [F2 [F3 F4]]].
      destruct (cell_parts _ F1) as [P1 [P2 [P3 [P4 [P5 P6]]]]].
      apply Hc; [lia | ]. pose proof (placement_pc old _ r Hold (Hplace f Hf) Hr) as Hp. cbv beta in Hp.
      replace (f r - 27 * b) with (f r mod 27) in Hp by lia. exact Hp.
    + intros c Hc81 Ec Hcand. apply Hc in Hcand; [ | exact Ec].
      unfold pc in Hcand. unfold pc_of in Hcand. rewrite tb_land in Hcand.
      apply andb_true_iff in Hcand. unfold cand. rewrite Ec. apply Hcand.
    + intros r Hr. destruct (pc_row old Hold Epc r Hr) as [i [Hi [Ei Hbi]]].
      destruct (cell_make b i Hb Hi) as [M1 [M2 [M3 [M4 [M5 M6]]]]].
      exists (27 * b + i). split; [exact M1 | ]. split; [lia | ]. apply Hc; [exact M2 | ].
      rewrite M3. exact Hbi.
    + intros k Hk. destruct (pc_block old Hold Epc k Hk) as [i [Hi [Ei Hbi]]].
      destruct (cell_make b i Hb Hi) as [M1 [M2 [M3 [M4 [M5 M6]]]]].
      exists (27 * b + i). split; [exact M1 | ]. split; [lia | ]. apply Hc; [exact M2 | ].
      rewrite M3. exact Hbi.
    + intros c Hc81 Ec. destruct (cell_parts c Hc81) as [P1 _].
      rewrite Hforce by exact Hc81. unfold cand at 1. rewrite Hpm by lia.
      replace (3 * d + c / 27 =? sb) with false by (symmetry; apply Nat.eqb_neq; unfold sb; lia).
      replace ((3 * d + c / 27) / 3 =? d) with true by (symmetry; apply Nat.eqb_eq; lia).
      rewrite tb_land, andb_true_iff, not_false_iff_true. reflexivity.
    + intros d' c Hd' Hne Hc81 Ec. rewrite Hlone by assumption.
      unfold cand at 1. rewrite Hpm by lia.
      replace (3 * d' + c / 27 =? sb) with false by (symmetry; apply Nat.eqb_neq; unfold sb; lia).
      replace ((3 * d' + c / 27) / 3 =? d) with false by (symmetry; apply Nat.eqb_neq; lia).
      replace ((3 * d' + c / 27) mod 3 =? b) with true by (symmetry; apply Nat.eqb_eq; lia).
      rewrite tb_ldiff, andb_true_iff, negb_true_iff, <- not_true_iff_false. reflexivity.
    + intros d' c Hd' Hne Hc81 Ec. destruct (cell_parts c Hc81) as [P1 _].
      unfold cand at 1. rewrite Hpm by lia.
      replace (3 * d' + c / 27 =? sb) with false by (symmetry; apply Nat.eqb_neq; unfold sb; lia).
      replace ((3 * d' + c / 27) / 3 =? d) with false by (symmetry; apply Nat.eqb_neq; lia).
      replace ((3 * d' + c / 27) mod 3 =? b) with false by (symmetry; apply Nat.eqb_neq; lia).
      reflexivity.
    + intros c Hc81 Ec. rewrite Hlone by assumption. unfold uns, um at 1. simpl unsolved.
      rewrite nth_lset by (rewrite (wf_uns_len st W); exact Hb). rewrite Ec, Nat.eqb_refl.
      rewrite tb_ldiff, andb_true_iff, negb_true_iff, <- not_true_iff_false. reflexivity.
    + intros c Hc81 Ec. unfold uns, um at 1. simpl unsolved.
      rewrite nth_lset by (rewrite (wf_uns_len st W); exact Hb).
      apply Nat.eqb_neq in Ec. rewrite Ec. reflexivity.
    + fold sb. rewrite Hpc_sb. unfold qm. simpl prev. rewrite nth_lset by (rewrite (wf_prev_len st W); exact Hsb).
      fold sb. rewrite Nat.eqb_refl. reflexivity.
    + unfold qm. simpl prev. rewrite nth_lset by (rewrite (wf_prev_len st W); exact Hsb).
      fold sb. rewrite Nat.eqb_refl. exact Epc.
    + intros j Hj. unfold qm. simpl prev. rewrite nth_lset by (rewrite (wf_prev_len st W); exact Hsb).
      fold sb in Hj. apply Nat.eqb_neq in Hj. rewrite Hj. reflexivity.
Qed.
