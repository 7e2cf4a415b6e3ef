(** Termination and correctness of the propagation loops of the solver. *)
From Coq Require Import List Arith NArith ZArith ZifyNat Lia Bool.
From Verif Require Import Spec Tables Solver BitLemmas GridProofs TableProofs ProcessProofs StateProofs OpProofs SolverInv.
Import ListNotations.
Ltac Zify.zify_post_hook ::= Z.to_euclidean_division_equations.

(** ** Measures *)
Definition all_pairs : list (nat * nat) := list_prod (seq 0 27) (seq 0 27).
(** number of candidates *)
Definition pop (st : state) : nat := length (filter (fun x => tb (pm st (fst x)) (snd x)) all_pairs).
(** number of subbands with a change not yet propagated *)
Definition mism (st : state) : nat := length (filter (fun sb => negb (pm st sb =? qm st sb)%N) (seq 0 27)).
Definition measure (st : state) : nat := 28 * pop st + mism st.

Lemma filter_mono {A} (p q : A -> bool) l : (forall x, In x l -> p x = true -> q x = true) ->
  length (filter p l) <= length (filter q l).
Proof.
  induction l as [ | x t IH]; intros H; simpl; [lia | ].
  specialize (IH (fun y Hy => H y (or_intror Hy))). pose proof (H x (or_introl eq_refl)) as Hx.
  destruct (p x), (q x); simpl; try lia.
Qed.
Lemma filter_strict {A} (p q : A -> bool) l a : (forall x, In x l -> p x = true -> q x = true) ->
  In a l -> p a = false -> q a = true -> length (filter p l) < length (filter q l).
Proof.
  induction l as [ | x t IH]; intros H Ha Hp Hq; [contradiction | ]. simpl.
  pose proof (H x (or_introl eq_refl)) as Hx.
  assert (Hmono : length (filter p t) <= length (filter q t)) by (apply filter_mono; intros; apply H; [right | ]; auto).
  destruct Ha as [-> | Ha].
  - rewrite Hp, Hq. simpl. lia.
  - specialize (IH (fun y Hy => H y (or_intror Hy)) Ha Hp Hq).
    destruct (p x), (q x); simpl; try lia.
Qed.

Lemma in_all_pairs sb i : In (sb, i) all_pairs <-> sb < 27 /\ i < 27.
Proof. unfold all_pairs. rewrite in_prod_iff, !in_seq. lia. Qed.

Lemma cand_of_pair st sb i : sb < 27 -> i < 27 ->
  (tb (pm st sb) i = true <-> cand st (sb / 3) (27 * (sb mod 3) + i)).
Proof.
  intros Hs Hi. unfold cand.
  replace (3 * (sb / 3) + (27 * (sb mod 3) + i) / 27) with sb by lia.
  replace ((27 * (sb mod 3) + i) mod 27) with i by lia. reflexivity.
Qed.

Lemma sub_bits st st' sb i : sub st' st -> sb < 27 -> i < 27 -> tb (pm st' sb) i = true -> tb (pm st sb) i = true.
Proof. intros H Hs Hi E. rewrite cand_of_pair in * by assumption. apply H; [lia | lia | exact E]. Qed.

Lemma pop_mono st st' : sub st' st -> pop st' <= pop st.
Proof.
  intros H. apply filter_mono. intros [sb i] Hin E. apply in_all_pairs in Hin. simpl in *.
  apply (sub_bits st st'); tauto.
Qed.

Lemma pop_strict st st' d c : sub st' st -> d < 9 -> c < 81 -> cand st d c -> ~ cand st' d c -> pop st' < pop st.
Proof.
  intros H Hd Hc H1 H2. apply (filter_strict _ _ _ (3 * d + c / 27, c mod 27)).
  - intros [sb i] Hin E. apply in_all_pairs in Hin. simpl in *. apply (sub_bits st st'); tauto.
  - apply in_all_pairs. lia.
  - apply not_true_iff_false. exact H2.
  - exact H1.
Qed.

Lemma pop_le st : pop st <= N.to_nat 729.
Proof.
  unfold pop. etransitivity; [apply filter_length_le | ]. unfold all_pairs.
  rewrite prod_length, !seq_length. lia.
Qed.

Lemma mism_le st : mism st <= 27.
Proof. unfold mism. etransitivity; [apply filter_length_le | ]. rewrite seq_length. lia. Qed.

Lemma pop_same st st' : sub st' st -> pop st' = pop st -> forall d c, d < 9 -> c < 81 -> cand st d c -> cand st' d c.
Proof.
  intros H E d c Hd Hc Hcand. destruct (cand_dec st' d c) as [ | Hn]; [assumption | ].
  pose proof (pop_strict st st' d c H Hd Hc Hcand Hn). lia.
Qed.

Lemma same_poss st st' : wf st -> wf st' -> sub st' st -> (forall d c, d < 9 -> c < 81 -> cand st d c -> cand st' d c) ->
  forall sb, sb < 27 -> pm st' sb = pm st sb.
Proof.
  intros W W' H H' sb Hsb. apply tb_ext27; [apply (wf_poss _ W') | apply (wf_poss _ W) | ].
  intros i Hi. apply eq_iff_eq_true. rewrite !cand_of_pair by assumption. split.
  - apply H; lia.
  - apply H'; lia.
Qed.

Lemma process_measure st st' d b : wf st -> process_post st st' d b -> d < 9 -> b < 3 ->
  pm st (3 * d + b) <> qm st (3 * d + b) -> measure st' < measure st.
Proof.
  intros W P Hd Hb Hne. pose proof (process_sub _ _ _ _ P Hd Hb) as Hs.
  pose proof (pop_mono _ _ Hs) as Hp. unfold measure. pose proof (mism_le st').
  destruct (Nat.eq_dec (pop st') (pop st)) as [E | E]; [ | lia].
  enough (mism st' < mism st) by lia.
  pose proof (same_poss st st' W (pp_wf _ _ _ _ P) Hs (pop_same _ _ Hs E)) as Same.
  apply (filter_strict _ _ _ (3 * d + b)).
  - intros sb Hsb H1. apply in_seq in Hsb. rewrite negb_true_iff, N.eqb_neq in *.
    destruct (Nat.eq_dec sb (3 * d + b)) as [-> | Hx]; [exact Hne | ].
    rewrite (pp_prev_other _ _ _ _ P), Same in H1 by (assumption || lia). exact H1.
  - apply in_seq. lia.
  - rewrite (pp_prev _ _ _ _ P), N.eqb_refl. reflexivity.
  - apply negb_true_iff, N.eqb_neq. exact Hne.
Qed.

(** ** One pass and the whole propagation loop *)
Lemma weird_bits sb : sb < 27 -> negb (N.land (N.shiftr ALL (N.of_nat (sb / 3))) LOW9 =? NONE)%N = true.
Proof.
  intros H. apply (sweep1 27 (fun sb => negb (N.land (N.shiftr ALL (N.of_nat (sb / 3))) LOW9 =? NONE)%N));
    [vm_compute; reflexivity | exact H].
Qed.

Definition pass_body (sb : nat) (stf : state * bool) : res (state * bool) :=
  let '(st, nothing) := stf in
  w <- aget weird 0;
  p <- aget (poss st) sb;
  q <- aget (prev st) sb;
  if negb (N.land (N.shiftr w (N.of_nat (sb / 3))) LOW9 =? NONE)%N && negb (p =? q)%N
  then st' <- process st sb; Ok (st', false)
  else Ok (st, nothing).

Lemma pass_spec l : (forall sb, In sb l -> sb < 27) -> forall st nothing, INVx st ->
  (for_each l pass_body (st, nothing) = Unsolv /\ forall s, solved s -> ~ contained st s) \/
  exists st' n', for_each l pass_body (st, nothing) = Ok (st', n') /\ step_ok st st' /\
    measure st' <= measure st /\
    (if n' then nothing = true /\ st' = st /\ (forall sb, In sb l -> pm st sb = qm st sb)
     else nothing = false \/ measure st' < measure st).
Proof.
  induction l as [ | sb t IH]; intros Hlt st nothing HI.
  - right. exists st, nothing. split; [reflexivity | ]. split; [apply step_refl; exact HI | ].
    split; [lia | ]. destruct nothing; [ | auto]. split; [reflexivity | ]. split; [reflexivity | ].
    intros sb [].
  - assert (Hsb : sb < 27) by (apply Hlt; left; reflexivity).
    assert (Ht : forall x, In x t -> x < 27) by (intros; apply Hlt; right; assumption).
    cbn [for_each]. unfold pass_body at 1 3. 
    assert (W : wf st) by apply HI.
    change (aget weird 0) with (@Ok N ALL). cbn [bind].
    rewrite (aget_ok _ _ 0%N) by (rewrite (wf_poss_len st W); exact Hsb). cbn [bind].
    rewrite (aget_ok _ _ 0%N) by (rewrite (wf_prev_len st W); exact Hsb). cbn [bind].
    fold (pm st sb). fold (qm st sb). rewrite weird_bits by exact Hsb. rewrite andb_true_l.
    destruct (N.eqb_spec (pm st sb) (qm st sb)) as [E | E]; cbn [negb].
    + cbn [bind]. destruct (IH Ht st nothing HI) as [[E1 H1] | [st' [n' [E1 [S1 [M1 H1]]]]]].
      * left. auto.
      * right. exists st', n'. split; [exact E1 | ]. split; [exact S1 | ]. split; [exact M1 | ].
        destruct n'; [ | exact H1]. destruct H1 as [K1 [K2 K3]]. split; [exact K1 | ]. split; [exact K2 | ].
        intros x [<- | Hx]; auto.
    + assert (Esb : sb = 3 * (sb / 3) + sb mod 3) by lia.
      destruct (process_step st (sb / 3) (sb mod 3) HI ltac:(lia) ltac:(lia)) as [[E1 H1] | [st1 [E1 [S1 P1]]]];
        rewrite <- Esb in E1; rewrite E1; cbn [bind].
      * left. auto.
      * pose proof (process_measure st st1 (sb / 3) (sb mod 3) W P1 ltac:(lia) ltac:(lia)) as M1.
        rewrite <- Esb in M1. specialize (M1 E).
        destruct (IH Ht st1 false (s_inv _ _ S1)) as [[E2 H2] | [st' [n' [E2 [S2 [M2 H2]]]]]].
        -- left. split; [exact E2 | ]. intros s Hs Hc. apply (H2 s Hs). apply (s_sol _ _ S1); assumption.
        -- right. exists st', n'. split; [exact E2 | ]. split; [eapply step_trans; eauto | ]. split; [lia | ].
           destruct n'; [destruct H2 as [K _]; discriminate | ]. right. lia.
Qed.

Lemma find_locked_f_spec fuel : forall st, INVx st -> measure st < fuel ->
  (find_locked_f fuel st = Unsolv /\ forall s, solved s -> ~ contained st s) \/
  exists st', find_locked_f fuel st = Ok st' /\ step_ok st st' /\ Fix st'.
Proof.
  induction fuel as [ | f IH]; intros st HI Hm; [lia | ].
  cbn [find_locked_f]. change (locked_pass st) with (for_each (seq 0 27) pass_body (st, true)).
  destruct (pass_spec (seq 0 27) ltac:(intros sb H; apply in_seq in H; lia) st true HI)
    as [[E H] | [st' [n' [E [S1 [M1 H]]]]]]; rewrite E; cbn [bind].
  - left. auto.
  - destruct n'.
    + destruct H as [_ [-> H]]. right. exists st. split; [reflexivity | ]. split; [exact S1 | ].
      intros sb Hsb. apply H. apply in_seq. lia.
    + destruct H as [H | H]; [discriminate | ].
      destruct (IH st' (s_inv _ _ S1) ltac:(lia)) as [[E2 H2] | [st2 [E2 [S2 F2]]]].
      * left. split; [exact E2 | ]. intros s Hs Hc. apply (H2 s Hs). apply (s_sol _ _ S1); assumption.
      * right. exists st2. split; [exact E2 | ]. split; [eapply step_trans; eauto | exact F2].
Qed.

Lemma find_locked_spec st : INVx st ->
  (find_locked st = Unsolv /\ forall s, solved s -> ~ contained st s) \/
  exists st', find_locked st = Ok st' /\ step_ok st st' /\ Fix st'.
Proof.
  intros HI. apply find_locked_f_spec; [exact HI | ]. unfold measure, locked_fuel.
  pose proof (pop_le st). pose proof (mism_le st). lia.
Qed.

(** ** Naked singles *)
Definition cands (st : state) (c : nat) : list nat := filter (fun d => candb st d c) (seq 0 9).

Lemma in_cands st c d : In d (cands st c) <-> d < 9 /\ cand st d c.
Proof. unfold cands. rewrite filter_In, in_seq, candb_true. split; intros [H1 H2]; (split; [lia | exact H2]). Qed.

Lemma cands_NoDup st c : NoDup (cands st c).
Proof. apply NoDup_filter, seq_NoDup. Qed.

Lemma count_masks_aux st b (ds : list nat) : wf st -> b < 3 -> (forall d, In d ds -> d < 9) ->
  forall c1 c2 c3 n, m27 c1 -> m27 c2 -> m27 c3 ->
  (forall i, i < 27 -> tb c1 i = (1 <=? n i) /\ tb c2 i = (2 <=? n i) /\ tb c3 i = (3 <=? n i)) ->
  exists e1 e2 e3, for_each (map (fun d => 3 * d + b) ds)
    (fun sb c =>
       let '(c1, c2, c3) := c in
       m <- aget (poss st) sb;
       let c3 := N.lor c3 (N.land c2 m) in
       let c2 := N.lor c2 (N.land c1 m) in
       let c1 := N.lor c1 m in
       Ok (c1, c2, c3)) (c1, c2, c3) = Ok (e1, e2, e3) /\ m27 e1 /\ m27 e2 /\ m27 e3 /\
  (forall i, i < 27 -> let k := n i + length (filter (fun d => candb st d (27 * b + i)) ds) in
      tb e1 i = (1 <=? k) /\ tb e2 i = (2 <=? k) /\ tb e3 i = (3 <=? k)).
Proof.
  intros W Hb. induction ds as [ | d t IH]; intros Hds c1 c2 c3 n M1 M2 M3 H.
  - exists c1, c2, c3. split; [reflexivity | ]. split; [exact M1 | ]. split; [exact M2 | ]. split; [exact M3 | ].
    intros i Hi. cbn [filter length]. rewrite Nat.add_0_r. auto.
  - assert (Hd : d < 9) by (apply Hds; left; reflexivity).
    cbn [map for_each]. rewrite (aget_ok _ _ 0%N) by (rewrite (wf_poss_len st W); lia). cbn [bind].
    fold (pm st (3 * d + b)).
    pose proof (wf_poss st W (3 * d + b)) as Mp.
    destruct (IH (fun x Hx => Hds x (or_intror Hx)) (N.lor c1 (pm st (3 * d + b)))
      (N.lor c2 (N.land c1 (pm st (3 * d + b)))) (N.lor c3 (N.land c2 (pm st (3 * d + b))))
      (fun i => n i + if candb st d (27 * b + i) then 1 else 0)) as [e1 [e2 [e3 [E [N1 [N2 [N3 HH]]]]]]].
    + apply m27_lor; auto.
    + apply m27_lor; auto. apply m27_land_l; auto.
    + apply m27_lor; auto. apply m27_land_l; auto.
    + intros i Hi. destruct (H i Hi) as [H1 [H2 H3]].
      rewrite !tb_lor, !tb_land, H1, H2, H3.
      assert (Ec : candb st d (27 * b + i) = tb (pm st (3 * d + b)) i).
      { unfold candb. replace ((27 * b + i) / 27) with b by lia. replace ((27 * b + i) mod 27) with i by lia.
        reflexivity. }
      rewrite Ec. destruct (tb (pm st (3 * d + b)) i); rewrite ?orb_true_r, ?andb_true_r, ?andb_false_r, ?orb_false_r.
      * split; [symmetry; apply Nat.leb_le; lia | ].
        split; apply eq_iff_eq_true; rewrite orb_true_iff, !Nat.leb_le; lia.
      * rewrite Nat.add_0_r. auto.
    + exists e1, e2, e3. split; [exact E | ]. split; [exact N1 | ]. split; [exact N2 | ]. split; [exact N3 | ].
      intros i Hi. specialize (HH i Hi). cbv zeta in *. cbn [filter].
      destruct (candb st d (27 * b + i)); cbn [length].
      * replace (n i + S (length (filter (fun d0 => candb st d0 (27 * b + i)) t)))
          with (n i + 1 + length (filter (fun d0 => candb st d0 (27 * b + i)) t)) by lia. exact HH.
      * rewrite Nat.add_0_r in HH. exact HH.
Qed.

Lemma count_masks_spec st b : wf st -> b < 3 ->
  exists e1 e2 e3, count_masks st b = Ok (e1, e2, e3) /\ m27 e1 /\ m27 e2 /\ m27 e3 /\
  (forall i, i < 27 -> let k := length (cands st (27 * b + i)) in
      tb e1 i = (1 <=? k) /\ tb e2 i = (2 <=? k) /\ tb e3 i = (3 <=? k)).
Proof.
  intros W Hb.
  apply (count_masks_aux st b (seq 0 9) W Hb ltac:(intros d Hd; apply in_seq in Hd; lia) 0%N 0%N 0%N (fun _ => 0)).
  - apply m27_0.
  - apply m27_0.
  - apply m27_0.
  - intros i Hi. rewrite tb_0. auto.
Qed.

(** [insert_single] inserts the first candidate of the cell. *)
Lemma insert_single_spec st c : INVx st -> c < 81 -> forall ds, (forall d, In d ds -> d < 9) ->
  (insert_single st (2 ^ N.of_nat (c mod 27)) (map (fun d => 3 * d + c / 27) ds) = Unsolv /\
   forall d, In d ds -> ~ cand st d c) \/
  exists d, d < 9 /\ cand st d c /\
   insert_single st (2 ^ N.of_nat (c mod 27)) (map (fun d => 3 * d + c / 27) ds) =
   insert_candidate_by_mask st (3 * d + c / 27) (2 ^ N.of_nat (c mod 27)).
Proof.
  intros [W HI] Hc. induction ds as [ | d t IH]; intros Hds.
  - left. split; [reflexivity | ]. intros d [].
  - assert (Hd : d < 9) by (apply Hds; left; reflexivity).
    cbn [map insert_single]. rewrite (aget_ok _ _ 0%N) by (rewrite (wf_poss_len st W); lia). cbn [bind].
    fold (pm st (3 * d + c / 27)). rewrite land_pow2_zero, negb_involutive.
    fold (candb st d c). destruct (candb st d c) eqn:E.
    + right. exists d. split; [exact Hd | ]. split; [exact E | reflexivity].
    + destruct (IH (fun x Hx => Hds x (or_intror Hx))) as [[E1 H1] | H1]; [ | right; exact H1].
      left. split; [exact E1 | ]. intros d' [<- | Hd']; [apply candb_false; exact E | auto].
Qed.

Definition single_body (b : nat) (mask : N) (sta : state * bool) : res (state * bool) :=
  let '(st, _) := sta in st' <- insert_single st mask (band_subbands b); Ok (st', true).

(** Inserting the singles of one band. *)
Lemma singles_loop st0 b : b < 3 -> forall l st app, INVx st -> sub st st0 ->
  (forall i, In i l -> i < 27 /\ forall d d', d < 9 -> d' < 9 -> cand st (d) (27 * b + i) -> cand st d' (27 * b + i) -> d = d') ->
  (for_each (map (fun i => 2 ^ N.of_nat i)%N l) (single_body b) (st, app) = Unsolv /\
    forall s, solved s -> ~ contained st s) \/
  exists st' app', for_each (map (fun i => 2 ^ N.of_nat i)%N l) (single_body b) (st, app) = Ok (st', app') /\
    step_ok st st' /\ unsolved st' = unsolved st /\ prev st' = prev st /\ pairs st' = pairs st /\
    match l with
    | [] => st' = st /\ app' = app
    | i :: _ => app' = true /\ (uns st (27 * b + i) -> Fix st -> pop st' < pop st)
    end.
Proof.
  intros Hb. induction l as [ | i t IH]; intros st app HI Hsub H.
  - right. exists st, app. cbn [map for_each]. repeat (split; [reflexivity || (apply step_refl; exact HI) | ]).
    split; reflexivity.
  - destruct (H i (or_introl eq_refl)) as [Hi Huniq]. cbn [map for_each]. unfold single_body at 1 3.
    set (c := 27 * b + i) in *.
    assert (Hc : c < 81) by (unfold c; lia).
    assert (Eb : c / 27 = b) by (unfold c; lia). assert (Ei : c mod 27 = i) by (unfold c; lia).
    change (band_subbands b) with (map (fun d => 3 * d + b) (seq 0 9)).
    destruct (insert_single_spec st c HI Hc (seq 0 9) ltac:(intros d Hd; apply in_seq in Hd; lia))
      as [[E1 H1] | [d [Hd [Hcand E1]]]]; rewrite Eb, Ei in E1; rewrite E1; cbn [bind].
    + left. split; [reflexivity | ]. intros s Hs Hcon. apply (H1 (at_ s c - 1)).
      * apply in_seq. pose proof (solved_digit s c Hs Hc). lia.
      * apply Hcon. exact Hc.
    + destruct (insert_by_mask_step st d c HI Hd Hc Hcand) as [st1 [E2 [I1 [S1 [U1 [V1 [W1 [C1 L1]]]]]]]].
      rewrite Eb, Ei in E2. rewrite E2. cbn [bind].
      assert (Hsol : forall s, solved s -> contained st s -> contained st1 s).
      { intros s Hs Hcon. apply C1; [exact Hs | ]. split; [exact Hcon | ].
        assert (E : at_ s c - 1 = d) by (apply Huniq; auto; apply solved_digit; auto).
        destruct Hs as [_ [Hr _]]. specialize (Hr c Hc). lia. }
      assert (Hstep : step_ok st st1) by (constructor; assumption).
      destruct (IH st1 true I1) as [[E3 H3] | [st' [app' [E3 [S3 [U3 [V3 [W3 H3]]]]]]]].
      * eapply sub_trans; eauto.
      * intros j Hj. destruct (H j (or_intror Hj)) as [Hj27 Hju]. split; [exact Hj27 | ].
        intros x y Hx Hy Cx Cy. apply Hju; auto; apply S1; auto; lia.
      * left. split; [exact E3 | ]. intros s Hs Hcon. apply (H3 s Hs). auto.
      * right. exists st', app'. split; [exact E3 | ]. split; [eapply step_trans; eauto | ].
        split; [congruence | ]. split; [congruence | ]. split; [congruence | ].
        split; [destruct t; [apply H3 | apply H3] | ].
        intros Hu F. pose proof (pop_mono _ _ (s_sub _ _ S3)) as P1.
        enough (pop st1 < pop st) by lia.
        pose proof (pop_mono _ _ S1) as P2.
        destruct (Nat.eq_dec (pop st1) (pop st)) as [E | E]; [ | lia]. exfalso.
        pose proof (L1 (pop_same _ _ S1 E)) as Lone.
        destruct HI as [W [a I]].
        destruct (j_lone _ _ I d (c / 27) c Hd ltac:(lia) Hc) as [K _]; auto.
        { intros Z. unfold cand in Hcand. rewrite (F (3 * d + c / 27)) in Hcand by lia.
          rewrite Z, tb_0 in Hcand. discriminate. }
        apply (lone_cell_ext (cand st d)); auto.
        intros c1 H1 H2. symmetry. apply Fix_pcand; auto.
Qed.

(** What [guess] needs to know about an unfinished state. *)
Definition pairs_ok (st : state) (b : nat) : Prop :=
  forall i, i < 27 -> tb (prm st b) i = (length (cands st (27 * b + i)) =? 2).

Lemma cands_ext st st' c : poss st' = poss st -> cands st' c = cands st c.
Proof. intros H. unfold cands, candb, pm. rewrite H. reflexivity. Qed.

Lemma naked_band_spec st b app : INVx st -> b < 3 ->
  (naked_singles_band b (st, app) = Unsolv /\ forall s, solved s -> ~ contained st s) \/
  exists st' app', naked_singles_band b (st, app) = Ok (st', app') /\ step_ok st st' /\
    unsolved st' = unsolved st /\ prev st' = prev st /\
    (forall b', b' <> b -> prm st' b' = prm st b') /\
    ((app' = app /\ poss st' = poss st /\ pairs_ok st' b) \/
     (app' = true /\ (Fix st -> pop st' < pop st))).
Proof.
  intros HI Hb. assert (HI' := HI). destruct HI' as [W [a I]].
  unfold naked_singles_band.
  destruct (count_masks_spec st b W Hb) as [c1 [c2 [c3 [E [M1 [M2 [M3 HC]]]]]]].
  rewrite E. cbn [bind].
  destruct (N.eqb_spec c1 ALL) as [E1 | E1]; cbn [negb].
  2: { left. split; [reflexivity | ]. intros s Hs Hcon. apply E1. apply tb_ext27; [exact M1 | apply m27_ALL | ].
       intros i Hi. rewrite tb_ALL. destruct (HC i Hi) as [K _]. rewrite K.
       apply Nat.ltb_lt in Hi as Hi'. rewrite Hi'. apply Nat.leb_le.
       assert (Hin : In (at_ s (27 * b + i) - 1) (cands st (27 * b + i))).
       { apply in_cands. split; [apply solved_digit; auto; lia | apply Hcon; lia]. }
       destruct (cands st (27 * b + i)); [contradiction | cbn [length]; lia]. }
  rewrite aset_ok by (rewrite (wf_pairs_len st W); exact Hb). cbn [bind].
  set (st1 := set_pairs st _).
  assert (W1 : wf st1).
  { destruct W. constructor; auto.
    - cbn. rewrite lset_length. assumption.
    - unfold prm. cbn. apply lset_m27; [assumption | ]. apply m27_lxor; assumption. }
  assert (I1 : INVx st1).
  { split; [exact W1 | ]. exists a. apply (INV_mono st); auto. intros d c _ _ H. exact H. }
  assert (Hstep1 : step_ok st st1) by (constructor; [exact I1 | intros d c _ _ H; exact H | intros s _ H; exact H]).
  rewrite (aget_ok _ _ 0%N) by (rewrite (wf_uns_len st1 W1); exact Hb). cbn [bind].
  change (nth b (unsolved st1) 0%N) with (um st b).
  assert (Msing : m27 (N.land (N.lxor c1 c2) (um st b))) by (apply m27_land_l, m27_lxor; assumption).
  rewrite mask_iter_spec by exact Msing. cbn [bind].
  fold (single_body b).
  assert (Hpr : prm st1 b = N.lxor c2 c3).
  { unfold prm, st1. cbn. rewrite nth_lset, Nat.eqb_refl by (rewrite (wf_pairs_len st W); exact Hb). reflexivity. }
  assert (Hpr' : forall b', b' <> b -> prm st1 b' = prm st b').
  { intros b' Hne. unfold prm, st1. cbn. rewrite nth_lset by (rewrite (wf_pairs_len st W); exact Hb).
    apply Nat.eqb_neq in Hne. rewrite Hne. reflexivity. }
  destruct (singles_loop st1 b Hb (bits (N.land (N.lxor c1 c2) (um st b))) st1 app I1 (sub_refl _))
    as [[E2 H2] | [st' [app' [E2 [S2 [U2 [V2 [P2 H2]]]]]]]].
  - intros i Hi. apply in_bits in Hi; [ | exact Msing].
    assert (Hi27 : i < 27).
    { destruct (Nat.lt_ge_cases i 27); [assumption | ]. rewrite tb_high27 in Hi by assumption. discriminate. }
    split; [exact Hi27 | ]. rewrite tb_land, tb_lxor in Hi. apply andb_true_iff in Hi. destruct Hi as [Hx _].
    destruct (HC i Hi27) as [K1 [K2 _]]. cbv zeta in K1, K2. rewrite K1, K2 in Hx.
    intros d d' Hd Hd' C C'.
    assert (In d (cands st (27 * b + i))) as G by (apply in_cands; auto).
    assert (In d' (cands st (27 * b + i))) as G' by (apply in_cands; auto).
    destruct (cands st (27 * b + i)) as [ | x [ | y t]]; cbn [length] in Hx.
    + contradiction.
    + destruct G as [G | []]; destruct G' as [G' | []]; congruence.
    + discriminate Hx.
  - rewrite E2. left. split; [reflexivity | ]. intros s Hs Hcon. apply (H2 s Hs Hcon).
  - rewrite E2. right. exists st', app'. split; [reflexivity | ].
    split; [eapply step_trans; eauto | ]. split; [exact U2 | ]. split; [exact V2 | ].
    split; [intros b' Hne; rewrite <- Hpr' by exact Hne; unfold prm; rewrite P2; reflexivity | ].
    destruct (bits (N.land (N.lxor c1 c2) (um st b))) as [ | i t] eqn:Eb.
    + destruct H2 as [-> ->]. left. split; [reflexivity | ]. split; [reflexivity | ].
      intros i Hi. destruct (HC i Hi) as [_ [K2 K3]]. rewrite Hpr, tb_lxor, K2, K3.
      rewrite (cands_ext st st1) by reflexivity. generalize (length (cands st (27 * b + i))). intros n.
      destruct n as [ | [ | [ | n]]]; reflexivity.
    + destruct H2 as [-> H2]. right. split; [reflexivity | ]. intros F.
      assert (Epop : pop st1 = pop st) by (unfold pop, pm; reflexivity).
      rewrite <- Epop. apply H2.
      * assert (Hin : In i (bits (N.land (N.lxor c1 c2) (um st b)))) by (rewrite Eb; left; reflexivity).
        apply in_bits in Hin; [ | exact Msing].
        assert (Hi27 : i < 27).
        { destruct (Nat.lt_ge_cases i 27); [assumption | ]. rewrite tb_high27 in Hin by assumption. discriminate. }
        rewrite tb_land in Hin. apply andb_true_iff in Hin. destruct Hin as [_ Hin].
        unfold uns. replace ((27 * b + i) / 27) with b by lia. replace ((27 * b + i) mod 27) with i by lia.
        exact Hin.
      * exact F.
Qed.

Lemma pairs_ok_ext st st' b : poss st' = poss st -> prm st' b = prm st b -> pairs_ok st b -> pairs_ok st' b.
Proof.
  intros H1 H2 H i Hi. rewrite H2, (cands_ext st st') by exact H1. apply H. exact Hi.
Qed.

(** Summary of one iteration over the three bands. *)
Lemma naked_singles_spec st : INVx st ->
  (find_naked_singles st = Unsolv /\ forall s, solved s -> ~ contained st s) \/
  exists st' app, find_naked_singles st = Ok (st', app) /\ step_ok st st' /\
    (if app then Fix st -> pop st' < pop st
     else unsolved st' = unsolved st /\ prev st' = prev st /\ poss st' = poss st /\ forall b, b < 3 -> pairs_ok st' b).
Proof.
  intros HI. unfold find_naked_singles. cbn [for_each].
  destruct (naked_band_spec st 0 false HI ltac:(lia)) as [[E0 H0] | [s0 [a0 [E0 [S0 [U0 [V0 [Q0 H0]]]]]]]];
    rewrite E0; cbn [bind]; [left; auto | ].
  destruct (naked_band_spec s0 1 a0 (s_inv _ _ S0) ltac:(lia)) as [[E1 H1] | [s1 [a1 [E1 [S1 [U1 [V1 [Q1 H1]]]]]]]];
    rewrite E1; cbn [bind].
  { left. split; [reflexivity | ]. intros s Hs Hc. apply (H1 s Hs). apply (s_sol _ _ S0); auto. }
  destruct (naked_band_spec s1 2 a1 (s_inv _ _ S1) ltac:(lia)) as [[E2 H2] | [s2 [a2 [E2 [S2 [U2 [V2 [Q2 H2]]]]]]]];
    rewrite E2; cbn [bind].
  { left. split; [reflexivity | ]. intros s Hs Hc. apply (H2 s Hs). apply (s_sol _ _ S1); auto.
    apply (s_sol _ _ S0); auto. }
  right. exists s2, a2. split; [reflexivity | ].
  split; [eapply step_trans; [exact S0 | eapply step_trans; eauto] | ].
  pose proof (pop_mono _ _ (s_sub _ _ S0)) as P0. pose proof (pop_mono _ _ (s_sub _ _ S1)) as P1.
  pose proof (pop_mono _ _ (s_sub _ _ S2)) as P2.
  assert (HFix : forall x y, poss y = poss x -> prev y = prev x -> Fix x -> Fix y).
  { intros x y Ex Ey F sb Hsb. unfold pm, qm. rewrite Ex, Ey. apply F. exact Hsb. }
  destruct H0 as [[-> [X0 Y0]] | [-> H0]].
  - destruct H1 as [[-> [X1 Y1]] | [-> H1]].
    + destruct H2 as [[-> [X2 Y2]] | [-> H2]].
      * split; [congruence | ]. split; [congruence | ]. split; [congruence | ].
        intros b Hb. assert (Hb' : b = 0 \/ b = 1 \/ b = 2) by lia. destruct Hb' as [-> | [-> | ->]].
        -- apply (pairs_ok_ext s0); [congruence | rewrite Q2, Q1 by lia; reflexivity | exact Y0].
        -- apply (pairs_ok_ext s1); [congruence | rewrite Q2 by lia; reflexivity | exact Y1].
        -- exact Y2.
      * intros F. assert (Fix s1) by (apply (HFix st); [congruence | congruence | exact F]). specialize (H2 H). lia.
    + assert (a2 = true) by (destruct H2 as [[-> _] | [-> _]]; reflexivity). subst a2.
      intros F. assert (Fix s0) by (apply (HFix st); [congruence | congruence | exact F]). specialize (H1 H). lia.
  - assert (a2 = true).
    { destruct H2 as [[-> _] | [-> _]]; [ | reflexivity]. destruct H1 as [[-> _] | [-> _]]; reflexivity. }
    subst a2. intros F. specialize (H0 F). lia.
Qed.

(** In the unfinished state every unsolved cell may be guessed and [pairs] is up to date. *)
Definition ready (st : state) : Prop := forall b, b < 3 -> pairs_ok st b.

Lemma solve_loop_spec fuel : forall st, INVx st -> pop st < fuel ->
  (solve_loop fuel st = Unsolv /\ forall s, solved s -> ~ contained st s) \/
  exists st', solve_loop fuel st = Ok st' /\ step_ok st st' /\ Fix st' /\ (is_solved st' = true \/ ready st').
Proof.
  induction fuel as [ | f IH]; intros st HI Hp; [lia | ]. cbn [solve_loop].
  destruct (find_locked_spec st HI) as [[E1 H1] | [st1 [E1 [S1 F1]]]]; rewrite E1; cbn [bind]; [left; auto | ].
  destruct (is_solved st1) eqn:Es.
  - right. exists st1. split; [reflexivity | ]. split; [exact S1 | ]. split; [exact F1 | ]. left. exact Es.
  - destruct (naked_singles_spec st1 (s_inv _ _ S1)) as [[E2 H2] | [st2 [app [E2 [S2 H2]]]]]; rewrite E2; cbn [bind].
    + left. split; [reflexivity | ]. intros s Hs Hc. apply (H2 s Hs). apply (s_sol _ _ S1); auto.
    + pose proof (pop_mono _ _ (s_sub _ _ S1)). destruct app.
      * specialize (H2 F1). destruct (IH st2 (s_inv _ _ S2) ltac:(lia)) as [[E3 H3] | [st3 [E3 [S3 [F3 R3]]]]].
        -- left. split; [exact E3 | ]. intros s Hs Hc. apply (H3 s Hs). apply (s_sol _ _ S2); auto.
           apply (s_sol _ _ S1); auto.
        -- right. exists st3. split; [exact E3 | ]. split; [ | auto].
           eapply step_trans; [exact S1 | eapply step_trans; eauto].
      * destruct H2 as [U2 [V2 [P2 R2]]]. right. exists st2. split; [reflexivity | ].
        split; [eapply step_trans; eauto | ]. split; [ | right; exact R2].
        intros sb Hsb. unfold pm, qm. rewrite P2, V2. apply F1. exact Hsb.
Qed.
