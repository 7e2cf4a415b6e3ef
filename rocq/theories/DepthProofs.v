(** Every nested guess solves a further cell, so the search is no deeper than the number of empty cells. *)
From Coq Require Import List Arith NArith ZArith ZifyNat Lia Bool.
From Verif Require Import Spec Tables Solver BitLemmas GridProofs TableProofs ProcessProofs StateProofs OpProofs SolverInv LoopProofs GuessProofs DepthSpec.
Import ListNotations.
Ltac Zify.zify_post_hook ::= Z.to_euclidean_division_equations.

(** ** Solved cells stay solved, propagated subbands stay propagated *)
Record later (st st' : state) : Prop := mklater {
  l_uns : forall c, c < 81 -> uns st' c -> uns st c;
  l_prev : forall sb, sb < 27 -> qm st sb <> 0%N -> qm st' sb <> 0%N
}.

Lemma later_refl st : later st st.
Proof. constructor; auto. Qed.
Lemma later_trans a b c : later a b -> later b c -> later a c.
Proof. intros [H1 H2] [H3 H4]. constructor; auto. Qed.
Lemma later_same st st' : unsolved st' = unsolved st -> prev st' = prev st -> later st st'.
Proof. intros U V. constructor; unfold uns, um, qm; rewrite ?U, ?V; auto. Qed.

Lemma later_process st st' d b : process_post st st' d b -> d < 9 -> b < 3 -> later st st'.
Proof.
  intros P Hd Hb. constructor.
  - intros c Hc H. destruct (Nat.eq_dec (c / 27) b) as [E | E].
    + apply (pp_uns _ _ _ _ P) in H; tauto.
    + apply (pp_uns_other _ _ _ _ P) in H; tauto.
  - intros sb Hsb H. destruct (Nat.eq_dec sb (3 * d + b)) as [-> | E].
    + apply (pp_prev_nz _ _ _ _ P).
    + rewrite (pp_prev_other _ _ _ _ P) by exact E. exact H.
Qed.

Lemma pass_later l : (forall sb, In sb l -> sb < 27) -> forall st nothing st' n', INVx st ->
  for_each l pass_body (st, nothing) = Ok (st', n') -> INVx st' /\ later st st'.
Proof.
  induction l as [ | sb t IH]; intros Hlt st nothing st' n' HI E.
  - cbn [for_each] in E. injection E as <- <-. split; [exact HI | apply later_refl].
  - assert (Hsb : sb < 27) by (apply Hlt; left; reflexivity).
    assert (Ht : forall x, In x t -> x < 27) by (intros; apply Hlt; right; assumption).
    assert (W : wf st) by apply HI.
    cbn [for_each] in E. unfold pass_body at 1 in E. change (aget weird 0) with (@Ok N ALL) in E. cbn [bind] in E.
    rewrite (aget_ok _ _ 0%N) in E by (rewrite (wf_poss_len st W); exact Hsb). cbn [bind] in E.
    rewrite (aget_ok _ _ 0%N) in E by (rewrite (wf_prev_len st W); exact Hsb). cbn [bind] in E.
    fold (pm st sb) in E. fold (qm st sb) in E. rewrite weird_bits in E by exact Hsb. rewrite andb_true_l in E.
    destruct (N.eqb_spec (pm st sb) (qm st sb)) as [Eq | Eq]; cbn [negb bind] in E.
    + exact (IH Ht _ _ _ _ HI E).
    + assert (Esb : sb = 3 * (sb / 3) + sb mod 3) by lia.
      destruct (process_step st (sb / 3) (sb mod 3) HI ltac:(lia) ltac:(lia)) as [[E1 H1] | [st1 [E1 [S1 P1]]]];
        rewrite <- Esb in E1; rewrite E1 in E; cbn [bind] in E; [discriminate | ].
      destruct (IH Ht _ _ _ _ (s_inv _ _ S1) E) as [I2 L2]. split; [exact I2 | ].
      eapply later_trans; [ | exact L2]. apply (later_process st st1 (sb / 3) (sb mod 3)); [exact P1 | lia | lia].
Qed.

Lemma find_locked_f_later fuel : forall st st', INVx st -> find_locked_f fuel st = Ok st' -> INVx st' /\ later st st'.
Proof.
  induction fuel as [ | f IH]; intros st st' HI E; [discriminate | ].
  cbn [find_locked_f] in E. change (locked_pass st) with (for_each (seq 0 27) pass_body (st, true)) in E.
  destruct (for_each (seq 0 27) pass_body (st, true)) as [[st1 n] | | | ] eqn:E1; try discriminate E. cbn [bind] in E.
  destruct (pass_later (seq 0 27) ltac:(intros sb H; apply in_seq in H; lia) st true st1 n HI E1) as [I1 L1].
  destruct n.
  - injection E as <-. auto.
  - destruct (IH _ _ I1 E) as [I2 L2]. split; [exact I2 | ]. eapply later_trans; eauto.
Qed.

Lemma naked_singles_later st st' app : INVx st -> find_naked_singles st = Ok (st', app) -> INVx st' /\ later st st'.
Proof.
  intros HI E. unfold find_naked_singles in E. cbn [for_each] in E.
  destruct (naked_band_spec st 0 false HI ltac:(lia)) as [[E0 H0] | [s0 [a0 [E0 [S0 [U0 [V0 _]]]]]]];
    rewrite E0 in E; cbn [bind] in E; [discriminate | ].
  destruct (naked_band_spec s0 1 a0 (s_inv _ _ S0) ltac:(lia)) as [[E1 H1] | [s1 [a1 [E1 [S1 [U1 [V1 _]]]]]]];
    rewrite E1 in E; cbn [bind] in E; [discriminate | ].
  destruct (naked_band_spec s1 2 a1 (s_inv _ _ S1) ltac:(lia)) as [[E2 H2] | [s2 [a2 [E2 [S2 [U2 [V2 _]]]]]]];
    rewrite E2 in E; cbn [bind] in E; [discriminate | ].
  injection E as <- <-. split; [apply (s_inv _ _ S2) | ]. apply later_same; congruence.
Qed.

Lemma solve_loop_later fuel : forall st st', INVx st -> solve_loop fuel st = Ok st' -> later st st'.
Proof.
  induction fuel as [ | f IH]; intros st st' HI E; [discriminate | ]. cbn [solve_loop] in E.
  destruct (find_locked st) as [st1 | | | ] eqn:E1; try discriminate E. cbn [bind] in E.
  destruct (find_locked_f_later _ _ _ HI E1) as [I1 L1].
  destruct (is_solved st1); [injection E as <-; exact L1 | ].
  destruct (find_naked_singles st1) as [[st2 app] | | | ] eqn:E2; try discriminate E. cbn [bind] in E.
  destruct (naked_singles_later _ _ _ I1 E2) as [I2 L2].
  destruct app.
  - eapply later_trans; [exact L1 | ]. eapply later_trans; [exact L2 | ]. exact (IH _ _ I2 E).
  - injection E as <-. eapply later_trans; eauto.
Qed.

Lemma solve_later st limit sols st' : INVx st -> solve_ st limit sols = Ok st' -> later st st'.
Proof.
  intros HI E. unfold solve_ in E. destruct (negb (sols_len sols <=? limit)); [discriminate | ].
  destruct (sols_len sols =? limit); [discriminate | ]. exact (solve_loop_later _ _ _ HI E).
Qed.

(** ** Number of unsolved cells *)
Definition unsb (st : state) (c : nat) : bool := tb (um st (c / 27)) (c mod 27).
Definition nuns (st : state) : nat := length (filter (unsb st) (seq 0 81)).

Lemma nuns_later st st' : later st st' -> nuns st' <= nuns st.
Proof.
  intros L. apply filter_mono. intros c Hc H. apply in_seq in Hc. apply (l_uns _ _ L); [lia | exact H].
Qed.
Lemma nuns_strict st st' c : later st st' -> c < 81 -> uns st c -> ~ uns st' c -> nuns st' < nuns st.
Proof.
  intros L Hc H H'. apply (filter_strict _ _ _ c).
  - intros x Hx K. apply in_seq in Hx. apply (l_uns _ _ L); [lia | exact K].
  - apply in_seq. lia.
  - apply not_true_iff_false. exact H'.
  - exact H.
Qed.
Lemma nuns_same st st' : unsolved st' = unsolved st -> nuns st' = nuns st.
Proof. intros U. unfold nuns, unsb, um. rewrite U. reflexivity. Qed.

(** ** A candidate that was put in is solved after propagation *)
Lemma put_solved st st1 st2 d c : d < 9 -> c < 81 -> INVx st2 -> Fix st2 -> sub st2 st1 ->
  (forall c1, c1 < 81 -> c1 / 27 = c / 27 -> cand st1 d c1 -> (row_of c1 = row_of c \/ block_of c1 = block_of c) -> c1 = c) ->
  qm st (3 * d + c / 27) <> 0%N -> later st st2 -> ~ uns st2 c.
Proof.
  intros Hd Hc [W [a I]] F Hs Hone Hq L.
  assert (Hq2 : qm st2 (3 * d + c / 27) <> 0%N) by (apply (l_prev _ _ L); [lia | exact Hq]).
  assert (Hr : row_of c / 3 = c / 27) by (unfold row_of; lia).
  destruct (j_row _ _ I d (row_of c) Hd) as [c' [Hc' [Er K]]]; [apply row_lt; exact Hc | rewrite Hr; exact Hq2 | ].
  apply Fix_pcand in K; auto.
  assert (E : c' = c).
  { apply Hone; [exact Hc' | unfold row_of in Er; lia | apply Hs; assumption | left; exact Er]. }
  subst c'.
  assert (Lone : lone_cell (pcand st2 d) (c / 27) c).
  { apply (lone_cell_ext (cand st2 d)); [ | exact Hc | reflexivity | ].
    - intros c1 H1 H2. symmetry. apply Fix_pcand; auto.
    - split; [exact K | ]. intros c1 H1 H2 H3 H4. apply Hone; auto. }
  destruct (j_lone _ _ I d (c / 27) c Hd ltac:(lia) Hc Hq2 eq_refl Lone) as [R _]. exact R.
Qed.

(** ** Two searches that agree on states with fewer unsolved cells agree *)
Definition settled (st : state) : Prop := INVx st /\ Fix st /\ (is_solved st = true \/ ready st).
Definition agree (r1 r2 : state -> solutions -> res solutions) (n : nat) : Prop :=
  forall st sols, settled st -> nuns st < n -> r1 st sols = r2 st sols.

Lemma try_agree r1 r2 n st d c limit sols : agree r1 r2 n -> INVx st -> d < 9 -> c < 81 -> cand st d c -> uns st c ->
  qm st (3 * d + c / 27) <> 0%N -> nuns st <= n ->
  try_candidate r1 st limit (3 * d + c / 27) (2 ^ N.of_nat (c mod 27)) sols =
  try_candidate r2 st limit (3 * d + c / 27) (2 ^ N.of_nat (c mod 27)) sols.
Proof.
  intros A HI Hd Hc Hcand Hu Hq Hn.
  destruct (insert_by_mask_spec st d c (proj1 HI) Hd Hc Hcand) as [l [E [W' Hl]]].
  destruct (insert_by_mask_step st d c HI Hd Hc Hcand) as [st1 [E1 [I1 [S1 [U1 [V1 [W1 [C1 L1]]]]]]]].
  assert (Est : st1 = set_poss st l) by (rewrite E1 in E; injection E as E; exact E).
  unfold try_candidate. rewrite E1. cbn [bind].
  destruct (solve_ st1 limit sols) as [st2 | | | ] eqn:E2; try reflexivity.
  pose proof (solve_later _ _ _ _ I1 E2) as L2.
  assert (Hlt : sols_len sols < limit).
  { unfold solve_ in E2. destruct (Nat.leb_spec (sols_len sols) limit); cbn [negb] in E2; [ | discriminate].
    destruct (Nat.eqb_spec (sols_len sols) limit); [discriminate | lia]. }
  destruct (solve_spec st1 limit sols I1 Hlt) as [[E3 _] | [st3 [E3 [S3 [F3 R3]]]]]; rewrite E2 in E3; [discriminate | ].
  injection E3 as <-.
  assert (L : later st st2) by (eapply later_trans; [apply later_same; eassumption | exact L2]).
  apply A.
  - split; [apply (s_inv _ _ S3) | ]. split; [exact F3 | exact R3].
  - apply Nat.lt_le_trans with (nuns st); [ | exact Hn].
    apply (nuns_strict st st2 c); auto.
    apply (put_solved st st1 st2 d c); auto; [apply (s_inv _ _ S3) | apply (s_sub _ _ S3) | ].
    intros c1 H1 H2 H3 H4. destruct (Nat.eq_dec c1 c) as [ | Hne]; [assumption | ]. exfalso.
    rewrite Est in H3. apply Hl in H3; auto. destruct H3 as [_ H3]. apply H3. auto.
Qed.

(** What stays true of the state while the digits of the cell [c] are tried one after the other. *)
Record trying (n c : nat) (st : state) : Prop := mktrying {
  t_inv : INVx st;
  t_uns : uns st c;
  t_num : nuns st <= n;
  t_prev : forall d, d < 9 -> cand st d c -> qm st (3 * d + c / 27) <> 0%N
}.

Lemma trying_remove n c st d l : trying n c st -> d < 9 -> c < 81 -> cand st d c ->
  amod (poss st) (3 * d + c / 27) (fun x => N.lxor x (2 ^ N.of_nat (c mod 27))) = Ok l -> trying n c (set_poss st l).
Proof.
  intros [HI Hu Hn Hq] Hd Hc Hcand E.
  destruct (remove_step st d c HI Hd Hc Hcand Hu) as [l' [E' [I' [R' _]]]].
  assert (l' = l) by (rewrite E in E'; injection E' as E'; congruence). subst l'.
  constructor.
  - exact I'.
  - exact Hu.
  - rewrite (nuns_same st (set_poss st l) eq_refl). exact Hn.
  - intros x Hx K. apply (R' x c Hx Hc) in K. exact (Hq x Hx (proj1 K)).
Qed.

Lemma bivalue_agree r1 r2 n c limit : agree r1 r2 n -> c < 81 -> forall fuel st k first sols, trying n c st ->
  bivalue_loop r1 fuel st limit (3 * k + c / 27) (2 ^ N.of_nat (c mod 27)) first sols =
  bivalue_loop r2 fuel st limit (3 * k + c / 27) (2 ^ N.of_nat (c mod 27)) first sols.
Proof.
  intros A Hc. induction fuel as [ | f IH]; intros st k first sols T; [reflexivity | ].
  cbn [bivalue_loop]. assert (W : wf st) by apply (t_inv _ _ _ T).
  destruct (Nat.lt_ge_cases k 9) as [Hk | Hk].
  2: { assert (E : aget (poss st) (3 * k + c / 27) = Panic).
       { unfold aget. replace (nth_error (poss st) (3 * k + c / 27)) with (@None N); [reflexivity | ].
         symmetry. apply nth_error_None. rewrite (wf_poss_len st W). lia. }
       rewrite E. reflexivity. }
  rewrite (aget_ok _ _ 0%N) by (rewrite (wf_poss_len st W); lia). cbn [bind].
  rewrite land_pow2_zero, negb_involutive. fold (pm st (3 * k + c / 27)). fold (candb st k c).
  replace (3 * k + c / 27 + 3) with (3 * (k + 1) + c / 27) by lia.
  destruct (candb st k c) eqn:Ec; [ | apply IH; exact T].
  apply candb_true in Ec.
  assert (Et : try_candidate r1 st limit (3 * k + c / 27) (2 ^ N.of_nat (c mod 27)) sols =
               try_candidate r2 st limit (3 * k + c / 27) (2 ^ N.of_nat (c mod 27)) sols).
  { apply (try_agree r1 r2 n); auto; [apply (t_inv _ _ _ T) | apply (t_uns _ _ _ T) | apply (t_prev _ _ _ T); auto | apply (t_num _ _ _ T)]. }
  rewrite Et. destruct first; [ | reflexivity].
  destruct (try_candidate r2 st limit (3 * k + c / 27) (2 ^ N.of_nat (c mod 27)) sols) as [s | | | ]; cbn [bind]; try reflexivity.
  destruct (amod (poss st) (3 * k + c / 27) (fun x => N.lxor x (2 ^ N.of_nat (c mod 27)))) as [l | | | ] eqn:El; cbn [bind]; try reflexivity.
  apply IH. apply (trying_remove n c st k l); auto.
Qed.

Lemma some_cell_agree r1 r2 n c limit : agree r1 r2 n -> c < 81 -> forall ds, (forall d, In d ds -> d < 9) ->
  forall st sols, trying n c st ->
  some_cell_loop r1 st limit (2 ^ N.of_nat (c mod 27)) sols (map (fun d => 3 * d + c / 27) ds) =
  some_cell_loop r2 st limit (2 ^ N.of_nat (c mod 27)) sols (map (fun d => 3 * d + c / 27) ds).
Proof.
  intros A Hc. induction ds as [ | k t IH]; intros Hds st sols T; [reflexivity | ].
  assert (Hk : k < 9) by (apply Hds; left; reflexivity).
  specialize (IH (fun x Hx => Hds x (or_intror Hx))).
  cbn [map some_cell_loop]. assert (W : wf st) by apply (t_inv _ _ _ T).
  rewrite (aget_ok _ _ 0%N) by (rewrite (wf_poss_len st W); lia). cbn [bind].
  rewrite land_pow2_zero, negb_involutive. fold (pm st (3 * k + c / 27)). fold (candb st k c).
  destruct (candb st k c) eqn:Ec; [ | apply IH; exact T].
  apply candb_true in Ec.
  assert (Et : try_candidate r1 st limit (3 * k + c / 27) (2 ^ N.of_nat (c mod 27)) sols =
               try_candidate r2 st limit (3 * k + c / 27) (2 ^ N.of_nat (c mod 27)) sols).
  { apply (try_agree r1 r2 n); auto; [apply (t_inv _ _ _ T) | apply (t_uns _ _ _ T) | apply (t_prev _ _ _ T); auto | apply (t_num _ _ _ T)]. }
  rewrite Et.
  destruct (try_candidate r2 st limit (3 * k + c / 27) (2 ^ N.of_nat (c mod 27)) sols) as [s | | | ]; cbn [bind]; try reflexivity.
  destruct (sols_len s =? limit); [reflexivity | ].
  destruct (amod (poss st) (3 * k + c / 27) (fun x => N.lxor x (2 ^ N.of_nat (c mod 27)))) as [l | | | ] eqn:El; cbn [bind]; try reflexivity.
  apply IH. apply (trying_remove n c st k l); auto.
Qed.

Lemma trying_start n c st : INVx st -> Fix st -> c < 81 -> uns st c -> nuns st <= n -> trying n c st.
Proof.
  intros HI F Hc Hu Hn. constructor; [exact HI | exact Hu | exact Hn | ]. intros d Hd K Z. unfold cand in K.
  rewrite (F (3 * d + c / 27)) in K by lia. rewrite Z, tb_0 in K. discriminate.
Qed.

Lemma guess_agree n : forall m limit, n <= m -> agree (guess n limit) (guess m limit) n.
Proof.
  induction n as [ | f IH]; intros m limit Hm st sols Hset Hn; [lia | ].
  destruct m as [ | m']; [lia | ]. specialize (IH m' limit ltac:(lia)).
  destruct Hset as [HI [F HR]]. assert (W : wf st) by apply HI.
  cbn [guess]. destruct (is_solved st) eqn:Es; [reflexivity | ].
  destruct HR as [HR | HR]; [discriminate | ].
  assert (Hbi : forall bands, (forall b, In b bands -> b < 3) ->
    guess_bivalue (guess f limit) st limit sols bands = guess_bivalue (guess m' limit) st limit sols bands).
  { induction bands as [ | b t IHb]; intros Hb; [reflexivity | ].
    assert (Hb3 : b < 3) by (apply Hb; left; reflexivity).
    pose proof (mask_first_spec (prm st b) (wf_pairs st W b)) as Hmf.
    assert (Eg : aget (pairs st) b = Ok (prm st b)) by (apply aget_ok; rewrite (wf_pairs_len st W); exact Hb3).
    cbn [guess_bivalue]. rewrite Eg. cbn [bind].
    destruct (mask_first (prm st b)) as [mk | ]; [ | apply IHb; intros x Hx; apply Hb; right; exact Hx].
    destruct Hmf as [i [Hi [Hbit ->]]].
    rewrite (HR b Hb3 i Hi) in Hbit. apply Nat.eqb_eq in Hbit.
    set (c := 27 * b + i) in *. assert (Hc : c < 81) by (unfold c; lia).
    assert (Hu : uns st c).
    { destruct (uns_dec st c) as [ | U]; [assumption | ]. exfalso. destruct HI as [_ [a I]].
      destruct (two_cands st c Hbit) as [d1 [d2 [H12 [Hd2 [C1 [C2 _]]]]]].
      pose proof (i_cell _ _ I c d1 Hc ltac:(lia) U C1). pose proof (i_cell _ _ I c d2 Hc Hd2 U C2). lia. }
    pose proof (bivalue_agree _ _ f c limit IH Hc 10 st 0 true sols (trying_start f c st HI F Hc Hu ltac:(lia))) as B.
    replace (3 * 0 + c / 27) with b in B by (unfold c; lia). replace (c mod 27) with i in B by (unfold c; lia).
    rewrite B. reflexivity. }
  rewrite Hbi by (cbn [In]; lia).
  destruct (guess_bivalue (guess m' limit) st limit sols [0; 1; 2]) as [[s | ] | | | ]; cbn [bind]; try reflexivity.
  destruct (best_guess_spec st W Es) as [k [c [Hc [Hu Eb]]]].
  unfold guess_some_cell. rewrite Eb. cbn [bind].
  apply (some_cell_agree _ _ f c limit IH Hc (seq 0 9)); [intros d Hd; apply in_seq in Hd; lia | ].
  apply trying_start; auto. lia.
Qed.

(** ** Cells without a clue *)
Lemma from_sudoku_uns g st : wf_grid g -> from_sudoku g = Ok st -> forall c, c < 81 -> uns st c -> at_ g c = 0.
Proof.
  intros Hwf E. unfold from_sudoku in E.
  replace (combine (seq 0 81) g) with (map (fun i => (i, at_ g i)) (seq 0 81)) in E.
  2: { destruct Hwf as [Hl _]. rewrite <- Hl. rewrite (combine_seq 0). apply map_ext. intros i.
       rewrite Nat.sub_0_r. reflexivity. }
  assert (Hgen : forall l, (forall c, In c l -> c < 81) -> forall st st', wf st ->
    for_each (map (fun i => (i, at_ g i)) l)
       (fun cn st => if snd cn =? 0 then Ok st else insert_candidate st (fst cn) (snd cn)) st = Ok st' ->
    forall c, c < 81 -> uns st' c -> uns st c /\ (In c l -> at_ g c = 0)).
  { clear E. induction l as [ | x t IH]; intros Hl s s' W E c Hc Hu.
    - cbn [map for_each] in E. injection E as <-. split; [exact Hu | intros []].
    - assert (Hx : x < 81) by (apply Hl; left; reflexivity).
      assert (Ht : forall y, In y t -> y < 81) by (intros y Hy; apply Hl; right; exact Hy).
      cbn [map for_each fst snd] in E. destruct (Nat.eqb_spec (at_ g x) 0) as [E0 | E0].
      + cbn [bind] in E. destruct (IH Ht _ _ W E c Hc Hu) as [K1 K2]. split; [exact K1 | ].
        intros [<- | Hin]; [exact E0 | auto].
      + pose proof (wf_at g x Hwf) as H9. assert (Ed : at_ g x = (at_ g x - 1) + 1) by lia.
        rewrite Ed in E. set (d := at_ g x - 1) in *. assert (Hd : d < 9) by lia.
        destruct (insert_candidate_spec s x d W Hd Hx) as [[E1 H1] | [s1 [E1 [Hcand P1]]]];
          rewrite E1 in E; cbn [bind] in E; [discriminate | ].
        destruct (IH Ht _ _ (ip_wf _ _ _ _ P1) E c Hc Hu) as [K1 K2].
        apply (ip_uns _ _ _ _ P1) in K1; [ | exact Hc]. destruct K1 as [K1 K3]. split; [exact K1 | ].
        intros [<- | Hin]; [congruence | auto]. }
  intros c Hc Hu.
  destruct (Hgen (seq 0 81) ltac:(intros x Hx; apply in_seq in Hx; lia) init_state st init_wf E c Hc Hu) as [_ K].
  apply K. apply in_seq. lia.
Qed.

Lemma empty_cells_filter g : wf_grid g -> empty_cells g = length (filter (fun c => at_ g c =? 0) (seq 0 81)).
Proof.
  intros [Hl _]. rewrite <- Hl. unfold empty_cells. clear Hl.
  induction g as [ | x t IH] using rev_ind; [reflexivity | ].
  rewrite count_occ_app, IH, app_length. cbn [length]. rewrite Nat.add_1_r, seq_S, filter_app, app_length. f_equal.
  - f_equal. apply filter_ext_in. intros c Hc. apply in_seq in Hc. unfold at_. rewrite app_nth1 by lia. reflexivity.
  - cbn [filter]. unfold at_. rewrite app_nth2, Nat.add_0_l, Nat.sub_diag by lia. cbn [nth count_occ].
    destruct (Nat.eq_dec x 0) as [-> | Hne]; [reflexivity | ]. apply Nat.eqb_neq in Hne. rewrite Hne. reflexivity.
Qed.

Theorem search_depth g depth limit sols : wf_grid g -> empty_cells g < depth ->
  search_within depth g limit sols = run_sudoku g limit sols.
Proof.
  intros Hwf Hd. unfold search_within, run_sudoku, solutions_up_to_.
  pose proof (from_sudoku_uns g) as HU.
  destruct (from_sudoku_spec g Hwf) as [[E H] | [st [E [HI H]]]]; rewrite E; [reflexivity | ].
  specialize (HU st Hwf E).
  destruct (find_naked_singles st) as [[st1 app] | | | ] eqn:E1; try reflexivity.
  destruct (naked_singles_later _ _ _ HI E1) as [I1 L1].
  destruct (solve_ st1 limit sols) as [st2 | | | ] eqn:E2; try reflexivity.
  pose proof (solve_later _ _ _ _ I1 E2) as L2.
  assert (Hlt : sols_len sols < limit).
  { unfold solve_ in E2. destruct (Nat.leb_spec (sols_len sols) limit); cbn [negb] in E2; [ | discriminate].
    destruct (Nat.eqb_spec (sols_len sols) limit); [discriminate | lia]. }
  destruct (solve_spec st1 limit sols I1 Hlt) as [[E3 _] | [st3 [E3 [S3 [F3 R3]]]]]; rewrite E2 in E3; [discriminate | ].
  injection E3 as <-.
  assert (Hset : settled st2) by (split; [apply (s_inv _ _ S3) | split; assumption]).
  assert (Hn : nuns st2 <= empty_cells g).
  { pose proof (nuns_later _ _ L1) as N1. pose proof (nuns_later _ _ L2) as N2.
    transitivity (nuns st); [lia | ]. rewrite (empty_cells_filter g Hwf). apply filter_mono.
    intros c Hc K. apply in_seq in Hc. apply Nat.eqb_eq. apply HU; [lia | exact K]. }
  assert (H81 : nuns st2 <= 81) by (unfold nuns; etransitivity; [apply filter_length_le | rewrite seq_length; lia]).
  destruct (Nat.le_ge_cases depth guess_fuel) as [Hle | Hge].
  - apply (guess_agree depth guess_fuel limit Hle); [exact Hset | lia].
  - symmetry. apply (guess_agree guess_fuel depth limit Hge); [exact Hset | ]. unfold guess_fuel. lia.
Qed.

Theorem search_total g depth limit sols : wf_grid g -> empty_cells g < depth -> sols_len sols <= limit ->
  exists r, search_within depth g limit sols = Ok r.
Proof.
  intros Hwf Hd Hl. rewrite search_depth by assumption.
  destruct (run_sudoku_spec g Hwf) as [L [_ [_ H]]]. eexists. apply H. exact Hl.
Qed.

Lemma empty_cells_le g : wf_grid g -> empty_cells g <= 81.
Proof.
  intros H. rewrite (empty_cells_filter g H). etransitivity; [apply filter_length_le | rewrite seq_length; lia].
Qed.

Theorem search_depth_api g st depth limit sols : wf_grid g -> from_sudoku g = Ok st -> empty_cells g < depth ->
  search_within depth g limit sols = solutions_up_to_ st limit sols.
Proof.
  intros Hwf E Hd. rewrite search_depth by assumption. unfold run_sudoku. rewrite E. reflexivity.
Qed.
