(** Invariant of the solver states, its preservation, and what it says about finished states. *)
From Coq Require Import List Arith NArith ZArith ZifyNat Lia Bool.
From Verif Require Import Spec Tables Solver BitLemmas GridProofs TableProofs ProcessProofs StateProofs OpProofs.
Import ListNotations.
Ltac Zify.zify_post_hook ::= Z.to_euclidean_division_equations.

(** The solved grid [s] uses only candidates of [st]. *)
Definition contained (st : state) (s : grid) : Prop := forall c, c < 81 -> cand st (at_ s c - 1) c.

(** [st'] has no candidate that [st] has not. *)
Definition sub (st' st : state) : Prop := forall d c, d < 9 -> c < 81 -> cand st' d c -> cand st d c.

Lemma sub_refl st : sub st st.
Proof. intros d c _ _ H. exact H. Qed.
Lemma sub_trans a b c : sub a b -> sub b c -> sub a c.
Proof. intros H1 H2 d x Hd Hx H. auto. Qed.

Lemma solved_digit s c : solved s -> c < 81 -> at_ s c - 1 < 9.
Proof. intros [_ [H _]] Hc. specialize (H c Hc). lia. Qed.

Lemma sub_contained st st' s : solved s -> sub st' st -> contained st' s -> contained st s.
Proof. intros Hs H1 H2 c Hc. apply H1; auto. apply solved_digit; assumption. Qed.

(** Cells solved so far have the digit [a c] (digits are 0..8 here). *)
Record INV (st : state) (a : nat -> nat) : Prop := mkINV {
  i_dig : forall c, c < 81 -> ~ uns st c -> a c < 9;
  i_cell : forall c d, c < 81 -> d < 9 -> ~ uns st c -> cand st d c -> d = a c;
  i_row : forall c c', c < 81 -> c' < 81 -> ~ uns st c -> row_of c' = row_of c -> cand st (a c) c' -> c' = c;
  i_diff : forall c c', c < 81 -> c' < 81 -> ~ uns st c -> ~ uns st c' -> row_of c' = row_of c ->
           a c = a c' -> c = c';
  i_keep : forall c, c < 81 -> ~ uns st c -> qm st (3 * a c + c / 27) = 0%N -> cand st (a c) c;
  i_peer : forall c c', c < 81 -> c' < 81 -> ~ uns st c -> qm st (3 * a c + c / 27) = 0%N ->
           peers c c' -> ~ cand st (a c) c';
  j_row : forall d r, d < 9 -> r < 9 -> qm st (3 * d + r / 3) <> 0%N ->
          exists c, c < 81 /\ row_of c = r /\ pcand st d c;
  j_block : forall d k, d < 9 -> k < 9 -> qm st (3 * d + k / 3) <> 0%N ->
          exists c, c < 81 /\ block_of c = k /\ pcand st d c;
  j_col : forall d b c, d < 9 -> b < 3 -> c < 81 -> qm st (3 * d + b) <> 0%N -> c / 27 <> b ->
          forced_col (pcand st d) b c -> ~ cand st d c;
  j_lone : forall d b c, d < 9 -> b < 3 -> c < 81 -> qm st (3 * d + b) <> 0%N -> c / 27 = b ->
          lone_cell (pcand st d) b c -> ~ uns st c /\ a c = d;
  j_sub : forall d c, d < 9 -> c < 81 -> qm st (3 * d + c / 27) <> 0%N -> cand st d c -> pcand st d c
}.

Definition INVx (st : state) : Prop := wf st /\ exists a, INV st a.

(** An operation that only removes candidates, none of them in a solution, and keeps the invariant. *)
Record step_ok (st st' : state) : Prop := mkstep {
  s_inv : INVx st';
  s_sub : sub st' st;
  s_sol : forall s, solved s -> contained st s -> contained st' s
}.

Lemma step_trans a b c : step_ok a b -> step_ok b c -> step_ok a c.
Proof.
  intros [_ H1 H2] [H3 H4 H5]. constructor; [exact H3 | eapply sub_trans; eauto | auto].
Qed.
Lemma step_refl a : INVx a -> step_ok a a.
Proof. intros H. constructor; auto. apply sub_refl. Qed.

(** Operations that change neither [unsolved] nor [prev]. *)
Lemma INV_mono st st' a : INV st a -> prev st' = prev st -> unsolved st' = unsolved st -> sub st' st ->
  (forall c, c < 81 -> ~ uns st c -> qm st (3 * a c + c / 27) = 0%N -> cand st (a c) c ->
     (forall c', c' < 81 -> peers c c' -> ~ cand st (a c) c') -> cand st' (a c) c) ->
  INV st' a.
Proof.
  intros I Hp Hu Hsub Hk.
  assert (Eq : forall sb, qm st' sb = qm st sb) by (intros; unfold qm; rewrite Hp; reflexivity).
  assert (Eu : forall c, uns st' c <-> uns st c) by (intros; unfold uns, um; rewrite Hu; reflexivity).
  assert (Ep : forall d c, pcand st' d c <-> pcand st d c) by (intros; unfold pcand; rewrite Eq; reflexivity).
  destruct I. constructor.
  - intros c Hc H. rewrite Eu in H. auto.
  - intros c d Hc Hd H H1. rewrite Eu in H. apply i_cell0; auto.
  - intros c c' Hc Hc' H H1 H2. rewrite Eu in H. apply i_row0; auto.
  - intros c c' Hc Hc' H H1 H2. rewrite Eu in H, H1. apply i_diff0; auto.
  - intros c Hc H H1. rewrite Eu in H. rewrite Eq in H1. apply Hk; auto.
  - intros c c' Hc Hc' H H1 H2 H3. rewrite Eu in H. rewrite Eq in H1. apply (i_peer0 c c'); auto.
  - intros d r Hd Hr H. rewrite Eq in H. destruct (j_row0 d r Hd Hr H) as [c [H1 [H2 H3]]].
    exists c. rewrite Ep. auto.
  - intros d r Hd Hr H. rewrite Eq in H. destruct (j_block0 d r Hd Hr H) as [c [H1 [H2 H3]]].
    exists c. rewrite Ep. auto.
  - intros d b c Hd Hb Hc H H1 [[c0 [F1 [F2 [F3 F4]]]] F5] H3. rewrite Eq in H.
    apply (j_col0 d b c); auto. split.
    + exists c0. rewrite <- Ep. auto.
    + intros c1 G1 G2 G3 G4. rewrite <- Ep in G3. auto.
  - intros d b c Hd Hb Hc H H1 [F1 F2]. rewrite Eq in H. rewrite Eu.
    apply (j_lone0 d b c); auto. split; [rewrite <- Ep; exact F1 | ].
    intros c1 G1 G2 G3 G4. rewrite <- Ep in G3. auto.
  - intros d c Hd Hc H H1. rewrite Eq in H. rewrite Ep. apply j_sub0; auto.
Qed.

(** ** Propagation step *)
Lemma solved_placement st s d b : solved s -> contained st s -> d < 9 -> b < 3 ->
  exists f, cell_placement st d b f /\ forall r, r < 3 -> at_ s (f r) = d + 1.
Proof.
  intros Hs Hc Hd Hb.
  destruct (row_has_digit s (3 * b + 0) (d + 1) Hs ltac:(lia) ltac:(lia)) as [c0 [A0 [A1 A2]]].
  destruct (row_has_digit s (3 * b + 1) (d + 1) Hs ltac:(lia) ltac:(lia)) as [c1 [B0 [B1 B2]]].
  destruct (row_has_digit s (3 * b + 2) (d + 1) Hs ltac:(lia) ltac:(lia)) as [c2 [C0 [C1 C2]]].
  exists (fun r => match r with 0 => c0 | 1 => c1 | _ => c2 end). 
  assert (Hblk : forall x y, x < 81 -> y < 81 -> at_ s x = d + 1 -> at_ s y = d + 1 -> row_of x <> row_of y ->
            block_of x <> block_of y).
  { intros x y Hx Hy Ex Ey Hr Hbk. assert (x = y) by (apply (solved_same s); auto; lia). subst. lia. }
  assert (Hcand : forall x, x < 81 -> at_ s x = d + 1 -> cand st d x).
  { intros x Hx Ex. specialize (Hc x Hx). rewrite Ex in Hc. replace (d + 1 - 1) with d in Hc by lia. exact Hc. }
  split.
  - intros r Hr.
    assert (Hr' : r = 0 \/ r = 1 \/ r = 2) by lia.
    destruct Hr' as [-> | [-> | ->]]; (split; [assumption | ]; split; [assumption | ]; split; [auto | ]);
      intros r' Hr' Hne; (assert (Hr'' : r' = 0 \/ r' = 1 \/ r' = 2) by lia);
      destruct Hr'' as [-> | [-> | ->]]; try lia; apply Hblk; auto; lia.
  - intros r Hr.
    assert (Hr' : r = 0 \/ r = 1 \/ r = 2) by lia.
    destruct Hr' as [-> | [-> | ->]]; assumption.
Qed.

Lemma process_contained st st' s d b : process_post st st' d b -> d < 9 -> b < 3 ->
  solved s -> contained st s -> contained st' s.
Proof.
  intros P Hd Hb Hs Hc.
  destruct (solved_placement st s d b Hs Hc Hd Hb) as [f [Hf Hfs]].
  (* the cells of digit d in band b survive *)
  assert (Hkeep : forall c, c < 81 -> c / 27 = b -> at_ s c = d + 1 -> cand st' d c).
  { intros c Hc81 Ec E. destruct (cell_parts c Hc81) as [P1 [P2 [P3 [P4 [P5 P6]]]]].
    assert (Hr : c mod 27 / 9 < 3) by lia.
    destruct (Hf _ Hr) as [F1 [F2 _]].
    assert (f (c mod 27 / 9) = c).
    { apply (solved_same s); auto; [rewrite E; apply Hfs; exact Hr | ]. left. lia. }
    rewrite <- H. apply (pp_keep _ _ _ _ P); assumption. }
  intros c Hc81. pose proof (Hc c Hc81) as Hcc. pose proof (solved_digit s c Hs Hc81) as Hdig.
  destruct Hs as [Hlen [Hrange Hpeers]]. assert (Hs : solved s) by (split; auto).
  pose proof (Hrange c Hc81) as Hrc.
  set (x := at_ s c - 1) in *. assert (Ex : at_ s c = x + 1) by (unfold x; lia).
  destruct (Nat.eq_dec x d) as [-> | Hne].
  - destruct (Nat.eq_dec (c / 27) b) as [Ec | Ec]; [apply Hkeep; assumption | ].
    apply (pp_other_band _ _ _ _ P); [exact Hc81 | exact Ec | ]. split; [exact Hcc | ].
    intros [_ F].
    (* the cell of digit d in the block of band b and the stack of c *)
    pose proof (col_lt c) as Hcol.
    destruct (block_has_digit s (3 * b + col_of c / 3) (d + 1) Hs ltac:(lia) ltac:(lia)) as [c0 [B1 [B2 B3]]].
    destruct (cell_parts c0 B1) as [P1 [P2 [P3 [P4 [P5 P6]]]]].
    assert (E0 : c0 / 27 = b) by lia.
    assert (col_of c0 = col_of c) by (apply F; auto; lia).
    assert (c0 = c) by (apply (solved_same s); auto; lia). subst. lia.
  - destruct (Nat.eq_dec (c / 27) b) as [Ec | Ec].
    + apply (pp_other_digit _ _ _ _ P); auto. split; [exact Hcc | ].
      intros [F1 F2]. pose proof (row_lt c Hc81) as Hr.
      destruct (row_has_digit s (row_of c) (d + 1) Hs Hr ltac:(lia)) as [c1 [B1 [B2 B3]]].
      assert (E1 : c1 / 27 = b) by (unfold row_of in B2; lia).
      assert (c1 = c) by (apply F2; auto). subst. lia.
    + apply (pp_other _ _ _ _ P); auto.
Qed.

Lemma process_sub st st' d b : process_post st st' d b -> d < 9 -> b < 3 -> sub st' st.
Proof.
  intros P Hd Hb d' c Hd' Hc H.
  destruct (Nat.eq_dec d' d) as [-> | Hne].
  - destruct (Nat.eq_dec (c / 27) b) as [Ec | Ec].
    + apply (pp_sub _ _ _ _ P); auto.
    + apply (pp_other_band _ _ _ _ P) in H; auto. tauto.
  - destruct (Nat.eq_dec (c / 27) b) as [Ec | Ec].
    + apply (pp_other_digit _ _ _ _ P) in H; auto. tauto.
    + apply (pp_other _ _ _ _ P) in H; auto.
Qed.

Lemma lone_cell_ext m m' b c : (forall c1, c1 < 81 -> c1 / 27 = b -> (m c1 <-> m' c1)) -> c < 81 -> c / 27 = b ->
  lone_cell m b c -> lone_cell m' b c.
Proof.
  intros H Hc Ec [H1 H2]. split; [apply H; auto | ]. intros c1 G1 G2 G3 G4. apply H2; auto. apply H; auto.
Qed.

Lemma forced_col_ext m m' b c : (forall c1, c1 < 81 -> c1 / 27 = b -> (m c1 <-> m' c1)) ->
  forced_col m b c -> forced_col m' b c.
Proof.
  intros H [[c0 [F1 [F2 [F3 F4]]]] F5]. split.
  - exists c0. repeat split; auto. apply H; auto.
  - intros c1 G1 G2 G3 G4. apply F5; auto. apply H; auto.
Qed.

Lemma process_INV st st' d b a : process_post st st' d b -> d < 9 -> b < 3 -> INV st a ->
  INV st' (fun c => if tb (um st (c / 27)) (c mod 27) then d else a c).
Proof.
  intros P Hd Hb I. set (a' := fun c => _).
  pose proof (process_sub _ _ _ _ P Hd Hb) as Hsub.
  assert (Ha_old : forall c, ~ uns st c -> a' c = a c).
  { intros c H. unfold a'. unfold uns in H. apply not_true_iff_false in H. rewrite H. reflexivity. }
  assert (Ha_new : forall c, uns st c -> a' c = d).
  { intros c H. unfold a'. unfold uns in H. rewrite H. reflexivity. }
  (* a cell unsolved before and solved now is a lone cell of d *)
  assert (Hnew : forall c, c < 81 -> uns st c -> ~ uns st' c -> c / 27 = b /\ lone_cell (cand st' d) b c).
  { intros c Hc H H'. destruct (Nat.eq_dec (c / 27) b) as [Ec | Ec].
    - split; [exact Ec | ]. rewrite (pp_uns _ _ _ _ P) in H' by auto.
      unfold lone_cell. destruct (cand_dec st' d c) as [G1 | G1].
      2: { exfalso. apply H'. split; [exact H | ]. intros [F _]. contradiction. }
      split; [exact G1 | ]. intros c1 K1 K2 K3 K4.
      destruct (Nat.eq_dec c1 c) as [ | Hne]; [assumption | ]. exfalso. apply H'. split; [exact H | ].
      intros [_ F]. apply Hne. apply F; auto.
    - exfalso. apply H'. apply (pp_uns_other _ _ _ _ P); auto. }
  assert (Hold : forall c, c < 81 -> ~ uns st c -> ~ uns st' c).
  { intros c Hc H H'. apply H. destruct (Nat.eq_dec (c / 27) b) as [Ec | Ec].
    - apply (pp_uns _ _ _ _ P) in H'; tauto.
    - apply (pp_uns_other _ _ _ _ P) in H'; tauto. }
  assert (Hband : forall c c', c < 81 -> c' < 81 -> row_of c' = row_of c -> c' / 27 = c / 27).
  { intros c c' Hc Hc' E. unfold row_of in E. lia. }
  assert (Hpc_other : forall d' b', d' < 9 -> b' < 3 -> 3 * d' + b' <> 3 * d + b -> qm st' (3 * d' + b') = qm st (3 * d' + b')).
  { intros. apply (pp_prev_other _ _ _ _ P). assumption. }
  assert (Hpc_same : forall c, c < 81 -> c / 27 = b -> (pcand st' d c <-> cand st' d c)).
  { intros c Hc Ec. unfold pcand, cand. rewrite Ec, (pp_prev _ _ _ _ P). reflexivity. }
  constructor.
  - (* i_dig *) intros c Hc H. destruct (uns_dec st c) as [U | U].
    + rewrite Ha_new by exact U. exact Hd.
    + rewrite Ha_old by exact U. apply (i_dig _ _ I); assumption.
  - (* i_cell *) intros c d' Hc Hd' H H1. destruct (uns_dec st c) as [U | U].
    + rewrite Ha_new by exact U. destruct (Hnew c Hc U H) as [Ec L].
      destruct (Nat.eq_dec d' d) as [ | Hne]; [assumption | ].
      apply (pp_other_digit _ _ _ _ P) in H1; auto. tauto.
    + rewrite Ha_old by exact U. apply (i_cell _ _ I); auto.
  - (* i_row *) intros c c' Hc Hc' H Er H1. destruct (uns_dec st c) as [U | U].
    + rewrite Ha_new in H1 by exact U. destruct (Hnew c Hc U H) as [Ec [L1 L2]].
      apply L2; auto. rewrite (Hband c c'); auto.
    + rewrite Ha_old in H1 by exact U. apply (i_row _ _ I); auto.
      apply Hsub; auto. apply (i_dig _ _ I); auto.
  - (* i_diff *)
    assert (Hcase : forall c c', c < 81 -> c' < 81 -> row_of c' = row_of c -> uns st c -> ~ uns st' c ->
              ~ uns st c' -> a c' <> d).
    { intros c c' Hc Hc' Er U H U' E. destruct (Hnew c Hc U H) as [Ec [L1 _]].
      apply Hsub in L1; auto. rewrite <- E in L1.
      assert (c = c') by (apply (i_row _ _ I c' c); auto). subst. contradiction. }
    intros c c' Hc Hc' H H' Er E. destruct (uns_dec st c) as [U | U]; destruct (uns_dec st c') as [U' | U'].
    + destruct (Hnew c Hc U H) as [Ec [L1 L2]]. destruct (Hnew c' Hc' U' H') as [Ec' [L1' L2']].
      symmetry. apply L2; auto.
    + exfalso. rewrite Ha_new, Ha_old in E by assumption. apply (Hcase c c'); auto.
    + exfalso. rewrite Ha_old, Ha_new in E by assumption. apply (Hcase c' c); auto.
    + rewrite !Ha_old in E by assumption. apply (i_diff _ _ I); auto.
  - (* i_keep *) intros c Hc H E. destruct (uns_dec st c) as [U | U].
    + exfalso. rewrite Ha_new in E by exact U. destruct (Hnew c Hc U H) as [Ec _]. rewrite Ec in E.
      apply (pp_prev_nz _ _ _ _ P). exact E.
    + rewrite Ha_old in * by exact U.
      assert (Hac : a c < 9) by (apply (i_dig _ _ I); auto).
      destruct (Nat.eq_dec (3 * a c + c / 27) (3 * d + b)) as [E1 | E1].
      * exfalso. rewrite E1 in E. apply (pp_prev_nz _ _ _ _ P). exact E.
      * rewrite (pp_prev_other _ _ _ _ P) in E by exact E1.
        pose proof (i_keep _ _ I c Hc U E) as K. pose proof (i_peer _ _ I c) as Kp.
        destruct (Nat.eq_dec (a c) d) as [Ea | Ea].
        -- assert (Ec : c / 27 <> b) by lia. rewrite Ea in *.
           apply (pp_other_band _ _ _ _ P); auto. split; [exact K | ].
           intros [[c0 [F1 [F2 [F3 F4]]]] _]. apply (Kp c0); auto.
           split; [intros ->; contradiction | ]. right. left. symmetry. exact F3.
        -- destruct (Nat.eq_dec (c / 27) b) as [Ec | Ec].
           ++ apply (pp_other_digit _ _ _ _ P); auto. split; [exact K | ]. intros [F _].
              apply Hsub in F; auto. apply (i_cell _ _ I) in F; auto.
           ++ apply (pp_other _ _ _ _ P); auto.
  - (* i_peer *) intros c c' Hc Hc' H E Hp F. destruct (uns_dec st c) as [U | U].
    + rewrite Ha_new in E by exact U. destruct (Hnew c Hc U H) as [Ec _]. rewrite Ec in E.
      apply (pp_prev_nz _ _ _ _ P). exact E.
    + rewrite Ha_old in * by exact U.
      assert (Hac : a c < 9) by (apply (i_dig _ _ I); auto).
      destruct (Nat.eq_dec (3 * a c + c / 27) (3 * d + b)) as [E1 | E1].
      * rewrite E1 in E. apply (pp_prev_nz _ _ _ _ P). exact E.
      * rewrite (pp_prev_other _ _ _ _ P) in E by exact E1.
        apply (i_peer _ _ I c c'); auto.
  - (* j_row *) intros d' r Hd' Hr H.
    destruct (Nat.eq_dec (3 * d' + r / 3) (3 * d + b)) as [E1 | E1].
    + assert (d' = d) by lia. subst d'. destruct (pp_row _ _ _ _ P (r mod 3) ltac:(lia)) as [c [C1 [C2 C3]]].
      exists c. split; [exact C1 | ]. split; [lia | ]. apply Hpc_same; auto.
      unfold row_of in C2. lia.
    + rewrite (pp_prev_other _ _ _ _ P) in H by exact E1.
      destruct (j_row _ _ I d' r Hd' Hr H) as [c [C1 [C2 C3]]]. exists c. split; [exact C1 | ].
      split; [exact C2 | ]. unfold pcand. destruct (cell_parts c C1) as [P1 [P2 [P3 [P4 [P5 P6]]]]].
      rewrite (pp_prev_other _ _ _ _ P) by lia. exact C3.
  - (* j_block *) intros d' r Hd' Hr H.
    destruct (Nat.eq_dec (3 * d' + r / 3) (3 * d + b)) as [E1 | E1].
    + assert (d' = d) by lia. subst d'. destruct (pp_block _ _ _ _ P (r mod 3) ltac:(lia)) as [c [C1 [C2 C3]]].
      exists c. split; [exact C1 | ]. split; [lia | ]. apply Hpc_same; auto.
      destruct (cell_parts c C1) as [P1 [P2 [P3 [P4 [P5 P6]]]]]. lia.
    + rewrite (pp_prev_other _ _ _ _ P) in H by exact E1.
      destruct (j_block _ _ I d' r Hd' Hr H) as [c [C1 [C2 C3]]]. exists c. split; [exact C1 | ].
      split; [exact C2 | ]. unfold pcand. destruct (cell_parts c C1) as [P1 [P2 [P3 [P4 [P5 P6]]]]].
      rewrite (pp_prev_other _ _ _ _ P) by lia. exact C3.
  - (* j_col *) intros d' b' c Hd' Hb' Hc H Hne F G.
    destruct (Nat.eq_dec (3 * d' + b') (3 * d + b)) as [E1 | E1].
    + assert (d' = d) by lia. assert (b' = b) by lia. subst d' b'.
      apply (pp_other_band _ _ _ _ P) in G; auto. destruct G as [_ G]. apply G.
      apply (forced_col_ext (pcand st' d)); auto.
    + rewrite (pp_prev_other _ _ _ _ P) in H by exact E1.
      apply (j_col _ _ I d' b' c); auto.
      apply (forced_col_ext (pcand st' d')); auto.
      intros c1 K1 K2. unfold pcand. rewrite K2, (pp_prev_other _ _ _ _ P) by exact E1. reflexivity.
  - (* j_lone *) intros d' b' c Hd' Hb' Hc H Ec F.
    destruct (Nat.eq_dec (3 * d' + b') (3 * d + b)) as [E1 | E1].
    + assert (d' = d) by lia. assert (b' = b) by lia. subst d'. rewrite H1 in *. clear H1 E1.
      assert (F' : lone_cell (cand st' d) b c) by (apply (lone_cell_ext (pcand st' d)); auto).
      split.
      * intros U. apply (pp_uns _ _ _ _ P) in U; tauto.
      * destruct (uns_dec st c) as [U | U]; [auto | ]. rewrite Ha_old by exact U.
        symmetry. apply (i_cell _ _ I); auto. apply Hsub; auto. apply F'.
    + rewrite (pp_prev_other _ _ _ _ P) in H by exact E1.
      destruct (j_lone _ _ I d' b' c Hd' Hb' Hc H Ec) as [K1 K2].
      { apply (lone_cell_ext (pcand st' d')); auto.
        intros c1 K1 K2. unfold pcand. rewrite K2, (pp_prev_other _ _ _ _ P) by exact E1. reflexivity. }
      split; [auto | ]. rewrite Ha_old; auto.
  - (* j_sub *) intros d' c Hd' Hc H G.
    destruct (Nat.eq_dec (3 * d' + c / 27) (3 * d + b)) as [E1 | E1].
    + assert (d' = d) by lia. subst d'. apply Hpc_same; auto. lia.
    + unfold pcand. rewrite (pp_prev_other _ _ _ _ P) in * by exact E1. apply (j_sub _ _ I); auto.
Qed.

Lemma process_step st d b : INVx st -> d < 9 -> b < 3 ->
  (process st (3 * d + b) = Unsolv /\ forall s, solved s -> ~ contained st s) \/
  (exists st', process st (3 * d + b) = Ok st' /\ step_ok st st' /\ process_post st st' d b).
Proof.
  intros [W [a I]] Hd Hb. destruct (process_spec st d b W Hd Hb) as [[E H] | [st' [E P]]].
  - left. split; [exact E | ]. intros s Hs Hc.
    destruct (solved_placement st s d b Hs Hc Hd Hb) as [f [Hf _]]. apply (H f Hf).
  - right. exists st'. split; [exact E | ]. split; [ | exact P]. constructor.
    + split; [apply (pp_wf _ _ _ _ P) | ]. eexists. eapply process_INV; eauto.
    + eapply process_sub; eauto.
    + intros s Hs Hc. eapply process_contained; eauto.
Qed.

(** ** Insertion of a clue: only before the first propagation step *)
Lemma insert_INV st st' d c a : insert_post st st' d c -> d < 9 -> c < 81 -> cand st d c ->
  (forall sb, qm st sb = 0%N) -> INV st a ->
  INV st' (fun x => if x =? c then d else a x).
Proof.
  intros P Hd Hc Hcand Hq I.
  assert (Hq' : forall sb, qm st' sb = 0%N) by (intros; unfold qm; rewrite (ip_prev _ _ _ _ P); apply Hq).
  assert (Hsub : sub st' st) by (intros d' c' Hd' Hc' H; apply (ip_cand _ _ _ _ P) in H; tauto).
  assert (Huns : forall x, x < 81 -> ~ uns st' x -> x = c \/ ~ uns st x).
  { intros x Hx H. rewrite (ip_uns _ _ _ _ P) in H by exact Hx.
    destruct (Nat.eq_dec x c); [auto | ]. right. tauto. }
  (* digit d is at no solved peer *)
  assert (Hno : forall x, x < 81 -> ~ uns st x -> x <> c -> (row_of x = row_of c \/ col_of x = col_of c \/ block_of x = block_of c) ->
            a x <> d).
  { intros x Hx Hu Hne Hr E. apply (i_peer _ _ I x c Hx Hc Hu (Hq _)); [split; auto | ]. rewrite E. exact Hcand. }
  assert (Hq0 : forall (Q : Prop) sb, qm st' sb <> 0%N -> Q) by (intros Q sb H; rewrite Hq' in H; congruence).
  constructor.
  - intros x Hx H. destruct (Nat.eqb_spec x c); [exact Hd | ].
    destruct (Huns x Hx H); [contradiction | ]. apply (i_dig _ _ I); auto.
  - intros x d' Hx Hd' H H1. pose proof H1 as H2. apply (ip_cand _ _ _ _ P) in H1; auto.
    destruct (Nat.eqb_spec x c) as [-> | Hne].
    + destruct (Nat.eq_dec d' d); [assumption | ]. destruct H1 as [_ [_ H1]]. tauto.
    + destruct (Huns x Hx H); [contradiction | ]. apply (i_cell _ _ I); tauto.
  - intros x x' Hx Hx' H Er H1. destruct (Nat.eqb_spec x c) as [-> | Hne].
    + apply (ip_cand _ _ _ _ P) in H1; auto. destruct H1 as [_ [H1 _]].
      destruct (Nat.eq_dec x' c); [assumption | ]. exfalso. apply H1. split; [reflexivity | ]. split; auto.
    + destruct (Huns x Hx H); [contradiction | ]. apply (i_row _ _ I); auto. apply Hsub; auto.
      apply (i_dig _ _ I); auto.
  - intros x x' Hx Hx' H H' Er E. destruct (Nat.eqb_spec x c) as [-> | Hne]; destruct (Nat.eqb_spec x' c) as [-> | Hne'].
    + reflexivity.
    + exfalso. destruct (Huns x' Hx' H'); [contradiction | ]. apply (Hno x'); auto.
    + exfalso. destruct (Huns x Hx H); [contradiction | ]. apply (Hno x); auto.
    + destruct (Huns x Hx H); [contradiction | ]. destruct (Huns x' Hx' H'); [contradiction | ].
      apply (i_diff _ _ I); auto.
  - intros x Hx H _. destruct (Nat.eqb_spec x c) as [-> | Hne].
    + apply (ip_cand _ _ _ _ P); auto. split; [exact Hcand | ]. split; [ | tauto]. intros [_ [K _]]. auto.
    + destruct (Huns x Hx H); [contradiction | ]. pose proof (i_dig _ _ I x Hx H0).
      apply (ip_cand _ _ _ _ P); auto. split; [apply (i_keep _ _ I); auto | ]. split; [ | tauto].
      intros [E [_ Hr]]. apply (Hno x); auto.
      destruct Hr as [Hr | [Hr | Hr]]; auto.
  - intros x x' Hx Hx' H _ Hp F. destruct (Nat.eqb_spec x c) as [-> | Hne].
    + apply (ip_cand _ _ _ _ P) in F; auto. tauto.
    + destruct (Huns x Hx H); [contradiction | ]. apply (i_peer _ _ I x x'); auto.
      apply Hsub; auto. apply (i_dig _ _ I); auto.
  - intros d' r _ _ H. exact (Hq0 _ _ H).
  - intros d' r _ _ H. exact (Hq0 _ _ H).
  - intros d' b' c' _ _ _ H. exact (Hq0 _ _ H).
  - intros d' b' c' _ _ _ H. exact (Hq0 _ _ H).
  - intros d' c' _ _ H. exact (Hq0 _ _ H).
Qed.

(** ** Insertion by mask and removal of one candidate *)
Lemma insert_by_mask_step st d c : INVx st -> d < 9 -> c < 81 -> cand st d c ->
  exists st', insert_candidate_by_mask st (3 * d + c / 27) (2 ^ N.of_nat (c mod 27)) = Ok st' /\
    INVx st' /\ sub st' st /\
    unsolved st' = unsolved st /\ prev st' = prev st /\ pairs st' = pairs st /\
    (forall s, solved s -> (contained st' s <-> contained st s /\ at_ s c = d + 1)) /\
    ((forall d' c', d' < 9 -> c' < 81 -> cand st d' c' -> cand st' d' c') ->
     lone_cell (cand st d) (c / 27) c).
Proof.
  intros [W [a I]] Hd Hc Hcand.
  destruct (insert_by_mask_spec st d c W Hd Hc Hcand) as [l [E [W' Hl]]].
  exists (set_poss st l). split; [exact E | ].
  assert (Hsub : sub (set_poss st l) st) by (intros d' c' Hd' Hc' H; apply Hl in H; tauto).
  split.
  { split; [exact W' | ]. exists a. apply (INV_mono st); auto.
    intros x Hx Hu Hq Hk Hp. apply Hl; auto; [apply (i_dig _ _ I); auto | ]. split; [exact Hk | ].
    intros [E1 [E2 [E3 E4]]]. apply (Hp c Hc); [ | rewrite E1; exact Hcand].
    split; [exact E3 | ]. tauto. }
  split; [exact Hsub | ]. split; [reflexivity | ]. split; [reflexivity | ]. split; [reflexivity | ].
  split.
  - intros s Hs. split.
    + intros H. split; [eapply sub_contained; eauto | ].
      pose proof (row_lt c Hc) as Hr.
      destruct (row_has_digit s (row_of c) (d + 1) Hs Hr ltac:(lia)) as [c1 [B1 [B2 B3]]].
      pose proof (H c1 B1) as H1. rewrite B3 in H1. replace (d + 1 - 1) with d in H1 by lia.
      apply Hl in H1; auto. destruct H1 as [_ H1].
      destruct (Nat.eq_dec c1 c) as [-> | Hne]; [exact B3 | ].
      exfalso. apply H1. split; [reflexivity | ]. split; [unfold row_of in B2; lia | ]. auto.
    + intros [H1 H2] x Hx. apply Hl; auto; [apply solved_digit; auto | ]. split; [auto | ].
      intros [E1 [E2 [E3 E4]]]. apply E3. apply (solved_same s); auto; [ | tauto].
      destruct Hs as [_ [Hrange _]]. specialize (Hrange x Hx). lia.
  - intros H. split; [exact Hcand | ]. intros c1 H1 E1 Hc1 Hor.
    destruct (Nat.eq_dec c1 c); [assumption | ]. exfalso.
    apply H in Hc1; auto. apply Hl in Hc1; auto. tauto.
Qed.

Lemma remove_step st d c : INVx st -> d < 9 -> c < 81 -> cand st d c -> uns st c ->
  exists l, amod (poss st) (3 * d + c / 27) (fun x => N.lxor x (2 ^ N.of_nat (c mod 27))) = Ok l /\
    INVx (set_poss st l) /\
    (forall d' c', d' < 9 -> c' < 81 ->
      (cand (set_poss st l) d' c' <-> cand st d' c' /\ ~ (d' = d /\ c' = c))) /\
    (forall s, solved s -> (contained (set_poss st l) s <-> contained st s /\ at_ s c <> d + 1)).
Proof.
  intros [W [a I]] Hd Hc Hcand Hu.
  destruct (xor_spec st d c W Hd Hc Hcand) as [l [E [W' Hl]]].
  exists l. split; [exact E | ]. 
  assert (Hsub : sub (set_poss st l) st) by (intros d' c' Hd' Hc' H; apply Hl in H; tauto).
  split.
  { split; [exact W' | ]. exists a. apply (INV_mono st); auto.
    intros x Hx Hux Hq Hk Hp. apply Hl; auto; [apply (i_dig _ _ I); auto | ]. split; [exact Hk | ].
    intros [_ ->]. contradiction. }
  split; [exact Hl | ]. intros s Hs. split.
  - intros H. split; [eapply sub_contained; eauto | ]. intros E1. specialize (H c Hc).
    rewrite E1 in H. replace (d + 1 - 1) with d in H by lia. apply Hl in H; auto. tauto.
  - intros [H1 H2] x Hx. apply Hl; auto; [apply solved_digit; auto | ]. split; [auto | ].
    intros [E1 ->]. apply H2. destruct Hs as [_ [Hrange _]]. specialize (Hrange c Hc). lia.
Qed.

(** ** Finished states *)
Definition Fix (st : state) : Prop := forall sb, sb < 27 -> pm st sb = qm st sb.

Lemma Fix_pcand st d c : Fix st -> d < 9 -> c < 81 -> (pcand st d c <-> cand st d c).
Proof. intros F Hd Hc. unfold pcand, cand. rewrite F by lia. reflexivity. Qed.

Lemma is_solved_iff st : wf st -> (is_solved st = true <-> forall c, c < 81 -> ~ uns st c).
Proof.
  intros W. unfold is_solved, uns, um. pose proof (wf_uns_len st W) as Hl. pose proof (wf_uns st W) as Hm.
  unfold um in Hm. destruct (unsolved st) as [ | x [ | y [ | z [ | ]]]]; simpl in Hl; try lia. clear Hl.
  pose proof (Hm 0) as M0. pose proof (Hm 1) as M1. pose proof (Hm 2) as M2. simpl in M0, M1, M2.
  rewrite !andb_true_iff, !N.eqb_eq. split.
  - intros [[-> ->] ->] c Hc. assert (Hb : c / 27 = 0 \/ c / 27 = 1 \/ c / 27 = 2) by lia.
    destruct Hb as [-> | [-> | ->]]; simpl; rewrite tb_0; discriminate.
  - intros H.
    assert (K : forall m b, b < 3 -> nth b [x; y; z] 0%N = m -> m27 m -> m = 0%N).
    { intros m b Hb Hn Hm27. apply tb_ext27; [exact Hm27 | apply m27_0 | ]. intros i Hi. rewrite tb_0.
      specialize (H (27 * b + i) ltac:(lia)).
      replace ((27 * b + i) / 27) with b in H by lia. replace ((27 * b + i) mod 27) with i in H by lia.
      rewrite Hn in H. apply not_true_iff_false. exact H. }
    split; [split | ].
    + apply (K x 0); auto.
    + apply (K y 1); auto.
    + apply (K z 2); auto.
Qed.

(** values of nine cells that reach all digits, are all different *)
Lemma surj_inj9 (l : list nat) (f : nat -> nat) : length l = 9 -> NoDup l ->
  (forall d, d < 9 -> exists c, In c l /\ f c = d) ->
  forall c c', In c l -> In c' l -> f c = f c' -> c = c'.
Proof.
  intros Hl Hnd Hs.
  assert (Hnd' : NoDup (map f l)).
  { apply (NoDup_incl_NoDup (l := seq 0 9)); [apply seq_NoDup | rewrite map_length, seq_length; lia | ].
    intros d Hd. apply in_seq in Hd. destruct (Hs d ltac:(lia)) as [c [Hc <-]]. apply in_map. exact Hc. }
  clear Hs Hl. induction l as [ | x t IH]; intros c c' Hc Hc' E; [contradiction | ].
  simpl in Hnd'. inversion Hnd'; subst. inversion Hnd; subst.
  destruct Hc as [-> | Hc]; destruct Hc' as [-> | Hc'].
  - reflexivity.
  - exfalso. apply H1. rewrite E. apply in_map. exact Hc'.
  - exfalso. apply H1. rewrite <- E. apply in_map. exact Hc.
  - apply IH; auto.
Qed.

Lemma inj_surj9 (l : list nat) (f : nat -> nat) : length l = 9 -> NoDup l ->
  (forall c, In c l -> f c < 9) ->
  (forall c c', In c l -> In c' l -> f c = f c' -> c = c') ->
  forall d, d < 9 -> exists c, In c l /\ f c = d.
Proof.
  intros Hl Hnd Hr Hinj d Hd.
  assert (Hin : In d (map f l)).
  { apply (NoDup_length_incl (l := map f l) (l' := seq 0 9)).
    - apply NoDup_map_on; [exact Hnd | ]. intros x y Hx Hy Hne E. apply Hne. apply Hinj; auto.
    - rewrite map_length, seq_length. lia.
    - intros x Hx. apply in_map_iff in Hx. destruct Hx as [c [<- Hc]]. apply in_seq. specialize (Hr c Hc). lia.
    - apply in_seq. lia. }
  apply in_map_iff in Hin. destruct Hin as [c [E Hc]]. exists c. auto.
Qed.

(** In a finished state the candidates are exactly one solved grid. *)
Lemma finished st : INVx st -> Fix st -> is_solved st = true ->
  exists g, solved g /\ forall d c, d < 9 -> c < 81 -> (cand st d c <-> at_ g c = d + 1).
Proof.
  intros [W [a I]] F Hsolved. rewrite is_solved_iff in Hsolved by exact W. rename Hsolved into S.
  assert (Ha : forall c, c < 81 -> a c < 9) by (intros; apply (i_dig _ _ I); auto).
  assert (Hrow_surj : forall r d, r < 9 -> d < 9 -> exists c, c < 81 /\ row_of c = r /\ a c = d).
  { intros r d Hr Hd. destruct (row_is_house r Hr) as [H9 [Hnd [Hlt _]]].
    destruct (inj_surj9 (row_cells r) a H9 Hnd) with (d := d) as [c [Hc E]]; auto.
    - intros c c' Hc Hc' E.
      apply (i_diff _ _ I); auto.
      assert (row_of c = r) by (apply in_row_cells; auto).
      assert (row_of c' = r) by (apply in_row_cells; auto). lia.
    - exists c. split; [auto | ]. split; [apply in_row_cells; auto | exact E]. }
  assert (Hnz : forall d b, d < 9 -> b < 3 -> qm st (3 * d + b) <> 0%N).
  { intros d b Hd Hb E. destruct (Hrow_surj (3 * b) d ltac:(lia) Hd) as [c [Hc [Hr Hac]]].
    assert (Eb : c / 27 = b) by (unfold row_of in Hr; lia).
    pose proof (i_keep _ _ I c Hc (S c Hc)) as K. rewrite Hac, Eb in K. specialize (K E).
    unfold cand in K. rewrite F, Eb, E, tb_0 in K by lia. discriminate. }
  assert (Hcand : forall d c, d < 9 -> c < 81 -> (cand st d c <-> a c = d)).
  { intros d c Hd Hc. split.
    - intros H. symmetry. apply (i_cell _ _ I); auto.
    - intros <-. pose proof (row_lt c Hc) as Hr.
      destruct (j_row _ _ I (a c) (row_of c) Hd Hr) as [c1 [C1 [C2 C3]]]; [apply Hnz; auto; lia | ].
      apply Fix_pcand in C3; auto.
      assert (a c1 = a c) by (symmetry; apply (i_cell _ _ I); auto).
      assert (c1 = c) by (apply (i_diff _ _ I); auto). subst. exact C3. }
  assert (Hblock_inj : forall c c', c < 81 -> c' < 81 -> block_of c = block_of c' -> a c = a c' -> c = c').
  { intros c c' Hc Hc' Eb E. pose proof (block_lt c Hc) as Hb.
    destruct (block_is_house _ Hb) as [H9 [Hnd [Hlt _]]].
    apply (surj_inj9 (block_cells (block_of c)) a H9 Hnd); auto.
    - intros d Hd. destruct (j_block _ _ I d (block_of c) Hd Hb) as [c1 [C1 [C2 C3]]]; [apply Hnz; auto; lia | ].
      exists c1. split; [apply in_block_cells; auto | ].
      apply Fix_pcand in C3; auto. apply Hcand; auto.
    - apply in_block_cells; auto.
    - apply in_block_cells; auto. }
  exists (of_fun (fun c => a c + 1)).
  assert (Hat : forall c, c < 81 -> at_ (of_fun (fun c => a c + 1)) c = a c + 1) by (intros c Hc; apply (at_of_fun (fun c => a c + 1)); exact Hc).
  split.
  - split; [apply of_fun_length | ]. split; [intros c Hc; rewrite Hat by exact Hc; specialize (Ha c Hc); lia | ].
    intros c c' Hc Hc' [Hne Hp]. rewrite !Hat by assumption. intros E.
    assert (E' : a c = a c') by lia. apply Hne.
    destruct Hp as [Hp | [Hp | Hp]].
    + apply (i_diff _ _ I); auto.
    + destruct (Nat.eq_dec (c / 27) (c' / 27)) as [Eb | Eb].
      * apply Hblock_inj; auto. destruct (cell_parts c Hc) as [P1 [P2 [P3 [P4 [P5 P6]]]]].
        destruct (cell_parts c' Hc') as [Q1 [Q2 [Q3 [Q4 [Q5 Q6]]]]]. lia.
      * exfalso. destruct (cell_parts c Hc) as [P1 [P2 [P3 [P4 [P5 P6]]]]].
        apply (j_col _ _ I (a c) (c / 27) c'); auto.
        -- split.
           ++ exists c. split; [exact Hc | ]. split; [reflexivity | ]. split; [exact Hp | ].
              apply Fix_pcand; auto. apply Hcand; auto.
           ++ intros c1 K1 K2 K3 K4. apply Fix_pcand in K3; auto. apply Hcand in K3; auto.
              assert (c1 = c).
              { apply Hblock_inj; auto. destruct (cell_parts c1 K1) as [R1 [R2 [R3 [R4 [R5 R6]]]]]. lia. }
              subst. exact Hp.
        -- apply Hcand; auto.
    + apply Hblock_inj; auto.
  - intros d c Hd Hc. rewrite Hat by exact Hc. rewrite Hcand by assumption. lia.
Qed.
