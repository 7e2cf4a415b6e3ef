(** Showing strategy solvers, also those without solution. *)
From Coq Require Import List Arith NArith ZArith ZifyNat ZifyN ZifyBool Lia Bool.
From Verif Require Import Spec ParseSpec TableSpec GeomSpec Solver Bits Geom Gen BitLemmas GridProofs BitsProofs GeomProofs GenProofs Strat StratFind StratSolve StratInv StratPos StratFound StratWalk StratWing StratMutant StratCall StratSpec StratHist StratStuck StratPush StratDeduce StratMain StratUse StratWhy StratWhyLemmas StratApi Show ShowSpec ShowProofs.
Import ListNotations.
Ltac Zify.zify_post_hook ::= Z.to_euclidean_division_equations.

(** * Updating the caches without looking for naked singles never panics *)

Definition nonempty (l : list N) : nat := length (filter (fun m => negb (m =? 0)%N) l).
Lemma nonempty_le l : nonempty l <= length l.
Proof. unfold nonempty. induction l as [ | m l IH]; cbn [filter]; [lia | ]. destruct (negb (m =? 0)%N); cbn [length]; lia. Qed.
Lemma nonempty_lset : forall l c m, c < length l -> (nth c l 0%N = 0%N -> m = 0%N) -> nonempty (lset l c m) <= nonempty l.
Proof.
  unfold nonempty. induction l as [ | x l IH]; intros c m Hc H; [cbn in Hc; lia | ]. destruct c as [ | c]; cbn [lset filter nth] in *.
  - destruct (N.eqb_spec x 0) as [-> | Nx]; cbn [negb].
    + rewrite (H eq_refl). cbn. lia.
    + destruct (negb (m =? 0)%N); cbn [length]; lia.
  - specialize (IH c m ltac:(cbn in Hc; lia) H). destruct (negb (x =? 0)%N); cbn [length]; lia.
Qed.
Lemma nonempty_clear : forall l c, c < length l -> nth c l 0%N <> 0%N -> S (nonempty (lset l c 0%N)) = nonempty l.
Proof.
  unfold nonempty. induction l as [ | x l IH]; intros c Hc H; [cbn in Hc; lia | ]. destruct c as [ | c]; cbn [lset filter nth] in *.
  - destruct (N.eqb_spec x 0) as [-> | Nx]; [contradiction | ]. cbn [negb length]. reflexivity.
  - specialize (IH c ltac:(cbn in Hc; lia) H). destruct (negb (x =? 0)%N); cbn [length]; lia.
Qed.

Section Weak.
Variable g0 : grid.
Variables en0 el0 : list cand.
Hypothesis Le : length en0 <= 300.

Record weak (n : nat) (st : strat) : Prop := {
  x_w : W st;
  x_n : s_n st + nonempty (s_cell st) <= 255;
  x_g : s_grid st = g0;
  x_en : s_entries st = en0;
  x_el : s_elims st = el0;
  x_cnd : n <= s_cnd st
}.
Lemma weak_le n m st : m <= n -> weak n st -> weak m st.
Proof. intros L X. constructor; try apply X. pose proof (x_cnd _ _ X). lia. Qed.

Lemma for_weak {A} (I : strat -> Prop) (f : A -> strat -> res (strat * bool)) : forall l st, (forall a s, In a l -> I s -> hp (f a s) I I) -> I st -> hp (for_ok l f st) I I.
Proof.
  induction l as [ | a l IH]; intros st H Is; cbn [for_ok]; [exact Is | ]. eapply hp_bindE; [apply H; [left; reflexivity | exact Is] | auto | ].
  intros s _ Is'. apply IH; [intros b s' Hb; apply H; right; exact Hb | exact Is'].
Qed.

Lemma weak_remove n st c mask : weak n st -> c < 81 -> hp (remove_imp st c mask false) (weak n) (weak n).
Proof.
  intros X Hc. assert (w := x_w _ _ X). assert (Lp := w_lp _ w). unfold remove_imp. rewrite (aget_ok _ _ 0%N) by lia. cbn [bind]. fold (P st c).
  set (m' := set_without EDigit (P st c) mask). assert (M : forall x, mem m' x <-> mem (P st c) x /\ ~ mem mask x) by (intros x; apply mem_without; apply (w_p _ w c Hc)).
  rewrite aset_ok by lia. cbn [bind]. assert (Q : weak n (set_cell st (lset (s_cell st) c m'))).
  { constructor; try apply X; [apply W_set_cell; [exact w | exact Hc | intros x Hx; apply M in Hx; apply (w_p _ w c Hc x), Hx] | ].
    cbn [s_n s_cell set_cell]. pose proof (x_n _ _ X). assert (Y : nonempty (lset (s_cell st) c m') <= nonempty (s_cell st)); [ | lia].
    apply nonempty_lset; [lia | ]. fold (P st c). intros Z. destruct (N.eq_dec m' 0) as [E | N]; [exact E | ]. destruct (nonzero_mem m' N) as [x Hx]. apply M in Hx. rewrite Z in Hx. destruct (mem0 x). tauto. }
  destruct (negb (set_is_empty m')); exact Q.
Qed.

Lemma weak_insert n st c d : weak n st -> c < 81 -> 1 <= d <= 9 -> P st c <> 0%N -> exists st', insert_cp_zs st (c, d) = Ok st' /\ weak n st' /\ s_cnd st' = s_cnd st.
Proof.
  intros X Hc Hd' Np. assert (w := x_w _ _ X). assert (Lp := w_lp _ w). assert (Cl := nonempty_clear (s_cell st) c ltac:(lia) Np). assert (Xn := x_n _ _ X).
  unfold insert_cp_zs. cbn [fst snd]. unfold inc8. replace (s_n st <? U8_MAX) with true by (symmetry; apply Nat.ltb_lt; unfold U8_MAX; lia). cbn [bind].
  rewrite aset_ok by lia. cbn [bind]. destruct (digit_set_ok d Hd') as [m [E [Sm M]]]. rewrite E. cbn [bind].
  destruct (houses_eq c Hc) as [A1 [A2 [A3 [A4 [A5 [A6 [B1 [B2 B3]]]]]]]].
  rewrite A1. cbn [bind]. rewrite A2. cbn [bind]. rewrite H_add by (try exact B1; apply (w_lh _ w)). cbn [bind].
  rewrite A3. cbn [bind]. rewrite A4. cbn [bind]. rewrite H_add by (try exact B2; rewrite lset_length; apply (w_lh _ w)). cbn [bind].
  rewrite A5. cbn [bind]. rewrite A6. cbn [bind]. rewrite H_add by (try exact B3; rewrite !lset_length; apply (w_lh _ w)). cbn [bind].
  eexists. split; [reflexivity | ]. split; [ | reflexivity]. match goal with |- weak n ?x => set (st1 := x) end.
  assert (Sh : forall l h, length l = 27 -> h < 27 -> (forall k, k < 27 -> is_set EDigit (nth k l 0%N)) -> forall k, k < 27 -> is_set EDigit (nth k (lset l h (set_or (nth h l 0%N) m)) 0%N)).
  { intros l h Ll Hh Q k Hk. rewrite nth_lset by lia. destruct (k =? h); [ | apply Q, Hk]. intros x Hx. apply mem_or in Hx. destruct Hx as [Hx | Hx]; [apply (Q h Hh x Hx) | apply (Sm x Hx)]. }
  constructor; try apply X.
  - constructor; try apply w; unfold st1; cbn [s_cell s_house set_house set_cell].
    + rewrite lset_length. apply w.
    + rewrite !lset_length. apply w.
    + intros k Hk x Q. unfold P in Q. cbn [s_cell set_house set_cell] in Q. rewrite nth_lset in Q by lia. destruct (k =? c); [destruct (mem0 x Q) | apply (w_p _ w k Hk x Q)].
    + unfold Hd. cbn [s_house set_house]. repeat (apply Sh; [rewrite ?lset_length; apply (w_lh _ w) | assumption | ]). apply (w_h _ w).
  - unfold st1. cbn [s_n s_cell set_house set_cell set_n]. change (set_none EDigit) with 0%N. lia.
Qed.

Lemma weak_step n st : weak n st -> s_cnd st < length en0 -> weak (S (s_cnd st)) (set_nd st (S (s_cnd st)) (S (s_hnd st))).
Proof.
  intros X L. assert (w := x_w _ _ X). constructor; try apply X; [ | cbn; lia]. constructor; try apply w; cbn [s_hnd s_cnd set_nd s_entries].
  - f_equal. apply (w_nd _ w).
  - rewrite (x_en _ _ X). lia.
Qed.

Lemma weak_clear n mask cells st : (forall k, In k cells -> k < 81) -> weak n st -> hp (clear_neighbors mask false cells st) (weak n) (weak n).
Proof.
  intros H X. unfold clear_neighbors. apply for_weak; [ | exact X]. intros k s Hk Xs. assert (Lp := w_lp _ (x_w _ _ Xs)). specialize (H k Hk).
  rewrite (aget_ok _ _ 0%N) by lia. cbn [bind]. destruct (set_overlaps EDigit mask _); [apply weak_remove; assumption | exact Xs].
Qed.

Lemma weak_entry n st : weak n st -> s_cnd st < length en0 -> exists c d, aget (s_entries st) (s_cnd st) = Ok (c, d) /\ c < 81 /\ 1 <= d <= 9.
Proof.
  intros X L. rewrite (aget_ok _ _ (0, 0)) by (rewrite (x_en _ _ X); exact L). destruct (nth (s_cnd st) (s_entries st) (0, 0)) as [c d] eqn:E. exists c, d. split; [exact (f_equal Ok E) | ].
  apply (w_e _ (x_w _ _ X)). rewrite <- E. apply nth_In. rewrite (x_en _ _ X). exact L.
Qed.

Lemma weak_singly : forall fuel n st, weak n st -> length en0 - s_cnd st < fuel ->
  hp (insert_singly_f fuel false st) (fun st' => weak n st' /\ (s_cnd st < length en0 -> s_cnd st < s_cnd st')) (weak n).
Proof.
  induction fuel as [ | f IH]; intros n st X L; [lia | ]. cbn [insert_singly_f]. rewrite (x_en _ _ X) at 1.
  destruct (Nat.leb_spec (length en0) (s_cnd st)) as [G | G]; [cbn [hp]; split; [exact X | lia] | ].
  destruct (weak_entry n st X G) as [c [d [E [Hc Hd']]]]. rewrite E. cbn [bind]. assert (w := x_w _ _ X).
  rewrite !inc16_ok by (try rewrite (w_nd _ w); lia). cbn [bind]. assert (X1 := weak_step n st X G). set (st1 := set_nd st _ _) in *. assert (C1 : s_cnd st1 = S (s_cnd st)) by reflexivity. cbn [fst snd].
  destruct (digit_set_ok d Hd') as [mask [Em [Sm M]]]. rewrite Em. cbn [bind]. assert (Lp := w_lp _ (x_w _ _ X1)). rewrite (aget_ok (s_cell st1) c 0%N) by (rewrite Lp; exact Hc). cbn [bind]. fold (P st1 c).
  assert (Xn := x_cnd _ _ X).
  assert (Next : forall st2, weak (S (s_cnd st)) st2 -> hp (insert_singly_f f false st2) (fun st' => weak n st' /\ (s_cnd st < length en0 -> s_cnd st < s_cnd st')) (weak n)).
  { intros st2 X2. assert (Q := x_cnd _ _ X2). eapply hp_impl; [apply (IH (S (s_cnd st)) st2 X2); lia | | ]; cbn beta.
    - intros st3 [X3 _]. split; [apply (weak_le (S (s_cnd st))); [lia | exact X3] | ]. intros _. apply (x_cnd _ _ X3).
    - intros st3 X3. apply (weak_le (S (s_cnd st))); [lia | exact X3]. }
  destruct (set_is_empty (P st1 c)) eqn:Ep; [apply Next, X1 | ].
  assert (Nz : P st1 c <> 0%N) by (intros Z; apply (empty_iff EDigit _ (w_p _ (x_w _ _ X1) c Hc)) in Z; congruence).
  destruct (set_is_empty (set_and (P st1 c) mask)); [cbn [hp]; apply (weak_le (S (s_cnd st))); [lia | exact X1] | ].
  destruct (weak_insert _ st1 c d X1 Hc Hd' Nz) as [st2 [E2 [X2 C2]]]. rewrite E2. cbn [bind]. destruct (neighbors_exact c Hc) as [nb [En [_ [_ Nb]]]]. rewrite En. cbn [bind].
  eapply hp_bindE; [apply (weak_clear (S (s_cnd st)) mask nb st2); [intros k Hk; apply Nb, Hk | exact X2] | intros s Xs; apply (weak_le (S (s_cnd st))); [lia | exact Xs] | ].
  intros st3 _ X3. assert (Q := x_cnd _ _ X3). unfold usub. rewrite (proj2 (Nat.leb_le _ _) (w_nl _ (x_w _ _ X3))). cbn [bind].
  destruct (4 <? length (s_entries st3) - s_cnd st3); [ | apply Next, X3]. cbn [hp]. split; [apply (weak_le (S (s_cnd st))); [lia | exact X3] | intros _; exact Q].
Qed.

Lemma weak_masks n st c : weak n st -> c < 81 -> exists a b k, house_masks st c = Ok (a, b, k).
Proof. intros X Hc. rewrite (masks_eq st c (x_w _ _ X) Hc). eauto. Qed.

Lemma weak_pending : forall l n st, weak n st -> skipn (s_cnd st) en0 = l ->
  hp (for_ok l batch_insert_one st) (fun st' => weak n st' /\ s_cnd st' = s_cnd st + length l) (weak n).
Proof.
  induction l as [ | [c d] l IH]; intros n st X El; cbn [for_ok]; [cbn [hp length]; split; [exact X | lia] | ].
  destruct (skipn_nth _ _ _ _ El) as [En El']. assert (G : s_cnd st < length en0) by (apply nth_error_Some; rewrite En; discriminate).
  assert (w := x_w _ _ X). assert (Hi : In (c, d) (s_entries st)) by (rewrite (x_en _ _ X); apply (nth_error_In _ _ En)). destruct (w_e _ w c d Hi) as [Hc Hd'].
  assert (X1 := weak_step n st X G). assert (Xn := x_cnd _ _ X).
  eapply (hp_bindE _ _ (fun s => weak (S (s_cnd st)) s /\ s_cnd s = S (s_cnd st)) (weak n)).
  - unfold batch_insert_one. rewrite !inc16_ok by (try rewrite (w_nd _ w); lia). cbn [bind]. set (st1 := set_nd st _ _) in *. assert (C1 : s_cnd st1 = S (s_cnd st)) by reflexivity. cbn [fst snd].
    assert (Lp := w_lp _ (x_w _ _ X1)). rewrite (aget_ok (s_cell st1) c 0%N) by (rewrite Lp; exact Hc). cbn [bind]. fold (P st1 c).
    destruct (set_is_empty (P st1 c)) eqn:Ep; [cbn [hp]; auto | ].
    assert (Nz : P st1 c <> 0%N) by (intros Z; apply (empty_iff EDigit _ (w_p _ (x_w _ _ X1) c Hc)) in Z; congruence). destruct (digit_set_ok d Hd') as [mask [Em _]]. rewrite Em. cbn [bind].
    destruct (weak_masks _ st1 c X1 Hc) as [a [b [k Ek]]]. rewrite Ek. cbn [bind].
    destruct (_ || _); [cbn [hp]; apply (weak_le (S (s_cnd st))); [lia | exact X1] | ]. destruct (weak_insert _ st1 c d X1 Hc Hd' Nz) as [st2 [E2 [X2 C2]]]. rewrite E2. cbn [bind hp]. split; [exact X2 | congruence].
  - auto.
  - intros st1 _ [X2 C2]. eapply hp_impl; [apply (IH (S (s_cnd st)) st1 X2); rewrite C2; exact El' | | ]; cbn beta.
    + intros s [Xs Cs]. split; [apply (weak_le (S (s_cnd st))); [lia | exact Xs] | ]. rewrite Cs, C2. cbn [length]. lia.
    + intros s Xs. apply (weak_le (S (s_cnd st))); [lia | exact Xs].
Qed.

Lemma weak_conflicts n cells st : (forall k, In k cells -> k < 81) -> weak n st ->
  hp (for_ok cells (fun cell st => m <- aget (s_cell st) cell; if set_is_empty m then Ok (st, true) else hm <- house_masks st cell; let '(mr, mk, mb) := hm in remove_imp st cell (set_or (set_or mr mk) mb) false) st) (weak n) (weak n).
Proof.
  intros H X. apply for_weak; [ | exact X]. intros k s Hk Xs. assert (Lp := w_lp _ (x_w _ _ Xs)). specialize (H k Hk). rewrite (aget_ok _ _ 0%N) by lia. cbn [bind].
  destruct (set_is_empty _); [exact Xs | ]. destruct (weak_masks n s k Xs H) as [a [b [e Ek]]]. rewrite Ek. cbn [bind]. apply weak_remove; assumption.
Qed.

Lemma weak_batch n st : weak n st -> hp (batch_insert false st) (fun st' => weak n st' /\ s_cnd st' = length en0) (weak n).
Proof.
  intros X. unfold batch_insert, batch_insert_pending. rewrite (x_en _ _ X) at 1. unfold slice_from. assert (L := w_nl _ (x_w _ _ X)). rewrite (x_en _ _ X) in L. rewrite (proj2 (Nat.leb_le _ _) L). cbn [bind].
  eapply hp_bindE; [apply (weak_pending _ n st X eq_refl) | auto | ]. intros st1 _ [X1 C1]. rewrite skipn_length in C1. unfold batch_remove_conflicts.
  eapply hp_impl; [apply (weak_conflicts (length en0) (seq 0 81) st1); [intros k Hk; apply in_seq in Hk; lia | constructor; try apply X1; lia] | | ]; cbn beta.
  - intros s Xs. split; [apply (weak_le (length en0)); [ | exact Xs]; pose proof (x_cnd _ _ X); lia | ]. assert (Q := x_cnd _ _ Xs). assert (Q' := w_nl _ (x_w _ _ Xs)). rewrite (x_en _ _ Xs) in Q'. lia.
  - intros s Xs. apply (weak_le (length en0)); [ | exact Xs]. pose proof (x_cnd _ _ X). lia.
Qed.

Lemma weak_loop : forall fuel st, weak 0 st -> length en0 - s_cnd st < fuel -> hp (insert_loop fuel false st) (weak 0) (weak 0).
Proof.
  induction fuel as [ | f IH]; intros st X L; [lia | ]. cbn [insert_loop]. assert (Ln := w_nl _ (x_w _ _ X)). unfold usub. rewrite (proj2 (Nat.leb_le _ _) Ln). cbn [bind].
  rewrite (x_en _ _ X). rewrite (x_en _ _ X) in Ln. destruct (length en0 - s_cnd st) as [ | k] eqn:Ek; [exact X | ].
  assert (B : hp (st0 <! batch_insert false st; insert_loop f false st0) (weak 0) (weak 0)).
  { eapply hp_bindE; [apply (weak_batch 0 st X) | auto | ]. intros s _ [Xs Cs]. apply (IH s Xs). lia. }
  assert (Q : hp (st0 <! insert_singly_f (insert_fuel st) false st; insert_loop f false st0) (weak 0) (weak 0)).
  { eapply hp_bindE; [apply (weak_singly (insert_fuel st) 0 st X) | auto | ]; [unfold insert_fuel; rewrite (x_en _ _ X); lia | ]. intros s _ [Xs Cs]. apply (IH s Xs). specialize (Cs ltac:(lia)). lia. }
  destruct k as [ | [ | [ | [ | k]]]]; assumption.
Qed.

Lemma weak_update st early : weak 0 st -> hp (update_cell_house false early st) (weak 0) (weak 0).
Proof.
  intros X. unfold update_cell_house, slice_from. assert (w := x_w _ _ X). rewrite (proj2 (Nat.leb_le _ _) (w_cle _ w)). cbn [bind].
  eapply (hp_bindE _ _ (weak 0) (weak 0)); [ | auto | ].
  - unfold apply_elims. apply for_weak; [ | exact X]. intros [c d] s Hi Xs. apply in_skipn in Hi. destruct (w_el _ w c d Hi) as [Hc Hd']. cbn [fst snd].
    destruct (digit_set_ok d Hd') as [m [E _]]. rewrite E. cbn [bind]. assert (Q := weak_remove 0 s c m Xs Hc). destruct (remove_imp s c m false) as [[s' [ | ]] | | | ]; cbn [hp] in Q; try contradiction; cbn [bind]; destruct early; exact Q.
  - intros s _ Xs. assert (ws := x_w _ _ Xs). assert (Xc : weak 0 (set_cle s (as_u16 (length (s_elims s))))).
    { constructor; try apply Xs. apply W_cle; [exact ws | ]. pose proof (as_u16_le (length (s_elims s))). lia. }
    set (s1 := set_cle s _) in *. unfold insert_entries. assert (w1 := x_w _ _ Xc). rewrite (w_nd _ w1), Nat.eqb_refl.
    eapply (hp_bindE _ _ (weak 0) (weak 0)); [ | auto | ].
    + destruct (_ <? _); [ | exact Xc]. eapply hp_impl; [apply (weak_batch 0 s1 Xc) | intros z [Z _]; exact Z | auto].
    + intros s2 _ X2. apply weak_loop; [exact X2 | ]. unfold insert_fuel. rewrite (x_en _ _ X2). lia.
Qed.
End Weak.

(** The state of a cell as [grid_state] and [cell_state] read it *)
Definition state_at (st : strat) (c : nat) : cell_state := if at_ (s_grid st) c =? 0 then CCands (P st c) else CDigit (at_ (s_grid st) c).

Lemma read_state st c : W st -> c < 81 -> (d <- aget (s_grid st) c; if negb (d =? 0) then d <- digit_new d; Ok (CDigit d) else m <- aget (s_cell st) c; Ok (CCands m)) = Ok (state_at st c).
Proof.
  intros w Hc. assert (Lg := w_lg _ w). assert (Lp := w_lp _ w). rewrite (aget_ok (s_grid st) c 0) by lia. cbn [bind]. unfold state_at, at_. destruct (Nat.eqb_spec (nth c (s_grid st) 0) 0) as [Z | N]; cbn [negb].
  - rewrite (aget_ok (s_cell st) c 0%N) by lia. reflexivity.
  - assert (R := w_g _ w c Hc). unfold G, at_ in R. rewrite (proj1 (proj1 (digit_new_exact (nth c (s_grid st) 0)) ltac:(lia))). reflexivity.
Qed.
Lemma states_ok st : W st -> ok_states (map (state_at st) (seq 0 81)).
Proof.
  intros w. split; [rewrite map_length, seq_length; reflexivity | ]. rewrite Forall_forall. intros x Hx. apply in_map_iff in Hx. destruct Hx as [c [<- Hc]]. apply in_seq in Hc. unfold state_at.
  assert (R := w_g _ w c ltac:(lia)). unfold G in R. destruct (Nat.eqb_spec (at_ (s_grid st) c) 0) as [Z | N]; [ | cbn [ok_state]; lia]. intros i Hi. apply (w_p _ w c ltac:(lia) i Hi).
Qed.

(** Reading the state of any solver *)
Lemma query_weak st : W st -> core st -> length (s_entries st) <= 300 -> exists st', query st = Ok st' /\ W st' /\ s_entries st' = s_entries st /\ s_elims st' = s_elims st /\
  (forall c d, c < 81 -> 1 <= d -> (at_ (s_grid st') c = d <-> In (c, d) (s_entries st))).
Proof.
  intros w o L. destruct (final_grid st w o) as [g [E [Lg [Q R]]]]. unfold query. rewrite E. cbn [bind].
  assert (X : weak g (s_entries st) (s_elims st) 0 (set_grid st g)).
  { constructor; try reflexivity; [constructor; try apply w; [exact Lg | exact R] | | lia]. cbn [s_n s_cell set_grid]. destruct (o_n _ o) as [D [_ [_ En]]]. pose proof (count_le D). pose proof (nonempty_le (s_cell st)). rewrite (w_lp _ w) in *. lia. }
  assert (Y := weak_update g (s_entries st) (s_elims st) L (set_grid st g) false X).
  destruct (update_cell_house false false (set_grid st g)) as [[st' b] | | | ]; try (destruct Y). cbn [bind fst]. exists st'. split; [reflexivity | ].
  assert (X' : weak g (s_entries st) (s_elims st) 0 st') by (destruct b; exact Y). split; [apply (x_w _ _ _ _ _ X') | ]. split; [apply (x_en _ _ _ _ _ X') | ]. split; [apply (x_el _ _ _ _ _ X') | ].
  rewrite (x_g _ _ _ _ _ X'). exact Q.
Qed.
Lemma grid_state_weak st : W st -> core st -> length (s_entries st) <= 300 -> exists g, strat_grid_state st = Ok g /\ ok_states g /\ forall c d, In (c, d) (s_entries st) <-> shown g c d.
Proof.
  intros w o L. destruct (query_weak st w o L) as [st' [E [w' [Ee [El Q]]]]]. exists (map (state_at st') (seq 0 81)). split; [ | split; [apply states_ok, w' | ]].
  - unfold strat_grid_state. rewrite E. cbn [bind]. apply rmap_ok. intros c Hc. apply in_seq in Hc. apply read_state; [exact w' | lia].
  - intros c d. unfold shown. assert (N : c < 81 -> nth_error (map (state_at st') (seq 0 81)) c = Some (state_at st' c)).
    { intros Hc. rewrite nth_error_map. rewrite (nth_error_nth' (seq 0 81) 0) by (rewrite seq_length; exact Hc). rewrite seq_nth by exact Hc. reflexivity. }
    split.
    + intros Hi. destruct (w_e _ w c d Hi) as [Hc Hd']. split; [exact Hc | ]. rewrite (N Hc). unfold state_at. rewrite (proj2 (Q c d Hc ltac:(lia)) Hi). destruct (Nat.eqb_spec d 0); [lia | reflexivity].
    + intros [Hc Ns]. rewrite (N Hc) in Ns. unfold state_at in Ns. destruct (Nat.eqb_spec (at_ (s_grid st') c) 0) as [Z | Nz]; [discriminate | ]. injection Ns as Ns. apply (Q c d Hc); [lia | exact Ns].
Qed.
Lemma cell_state_weak st c : W st -> core st -> length (s_entries st) <= 300 -> c < 81 -> exists st' x, strat_cell_state st c = Ok (st', x) /\ ok_state x.
Proof.
  intros w o L Hc. destruct (query_weak st w o L) as [st' [E [w' [Ee [El Q]]]]]. unfold strat_cell_state. rewrite E. cbn [bind]. exists st', (state_at st' c).
  assert (R := read_state st' c w' Hc). destruct (states_ok st' w') as [_ F]. rewrite Forall_forall in F. split; [ | apply F, in_map, in_seq; lia].
  destruct (aget (s_grid st') c) as [d | | | ]; cbn [bind] in *; try discriminate. destruct (negb (d =? 0)).
  - destruct (digit_new d) as [d' | | | ]; cbn [bind] in *; try discriminate. injection R as <-. reflexivity.
  - destruct (aget (s_cell st') c) as [m | | | ]; cbn [bind] in *; try discriminate. injection R as <-. reflexivity.
Qed.

(** * Display *)

Lemma lset_same {A} (d : A) : forall l c, c < length l -> lset l c (nth c l d) = l.
Proof. induction l as [ | x l IH]; intros c Hc; [cbn in Hc; lia | ]. destruct c as [ | c]; cbn [lset nth]; [reflexivity | ]. rewrite IH by (cbn in Hc; lia). reflexivity. Qed.
Lemma rfold_inv {A S} (I : S -> Prop) (f : A -> S -> res S) : forall l s, (forall a s, In a l -> I s -> exists s', f a s = Ok s' /\ I s') -> I s -> exists s', rfold f l s = Ok s' /\ I s'.
Proof.
  induction l as [ | a l IH]; intros s H Is; cbn [rfold]; [exists s; auto | ]. destruct (H a s (or_introl eq_refl) Is) as [s1 [E I1]]. rewrite E. cbn [bind].
  apply IH; [intros b t Hb; apply H; right; exact Hb | exact I1].
Qed.

Definition twin (st st' : strat) : Prop := W st' /\ s_entries st' = s_entries st /\ s_elims st' = s_elims st /\ s_grid st' = s_grid st /\ s_n st' = s_n st.
Lemma twin_core st st' : twin st st' -> core st -> core st'.
Proof. intros [w [E1 [E2 [E3 E4]]]] o. constructor; unfold G; rewrite ?E1, ?E3, ?E4; apply o. Qed.
Lemma no_check_total st : W st -> exists st', remove_conflicts_no_check st = Ok st' /\ twin st st'.
Proof.
  intros w. unfold remove_conflicts_no_check. apply (rfold_inv (twin st)); [ | split; [exact w | auto]]. intros c s Hc [ws [E1 [E2 [E3 E4]]]]. apply in_seq in Hc. assert (Lp := w_lp _ ws).
  rewrite (aget_ok _ _ 0%N) by lia. cbn [bind]. fold (P s c). destruct (set_is_empty (P s c)); [exists s; split; [reflexivity | split; [exact ws | auto]] | ].
  rewrite (masks_eq s c ws ltac:(lia)). cbn [bind]. rewrite aset_ok by lia. cbn [bind]. eexists. split; [reflexivity | ]. split; [ | auto].
  apply W_set_cell; [exact ws | lia | ]. intros x Hx. apply mem_without in Hx; [ | apply (w_p _ ws c ltac:(lia))]. apply (w_p _ ws c ltac:(lia) x), Hx.
Qed.
Lemma no_check_same st : W st -> disj st -> remove_conflicts_no_check st = Ok st.
Proof.
  intros w J. destruct (rfold_inv (fun s => s = st) (fun cell st => m <- aget (s_cell st) cell; if set_is_empty m then Ok st else hm <- house_masks st cell; let '(mr, mk, mb) := hm in
      cp <- aset (s_cell st) cell (set_without EDigit m (set_or (set_or mr mk) mb)); Ok (set_cell st cp)) (seq 0 81) st) as [s' [E ->]]; [ | reflexivity | exact E].
  intros c s Hc ->. apply in_seq in Hc. exists st. split; [ | reflexivity]. assert (Lp := w_lp _ w). rewrite (aget_ok _ _ 0%N) by lia. cbn [bind]. fold (P st c). destruct (set_is_empty (P st c)); [reflexivity | ].
  rewrite (masks_eq st c w ltac:(lia)). cbn [bind]. rewrite aset_ok by lia. cbn [bind]. f_equal.
  replace (set_without EDigit (P st c) _) with (P st c); [unfold P; rewrite lset_same by lia; destruct st; reflexivity | ].
  apply mem_ext. intros x. change (mem (P st c) x <-> mem (set_without EDigit (P st c) (set_or (set_or (Hd st (row_of c)) (Hd st (9 + col_of c))) (Hd st (18 + block_of c)))) x).
  rewrite mem_without by apply (w_p _ w c ltac:(lia)). rewrite !mem_or. split; [ | tauto]. intros M. split; [exact M | ].
  assert (Q := any_mask st c x ltac:(lia)). intros [[A | A] | A]; (destruct (proj1 Q ltac:(tauto)) as [h [Hh [Ih Mh]]]; apply (J c x h ltac:(lia) Hh Ih M Mh)).
Qed.

Lemma trace_naked st st' : trace [NakedSingles] st st' -> s_elims st' = s_elims st.
Proof.
  intros T. destruct (t_new _ _ _ T) as [en [el' [dd [E1 [E2 [E3 [Ti [Re _]]]]]]]].
  assert (X : length (s_elims st) = length (s_elims st')).
  { apply (tiles_fun dd (length (s_elims st))); [ | exact Ti]. apply tiles_none. intros y Hy. destruct (Re y Hy) as [S [Hs [z [Ez [Rz Pl]]]]]. apply (plain_strategy _ _ _ _ Ez Pl Rz). destruct Hs as [<- | []]. auto. }
  rewrite E2, app_length in X. destruct el' as [ | z t]; [ | cbn [length] in X; lia]. rewrite E2, app_nil_r. reflexivity.
Qed.

Lemma started_len st pl el : started st pl el -> length (s_entries st) + 2 * zeros (s_grid st) <= 243.
Proof. intros A. destruct (a_ready _ _ _ A) as [D [done I]]. apply (i_len _ _ _ I). Qed.
Lemma naked_implemented : implemented [NakedSingles].
Proof. intros S [<- | []]. discriminate. Qed.

Lemma text_total st pl el : started st pl el -> exists g, strat_text st = Ok (unlines (table g)) /\ ok_states g /\ (forall c d, pl c d -> shown g c d) /\ (forall s, completion pl el s -> forall c d, shown g c d -> at_ s c = d).
Proof.
  intros A. destruct (try_solve_spec [NakedSingles] st naked_implemented (a_ready _ _ _ A)) as [st1 [E1 [T _]]]. unfold strat_text, update_for_grid_state_str. rewrite E1. cbn [bind].
  assert (w1 := t_w _ _ _ T). destruct (no_check_total st1 w1) as [st2 [E2 Tw]]. rewrite E2. cbn [bind]. assert (o2 := twin_core _ _ Tw (t_core _ _ _ T)). destruct Tw as [w2 [Q1 [Q2 [Q3 Q4]]]].
  destruct (grid_state_weak st2 w2 o2) as [g [Eg [Og Sh]]]. { rewrite Q1. pose proof (t_len _ _ _ T). pose proof (started_len _ _ _ A). lia. }
  rewrite Eg. cbn [bind]. exists g. split; [apply print_table, Og | ]. split; [exact Og | ]. destruct (t_new _ _ _ T) as [en [el' [dd [F1 _]]]]. split.
  - intros c d Hp. apply Sh. rewrite Q1, F1. apply in_app_iff. left. apply (a_pl _ _ _ A), Hp.
  - intros s Cs c d Hs. apply Sh in Hs. rewrite Q1 in Hs. apply (t_snd _ _ _ T s (proj1 Cs)); [apply (started_snd _ _ _ s A (proj1 Cs)), Cs | exact Hs].
Qed.

Lemma text_exact st pl el s0 : started st pl el -> completion pl el s0 -> exists g, strat_text st = Ok (unlines (table g)) /\ ok_states g /\
  (forall c d, pl c d -> shown g c d) /\
  (forall c m, nth_error g c = Some (CCands m) -> forall d, 1 <= d <= 9 -> (N.testbit m (N.of_nat (d - 1)) = true <-> allowed (shown g) el c d)) /\
  (forall s, completion pl el s <-> completion (shown g) (struck g) s).
Proof.
  intros A Cs0. assert (So0 := proj1 Cs0). destruct (try_solve_spec [NakedSingles] st naked_implemented (a_ready _ _ _ A)) as [st1 [E1 [T Out]]]. unfold strat_text, update_for_grid_state_str. rewrite E1. cbn [bind].
  assert (w1 := t_w _ _ _ T). assert (o1 := t_core _ _ _ T). assert (El := trace_naked _ _ T). assert (Ss0 := proj2 (started_snd _ _ _ s0 A So0) Cs0). assert (S1 := t_snd _ _ _ T s0 So0 Ss0).
  assert (Sm : small st1) by (unfold small, U16_MAX; rewrite El; pose proof (a_small _ _ _ A); lia).
  assert (Ln : length (s_entries st1) <= 300) by (pose proof (t_len _ _ _ T); pose proof (started_len _ _ _ A); lia).
  destruct (t_new _ _ _ T) as [en [el' [dd [F1 _]]]]. assert (Sub : forall c d, pl c d -> In (c, d) (s_entries st1)) by (intros c d Hp; rewrite F1; apply in_app_iff; left; apply (a_pl _ _ _ A), Hp).
  assert (X : exists g st2, remove_conflicts_no_check st1 = Ok st2 /\ strat_grid_state st2 = Ok g /\ ok_states g /\ (forall c d, In (c, d) (s_entries st1) <-> shown g c d) /\
    (forall c m, nth_error g c = Some (CCands m) -> forall d, 1 <= d <= 9 -> (N.testbit m (N.of_nat (d - 1)) = true <-> allowed (shown g) el c d))).
  { destruct Out as [Full | [No | [Pr _]]].
    - destruct (no_check_total st1 w1) as [st2 [E2 Tw]]. assert (o2 := twin_core _ _ Tw o1). destruct Tw as [w2 [Q1 [Q2 [Q3 Q4]]]].
      destruct (grid_state_weak st2 w2 o2 ltac:(rewrite Q1; exact Ln)) as [g [Eg [Og Sh]]]. exists g, st2. split; [exact E2 | ]. split; [exact Eg | ]. split; [exact Og | ]. split; [intros c d; rewrite <- Sh, Q1; reflexivity | ].
      intros c m Hn. exfalso. assert (Hc : c < 81) by (rewrite <- (proj1 Og); apply nth_error_Some; rewrite Hn; discriminate).
      destruct (o_n _ o1) as [D [D1 [_ Dn]]]. rewrite Full in Dn. assert (Q := filter_all (fun c => negb (D c =? 0)) (seq 0 81) ltac:(rewrite seq_length; symmetry; exact Dn) c ltac:(apply in_seq; lia)).
      apply negb_true_iff, Nat.eqb_neq in Q. apply D1 in Q. rewrite <- Q1 in Q. apply Sh in Q. destruct Q as [_ Q]. congruence.
    - destruct (No Sm s0 So0 Ss0).
    - destruct Pr as [D [done [I _]]]. exists (match strat_grid_state st1 with Ok g => g | _ => [] end), st1. split; [apply no_check_same; [exact w1 | apply (i_disj _ _ _ I)] | ].
      destruct (query_ok st1 (ex_intro _ D (ex_intro _ done I)) Sm) as [st' [E [_ [_ [El' [Ee [Q [D' U]]]]]]]].
      { exists (fun _ => True), s0. split; [apply fit_solved, So0 | apply SndE_all, S1]. }
      assert (w := u_w _ _ U). assert (Rg : strat_grid_state st1 = Ok (map (state_at st') (seq 0 81))).
      { unfold strat_grid_state. rewrite E. cbn [bind]. apply rmap_ok. intros c Hc. apply in_seq in Hc. apply read_state; [exact w | lia]. }
      rewrite Rg. split; [reflexivity | ]. split; [apply states_ok, w | ].
      assert (N : forall c, c < 81 -> nth_error (map (state_at st') (seq 0 81)) c = Some (state_at st' c)).
      { intros c Hc. rewrite nth_error_map. rewrite (nth_error_nth' (seq 0 81) 0) by (rewrite seq_length; exact Hc). rewrite seq_nth by exact Hc. reflexivity. }
      assert (Sh : forall c d, In (c, d) (s_entries st1) <-> shown (map (state_at st') (seq 0 81)) c d).
      { intros c d. unfold shown. split.
        - intros Hi. destruct (w_e _ w1 c d Hi) as [Hc Hd']. split; [exact Hc | ]. rewrite (N c Hc). unfold state_at. rewrite (proj2 (Q c d Hc ltac:(lia)) Hi). destruct (Nat.eqb_spec d 0); [lia | reflexivity].
        - intros [Hc Ns]. rewrite (N c Hc) in Ns. unfold state_at in Ns. destruct (Nat.eqb_spec (at_ (s_grid st') c) 0) as [Z | Nz]; [discriminate | ]. injection Ns as Ns. apply (Q c d Hc); [lia | exact Ns]. }
      split; [exact Sh | ]. intros c m Hn d Hd'. assert (Hc : c < 81). { assert (Lx : c < length (map (state_at st') (seq 0 81))) by (apply nth_error_Some; rewrite Hn; discriminate). rewrite map_length, seq_length in Lx. exact Lx. }
      rewrite (N c Hc) in Hn. unfold state_at in Hn. destruct (Nat.eqb_spec (at_ (s_grid st') c) 0) as [Z | Nz]; [ | discriminate]. injection Hn as <-.
      assert (Al := alive_iff D' st' U c d). change (mem (P st' c) (d - 1) <-> allowed (shown (map (state_at st') (seq 0 81))) el c d).
      assert (Ne : forall d', ~ In (c, d') (s_entries st')). { intros d' Hi. destruct (w_e _ w c d' Hi). rewrite Ee in Hi. apply (Q c d' Hc ltac:(lia)) in Hi. lia. }
      split.
      * intros M. destruct (proj2 Al (conj Hc (conj Hd' M))) as [_ [_ [N1 N2]]]. split; [exact Hd' | ]. split; [intros Q'; apply N1; rewrite El', El; apply (a_el _ _ _ A), Q' | ].
        intros c' Hc' Pe Hp. apply Sh in Hp. rewrite <- Ee in Hp. destruct (N2 c' d Hp) as [_ N3]. apply N3. auto.
      * intros [_ [N1 N2]]. apply Al. split; [exact Hc | ]. split; [exact Hd' | ]. split; [intros Q'; apply N1, (a_el _ _ _ A); rewrite <- El, <- El'; exact Q' | ].
        intros c' d' Hi. split; [intros <-; apply (Ne d' Hi) | ]. intros [Pe <-]. apply (N2 c' (proj1 (w_e _ w c' d Hi)) Pe). apply Sh. rewrite <- Ee. exact Hi. }
  destruct X as [g [st2 [E2 [Eg [Og [Sh Cd]]]]]]. rewrite E2. cbn [bind]. rewrite Eg. cbn [bind]. exists g. split; [apply print_table, Og | ]. split; [exact Og | ]. split; [intros c d Hp; apply Sh, Sub, Hp | ]. split; [exact Cd | ].
  intros s. split.
  - intros Cs. assert (So := proj1 Cs). assert (Ss := t_snd _ _ _ T s So (proj2 (started_snd _ _ _ s A So) Cs)). split; [exact So | ]. split.
    + intros c d Hs. apply Sh in Hs. apply (proj1 Ss), Hs.
    + intros c d [Hc [Hd' [m [Hn Tb]]]] Eq. assert (Al : allowed (shown g) el c d); [ | apply (Cd c m Hn d Hd') in Al; congruence].
      split; [exact Hd' | ]. split; [intros He; apply (proj2 (proj2 Cs) c d He Eq) | ]. intros c' Hc' Pe Hs. apply Sh in Hs. apply (proj1 Ss) in Hs. apply (proj1 (proj2 (fit_solved false s So)) c c' Hc Hc' Pe Logic.I). congruence.
  - intros [So [C1 C2]]. split; [exact So | ]. split; [intros c d Hp; apply C1, Sh, Sub, Hp | ]. intros c d He Eq. assert (Rg := proj1 (fit_solved false s So)).
    assert (Hi := proj2 (a_el _ _ _ A c d) He). destruct (w_el _ (proj1 (inv_core _ (a_ready _ _ _ A))) c d Hi) as [Hc Hd'].
    destruct (nth_error g c) as [x | ] eqn:Hn; [ | apply nth_error_None in Hn; rewrite (proj1 Og) in Hn; lia]. destruct x as [e | m].
    + assert (Hs : shown g c e) by (split; assumption). assert (Q := C1 c e Hs). apply Sh in Hs. apply (proj1 S1) in Hs. apply (proj2 (proj2 Cs0) c d He). congruence.
    + apply (C2 c d); [ | exact Eq]. split; [exact Hc | ]. split; [exact Hd' | ]. exists m. split; [exact Hn | ]. destruct (N.testbit m (N.of_nat (d - 1))) eqn:Tb; [ | reflexivity]. apply (Cd c m Hn d Hd') in Tb. destruct Tb as [_ [Nb _]]. contradiction.
Qed.

(** * Reading back a table keeps the solutions *)

Definition agrees (x : cell_state) (v : nat) : Prop := match x with CDigit d => v = d | CCands m => N.testbit m (N.of_nat (v - 1)) = true end.
Lemma completion_agrees g s : length g = 81 -> (completion (shown g) (struck g) s <-> solved s /\ forall c x, nth_error g c = Some x -> agrees x (at_ s c)).
Proof.
  intros L. split.
  - intros [So [C1 C2]]. split; [exact So | ]. intros c x Hn. assert (Hc : c < 81) by (rewrite <- L; apply nth_error_Some; rewrite Hn; discriminate). destruct x as [d | m]; cbn [agrees].
    + apply C1. split; assumption.
    + destruct (N.testbit m (N.of_nat (at_ s c - 1))) eqn:Tb; [reflexivity | exfalso]. apply (C2 c (at_ s c)); [ | reflexivity]. split; [exact Hc | ]. split; [apply (proj1 (fit_solved false s So) c Hc) | ]. exists m. auto.
  - intros [So H]. split; [exact So | ]. split.
    + intros c d [_ Hn]. apply (H c _ Hn).
    + intros c d [Hc [Hd' [m [Hn Tb]]]] Eq. assert (Q := H c _ Hn). cbn [agrees] in Q. rewrite Eq in Q. congruence.
Qed.
Lemma agrees_plain x v : 1 <= v <= 9 -> (agrees (plain_state x) v <-> agrees x v).
Proof.
  intros Hv. destruct x as [d | m]; [reflexivity | ]. unfold plain_state. destruct (set_digits m) as [ | d [ | e l]] eqn:E; [reflexivity | | reflexivity]. cbn [agrees].
  assert (Q : In v (set_digits m) <-> N.testbit m (N.of_nat (v - 1)) = true).
  { unfold set_digits. rewrite filter_In, in_seq. split; [tauto | ]. intros Tb. split; [lia | exact Tb]. }
  rewrite <- Q, E. cbn [In]. split; [auto | intros [-> | []]; reflexivity].
Qed.
Lemma completion_plain g s : length g = 81 -> (completion (shown (map plain_state g)) (struck (map plain_state g)) s <-> completion (shown g) (struck g) s).
Proof.
  intros L. rewrite (completion_agrees g s L), completion_agrees by (rewrite map_length; exact L). split; intros [So H]; (split; [exact So | ]); intros c x Hn; assert (R := proj1 (fit_solved false s So) c).
  - assert (Hc : c < 81) by (rewrite <- L; apply nth_error_Some; rewrite Hn; discriminate). apply agrees_plain; [apply (R Hc) | ]. apply H. rewrite nth_error_map, Hn. reflexivity.
  - rewrite nth_error_map in Hn. destruct (nth_error g c) as [y | ] eqn:Hy; [ | discriminate]. injection Hn as <-. assert (Hc : c < 81) by (rewrite <- L; apply nth_error_Some; rewrite Hy; discriminate). apply agrees_plain; [apply (R Hc) | ]. apply (H c y Hy).
Qed.

Lemma text_read st pl el s0 : started st pl el -> completion pl el s0 -> exists t st' pl' el', strat_text st = Ok t /\ from_grid_state_str t = Ok st' /\ api st' pl' el' /\ (forall c d, pl c d -> pl' c d) /\ forall s, completion pl el s <-> completion pl' el' s.
Proof.
  intros A Cs0. destruct (text_exact st pl el s0 A Cs0) as [g [Et [Og [Sub [_ Eq]]]]]. assert (Op := plain_ok g Og). destruct (states_ex _ Op) as [st' Es].
  exists (unlines (table g)), st', (shown (map plain_state g)), (struck (map plain_state g)). split; [exact Et | ]. split; [unfold from_grid_state_str; rewrite (read_table g Og); exact Es | ]. split; [apply api_states; assumption | ].
  split; [intros c d Hp; destruct (Sub c d Hp) as [Hc Hn]; split; [exact Hc | rewrite nth_error_map, Hn; reflexivity] | ]. intros s. rewrite (completion_plain g s (proj1 Og)). apply Eq.
Qed.

(** * Statements for public solvers *)

Lemma api_weak st pl el : api st pl el -> W st /\ core st /\ length (s_entries st) <= 300.
Proof. intros A. assert (S := api_started _ _ _ A). destruct (inv_core _ (a_ready _ _ _ S)) as [w o]. split; [exact w | ]. split; [exact o | ]. pose proof (started_len _ _ _ S). lia. Qed.
Lemma api_grid_state st pl el : api st pl el -> exists g, strat_grid_state st = Ok g /\ ok_states g /\ forall c d, shown g c d <-> pl c d.
Proof.
  intros A. destruct (api_weak _ _ _ A) as [w [o L]]. destruct (grid_state_weak st w o L) as [g [E [Og Sh]]]. exists g. split; [exact E | ]. split; [exact Og | ].
  intros c d. rewrite <- Sh. apply (a_pl _ _ _ (api_started _ _ _ A)).
Qed.
Lemma api_cell_total st pl el c : api st pl el -> c < 81 -> exists st' x, strat_cell_state st c = Ok (st', x) /\ ok_state x /\ forall d, x = CDigit d <-> pl c d.
Proof.
  intros A Hc. destruct (api_weak _ _ _ A) as [w [o L]]. destruct (query_weak st w o L) as [st' [E [w' [Ee [El Q]]]]]. exists st', (state_at st' c).
  unfold strat_cell_state. rewrite E. cbn [bind]. assert (R := read_state st' c w' Hc). destruct (states_ok st' w') as [_ F]. rewrite Forall_forall in F. split; [ | split; [apply F, in_map, in_seq; lia | ]].
  - destruct (aget (s_grid st') c) as [d | | | ]; cbn [bind] in *; try discriminate. destruct (negb (d =? 0)).
    + destruct (digit_new d) as [d' | | | ]; cbn [bind] in *; try discriminate. injection R as <-. reflexivity.
    + destruct (aget (s_cell st') c) as [m | | | ]; cbn [bind] in *; try discriminate. injection R as <-. reflexivity.
  - intros d. rewrite <- (a_pl _ _ _ (api_started _ _ _ A) c d). unfold state_at. split.
    + destruct (Nat.eqb_spec (at_ (s_grid st') c) 0) as [Z | N]; [discriminate | ]. intros [= X]. apply (Q c d Hc); [lia | exact X].
    + intros Hi. destruct (w_e _ w c d Hi). rewrite (proj2 (Q c d Hc ltac:(lia)) Hi). destruct (Nat.eqb_spec d 0); [lia | reflexivity].
Qed.
Lemma api_text st pl el : api st pl el -> exists g, strat_text st = Ok (unlines (table g)) /\ ok_states g /\ (forall c d, pl c d -> shown g c d) /\ (forall s, completion pl el s -> forall c d, shown g c d -> at_ s c = d).
Proof. intros A. apply text_total, api_started, A. Qed.
Lemma api_text_exact st pl el s0 : api st pl el -> completion pl el s0 -> exists g, strat_text st = Ok (unlines (table g)) /\ ok_states g /\
  (forall c d, pl c d -> shown g c d) /\
  (forall c m, nth_error g c = Some (CCands m) -> forall d, 1 <= d <= 9 -> (N.testbit m (N.of_nat (d - 1)) = true <-> allowed (shown g) el c d)) /\
  (forall s, completion pl el s <-> completion (shown g) (struck g) s).
Proof. intros A. apply text_exact, api_started, A. Qed.
Lemma api_text_read st pl el s0 : api st pl el -> completion pl el s0 -> exists t st' pl' el', strat_text st = Ok t /\ from_grid_state_str t = Ok st' /\ api st' pl' el' /\ (forall c d, pl c d -> pl' c d) /\ forall s, completion pl el s <-> completion pl' el' s.
Proof. intros A. apply text_read, api_started, A. Qed.

(** * Runs *)

Lemma plus_panics : exists s, read_grid_state s = Panic.
Proof. exists [43%N; 49%N]. vm_compute. reflexivity. Qed.
