(** The strategy solver: one application of a strategy. *)
From Coq Require Import List Arith NArith ZArith ZifyNat ZifyN ZifyBool Lia Bool.
From Verif Require Import Spec TableSpec GeomSpec Solver Bits Geom Gen BitLemmas GridProofs BitsProofs GeomProofs GenProofs Strat StratFind StratSolve StratUse StratInv StratPos StratFound StratWalk StratWing StratMutant StratCall StratSpec StratHist StratStuck StratPush.
Import ListNotations.
Ltac Zify.zify_post_hook ::= Z.to_euclidean_division_equations.

Definition progress (st st' : strat) : Prop := length (s_entries st) < length (s_entries st') \/ length (s_elims st) < length (s_elims st').

(** After [Ok(())]; [Q] is what is known if there was no progress *)
Definition step (S0 : strategy) (Q : Prop) (st st' : strat) : Prop :=
  hist S0 st st' /\ (exists D done, Inv D done st' /\ s_cnd st' = length (s_entries st')) /\ (progress st st' \/ Q).
(** After [Err(Unsolvable)] *)
Definition bad (S0 : strategy) (st st' : strat) : Prop :=
  hist S0 st st' /\ s_elims st' = s_elims st /\ (small st -> forall s, solved s -> ~ Snd s st).

Lemma hist_len S0 a b : hist S0 a b -> length (s_entries a) <= length (s_entries b) /\ length (s_elims a) <= length (s_elims b).
Proof. intros H. destruct (h_new _ _ _ H) as [en [el [ds [E1 [E2 _]]]]]. rewrite E1, E2, !app_length. lia. Qed.

Lemma bad_trans S0 a b c : hist S0 a b -> s_elims b = s_elims a -> bad S0 b c -> bad S0 a c.
Proof.
  intros H E [H2 [E2 N]]. split; [eapply hist_trans; eassumption | ]. split; [congruence | ]. intros Sm s So Ss.
  apply (N ltac:(unfold small in *; rewrite E; exact Sm) s So). apply (h_snd _ _ _ H s So Ss).
Qed.

Lemma step_trans S0 Q a b c : hist S0 a b -> step S0 Q b c -> step S0 Q a c.
Proof.
  intros H [H2 [I [Pr | Qc]]]; (split; [eapply hist_trans; eassumption | ]); (split; [exact I | ]); [left | right; exact Qc].
  pose proof (hist_len _ _ _ H). unfold progress in *. lia.
Qed.

Lemma elim_step S0 (Q : Prop) D done st0 st : eliminates S0 -> UI D done st0 -> found S0 st0 st -> (grown st0 st \/ Q) -> step S0 Q st0 st.
Proof.
  intros El V F G0. split; [apply (found_hist D); [exact El | apply (v_up _ _ _ V) | exact F] | ]. split; [exists D, done; split; [apply (found_inv D done S0 st0); assumption | ] | ].
  { destruct F as [el [ds [-> _]]]. cbn [s_cnd s_entries set_elims set_deds]. apply (u_all _ _ (v_up _ _ _ V)). }
  destruct G0 as [G0 | G0]; [left; right; exact G0 | right; exact G0].
Qed.

Definition dry (S0 : strategy) (st : strat) : Prop := ~ fires (alive (s_entries st) (s_elims st)) S0.

(** A strategy that updates, then searches for eliminations *)
Lemma elim_rule S0 find st : eliminates S0 -> (exists D done, Inv D done st) ->
  (forall D done st0, UI D done st0 -> hp (find st0) (fun st => found S0 st0 st /\ (grown st0 st \/ (st = st0 /\ dry S0 st0))) (fun _ => False)) ->
  hp (bindE (update_cell_house_solved st) find) (fun st' => step S0 (dry S0 st') st st') (bad S0 st).
Proof.
  intros El [D [done I]] Find. eapply hp_bindE; [apply (update_inv false S0 D done st I ltac:(discriminate)) | intros st' B; exact B | ].
  intros st1 _ [H1 [_ [D' V]]]. eapply hp_impl; [apply (Find D' done st1 V) | | intros _ []].
  intros st2 [F Q]. apply (step_trans _ _ _ st1 _ H1). apply (elim_step S0 _ D' done); try assumption. destruct Q as [Q | [-> Q]]; auto.
Qed.

Lemma naked_sub_rule n stop st : 2 <= n <= 4 -> (exists D done, Inv D done st) ->
  hp (s_find_naked_sub n stop st) (fun st' => step (naked_strat n) (dry (naked_strat n) st') st st') (bad (naked_strat n) st).
Proof.
  intros Hn I. unfold s_find_naked_sub. apply elim_rule; [ | exact I | ].
  - split; unfold naked_strat; destruct n as [ | [ | [ | [ | ? ]]]]; discriminate.
  - intros D done st0 V. assert (U := v_up _ _ _ V).
    eapply hp_impl; [apply (find_naked_sub_rule (naked_strat n) st0 stop n (on_naked_sub (s_cell st0)) (u_w _ _ U) ltac:(lia)) | | auto].
    + intros h F T Hh Pt. apply (naked_callback D st0 U n h F T Hh Hn Pt).
    + intros st1 [F [Q | [-> Q]]]; (split; [exact F | ]); [left; exact Q | right; split; [reflexivity | ]].
      assert (X := naked_stuck D st0 U n ltac:(lia) Q). unfold dry. assert (E : n = 2 \/ n = 3 \/ n = 4) by lia. destruct E as [-> | [-> | ->]]; exact X.
Qed.

Lemma hidden_sub_rule n stop st : 2 <= n <= 4 -> (exists D done, Inv D done st) ->
  hp (s_find_hidden_sub n stop st) (fun st' => step (hidden_strat n) (dry (hidden_strat n) st') st st') (bad (hidden_strat n) st).
Proof.
  intros Hn [D [done I]]. unfold s_find_hidden_sub. eapply hp_bindE; [apply (update_inv false (hidden_strat n) D done st I ltac:(discriminate)) | intros st' B; exact B | ].
  intros st1 _ [H1 [_ [D' V1]]]. destruct (pos_up (hidden_strat n) D' done st1 V1) as [st0 [E [H2 [V [Po _]]]]]. rewrite E. cbn [bind]. assert (U := v_up _ _ _ V).
  eapply hp_impl; [apply (find_hidden_sub_rule (hidden_strat n) st0 stop n (on_hidden_sub (s_pos st0)) (u_w _ _ U) Po ltac:(lia)) | | intros _ []].
  - intros h F T Hh Pt. apply (hidden_callback D' st0 U n h F T Po Hh Hn Pt).
  - intros st2 [F Q]. apply (step_trans _ _ _ st1 _ H1), (step_trans _ _ _ st0 _ H2). apply (elim_step _ _ D' (s_elims st0)); try assumption.
    + split; unfold hidden_strat; destruct n as [ | [ | [ | [ | ? ]]]]; discriminate.
    + destruct Q as [Q | [-> Q]]; [left; exact Q | right].
      assert (X := hidden_stuck D' st0 U n ltac:(lia) Q). unfold dry. assert (En : n = 2 \/ n = 3 \/ n = 4) by lia. destruct En as [-> | [-> | ->]]; exact X.
Qed.

(** The strategies on lines bring the positions up to date first *)
Lemma pos_first S0 st : (exists D done, Inv D done st) -> exists st1, update_pos st = Ok st1 /\
  hp (update_cell_house_solved st1) (fun st0 => hist S0 st st0 /\ exists D done, UI D done st0 /\ pos_ok st0) (bad S0 st).
Proof.
  intros [D [done I]]. destruct (pos_inv S0 D done st I) as [st1 [E [H1 [I1 [Pn [_ El]]]]]]. exists st1. split; [exact E | ].
  eapply hp_impl; [apply (update_inv false S0 D _ st1 I1 ltac:(discriminate)) | | ].
  - intros st0 [H2 [Gr [D' V]]]. split; [eapply hist_trans; eassumption | ]. exists D', (s_elims st1). split; [exact V | ].
    apply (pos_ok_of D' st0 (v_up _ _ _ V)); [rewrite (g_elims _ _ _ Gr); apply (v_pi _ _ _ V) | ]. rewrite (g_pnd _ _ _ Gr), Pn. destruct (grow_false _ _ Gr) as [-> _]. reflexivity.
  - intros st0 B. apply (bad_trans _ _ st1 _ H1 El). exact B.
Qed.

Lemma fish_rule n stop st : 2 <= n <= 4 -> (exists D done, Inv D done st) ->
  hp (s_find_fish n stop st) (fun st' => step (fish_strat n) (dry (fish_strat n) st') st st') (bad (fish_strat n) st).
Proof.
  intros Hn I. unfold s_find_fish. destruct (pos_first (fish_strat n) st I) as [st1 [E H]]. rewrite E. cbn [bind]. eapply hp_bindE; [exact H | auto | ].
  intros st0 _ [H0 [D [done [V Po]]]]. assert (U := v_up _ _ _ V).
  eapply hp_impl; [apply (find_fish_rule (fish_strat n) st0 stop n (on_fish (s_cell st0)) Po ltac:(lia)) | | intros _ []].
  - intros all d F T Da Hd' Pt. apply (fish_callback D st0 U n all d F T Hn Da Hd' Pt).
  - intros st2 [F Q]. apply (step_trans _ _ _ st0 _ H0). apply (elim_step _ _ D done); try assumption.
    + split; unfold fish_strat; destruct n as [ | [ | [ | [ | ? ]]]]; discriminate.
    + destruct Q as [Q | [-> Q]]; [left; exact Q | right].
      assert (X := fish_stuck D st0 U n ltac:(lia) Q). unfold dry. assert (En : n = 2 \/ n = 3 \/ n = 4) by lia. destruct En as [-> | [-> | ->]]; exact X.
Qed.

Lemma mutant_rule S0 n stop st : n <> 0 -> eliminates S0 -> (forall A, ~ fires A S0) -> (exists D done, Inv D done st) ->
  hp (s_find_mutant n stop st) (fun st' => step S0 (dry S0 st') st st' /\ s_entries st' = s_entries st /\ s_elims st' = s_elims st) (bad S0 st).
Proof.
  intros Hn El Nf I. unfold s_find_mutant. assert (I0 := I). destruct I0 as [D0 [done0 I0]]. destruct (pos_inv S0 D0 done0 st I0) as [st1 [E [H1 [I1 [Pn [Ee1 El1]]]]]]. rewrite E. cbn [bind].
  eapply hp_bindE; [apply (update_inv false S0 D0 _ st1 I1 ltac:(discriminate)) | intros st0 B; apply (bad_trans _ _ st1 _ H1 El1); exact B | ].
  intros st0 _ [H2 [Gr [D' V]]]. rewrite find_mutant_none; [ | | exact Hn].
  - cbn [hp]. split; [ | split; [destruct (grow_false _ _ Gr) as [-> _]; exact Ee1 | rewrite (g_elims _ _ _ Gr); exact El1]]. apply (step_trans _ _ _ st1 _ H1), (step_trans _ _ _ st0 _ H2).
    apply (elim_step S0 _ D' _ st0 st0 El V (found_refl _ _)). right. apply Nf.
  - apply (p_w _ _ (v_pi _ _ _ V)).
Qed.

Lemma locked_rule stop st : (exists D done, Inv D done st) -> hp (s_find_locked stop st) (fun st' => step LockedCandidates (dry LockedCandidates st') st st') (bad LockedCandidates st).
Proof.
  intros I. unfold s_find_locked. apply elim_rule; [split; discriminate | exact I | ]. intros D done st0 V. assert (U := v_up _ _ _ V).
  eapply hp_impl; [apply (find_locked_rule LockedCandidates st0 stop (on_locked (s_cell st0)) (u_w _ _ U)) | | auto].
  - intros m x nbs ptg Pt Nb. apply (locked_callback D st0 U m x nbs ptg Pt Nb).
  - intros st1 [F [Q | [-> Q]]]; (split; [exact F | ]); [left; exact Q | right; split; [reflexivity | ]]. apply (locked_stuck D st0 U Q).
Qed.

Lemma wing_rule (xyz : bool) stop st : let S0 := if xyz then XyzWing else XyWing in (exists D done, Inv D done st) ->
  hp (if xyz then s_find_xyz stop st else s_find_xy stop st) (fun st' => step S0 (dry S0 st') st st') (bad S0 st).
Proof.
  intros S0 I. 
  assert (X : hp (st <! update_cell_house_solved st; find_wing (if xyz then 3 else 2) (if xyz then 2 else 1) (negb xyz) (s_cell st) stop (on_wing xyz (s_cell st)) st) (fun st' => step S0 (dry S0 st') st st') (bad S0 st)).
  { apply elim_rule; [unfold S0; destruct xyz; split; discriminate | exact I | ]. intros D done st0 V. assert (U := v_up _ _ _ V).
    eapply hp_impl; [apply (find_wing_rule S0 st0 stop (if xyz then 3 else 2) (if xyz then 2 else 1) (negb xyz) xyz (on_wing xyz (s_cell st0)) (u_w _ _ U)) | | auto].
    - intros h c1 c2 Hh H1 H2 Ge Pt. apply (wing_callback D st0 U xyz (if xyz then 3 else 2) (if xyz then 2 else 1) h c1 c2); try assumption; intros ->; auto.
    - intros st1 [F [Q | [-> Q]]]; (split; [exact F | ]); [left; exact Q | right; split; [reflexivity | ]].
      assert (X := wing_stuck D st0 U xyz _ _ eq_refl eq_refl Q). unfold dry, S0. destruct xyz; exact X. }
  destruct xyz; exact X.
Qed.

(** The strategies for singles update, search and update again *)
Lemma single_rule S0 find st : (exists D done, Inv D done st) ->
  (forall D done st0, UI D done st0 -> hp (find st0)
     (fun st => pushes S0 st0 st /\ (longer st0 st \/ dry S0 st0)) (fun st => pushes S0 st0 st /\ forall s, solved s -> ~ Snd s st0)) ->
  hp (st <! update_cell_house_solved st; st <! find st; update_cell_house_solved st) (fun st' => step S0 (dry S0 st') st st') (bad S0 st).
Proof.
  intros [D [done I]] Find. eapply hp_bindE; [apply (update_inv false S0 D done st I ltac:(discriminate)) | intros st' B; exact B | ].
  intros st1 _ [H1 [Gr1 [D' V]]]. eapply hp_bindE; [apply (Find D' done st1 V) | | ].
  - intros st2 [Pu N]. destruct (pushes_inv D' done S0 st1 st2 V Pu) as [H2 _]. apply (bad_trans _ _ st1 _ H1 (g_elims _ _ _ Gr1)).
    split; [exact H2 | ]. split; [ | intros _; exact N]. destruct Pu as [en [ds [g [n [E _]]]]]. rewrite E. reflexivity.
  - intros st2 _ [Pu Lo]. destruct (pushes_inv D' done S0 st1 st2 V Pu) as [H2 I2]. assert (El2 : s_elims st2 = s_elims st1) by (destruct Pu as [en [ds [g [n [E _]]]]]; rewrite E; reflexivity).
    eapply hp_impl; [apply (update_inv false S0 D' done st2 I2 ltac:(discriminate)) | | ].
    + intros st3 [H3 [Gr3 [D3 V3]]]. apply (step_trans _ _ _ st1 _ H1). split; [eapply hist_trans; eassumption | ]. split; [exists D3, done; split; [apply UI_inv; exact V3 | apply (u_all _ _ (v_up _ _ _ V3))] | ].
      destruct (grow_false _ _ Gr3) as [Ee3 _].
      assert (Q : length (s_entries st1) < length (s_entries st2) \/ s_entries st2 = s_entries st1).
      { destruct Pu as [en [ds [g [n [E _]]]]]. rewrite E. cbn [s_entries set_deds set_entries]. rewrite app_length. destruct en; [right; apply app_nil_r | left; cbn [length]; lia]. }
      destruct Q as [Q | Q]; [left; left; rewrite Ee3; exact Q | ]. destruct Lo as [Lo | Lo]; [left; left; rewrite Ee3; exact Lo | right].
      unfold dry in *. rewrite Ee3, (g_elims _ _ _ Gr3), Q, El2. exact Lo.
    + intros st3 B. apply (bad_trans _ _ st1 _ H1 (g_elims _ _ _ Gr1)), (bad_trans _ _ st2 _ H2 El2). exact B.
Qed.

Lemma deduce_spec S0 stop first st : S0 <> AvoidableRectangles -> (exists D done, Inv D done st) ->
  hp (deduce S0 stop first st)
    (fun st' => step S0 ((S0 = NakedSingles /\ stop = false /\ first = true) \/ dry S0 st') st st') (bad S0 st).
Proof.
  intros Na I.
  assert (X : forall Q Q' : strat -> Prop, (forall s, Q s -> Q' s) -> forall s, step S0 (Q s) st s -> step S0 (Q' s) st s).
  { intros Q Q' H s [A [B [C0 | C0]]]; (split; [exact A | ]); (split; [exact B | ]); auto. }
  assert (Y : forall r, hp r (fun st' => step S0 (dry S0 st') st st') (bad S0 st) -> hp r (fun st' => step S0 ((S0 = NakedSingles /\ stop = false /\ first = true) \/ dry S0 st') st st') (bad S0 st)).
  { intros r H. eapply hp_impl; [exact H | | auto]. intros s. apply (X (dry S0) (fun s => (S0 = NakedSingles /\ stop = false /\ first = true) \/ dry S0 s)). auto. }
  clear X. destruct S0; cbn [deduce].
  - destruct (negb stop && first) eqn:E.
    + apply andb_true_iff in E. destruct E as [E1 ->]. destruct stop; [discriminate | ]. destruct I as [D [done I]].
      eapply hp_impl; [apply (update_inv true NakedSingles D done st I (fun _ => eq_refl)) | | intros st' B; exact B]. intros st' [H [_ [D' V]]]. split; [exact H | ].
      split; [exists D', done; split; [apply UI_inv; exact V | apply (u_all _ _ (v_up _ _ _ V))] | right; left; auto].
    + apply Y. unfold s_find_naked. apply single_rule; [exact I | ]. intros D done st0 V.
      eapply hp_impl; [apply (find_naked_spec D st0 stop (v_up _ _ _ V) (v_last _ _ _ V)) | auto | intros _ []].
  - apply Y. unfold s_find_hidden. apply single_rule; [exact I | ]. intros D done st0 V. apply (find_hidden_spec D st0 stop (v_up _ _ _ V) (v_last _ _ _ V)).
  - apply Y, locked_rule, I.
  - apply Y, (naked_sub_rule 2 stop st ltac:(lia) I).
  - apply Y, (naked_sub_rule 3 stop st ltac:(lia) I).
  - apply Y, (naked_sub_rule 4 stop st ltac:(lia) I).
  - apply Y, (hidden_sub_rule 2 stop st ltac:(lia) I).
  - apply Y, (hidden_sub_rule 3 stop st ltac:(lia) I).
  - apply Y, (hidden_sub_rule 4 stop st ltac:(lia) I).
  - apply Y, (fish_rule 2 stop st ltac:(lia) I).
  - apply Y, (fish_rule 3 stop st ltac:(lia) I).
  - apply Y, (fish_rule 4 stop st ltac:(lia) I).
  - apply Y, (wing_rule false stop st I).
  - apply Y, (wing_rule true stop st I).
  - apply Y. eapply hp_impl; [apply (mutant_rule MutantSwordfish 3 stop st ltac:(lia)) | intros s [Q _]; exact Q | auto]; [split; discriminate | intros A [] | exact I].
  - apply Y. eapply hp_impl; [apply (mutant_rule MutantJellyfish 4 stop st ltac:(lia)) | intros s [Q _]; exact Q | auto]; [split; discriminate | intros A [] | exact I].
  - destruct Na. reflexivity.
Qed.
