(** The strategy solver: the solving loop. *)
From Coq Require Import List Arith NArith ZArith ZifyNat ZifyN ZifyBool Lia Bool.
From Verif Require Import Spec TableSpec GeomSpec Solver Bits Geom Gen BitLemmas GridProofs BitsProofs GeomProofs GenProofs Strat StratFind StratSolve StratUse StratWhy StratWhyLemmas StratInv StratPos StratFound StratWalk StratWing StratMutant StratCall StratSpec StratHist StratStuck StratPush StratDeduce.
Import ListNotations.
Ltac Zify.zify_post_hook ::= Z.to_euclidean_division_equations.

(** What several steps with strategies of the list [l] add to the history *)
Record trace (l : list strategy) (st st' : strat) : Prop := {
  t_w : W st';
  t_core : core st';
  t_new : exists en el ds, s_entries st' = s_entries st ++ en /\ s_elims st' = s_elims st ++ el /\ s_deds st' = s_deds st ++ ds /\
    tiles (length (s_elims st)) ds (length (s_elims st')) /\
    (forall y, In y ds -> exists S, In S l /\ reads S (s_elims st') y) /\
    (forall x, In x el -> ~ In x (s_elims st) /\ forall d, ~ In (fst x, d) (s_entries st)) /\
    (forall x, In x en <-> exists y, In y ds /\ single_of y x) /\ told l st st' ds;
  t_len : length (s_entries st') + 2 * zeros (s_grid st') <= length (s_entries st) + 2 * zeros (s_grid st);
  t_snd : forall s, solved s -> Snd s st -> Snd s st'
}.

Lemma trace_refl l st : W st -> core st -> trace l st st.
Proof.
  intros w o. constructor; [exact w | exact o | | lia | auto]. exists [], [], []. rewrite !app_nil_r. repeat (split; [reflexivity | ]).
  split; [intros y [] | ]. split; [intros x [] | ]. split; [ | apply told_refl; reflexivity]. intros x. split; [intros [] | intros [y [[] _]]].
Qed.

Lemma hist_trace S0 l st st' : In S0 l -> hist S0 st st' -> trace l st st'.
Proof.
  intros Hi H. constructor; [apply (h_w _ _ _ H) | apply (h_core _ _ _ H) | | apply (h_len _ _ _ H) | apply (h_snd _ _ _ H)].
  destruct (h_new _ _ _ H) as [en [el [ds [E1 [E2 [E3 [T [R [_ [M [Y Wy]]]]]]]]]]]. exists en, el, ds. repeat (split; [assumption | ]). split; [ | split; [exact M | split; [exact Y | apply (told_incl [S0]); [intros x [<- | []]; exact Hi | exact Wy]]]].
  intros y Hy. exists S0. split; [exact Hi | apply R, Hy].
Qed.

Lemma trace_incl l l' a b : incl l l' -> trace l a b -> trace l' a b.
Proof.
  intros In_ [w o [en [el [ds [E1 [E2 [E3 [T [R [M [Y Wy]]]]]]]]]] L Sn]. constructor; try assumption. exists en, el, ds. repeat (split; [assumption | ]). split; [ | split; [exact M | split; [exact Y | apply (told_incl l); assumption]]].
  intros y Hy. destruct (R y Hy) as [S0 [Hi Q]]. exists S0. split; [apply In_, Hi | exact Q].
Qed.

Lemma trace_trans l a b c : trace l a b -> trace l b c -> trace l a c.
Proof.
  intros [w1 o1 [en1 [el1 [ds1 [E1 [F1 [G1 [T1 [R1 [M1 [Y1 W1]]]]]]]]]] L1 S1] [w2 o2 [en2 [el2 [ds2 [E2 [F2 [G2 [T2 [R2 [M2 [Y2 W2]]]]]]]]]] L2 S2].
  constructor; [exact w2 | exact o2 | | lia | auto].
  exists (en1 ++ en2), (el1 ++ el2), (ds1 ++ ds2). split; [rewrite E2, E1, app_assoc; reflexivity | ]. split; [rewrite F2, F1, app_assoc; reflexivity | ].
  split; [rewrite G2, G1, app_assoc; reflexivity | ]. split; [eapply tiles_app; eassumption | ].
  split; [intros y Hy; apply in_app_iff in Hy; destruct Hy as [Hy | Hy]; [destruct (R1 y Hy) as [S0 [Hi Q]]; exists S0; split; [exact Hi | rewrite F2; apply reads_app, Q] | apply R2, Hy] | ].
  split; [intros x Hi; apply in_app_iff in Hi; destruct Hi as [Hi | Hi]; [apply (M1 x Hi) | destruct (M2 x Hi) as [A B]; split; [intros Hj; apply A; rewrite F1 | intros d Hj; apply (B d); rewrite E1]; apply in_app_iff; auto] | ].
  split; [ | apply (told_trans l a b c ds1 ds2 el2 F2 W1 W2)].
  intros x. rewrite in_app_iff, Y1, Y2. split.
  - intros [[y [A B]] | [y [A B]]]; exists y; rewrite in_app_iff; auto.
  - intros [y [A B]]. apply in_app_iff in A. destruct A as [A | A]; [left | right]; exists y; auto.
Qed.

Lemma trace_grows l a b : trace l a b -> length (s_entries a) <= length (s_entries b) /\ length (s_elims a) <= length (s_elims b).
Proof. intros H. destruct (t_new _ _ _ H) as [en [el [ds [E1 [E2 _]]]]]. rewrite E1, E2, !app_length. lia. Qed.
Lemma trace_same_e l a b : trace l a b -> length (s_entries b) <= length (s_entries a) -> s_entries b = s_entries a.
Proof. intros H. destruct (t_new _ _ _ H) as [en [el [ds [E1 _]]]]. rewrite E1, app_length. intros L. destruct en; [apply app_nil_r | cbn [length] in L; lia]. Qed.
Lemma trace_same_el l a b : trace l a b -> length (s_elims b) <= length (s_elims a) -> s_elims b = s_elims a.
Proof. intros H. destruct (t_new _ _ _ H) as [en [el [ds [_ [E1 _]]]]]. rewrite E1, app_length. intros L. destruct el; [apply app_nil_r | cbn [length] in L; lia]. Qed.
Lemma trace_small l a b : trace l a b -> small b -> small a.
Proof. intros H. pose proof (trace_grows _ _ _ H). unfold small. lia. Qed.

(** * The measure *)

Definition cand_dec : forall x y : cand, {x = y} + {x <> y}.
Proof. intros [a b] [c d]. destruct (Nat.eq_dec a c) as [-> | N]; [destruct (Nat.eq_dec b d) as [-> | N]; [left; reflexivity | right; congruence] | right; congruence]. Defined.
Definition left_over (l : list cand) : list cand := filter (fun x => if in_dec cand_dec x l then false else true) (list_prod (seq 0 81) (seq 1 9)).
Definition mu (st : strat) : nat := zeros (s_grid st) + length (left_over (s_elims st)).

Lemma filter_le {A} (f g : A -> bool) l : (forall x, f x = true -> g x = true) -> length (filter f l) <= length (filter g l).
Proof. intros H. induction l as [ | x l IH]; cbn [filter]; [lia | ]. destruct (f x) eqn:E; [rewrite (H x E); cbn [length]; lia | ]. destruct (g x); cbn [length]; lia. Qed.
Lemma filter_lt {A} (f g : A -> bool) l x : (forall x, f x = true -> g x = true) -> In x l -> g x = true -> f x = false -> length (filter f l) < length (filter g l).
Proof.
  intros H. induction l as [ | y l IH]; [intros [] | ]. intros [-> | Hi] Gx Fx; cbn [filter].
  - rewrite Gx, Fx. cbn [length]. pose proof (filter_le f g l H). lia.
  - specialize (IH Hi Gx Fx). destruct (f y) eqn:E; [rewrite (H y E); cbn [length]; lia | ]. destruct (g y); cbn [length]; lia.
Qed.

Lemma mu_max st : length (s_grid st) = 81 -> mu st <= 810.
Proof.
  intros L. unfold mu. pose proof (zeros_le (s_grid st)). assert (X : length (left_over (s_elims st)) <= 729); [ | lia]. unfold left_over.
  assert (Y := filter_le (fun x : cand => if in_dec cand_dec x (s_elims st) then false else true) (fun _ => true) (list_prod (seq 0 81) (seq 1 9)) (fun _ _ => eq_refl)).
  assert (Z : length (filter (fun _ : cand => true) (list_prod (seq 0 81) (seq 1 9))) = 729) by (vm_compute; reflexivity). lia.
Qed.

Lemma mu_step l st st' : trace l st st' -> (length (s_entries st) < length (s_entries st') \/ length (s_elims st) < length (s_elims st')) -> mu st' < mu st.
Proof.
  intros T Pr. pose proof (trace_grows _ _ _ T) as Gr. pose proof (t_len _ _ _ T). assert (wf := t_w _ _ _ T). destruct (t_new _ _ _ T) as [en [el [ds [E1 [E2 [_ [_ [_ [M _]]]]]]]]].
  assert (Mono : forall x : cand, (if in_dec cand_dec x (s_elims st') then false else true) = true -> (if in_dec cand_dec x (s_elims st) then false else true) = true).
  { intros x. destruct (in_dec cand_dec x (s_elims st')) as [ | N]; [discriminate | ]. intros _. destruct (in_dec cand_dec x (s_elims st)) as [Y | ]; [ | reflexivity]. destruct N. rewrite E2. apply in_app_iff. auto. }
  assert (Le : length (left_over (s_elims st')) <= length (left_over (s_elims st))) by (apply filter_le; exact Mono). unfold mu. destruct Pr as [Pr | Pr]; [lia | ].
  assert (Lt : length (left_over (s_elims st')) < length (left_over (s_elims st))); [ | lia].
  destruct el as [ | [c d] el]; [rewrite E2, app_nil_r in Pr; lia | ]. assert (Hi : In (c, d) (s_elims st')) by (rewrite E2; apply in_app_iff; right; left; reflexivity).
  destruct (w_el _ wf c d Hi) as [Lc Ld]. apply (filter_lt _ _ _ (c, d) Mono).
  - apply in_prod; apply in_seq; lia.
  - destruct (in_dec cand_dec (c, d) (s_elims st)) as [Y | ]; [ | reflexivity]. destruct (proj1 (M (c, d) (or_introl eq_refl)) Y).
  - destruct (in_dec cand_dec (c, d) (s_elims st')); [reflexivity | contradiction].
Qed.

(** * The loop *)

Definition ready_for (st : strat) : Prop := exists D done, Inv D done st.
(** All entries have been processed. *)
Definition processed (st : strat) : Prop := exists D done, Inv D done st /\ s_cnd st = length (s_entries st).
Definition no_solution (st st' : strat) : Prop := small st' -> forall s, solved s -> ~ Snd s st.

Lemma inv_core st : ready_for st -> W st /\ core st.
Proof. intros [D [done I]]. split; [apply (i_w _ _ _ I) | apply (C_core D), (i_c _ _ _ I)]. Qed.

Lemma try_rest_spec nd ne : forall rest st, implemented rest -> ready_for st -> nd <= length (s_entries st) -> ne <= length (s_elims st) ->
  exists st' again, try_rest rest nd ne st = Ok (st', again) /\ trace rest st st' /\
    (if again then ready_for st' /\ (nd < length (s_entries st') \/ ne < length (s_elims st'))
     else no_solution st st' \/ (rest = [] /\ st' = st) \/ (length (s_entries st') = nd /\ length (s_elims st') = ne /\ processed st' /\ forall S, In S rest -> dry S st')).
Proof.
  induction rest as [ | S0 t IH]; intros st Im I Ln Le; cbn [try_rest].
  - exists st, false. split; [reflexivity | ]. split; [apply trace_refl; apply inv_core, I | ]. right. left. auto.
  - unfold deduce_one. assert (X := deduce_spec S0 true false st (Im S0 (or_introl eq_refl)) I). destruct (deduce S0 true false st) as [[st1 [ | ]] | | | ]; cbn [hp] in X; try contradiction; cbn [bind negb].
    + destruct X as [H1 [I1' Q1]]. assert (I1 : ready_for st1) by (destruct I1' as [D [done [I1 _]]]; exists D, done; exact I1). assert (T1 : trace (S0 :: t) st st1) by (apply (hist_trace S0); [left; reflexivity | exact H1]). pose proof (trace_grows _ _ _ T1) as Gr.
      destruct ((nd <? length (s_entries st1)) || (ne <? length (s_elims st1))) eqn:Pr.
      * exists st1, true. split; [reflexivity | ]. split; [exact T1 | ]. split; [exact I1 | ]. apply orb_true_iff in Pr. rewrite !Nat.ltb_lt in Pr. exact Pr.
      * apply orb_false_iff in Pr. rewrite !Nat.ltb_ge in Pr. destruct Pr as [P1 P2]. assert (D0 : dry S0 st1).
        { destruct Q1 as [Q1 | [[_ [Q1 _]] | Q1]]; [unfold progress in Q1; lia | discriminate | exact Q1]. }
        destruct (IH st1 (fun S Hi => Im S (or_intror Hi)) I1 ltac:(lia) ltac:(lia)) as [st2 [again [E [T2 Q2]]]]. exists st2, again. split; [exact E | ].
        assert (T2' : trace (S0 :: t) st1 st2) by (apply (trace_incl t); [intros z Hz; right; exact Hz | exact T2]).
        split; [apply (trace_trans _ _ st1); assumption | ]. destruct again; [exact Q2 | ]. destruct Q2 as [Q2 | [[-> ->] | [Q2 [Q3 [Q5 Q4]]]]].
        -- left. intros Sm s So Ss. apply (Q2 Sm s So), (t_snd _ _ _ T1 s So Ss).
        -- right. right. split; [lia | ]. split; [lia | ]. split; [exact I1' | ]. intros S [<- | []]. exact D0.
        -- right. right. split; [exact Q2 | ]. split; [exact Q3 | ]. split; [exact Q5 | ]. intros S [<- | Hi]; [ | apply Q4, Hi]. unfold dry. rewrite (trace_same_e _ _ _ T2'), (trace_same_el _ _ _ T2') by lia. exact D0.
    + destruct X as [H1 [E1 N1]]. exists st1, false. split; [reflexivity | ]. assert (T1 : trace (S0 :: t) st st1) by (apply (hist_trace S0); [left; reflexivity | exact H1]). split; [exact T1 | ].
      left. intros Sm. apply N1. apply (trace_small _ _ _ T1 Sm).
Qed.

Lemma hidden_no_elims a b : hist HiddenSingles a b -> length (s_elims b) = length (s_elims a).
Proof.
  intros H. destruct (h_new _ _ _ H) as [en [el [ds [_ [_ [_ [T [R _]]]]]]]].
  assert (X : forall y, In y ds -> range_of y = None).
  { intros y Hy. destruct (R y Hy) as [z [E [Q _]]]. destruct y as [c | c h | d m p r | h p d r | d ln p r | d bs cv r | h hd p r | ln r]; cbn [with_slices] in E; try reflexivity; try discriminate; exfalso;
      (destruct (slice (s_elims b) r) as [cs | | | ]; cbn [bind] in E; try discriminate); injection E as <-; cbn [ded_strategy] in Q; try discriminate.
    - destruct (aget cs 0) as [c | | | ]; cbn [bind] in Q; try discriminate. destruct (house_categorize h) as [t | | | ]; cbn [bind] in Q; try discriminate.
      destruct (as_set EPosHouse _) as [x | | | ]; cbn [bind] in Q; try discriminate. destruct (set_overlaps EPosHouse x p), (set_len p) as [ | [ | [ | [ | [ | ?]]]]]; discriminate.
    - destruct (set_len p) as [ | [ | [ | [ | [ | ?]]]]]; discriminate.
    - destruct (is_mutant bs || is_mutant cv), (set_len bs) as [ | [ | [ | [ | [ | ?]]]]]; discriminate.
    - destruct (set_len hd) as [ | [ | [ | [ | ?]]]]; discriminate. }
  assert (T' := tiles_none (length (s_elims a)) ds X). assert (F : forall ds a b c, tiles a ds b -> tiles a ds c -> b = c).
  { clear. induction ds as [ | y ds IH]; intros a b c; cbn [tiles]; [congruence | ]. destruct (range_of y) as [r | ]; [ | apply IH]. intros [_ [_ Q]] [_ [_ Q']]. apply (IH _ _ _ Q Q'). }
  symmetry. apply (F ds _ _ _ T' T).
Qed.

(** Nothing is left to be found.  The first strategy alone is not repeated after an elimination. *)
Definition complete (first : strategy) (rest : list strategy) (st : strat) : Prop :=
  processed st /\ (forall S, In S rest -> dry S st) /\ (first <> NakedSingles -> rest <> [] \/ first = HiddenSingles -> dry first st).

Lemma try_loop_spec first rest : implemented (first :: rest) -> forall fuel st, ready_for st -> mu st < fuel ->
  exists st', try_loop fuel first rest st = Ok st' /\ trace (first :: rest) st st' /\
    (s_n st' = 81 \/ no_solution st st' \/ complete first rest st').
Proof.
  intros Im. induction fuel as [ | f IH]; intros st I L; [lia | ]. cbn [try_loop]. unfold strat_is_solved. destruct (Nat.eqb_spec (s_n st) 81) as [E81 | _].
  { exists st. split; [reflexivity | ]. split; [apply trace_refl; apply inv_core, I | left; exact E81]. }
  unfold deduce_all. assert (X := deduce_spec first false true st (Im first (or_introl eq_refl)) I).
  destruct (deduce first false true st) as [[st1 [ | ]] | | | ]; cbn [hp] in X; try contradiction; cbn [bind negb].
  - destruct X as [H1 [I1' Q1]]. assert (I1 : ready_for st1) by (destruct I1' as [D [done [I1 _]]]; exists D, done; exact I1). assert (T1 : trace (first :: rest) st st1) by (apply (hist_trace first); [left; reflexivity | exact H1]). pose proof (trace_grows _ _ _ T1) as Gr.
    assert (Next : forall st2, trace (first :: rest) st st2 -> ready_for st2 -> (length (s_entries st) < length (s_entries st2) \/ length (s_elims st) < length (s_elims st2)) ->
      exists st', try_loop f first rest st2 = Ok st' /\ trace (first :: rest) st st' /\ (s_n st' = 81 \/ no_solution st st' \/ complete first rest st')).
    { intros st2 T2 I2 Pr. pose proof (mu_step _ _ _ T2 Pr). destruct (IH st2 I2 ltac:(lia)) as [st' [E [T3 Q3]]]. exists st'. split; [exact E | ]. split; [apply (trace_trans _ _ st2); assumption | ].
      destruct Q3 as [Q3 | [Q3 | Q3]]; auto. right. left. intros Sm s So Ss. apply (Q3 Sm s So), (t_snd _ _ _ T2 s So Ss). }
    destruct (Nat.ltb_spec (length (s_entries st)) (length (s_entries st1))) as [Lt | Ge]; [apply (Next st1 T1 I1); left; exact Lt | ].
    destruct (try_rest_spec (length (s_entries st)) (length (s_elims st)) rest st1 (fun S Hi => Im S (or_intror Hi)) I1 ltac:(lia) ltac:(lia)) as [st2 [again [E [T2 Q2]]]]. rewrite E. cbn [bind].
    assert (T2' : trace (first :: rest) st1 st2) by (apply (trace_incl rest); [intros z Hz; right; exact Hz | exact T2]). assert (T3 := trace_trans _ _ _ _ T1 T2').
    destruct again; [destruct Q2 as [I2 Pr]; apply (Next st2 T3 I2 Pr) | ]. exists st2. split; [reflexivity | ]. split; [exact T3 | ]. destruct Q2 as [Q2 | [[-> ->] | [Q2 [Q3 [Q5 Q4]]]]].
    + right. left. intros Sm s So Ss. apply (Q2 Sm s So), (t_snd _ _ _ T1 s So Ss).
    + right. right. split; [exact I1' | ]. split; [intros S [] | ]. intros Nn [[] | ->]; [reflexivity | ]. pose proof (hidden_no_elims _ _ H1). destruct Q1 as [Q1 | [[Q1 _] | Q1]]; [unfold progress in Q1; lia | discriminate | exact Q1].
    + right. right. split; [exact Q5 | ]. split; [exact Q4 | ]. intros Nn _. pose proof (trace_grows _ _ _ T2'). unfold dry. rewrite (trace_same_e _ _ _ T2'), (trace_same_el _ _ _ T2') by lia.
      destruct Q1 as [Q1 | [[Q1 _] | Q1]]; [unfold progress in Q1; lia | contradiction | exact Q1].
  - destruct X as [H1 [E1 N1]]. exists st1. split; [reflexivity | ]. assert (T1 : trace (first :: rest) st st1) by (apply (hist_trace first); [left; reflexivity | exact H1]). split; [exact T1 | ].
    right. left. intros Sm. apply N1. apply (trace_small _ _ _ T1 Sm).
Qed.

Lemma try_solve_spec l st : implemented l -> ready_for st -> exists st', try_solve l st = Ok st' /\ trace l st st' /\
  (s_n st' = 81 \/ no_solution st st' \/ match l with [] => st' = st | first :: rest => complete first rest st' end).
Proof.
  intros Im I. destruct l as [ | first rest]; cbn [try_solve].
  - exists st. split; [reflexivity | ]. split; [apply trace_refl; apply inv_core, I | auto].
  - apply try_loop_spec; [exact Im | exact I | ]. pose proof (mu_max st (w_lg _ (proj1 (inv_core st I)))). unfold solve_fuel. lia.
Qed.
