(** The strategy solver after any sequence of calls, continued: the strategies, [solve] and the queries never panic and end. *)
From Coq Require Import List Arith NArith ZArith ZifyNat ZifyN ZifyBool Lia Bool.
From Verif Require Import Spec TableSpec GeomSpec Solver Bits Geom Gen BitLemmas GridProofs BitsProofs GeomProofs GenProofs Strat StratFind StratSolve StratUse StratWhy StratInv StratPos StratFound StratWalk StratWing StratMutant StratCall StratPush StratMain StratOnce StratApi Show ShowSpec ShowProofs ShowStrat StratCallsSpec StratTotal StratSearch.
Import ListNotations.
Ltac Zify.zify_post_hook ::= Z.to_euclidean_division_equations.

(** * States between two calls *)

Definition mass (st : strat) : nat := length (s_entries st) + zeros (s_grid st) + nonempty (s_cell st).
Record near (st : strat) : Prop := {
  n_sane : sane st;
  n_up : gone_upto st;
  n_pos : exists done, PI done st;
  n_read : readable (s_elims st) (s_deds st)
}.
Definition top (st : strat) : Prop := near st /\ mass st <= 243.
(** What is left of a state after a contradiction *)
Definition ended (st : strat) : Prop := sane st /\ readable (s_elims st) (s_deds st).

Definition rank (st : strat) : nat := length (left_over (s_elims st)) + zeros (s_grid st) + nonempty (s_cell st).
Lemma rank_max st : sane st -> rank st <= 891.
Proof. intros T. unfold rank. pose proof (left_over_max (s_elims st)). pose proof (zeros_le (s_grid st)). pose proof (nonempty_le (s_cell st)). rewrite (w_lg _ (StratTotal.t_w _ T)) in *. rewrite (w_lp _ (StratTotal.t_w _ T)) in *. lia. Qed.

Definition grown (st st' : strat) : Prop := length (s_entries st) < length (s_entries st') \/ length (s_elims st) < length (s_elims st').
Definition fwd (st st' : strat) : Prop := top st' /\ rank st' <= rank st /\ length (s_entries st) <= length (s_entries st') /\ length (s_elims st) <= length (s_elims st') /\
  (grown st st' -> rank st' < rank st).
Lemma fwd_refl st : top st -> fwd st st.
Proof. intros T. unfold fwd, grown. split; [exact T | lia]. Qed.
Lemma fwd_trans a b c : fwd a b -> fwd b c -> fwd a c.
Proof. unfold fwd, grown. intros [_ A] [T B]. split; [exact T | lia]. Qed.

Lemma readable_single el ds : (forall x, In x ds -> exists y, single_of x y) -> readable el ds.
Proof. intros H x Hx. destruct (H x Hx) as [y [-> | [h ->]]]; eexists _, _; split; reflexivity. Qed.
Lemma readable_app el a b : readable el a -> readable el b -> readable el (a ++ b).
Proof. intros A B x Hx. apply in_app_iff in Hx. destruct Hx; auto. Qed.
Lemma readable_ev a b : ev a b -> readable (s_elims a) (s_deds a) -> readable (s_elims b) (s_deds b).
Proof. intros E R. destruct (e_new _ _ E) as [n [d [_ [Ed [Sg _]]]]]. rewrite Ed, (e_elims _ _ E). apply readable_app; [exact R | apply readable_single, Sg]. Qed.
Lemma PI_ev done a b : ev a b -> PI done a -> PI done b.
Proof.
  intros E pi. apply (PI_append done a); [exact pi | apply E | apply E | apply E | | exists []; rewrite (e_elims _ _ E), app_nil_r; reflexivity].
  destruct (e_new _ _ E) as [n [d [Ee _]]]. exists n. exact Ee.
Qed.
Lemma gone_ev a b : ev a b -> gone a -> okst (s_elims a) -> gone b.
Proof. intros E G O c d Hi M. rewrite (e_elims _ _ E) in Hi. apply (G c d Hi), (e_mono _ _ E c _ (proj1 (O c d Hi))), M. Qed.
Lemma near_ev a b : ev a b -> near a -> sane b -> gone_upto b -> near b.
Proof. intros E N T G. constructor; [exact T | exact G | destruct (n_pos _ N) as [done pi]; exists done; apply (PI_ev _ a); assumption | apply (readable_ev a); [exact E | apply N]]. Qed.
Lemma ended_ev a b : ev a b -> readable (s_elims a) (s_deds a) -> sane b -> ended b.
Proof. intros E R T. split; [exact T | apply (readable_ev a); assumption]. Qed.
Lemma near_ended st : near st -> ended st.
Proof. intros N. split; apply N. Qed.

Lemma ev_fwd a b : ev a b -> top a -> near b -> fwd a b.
Proof.
  intros E [_ Ma] Nb. pose proof (ev_len _ _ E) as L. pose proof (e_ne _ _ E) as Ne. destruct (e_new _ _ E) as [n [d [Ee [_ [_ Z]]]]]. assert (Ll : length (s_entries b) = length (s_entries a) + length n) by (rewrite Ee, app_length; reflexivity).
  unfold mass in *. split; [split; [exact Nb | unfold mass; lia] | ]. unfold rank, grown. rewrite (e_elims _ _ E). lia.
Qed.

(** * Updating the caches *)

Lemma update_near naked early st : near st ->
  hp (update_cell_house naked early st) (fun s => near s /\ ev st s /\ gone s /\ s_cnd s = length (s_entries s) /\ cleared (s_cnd st) s)
    (fun s => ended s /\ (early = false -> near s /\ ev st s)).
Proof.
  intros N. eapply hp_impl; [apply (update_went naked early st (n_sane _ N)) | | ].
  - intros s [T [E [C1 [C2 C3]]]]. specialize (C3 (n_up _ N)). split; [apply (near_ev st); try assumption; apply gone_all, C3 | auto].
  - intros s [T [E C]]. split; [apply (ended_ev st); try assumption; apply N | ]. intros Q. split; [ | exact E]. apply (near_ev st); try assumption. apply gone_all, C; [exact Q | apply N].
Qed.
Lemma update_sane naked early st : ended st -> hp (update_cell_house naked early st) ended ended.
Proof.
  intros [T R]. eapply hp_impl; [apply (update_went naked early st T) | | ]; intros s [Ts [E _]]; apply (ended_ev st); assumption.
Qed.
Lemma update_top naked st : top st -> hp (update_cell_house naked true st) (fun s => fwd st s /\ gone s /\ s_cnd s = length (s_entries s)) ended.
Proof.
  intros T. eapply hp_impl; [apply (update_near naked true st (proj1 T)) | | intros s [E _]; exact E].
  intros s [N [E [G [C1 _]]]]. split; [apply ev_fwd; assumption | auto].
Qed.

Lemma pos_top st : top st -> exists s, update_pos st = Ok s /\ fwd st s /\ PI (s_elims s) s /\ (gone st -> gone s).
Proof.
  intros [N M]. destruct (n_pos _ N) as [done pi]. assert (T := n_sane _ N). assert (w := StratTotal.t_w _ T).
  destruct (update_pos_spec done st pi (w_e _ w) (w_el _ w)) as [p' [n' [E pi']]]; [unfold mass in M; lia | ].
  eexists. split; [exact E | ]. split; [ | split; [exact pi' | auto]].
  split; [split; [ | exact M] | unfold rank, grown; cbn [s_entries s_elims s_grid s_cell set_pos]; lia].
  constructor; [ | apply (n_up _ N) | exists (s_elims st); exact pi' | apply N].
  constructor; [constructor; apply w | apply T | apply T].
Qed.

(** * Searching *)

Lemma left_over_incl l l' : incl l l' -> length (left_over l') <= length (left_over l).
Proof.
  intros H. apply filter_le. intros x. destruct (in_dec cand_dec x l') as [ | N]; [discriminate | ]. intros _. destruct (in_dec cand_dec x l) as [Y | ]; [ | reflexivity]. destruct N. apply H, Y.
Qed.
Lemma left_over_lt l l' x : incl l l' -> In x l' -> ~ In x l -> fst x < 81 -> 1 <= snd x <= 9 -> length (left_over l') < length (left_over l).
Proof.
  intros H Hi Ni Hc Hd'. destruct x as [c d]. cbn [fst snd] in *. apply (filter_lt _ _ _ (c, d)).
  - intros x. destruct (in_dec cand_dec x l') as [ | N]; [discriminate | ]. intros _. destruct (in_dec cand_dec x l) as [Y | ]; [ | reflexivity]. destruct N. apply H, Y.
  - apply in_prod; apply in_seq; lia.
  - destruct (in_dec cand_dec (c, d) l); [contradiction | reflexivity].
  - destruct (in_dec cand_dec (c, d) l'); [reflexivity | contradiction].
Qed.

Lemma more_fwd st0 st : top st0 -> more st0 st -> fwd st0 st.
Proof.
  intros [N M] [el [ds [-> [U R]]]]. assert (T := n_sane _ N). assert (w := StratTotal.t_w _ T).
  assert (In' : incl (s_elims st0) (s_elims st0 ++ el)) by (intros x Hx; apply in_app_iff; left; exact Hx).
  split.
  - split; [constructor | exact M].
    + constructor; [ | apply T | apply T]. constructor; try apply w; cbn [s_elims s_cle set_deds set_elims].
      * intros c d Hi. apply in_app_iff in Hi. destruct Hi as [Hi | Hi]; [apply (w_el _ w c d Hi) | ]. destruct (U _ Hi) as [A [B _]]. auto.
      * rewrite app_length. pose proof (w_cle _ w). lia.
    + unfold gone_upto. cbn [s_elims s_cle set_deds set_elims]. rewrite firstn_grow by apply (w_cle _ w). apply (n_up _ N).
    + destruct (n_pos _ N) as [done pi]. exists done. apply (PI_append done st0); try reflexivity; [exact pi | exists []; rewrite app_nil_r; reflexivity | exists el; reflexivity].
    + cbn [s_elims s_deds set_deds set_elims]. apply readable_app; [ | exact R]. intros x Hx. destruct (n_read _ N x Hx) as [y [S0 [Hy Hs]]]. exists y, S0. split; [apply slices_app, Hy | exact Hs].
  - unfold rank, grown. cbn [s_elims s_entries s_grid s_cell set_deds set_elims]. rewrite app_length. pose proof (left_over_incl _ _ In'). split; [lia | ]. split; [lia | ]. split; [lia | ].
    intros [L | L]; [lia | ]. destruct el as [ | x el]; [cbn [length] in L; lia | ]. destruct (U x (or_introl eq_refl)) as [A [B Cx]].
    pose proof (left_over_lt (s_elims st0) (s_elims st0 ++ x :: el) x In' ltac:(apply in_app_iff; right; left; reflexivity) Cx A B). lia.
Qed.

Lemma after st f : top st -> (forall s, fwd st s -> gone s -> hp (f s) (fwd s) ended) -> hp (st <! update_cell_house_solved st; f st) (fwd st) ended.
Proof.
  intros T H. eapply hp_bindE; [apply (update_top false st T) | auto | ]. intros s _ [F [G _]]. eapply hp_impl; [apply H; assumption | intros s' F'; apply (fwd_trans st s); assumption | auto].
Qed.
Lemma calm_fwd st (r : res (strat * bool)) : top st -> hp r (more st) (fun _ => False) -> hp r (fwd st) ended.
Proof. intros T H. eapply hp_impl; [exact H | intros s M; apply more_fwd; assumption | intros s []]. Qed.

Lemma naked_sub_top size stop st : 2 <= size <= 4 -> top st -> hp (s_find_naked_sub size stop st) (fwd st) ended.
Proof.
  intros Sz T. apply after; [exact T | ]. intros s [Ts _] G. apply calm_fwd; [exact Ts | ]. assert (w := StratTotal.t_w _ (n_sane _ (proj1 Ts))).
  apply find_naked_sub_calm; [exact w | | apply more_refl]. intros h F D Hh SF SD Ln. apply naked_calm; try assumption. lia.
Qed.
Lemma locked_top stop st : top st -> hp (s_find_locked stop st) (fwd st) ended.
Proof.
  intros T. apply after; [exact T | ]. intros s [Ts _] G. apply calm_fwd; [exact Ts | ]. assert (w := StratTotal.t_w _ (n_sane _ (proj1 Ts))).
  apply find_locked_calm; [exact w | | apply more_refl]. intros m d nbs ptg _ Hd' Hn. apply locked_calm; assumption.
Qed.
Lemma xy_top stop st : top st -> hp (s_find_xy stop st) (fwd st) ended.
Proof.
  intros T. apply after; [exact T | ]. intros s [Ts _] G. apply calm_fwd; [exact Ts | ]. assert (w := StratTotal.t_w _ (n_sane _ (proj1 Ts))).
  apply find_wing_calm; [exact w | | apply more_refl]. intros h c1 c2 A B C0 Ge Pt. apply (wing_calm s w G false 2 1); try assumption. left; reflexivity.
Qed.
Lemma xyz_top stop st : top st -> hp (s_find_xyz stop st) (fwd st) ended.
Proof.
  intros T. apply after; [exact T | ]. intros s [Ts _] G. apply calm_fwd; [exact Ts | ]. assert (w := StratTotal.t_w _ (n_sane _ (proj1 Ts))).
  apply find_wing_calm; [exact w | | apply more_refl]. intros h c1 c2 A B C0 Ge Pt. apply (wing_calm s w G true 3 2); try assumption. right; reflexivity.
Qed.
Lemma hidden_sub_top size stop st : 2 <= size <= 4 -> top st -> hp (s_find_hidden_sub size stop st) (fwd st) ended.
Proof.
  intros Sz T. apply after; [exact T | ]. intros s [Ts _] G. destruct (pos_top s Ts) as [s1 [E [F1 [pi G1]]]]. rewrite E. cbn [bind]. specialize (G1 G). assert (Ts1 := proj1 F1).
  eapply hp_impl; [apply (calm_fwd s1); [exact Ts1 | ] | intros s' F'; apply (fwd_trans s s1); assumption | auto]. assert (w := StratTotal.t_w _ (n_sane _ (proj1 Ts1))).
  apply find_hidden_sub_calm; [exact w | apply (p_w _ _ pi) | | apply more_refl]. intros h F D Hh SF SD Ln. apply hidden_calm; try assumption. lia.
Qed.
Lemma fish_top size stop st : 2 <= size <= 4 -> top st -> hp (s_find_fish size stop st) (fwd st) ended.
Proof.
  intros Sz T. unfold s_find_fish. destruct (pos_top st T) as [s1 [E [F1 _]]]. rewrite E. cbn [bind].
  eapply hp_impl; [apply (after s1); [exact (proj1 F1) | ] | intros s' F'; apply (fwd_trans st s1); assumption | auto]. intros s [Ts _] G. apply calm_fwd; [exact Ts | ].
  assert (w := StratTotal.t_w _ (n_sane _ (proj1 Ts))). destruct (n_pos _ (proj1 Ts)) as [done pi].
  apply find_fish_calm; [apply (p_w _ _ pi) | | apply more_refl]. intros all d F D Da Hd' SF SD Ln. apply fish_calm; try assumption. lia.
Qed.
Lemma mutant_top size stop st : size <> 0 -> top st -> hp (s_find_mutant size stop st) (fwd st) ended.
Proof.
  intros Nz T. unfold s_find_mutant. destruct (pos_top st T) as [s1 [E [F1 _]]]. rewrite E. cbn [bind].
  eapply hp_impl; [apply (after s1); [exact (proj1 F1) | ] | intros s' F'; apply (fwd_trans st s1); assumption | auto]. intros s [Ts _] G.
  destruct (n_pos _ (proj1 Ts)) as [done pi]. rewrite find_mutant_none; [cbn [hp]; apply fwd_refl, Ts | apply (p_w _ _ pi) | exact Nz].
Qed.

(** ** Naked singles *)

Lemma nonempty_less : forall l' l : list N, length l' = length l -> (forall k, nth k l 0%N = 0%N -> nth k l' 0%N = 0%N) -> nonempty l' <= nonempty l /\
  forall c, nth c l 0%N <> 0%N -> nth c l' 0%N = 0%N -> nonempty l' < nonempty l.
Proof.
  unfold nonempty. induction l' as [ | y l' IH]; intros [ | x l] L H; try discriminate L.
  - split; [cbn; lia | ]. intros [ | c] Nz _; destruct Nz; reflexivity.
  - assert (H' : forall k, nth k l 0%N = 0%N -> nth k l' 0%N = 0%N) by (intros k; apply (H (S k))). destruct (IH l ltac:(cbn in L; lia) H') as [A B]. assert (H0 := H 0). cbn [nth] in H0. cbn [filter].
    split.
    + destruct (N.eqb_spec y 0), (N.eqb_spec x 0); cbn [negb length]; try lia; tauto.
    + intros [ | c]; cbn [nth]; intros Nz Z.
      * destruct (N.eqb_spec y 0), (N.eqb_spec x 0); cbn [negb length]; try lia; tauto.
      * specialize (B c Nz Z). destruct (N.eqb_spec y 0), (N.eqb_spec x 0); cbn [negb length]; try lia; tauto.
Qed.

Definition pushed (st : strat) (c d : nat) (s : strat) : Prop := c < 81 /\ P st c <> 0%N /\
  kept (set_entries st (s_entries st ++ [(c, d)])) (fun s' => s_cell s' = s_cell st) s.

Lemma naked_top st : top st -> hp (s_find_naked true st) (fwd st) ended.
Proof.
  intros T0. unfold s_find_naked. eapply hp_bindE; [apply (update_top false st T0) | auto | ]. intros s0 _ [F0 [G0 C0]]. assert (T := proj1 F0).
  eapply hp_impl; [ | intros s' F'; apply (fwd_trans st s0); [exact F0 | exact F'] | intros s E; exact E]. clear st T0 F0. rename s0 into st.
  assert (Ts := n_sane _ (proj1 T)). assert (w := StratTotal.t_w _ Ts). assert (M := proj2 T). assert (Rd := n_read _ (proj1 T)).
  assert (Loop : hp (find_naked (s_cell st) true (fun c st => push_new (set_entries st (s_entries st ++ [c])) c (DNaked c)) st)
    (fun s => s = st \/ exists c d, pushed st c d s) ended).
  { unfold find_naked. apply (finish_rule _ (fun s => s = st) (fun s => exists c d, pushed st c d s) ended). apply for_ctl_inv; [ | reflexivity]. intros c s Hc ->. apply in_seq in Hc. assert (Lc : c < 81) by lia.
    rewrite (aget_ok _ _ 0%N) by (rewrite (w_lp _ w); exact Lc). cbn [bind]. fold (P st c).
    destruct (unique_cases EDigit (P st c) (w_p _ w c Lc)) as [[E _] | [[x [E Mx]] | [E _]]]; rewrite E; cbn [bind]; [reflexivity | | reflexivity].
    assert (Hx : x < 9) by (apply (w_p _ w c Lc x), Mx; reflexivity). rewrite from_index_ok by exact Hx. cbn [bind].
    set (st1 := set_entries st (s_entries st ++ [(c, S x)])).
    assert (S1 : sane st1).
    { constructor; [ | apply Ts | unfold mass in M; cbn [st1 s_entries s_grid s_cell set_entries]; rewrite app_length; cbn [length]; lia].
      constructor; try apply w; cbn [st1 s_entries s_cnd set_entries].
      - intros k e Hi. apply in_app_iff in Hi. destruct Hi as [Hi | [Hi | []]]; [apply (w_e _ w k e Hi) | injection Hi as <- <-; split; [exact Lc | lia]].
      - rewrite app_length. pose proof (w_nl _ w). lia. }
    assert (Pr := push_went st1 c (S x) (DNaked (c, S x)) S1 Lc ltac:(lia) (or_introl eq_refl)).
    match goal with |- context [push_new ?a ?b ?e] => change (push_new a b e) with (push_new st1 (c, S x) (DNaked (c, S x))) end.
    destruct (push_new st1 (c, S x) (DNaked (c, S x))) as [[s [ | ]] | | | ]; cbn [hp] in Pr; try contradiction; cbn [bind fst snd stop_if okc].
    - exists c, (S x). split; [exact Lc | ]. split; [ | exact Pr]. intros Z. assert (Y := proj2 (Mx x) eq_refl). rewrite Z in Y. destruct (mem0 _ Y).
    - subst s. split; [exact S1 | exact Rd]. }
  eapply hp_bindE; [exact Loop | auto | ]. intros s _ [-> | [c [d [Lc [Nz [Ss [E [Cn Cl]]]]]]]].
  - eapply hp_impl; [apply (update_top false st T) | intros s [F _]; exact F | auto].
  - set (st1 := set_entries st (s_entries st ++ [(c, d)])) in *. assert (G1 : gone st1) by exact G0.
    assert (N1 : near s).
    { constructor; [exact Ss | apply gone_all, (gone_ev st1); [exact E | exact G1 | apply (w_el _ w)] | | apply (readable_ev st1); [exact E | exact Rd]].
      destruct (n_pos _ (proj1 T)) as [done pi]. exists done. apply (PI_ev done st1); [exact E | ]. apply (PI_append done st); try reflexivity; [exact pi | exists [(c, d)]; reflexivity | exists []; rewrite app_nil_r; reflexivity]. }
    eapply hp_impl; [apply (update_near false true s N1) | | intros s' [X _]; exact X]. intros s' [N' [E' [G' [C' Cl']]]].
    assert (w' := StratTotal.t_w _ (n_sane _ N')). assert (E1 := ev_trans _ _ _ E E'). destruct (e_new _ _ E1) as [n [ds [Ee [_ [_ Z]]]]]. cbn [st1 s_entries s_grid set_entries] in Ee, Z.
    assert (Pc : P s' c = 0%N).
    { apply (Cl' (length (s_entries st)) c d); [ | rewrite Ee, <- app_assoc, nth_error_app2, Nat.sub_diag by lia; reflexivity]. split; [rewrite Cn; cbn [st1 s_cnd set_entries]; lia | ].
      rewrite C', Ee, !app_length. cbn [length]. lia. }
    assert (Ne : nonempty (s_cell s') < nonempty (s_cell st)).
    { refine (proj2 (nonempty_less (s_cell s') (s_cell st) _ _) c Nz Pc); [rewrite (w_lp _ w), (w_lp _ w'); reflexivity | ]. intros k Q.
      destruct (Nat.lt_ge_cases k 81) as [Lk | Gk]; [ | apply nth_overflow; rewrite (w_lp _ w'); exact Gk]. apply (ev_empty st1 s' k E1 w' Lk Q). }
    assert (Ll : length (s_entries s') = S (length (s_entries st)) + length n) by (rewrite Ee, !app_length; cbn [length]; lia). assert (El := e_elims _ _ E1). cbn [st1 s_elims set_entries] in El.
    unfold mass in M. split; [split; [exact N' | unfold mass; lia] | ]. unfold rank, grown. rewrite El. lia.
Qed.

(** ** Hidden singles *)

Lemma houses_lt last h : In h (houses_from last) -> h < 27.
Proof. unfold houses_from. intros Hi. apply in_firstn, in_skipn, in_app_iff in Hi. destruct Hi as [Hi | Hi]; apply in_seq in Hi; lia. Qed.

Lemma hidden_cells_any st0 stop h : W st0 -> h < 27 -> forall cells singles st, (forall c, In c cells -> c < 81) -> is_set EDigit singles -> kept st0 any st ->
  okc (hidden_cells cells (s_cell st0) h stop on_hidden singles st) (kept st0 any) (kept st0 any) (kept st0 any).
Proof.
  intros w Hh. induction cells as [ | c t IH]; intros singles st Cs Ss K; cbn [hidden_cells]; [exact K | ]. assert (Hc : c < 81) by (apply Cs; left; reflexivity). assert (Cs' : forall k, In k t -> k < 81) by (intros k Hk; apply Cs; right; exact Hk).
  rewrite (aget_ok _ _ 0%N) by (rewrite (w_lp _ w); exact Hc). cbn [bind]. fold (P st0 c).
  assert (Sa : is_set EDigit (set_and (P st0 c) singles)) by (intros i Q; apply mem_and in Q; apply Ss, Q).
  destruct (unique_cases EDigit _ Sa) as [[Eu _] | [[x [Eu Q]] | [Eu _]]]; rewrite Eu; cbn [bind]; [apply IH; assumption | | exact K].
  assert (Hx : x < 9) by (apply (Sa x), Q; reflexivity). rewrite from_index_ok by exact Hx. cbn [bind]. unfold on_hidden at 1. destruct (categorize_ok h Hh) as [ty Et]. rewrite Et. cbn [bind].
  assert (Pr := push_went st c (S x) (DHidden (c, S x) ty) (proj1 K) Hc ltac:(lia) ltac:(right; exists ty; reflexivity)).
  destruct (push_new st (c, S x) (DHidden (c, S x) ty)) as [[s [ | ]] | | | ]; cbn [hp] in Pr; try contradiction; cbn [bind fst snd]; [ | subst s; exact K].
  assert (K1 : kept st0 any s) by (apply (kept_trans st0 st); [apply K | apply K | apply (kept_any _ _ _ Pr)]).
  destruct (digit_set_ok (S x) ltac:(lia)) as [m [Em [Sm _]]]. rewrite Em. cbn [bind]. destruct stop; [exact K1 | ]. destruct (set_is_empty (set_without EDigit singles m)); [exact K1 | ].
  apply IH; [exact Cs' | | exact K1]. intros i Hi. apply (mem_without EDigit) in Hi; [ | exact Ss]. apply Ss, Hi.
Qed.

Lemma kept_next st0 st : kept st0 any st -> kept st0 any (next_house st).
Proof.
  intros [T [E [C0 _]]]. split; [constructor; [constructor; apply (StratTotal.t_w _ T) | apply T | apply T] | ]. split; [ | split; [exact C0 | exact I]]. constructor; apply E.
Qed.

Lemma find_hidden_any st0 stop : sane st0 -> hp (find_hidden (s_last st0) next_house (s_cell st0) (s_house st0) stop on_hidden st0) (kept st0 any) (kept st0 any).
Proof.
  intros T. assert (w := StratTotal.t_w _ T). unfold find_hidden. eapply hp_impl; [apply (finish_rule _ (kept st0 any) (kept st0 any) (kept st0 any)) | intros s [Q | Q]; exact Q | auto].
  apply for_ctl_inv; [ | apply kept_refl; [exact T | exact I]]. intros h st Hh K. apply houses_lt in Hh. apply kept_next in K. set (st1 := next_house st) in *.
  destruct (house_cells_exact h Hh) as [cm [Ec [Sc Mc]]]. rewrite Ec. cbn [bind]. rewrite (iter_exact ECell cm Sc). cbn [bind].
  assert (Cs : forall c, In c (members ECell cm) -> c < 81) by (intros c Hi; apply (members_in ECell cm c Sc) in Hi; apply (Sc c Hi)).
  destruct (occurrences_spec (s_cell st0) (w_lp _ w) (members ECell cm) (set_none EDigit) (set_none EDigit) Cs) as [u [mu [Eo [Mu _]]]].
  rewrite Eo. cbn [bind]. unfold house_get. rewrite (aget_ok _ _ 0%N) by (rewrite (w_lh _ w); exact Hh). cbn [bind].
  destruct (N.eqb (set_or u _) (set_all EDigit)); cbn [negb]; [ | exact K]. destruct (set_is_empty (set_without EDigit u mu)); [exact K | ].
  assert (Su : is_set EDigit u) by (intros x Q; apply Mu in Q; destruct Q as [Q | [c [Hi Q]]]; [destruct (mem_none _ _ Q) | apply (w_p _ w c (Cs c Hi) x Q)]).
  apply hidden_cells_any; try assumption. intros i Q. apply (mem_without EDigit) in Q; [apply Su, Q | exact Su].
Qed.

Lemma hidden_top stop st : top st -> hp (s_find_hidden stop st) (fwd st) ended.
Proof.
  intros T0. unfold s_find_hidden. eapply hp_bindE; [apply (update_top false st T0) | auto | ]. intros s0 _ [F0 [G0 C0]]. assert (T := proj1 F0).
  eapply hp_impl; [ | intros s' F'; apply (fwd_trans st s0); [exact F0 | exact F'] | intros s E; exact E]. clear st T0 F0. rename s0 into st.
  assert (Ts := n_sane _ (proj1 T)). assert (Rd := n_read _ (proj1 T)).
  eapply hp_bindE; [apply (find_hidden_any st stop Ts) | intros s [Ss [E _]]; apply (ended_ev st); assumption | ]. intros s _ [Ss [E _]].
  assert (N1 : near s) by (apply (near_ev st); try assumption; [apply T | apply gone_all, (gone_ev st); [exact E | exact G0 | apply (w_el _ (StratTotal.t_w _ Ts))]]).
  eapply hp_impl; [apply (update_near false true s N1) | | intros s' [X _]; exact X]. intros s' [N' [E' _]]. apply ev_fwd; [apply (ev_trans st s); assumption | exact T | exact N'].
Qed.

(** * Solving *)

Lemma deduce_top S0 stop first st : S0 <> AvoidableRectangles -> stop = true \/ first = true -> top st -> hp (deduce S0 stop first st) (fwd st) ended.
Proof.
  intros Im So T. destruct S0; cbn [deduce];
    [ | apply hidden_top, T | apply locked_top, T | apply naked_sub_top; [lia | exact T] | apply naked_sub_top; [lia | exact T] | apply naked_sub_top; [lia | exact T] | apply hidden_sub_top; [lia | exact T] | apply hidden_sub_top; [lia | exact T] | apply hidden_sub_top; [lia | exact T]
      | apply fish_top; [lia | exact T] | apply fish_top; [lia | exact T] | apply fish_top; [lia | exact T] | apply xy_top, T | apply xyz_top, T | apply mutant_top; [discriminate | exact T] | apply mutant_top; [discriminate | exact T] | congruence].
  destruct stop; cbn [negb andb]; [apply naked_top, T | ]. destruct So as [So | ->]; [discriminate So | ].
  eapply hp_impl; [apply (update_top true st T) | intros s [F _]; exact F | auto].
Qed.

Lemma try_rest_top nd ne : forall rest st, implemented rest -> top st -> exists st' again, try_rest rest nd ne st = Ok (st', again) /\
  if again then fwd st st' /\ (nd < length (s_entries st') \/ ne < length (s_elims st')) else ended st'.
Proof.
  induction rest as [ | S0 t IH]; intros st Im T; cbn [try_rest].
  - exists st, false. split; [reflexivity | apply near_ended, T].
  - unfold deduce_one. assert (X := deduce_top S0 true false st (Im S0 (or_introl eq_refl)) (or_introl eq_refl) T). destruct (deduce S0 true false st) as [[st1 [ | ]] | | | ]; cbn [hp] in X; try contradiction; cbn [bind negb]; [ | exists st1, false; auto].
    destruct ((nd <? length (s_entries st1)) || (ne <? length (s_elims st1))) eqn:Pr.
    + exists st1, true. split; [reflexivity | ]. split; [exact X | ]. apply orb_true_iff in Pr. rewrite !Nat.ltb_lt in Pr. exact Pr.
    + destruct (IH st1 (fun S Hi => Im S (or_intror Hi)) (proj1 X)) as [st2 [again [E Q]]]. exists st2, again. split; [exact E | ]. destruct again; [ | exact Q]. split; [apply (fwd_trans st st1); [exact X | apply Q] | apply Q].
Qed.

Lemma try_loop_top first rest : implemented (first :: rest) -> forall fuel st, top st -> rank st < fuel -> exists st', try_loop fuel first rest st = Ok st' /\ ended st'.
Proof.
  intros Im. induction fuel as [ | f IH]; intros st T L; [lia | ]. cbn [try_loop]. destruct (strat_is_solved st); [exists st; split; [reflexivity | apply near_ended, T] | ].
  unfold deduce_all. assert (X := deduce_top first false true st (Im first (or_introl eq_refl)) (or_intror eq_refl) T). destruct (deduce first false true st) as [[st1 [ | ]] | | | ]; cbn [hp] in X; try contradiction; cbn [bind negb]; [ | exists st1; auto].
  destruct (Nat.ltb_spec (length (s_entries st)) (length (s_entries st1))) as [Lt | Ge].
  - destruct X as [T1 [_ [_ [_ R]]]]. specialize (R (or_introl Lt)). apply IH; [exact T1 | lia].
  - destruct (try_rest_top (length (s_entries st)) (length (s_elims st)) rest st1 (fun S Hi => Im S (or_intror Hi)) (proj1 X)) as [st2 [again [E Q]]]. rewrite E. cbn [bind]. destruct again; [ | exists st2; auto].
    destruct Q as [F2 Pr]. destruct (fwd_trans _ _ _ X F2) as [T2 [_ [_ [_ R]]]]. specialize (R Pr). apply IH; [exact T2 | lia].
Qed.

Lemma try_solve_top l st : implemented l -> top st -> exists st', try_solve l st = Ok st' /\ ended st'.
Proof.
  intros Im T. destruct l as [ | first rest]; cbn [try_solve]; [exists st; split; [reflexivity | apply near_ended, T] | ].
  apply try_loop_top; [exact Im | exact T | ]. pose proof (rank_max st (n_sane _ (proj1 T))). unfold solve_fuel. lia.
Qed.

(** * The calls *)

Lemma write_any : forall l g, okst l -> length g = 81 -> exists g', write_entries l g = Ok g' /\ length g' = 81 /\
  forall c, c < 81 -> (at_ g c <= 9 -> at_ g' c <= 9) /\ (at_ g' c = 0 -> at_ g c = 0).
Proof.
  induction l as [ | [c d] l IH]; intros g O L; cbn [write_entries]; [exists g; auto | ]. destruct (O c d (or_introl eq_refl)) as [Hc Hd']. rewrite aset_ok by lia. cbn [bind].
  destruct (IH (lset g c d) (fun k e Hi => O k e (or_intror Hi)) ltac:(rewrite lset_length; exact L)) as [g' [E [L' Q]]]. exists g'. split; [exact E | ]. split; [exact L' | ].
  intros k Hk. destruct (Q k Hk) as [A B]. unfold at_ in A, B. rewrite nth_lset in A, B by lia. destruct (Nat.eqb_spec k c) as [-> | _]; [ | exact (conj A B)]. unfold at_. split; intros X; [apply A; lia | specialize (B X); lia].
Qed.

Lemma grid_sane st : sane st -> exists g, update_grid st = Ok (set_grid st g) /\ sane (set_grid st g) /\ zeros g <= zeros (s_grid st).
Proof.
  intros T. assert (w := StratTotal.t_w _ T). destruct (write_any (s_entries st) (s_grid st) (w_e _ w) (w_lg _ w)) as [g [E [L Q]]]. exists g. unfold update_grid. rewrite E. cbn [bind]. split; [reflexivity | ].
  assert (Z : zeros g <= zeros (s_grid st)) by (apply zeros_mono; [rewrite L, (w_lg _ w); reflexivity | intros c Hc; rewrite (w_lg _ w) in Hc; apply Q, Hc]). split; [ | exact Z].
  constructor; [constructor; try apply w; [exact L | intros c Hc; apply Q; [exact Hc | apply (w_g _ w c Hc)]] | apply T | cbn [s_entries s_grid s_cell set_grid]; pose proof (StratTotal.t_len _ T); lia].
Qed.
Lemma grid_top st : top st -> exists g, update_grid st = Ok (set_grid st g) /\ top (set_grid st g).
Proof.
  intros [N M]. destruct (grid_sane st (n_sane _ N)) as [g [E [T Z]]]. exists g. split; [exact E | ]. split; [ | unfold mass in *; cbn [s_entries s_grid s_cell set_grid]; lia].
  constructor; [exact T | exact (n_up _ N) | | exact (n_read _ N)]. destruct (n_pos _ N) as [done pi]. exists done. apply (PI_append done st); try reflexivity; [exact pi | exists []; rewrite app_nil_r; reflexivity | exists []; rewrite app_nil_r; reflexivity].
Qed.

Lemma deds_readable el ds : readable el ds -> exists r, rmap (with_slices el) ds = Ok r /\ forall y, In y r -> exists S0, ded_strategy y = Ok S0.
Proof.
  induction ds as [ | x ds IH]; intros H; [exists []; split; [reflexivity | intros y []] | ]. destruct (H x (or_introl eq_refl)) as [y [S0 [E Es]]]. destruct IH as [r [Er Q]]; [intros z Hz; apply H; right; exact Hz | ].
  exists (y :: r). cbn [rmap]. rewrite E. cbn [bind]. rewrite Er. split; [reflexivity | ]. intros z [<- | Hz]; [exists S0; exact Es | apply Q, Hz].
Qed.
Lemma solve_top l st : implemented l -> top st -> exists ok g ds, strat_solve l st = Ok (ok, g, ds) /\ wf_grid g /\ exists r, deds_iter ds = Ok r /\ forall y, In y r -> exists S0, ded_strategy y = Ok S0.
Proof.
  intros Im T. destruct (try_solve_top l st Im T) as [st1 [E [T1 R1]]]. unfold strat_solve. rewrite E. cbn [bind]. destruct (grid_sane st1 T1) as [g [Eg [T2 _]]]. rewrite Eg. cbn [bind].
  eexists _, _, _. split; [reflexivity | ]. split; [ | apply deds_readable; exact R1]. assert (w := StratTotal.t_w _ T2). split; [exact (w_lg _ w) | ]. rewrite Forall_forall. intros d Hd'. apply (In_nth _ _ 0) in Hd'. destruct Hd' as [c [Hc <-]].
  assert (Lc : c < 81) by (rewrite <- (w_lg _ w); exact Hc). apply (w_g _ w c Lc).
Qed.

Lemma insert_top st c d : top st -> c < 81 -> 1 <= d <= 9 -> exists st' b, insert_candidate st (c, d) = Ok (st', b) /\ top st'.
Proof.
  intros T Hc Hd'. unfold insert_candidate. destruct (grid_top st T) as [g [E T1]]. rewrite E. cbn [bind]. set (st1 := set_grid st g) in *.
  assert (Pr := push_went st1 c d (DNaked (c, d)) (n_sane _ (proj1 T1)) Hc Hd' (or_introl eq_refl)).
  assert (Up : hp (push_new st1 (c, d) (DNaked (c, d))) (fun s => s_elims s = s_elims st1 /\ s_cle s = s_cle st1 /\ s_cell s = s_cell st1) (fun _ => True)).
  { unfold push_new. cbn [fst snd]. rewrite (aget_ok _ _ 0) by (rewrite (w_lg _ (StratTotal.t_w _ (n_sane _ (proj1 T1)))); exact Hc). cbn [bind]. destruct (_ =? d); [cbn [hp]; auto | ]. destruct (_ =? 0); [ | exact I].
    rewrite aset_ok by (rewrite (w_lg _ (StratTotal.t_w _ (n_sane _ (proj1 T1)))); exact Hc). cbn [bind hp]. auto. }
  destruct (push_new st1 (c, d) (DNaked (c, d))) as [[s [ | ]] | | | ]; cbn [hp] in Pr, Up; try contradiction; unfold bindE; cbn [bind fst snd].
  - destruct Pr as [Ss [Ev _]]. destruct Up as [U1 [U2 U3]].
    assert (N1 : near s).
    { apply (near_ev st1); [exact Ev | apply T1 | exact Ss | ]. intros k e. rewrite U1, U2. unfold P. rewrite U3. apply (n_up _ (proj1 T1)). }
    destruct (ev_fwd _ _ Ev T1 N1) as [[_ M] _]. eexists _, _. split; [reflexivity | ]. split; [ | exact M]. constructor; [ | exact (n_up _ N1) | | ].
    + constructor; [constructor; apply (StratTotal.t_w _ Ss) | apply Ss | apply Ss].
    + destruct (n_pos _ N1) as [done pi]. exists done. apply (PI_append done s); try reflexivity; [exact pi | exists []; rewrite app_nil_r; reflexivity | exists []; rewrite app_nil_r; reflexivity].
    + intros x Hx. apply (n_read _ N1). cbn [s_deds set_deds] in Hx. clear - Hx. revert Hx. generalize (s_deds s). induction l as [ | y l IH]; [auto | ]. cbn [removelast]. destruct l as [ | z l]; [intros [] | ]. intros [-> | Q]; [left; reflexivity | right; apply IH, Q].
  - subst s. eexists _, _. split; [reflexivity | exact T1].
Qed.

Lemma to_sudoku_top st : top st -> exists st' g, to_sudoku st = Ok (st', g) /\ top st'.
Proof. intros T. unfold to_sudoku. destruct (grid_top st T) as [g [E T1]]. rewrite E. cbn [bind]. eexists _, _. split; [reflexivity | exact T1]. Qed.

Lemma query_top st : top st -> exists st', query st = Ok st' /\ top st'.
Proof.
  intros T. unfold query. destruct (grid_top st T) as [g [E T1]]. rewrite E. cbn [bind]. assert (X := update_near false false (set_grid st g) (proj1 T1)).
  destruct (update_cell_house false false (set_grid st g)) as [[s [ | ]] | | | ]; cbn [hp] in X; try contradiction; cbn [bind fst]; exists s; (split; [reflexivity | ]).
  - destruct X as [N [Ev _]]. apply (ev_fwd _ _ Ev T1 N).
  - destruct X as [_ X]. destruct (X eq_refl) as [N Ev]. apply (ev_fwd _ _ Ev T1 N).
Qed.
Lemma cell_state_top st c : top st -> c < 81 -> exists st' x, strat_cell_state st c = Ok (st', x) /\ top st'.
Proof.
  intros T Hc. destruct (query_top st T) as [st' [E T']]. unfold strat_cell_state. rewrite E. cbn [bind]. exists st', (state_at st' c). split; [ | exact T'].
  assert (R := read_state st' c (StratTotal.t_w _ (n_sane _ (proj1 T'))) Hc). destruct (aget (s_grid st') c) as [d | | | ]; cbn [bind] in *; try discriminate. destruct (negb (d =? 0)).
  - destruct (digit_new d) as [d' | | | ]; cbn [bind] in *; try discriminate. injection R as <-. reflexivity.
  - destruct (aget (s_cell st') c) as [m | | | ]; cbn [bind] in *; try discriminate. injection R as <-. reflexivity.
Qed.

Lemma grid_state_any st : ended st -> exists g, strat_grid_state st = Ok g /\ ok_states g.
Proof.
  intros [T R]. unfold strat_grid_state, query. destruct (grid_sane st T) as [g [E [T1 _]]]. rewrite E. cbn [bind]. assert (X := update_sane false false (set_grid st g) (conj T1 R)).
  destruct (update_cell_house false false (set_grid st g)) as [[s b] | | | ]; try (destruct X; fail). cbn [bind fst]. assert (Es : ended s) by (destruct b; exact X). assert (w := StratTotal.t_w _ (proj1 Es)).
  exists (map (state_at s) (seq 0 81)). split; [apply rmap_ok; intros c Hc; apply in_seq in Hc; apply read_state; [exact w | lia] | apply states_ok, w].
Qed.

Lemma no_check_any st : ended st -> exists st', remove_conflicts_no_check st = Ok st' /\ ended st'.
Proof.
  intros [T0 R0]. unfold remove_conflicts_no_check. apply (rfold_inv ended); [ | split; assumption]. clear st T0 R0. intros c s Hc [T R]. apply in_seq in Hc. assert (w := StratTotal.t_w _ T). assert (Lp := w_lp _ w).
  rewrite (aget_ok _ _ 0%N) by lia. cbn [bind]. fold (P s c). destruct (set_is_empty (P s c)); [exists s; split; [reflexivity | split; assumption] | ].
  rewrite (masks_eq s c w ltac:(lia)). cbn [bind]. rewrite aset_ok by lia. cbn [bind]. eexists. split; [reflexivity | ]. split; [ | exact R]. set (m := set_without EDigit (P s c) _).
  assert (Mm : forall x, mem m x -> mem (P s c) x) by (intros x Hx; apply mem_without in Hx; [apply Hx | apply (w_p _ w c ltac:(lia))]).
  assert (Ne : nonempty (lset (s_cell s) c m) <= nonempty (s_cell s)).
  { apply nonempty_lset; [lia | ]. fold (P s c). intros Z. destruct (N.eq_dec m 0) as [Q | Q]; [exact Q | ]. destruct (nonzero_mem m Q) as [x Hx]. apply Mm in Hx. rewrite Z in Hx. destruct (mem0 x Hx). }
  constructor; [apply W_set_cell; [exact w | lia | intros x Hx; apply (w_p _ w c ltac:(lia) x), Mm, Hx] | | ]; cbn [s_n s_cell s_entries s_grid set_cell]; [pose proof (StratTotal.t_n _ T) | pose proof (StratTotal.t_len _ T)]; lia.
Qed.
Lemma text_any st : top st -> exists g, strat_text st = Ok (unlines (table g)) /\ ok_states g.
Proof.
  intros T. unfold strat_text, update_for_grid_state_str. destruct (try_solve_top [NakedSingles] st naked_implemented T) as [st1 [E1 T1]]. rewrite E1. cbn [bind].
  destruct (no_check_any st1 T1) as [st2 [E2 T2]]. rewrite E2. cbn [bind]. destruct (grid_state_any st2 T2) as [g [Eg Og]]. rewrite Eg. cbn [bind]. exists g. split; [apply print_table, Og | exact Og].
Qed.

(** ** New solvers *)

Lemma new_top st pl el : started st pl el -> s_n st = 0 -> s_cle st = 0 -> s_pos st = repeat (repeat (set_all EPosHouse) 9) 27 -> s_pnd st = 0 -> s_ple st = 0 -> length (s_entries st) <= 81 -> top st.
Proof.
  intros A E1 E2 E3 E4 E5 L. assert (w := proj1 (inv_core st (a_ready _ _ _ A))). pose proof (zeros_le (s_grid st)). pose proof (nonempty_le (s_cell st)). rewrite (w_lg _ w) in *. rewrite (w_lp _ w) in *.
  split; [ | unfold mass; lia]. constructor.
  - constructor; [exact w | rewrite E1; lia | lia].
  - intros c d. rewrite E2. intros [].
  - exists []. apply PI_new; assumption.
  - rewrite (a_deds _ _ _ A). intros x [].
Qed.

Lemma calls_top st pl el : calls st pl el -> top st.
Proof.
  induction 1 as [p st Wf E | p clues st Wf E | g st Ok E | st pl el c d st' _ T Hc Hd' E | st pl el c d st' _ T Hc Hd' E | st pl el st' g _ T E | st pl el c st' x _ T Hc E].
  - destruct (sudoku_started p None Wf) as [st' [E' A]]. rewrite E in E'. injection E' as <-. destruct Wf as [L F]. unfold strat_from_sudoku in E.
    destruct (entries_from_ok p 0 F ltac:(lia)) as [l [El [Ll _]]]. rewrite El in E. cbn [bind] in E. injection E as <-. apply (new_top _ _ _ A); try reflexivity. change (@length cand l <= 81). lia.
  - unfold strat_from_clues in E. destruct (sudoku_started p (Some clues) Wf) as [st' [E' A]]. rewrite E' in E. cbn [bind] in E. injection E as <-. destruct Wf as [L F]. unfold strat_from_sudoku in E'.
    destruct (entries_from_ok p 0 F ltac:(lia)) as [l [El [Ll _]]]. rewrite El in E'. cbn [bind] in E'. injection E' as <-. apply (new_top _ _ _ A); try reflexivity. change (@length cand l <= 81). lia.
  - destruct (states_started g Ok) as [st' [E' A]]. rewrite E in E'. injection E' as <-. destruct Ok as [L F]. unfold strat_from_grid_state in E.
    destruct (from_states_ok g 0 [] [] F) as [en [el [Ef [L1 _]]]]. rewrite Ef in E. cbn [bind fst snd] in E. injection E as <-. apply (new_top _ _ _ A); try reflexivity.
    change (@length cand en <= 81). change (@length cand en <= length g) in L1. lia.
  - destruct (insert_top st c d T Hc Hd') as [s [b' [E' T']]]. rewrite E in E'. injection E' as <- <-. exact T'.
  - destruct (insert_top st c d T Hc Hd') as [s [b' [E' T']]]. rewrite E in E'. injection E' as <- <-. exact T'.
  - destruct (to_sudoku_top st T) as [s [g' [E' T']]]. rewrite E in E'. injection E' as <- <-. exact T'.
  - destruct (cell_state_top st c T Hc) as [s [x' [E' T']]]. rewrite E in E'. injection E' as <- <-. exact T'.
Qed.

(** * The statements *)

Lemma calls_new p clues g : wf_grid p -> ok_states g ->
  (exists st, strat_from_sudoku p = Ok st) /\ (exists st, strat_from_clues p clues = Ok st) /\ (exists st, strat_from_grid_state g = Ok st).
Proof.
  intros Wf Og. destruct (sudoku_started p None Wf) as [st [E _]]. split; [exists st; exact E | ]. split; [unfold strat_from_clues; rewrite E; cbn [bind]; eexists; reflexivity | ].
  destruct (states_started g Og) as [st' [E' _]]. exists st'. exact E'.
Qed.
Lemma calls_solve l st pl el : implemented l -> calls st pl el -> exists ok g ds, strat_solve l st = Ok (ok, g, ds) /\ wf_grid g /\
  exists r, deds_iter ds = Ok r /\ forall y, In y r -> exists S0, ded_strategy y = Ok S0.
Proof. intros Im H. apply solve_top; [exact Im | apply (calls_top st pl el H)]. Qed.
Lemma calls_change st pl el : calls st pl el ->
  (forall c d, c < 81 -> 1 <= d <= 9 -> exists st' b, insert_candidate st (c, d) = Ok (st', b)) /\
  (exists st' g, to_sudoku st = Ok (st', g) /\ wf_grid g) /\
  (forall c, c < 81 -> exists st' x, strat_cell_state st c = Ok (st', x) /\ ok_state x).
Proof.
  intros H. assert (T := calls_top st pl el H). split; [ | split].
  - intros c d Hc Hd'. destruct (insert_top st c d T Hc Hd') as [s [b [E _]]]. eauto.
  - unfold to_sudoku. destruct (grid_top st T) as [g [E T1]]. rewrite E. cbn [bind]. eexists _, _. split; [reflexivity | ]. assert (w := StratTotal.t_w _ (n_sane _ (proj1 T1))).
    split; [exact (w_lg _ w) | ]. rewrite Forall_forall. intros d Hd'. apply (In_nth _ _ 0) in Hd'. destruct Hd' as [c [Hc <-]]. assert (Lc : c < 81) by (rewrite <- (w_lg _ w); exact Hc). apply (w_g _ w c Lc).
  - intros c Hc. destruct (query_top st T) as [st' [E T']]. assert (w := StratTotal.t_w _ (n_sane _ (proj1 T'))). unfold strat_cell_state. rewrite E. cbn [bind]. exists st', (state_at st' c). split.
    + assert (R := read_state st' c w Hc). destruct (aget (s_grid st') c) as [d | | | ]; cbn [bind] in *; try discriminate. destruct (negb (d =? 0)).
      * destruct (digit_new d) as [d' | | | ]; cbn [bind] in *; try discriminate. injection R as <-. reflexivity.
      * destruct (aget (s_cell st') c) as [m | | | ]; cbn [bind] in *; try discriminate. injection R as <-. reflexivity.
    + destruct (states_ok st' w) as [_ F]. rewrite Forall_forall in F. apply F, in_map, in_seq. lia.
Qed.
Lemma calls_look st pl el : calls st pl el -> (exists g, strat_grid_state st = Ok g /\ ok_states g) /\ (exists g, strat_text st = Ok (unlines (table g)) /\ ok_states g).
Proof. intros H. assert (T := calls_top st pl el H). split; [apply grid_state_any, near_ended, T | apply text_any, T]. Qed.

(** If there is a solution, looking at cells does no harm. *)
Lemma completion_unblocked pl el s : completion pl el s -> unblocked pl el.
Proof.
  intros [So [A B]] c Hc. assert (X := fit_solved false s So). exists (at_ s c). split; [ | intros d' Hp; symmetry; apply A, Hp]. split; [apply (proj1 X c Hc) | ]. split; [intros Q; apply (B c _ Q eq_refl) | ].
  intros c' Hc' Pe Hp. apply A in Hp. apply (proj1 (proj2 X) c c' Hc Hc' Pe Logic.I). congruence.
Qed.
Lemma calls_api st pl el : calls st pl el -> (exists s, completion pl el s) -> api st pl el.
Proof.
  induction 1 as [p st Wf E | p clues st Wf E | g st Og E | st pl el c d st' _ IH Hc Hd' E | st pl el c d st' _ IH Hc Hd' E | st pl el st' g _ IH E | st pl el c st' x _ IH Hc E]; intros [s Cs].
  - apply (api_sudoku p); assumption.
  - apply (api_clues p clues); assumption.
  - apply api_states; assumption.
  - apply (api_insert st pl el c d); try assumption. apply IH. exists s. destruct Cs as [So [A B]]. split; [exact So | ]. split; [intros k e Hk; apply A; left; exact Hk | exact B].
  - apply (api_reject st pl el c d); try assumption. apply IH. exists s. exact Cs.
  - apply (api_to_sudoku st pl el st' g); [apply IH; exists s; exact Cs | exact E].
  - apply (api_cell_state st pl el c st' x); [apply IH; exists s; exact Cs | exact Hc | apply (completion_unblocked _ _ s Cs) | exact E].
Qed.
Lemma calls_ok l st pl el g ds s : implemented l -> calls st pl el -> completion pl el s -> strat_solve l st = Ok (true, g, ds) -> g = s.
Proof. intros Im H Cs E. destruct (solve_ok l st pl el g ds Im (calls_api st pl el H (ex_intro _ s Cs)) E) as [_ [_ Q]]. symmetry. apply Q, Cs. Qed.
