(** The strategy solver after any sequence of calls: nothing panics and every loop ends.  The caches need not agree with the
    history here, because [cell_state] ignores contradictions. *)
From Coq Require Import List Arith NArith ZArith ZifyNat ZifyN ZifyBool Lia Bool.
From Verif Require Import Spec TableSpec GeomSpec Solver Bits Geom Gen BitLemmas GridProofs BitsProofs GeomProofs GenProofs Strat StratFind StratSolve StratUse StratWhy StratInv StratPos StratFound StratWalk StratWing StratMutant StratCall ShowStrat.
Import ListNotations.
Ltac Zify.zify_post_hook ::= Z.to_euclidean_division_equations.

(** * Updating the caches *)

(** Lengths and ranges; every digit placed takes the candidates of a cell away *)
Record sane (st : strat) : Prop := {
  t_w : W st;
  t_n : s_n st + nonempty (s_cell st) <= 81;
  t_len : length (s_entries st) + zeros (s_grid st) + nonempty (s_cell st) <= 244
}.

(** How an update changes the state: candidates only disappear, every new entry fills a cell of the grid. *)
Record ev (st st' : strat) : Prop := {
  e_mono : forall c x, c < 81 -> mem (P st' c) x -> mem (P st c) x;
  e_new : exists new ds, s_entries st' = s_entries st ++ new /\ s_deds st' = s_deds st ++ ds /\
    (forall x, In x ds -> exists y, single_of x y) /\ length new + zeros (s_grid st') = zeros (s_grid st);
  e_ne : nonempty (s_cell st') <= nonempty (s_cell st);
  e_elims : s_elims st' = s_elims st;
  e_pos : s_pos st' = s_pos st;
  e_pnd : s_pnd st' = s_pnd st;
  e_ple : s_ple st' = s_ple st;
  e_cnd : s_cnd st <= s_cnd st'
}.

Lemma ev_refl st : ev st st.
Proof. constructor; auto. exists [], []. rewrite !app_nil_r. split; [reflexivity | ]. split; [reflexivity | ]. split; [intros x [] | reflexivity]. Qed.
Lemma ev_trans a b c : ev a b -> ev b c -> ev a c.
Proof.
  intros A B. constructor.
  - intros k x Hk M. apply (e_mono _ _ A k x Hk), (e_mono _ _ B k x Hk), M.
  - destruct (e_new _ _ A) as [n1 [d1 [E1 [F1 [S1 Z1]]]]]. destruct (e_new _ _ B) as [n2 [d2 [E2 [F2 [S2 Z2]]]]]. exists (n1 ++ n2), (d1 ++ d2).
    split; [rewrite E2, E1, app_assoc; reflexivity | ]. split; [rewrite F2, F1, app_assoc; reflexivity | ]. split; [ | rewrite app_length; lia].
    intros x Hx. apply in_app_iff in Hx. destruct Hx; auto.
  - pose proof (e_ne _ _ A). pose proof (e_ne _ _ B). lia.
  - rewrite (e_elims _ _ B). apply A.
  - rewrite (e_pos _ _ B). apply A.
  - rewrite (e_pnd _ _ B). apply A.
  - rewrite (e_ple _ _ B). apply A.
  - pose proof (e_cnd _ _ A). pose proof (e_cnd _ _ B). lia.
Qed.
Lemma ev_len a b : ev a b -> length (s_entries b) + zeros (s_grid b) = length (s_entries a) + zeros (s_grid a).
Proof. intros A. destruct (e_new _ _ A) as [n [d [E [_ [_ Z]]]]]. rewrite E, app_length. lia. Qed.
Lemma sane_ev a b : sane a -> ev a b -> W b -> s_n b + nonempty (s_cell b) <= 81 -> sane b.
Proof. intros T E w N. constructor; [exact w | exact N | ]. pose proof (t_len _ T). pose proof (ev_len _ _ E). pose proof (e_ne _ _ E). lia. Qed.
Lemma ev_entry a b c : ev a b -> In c (s_entries a) -> In c (s_entries b).
Proof. intros A Hi. destruct (e_new _ _ A) as [n [d [E _]]]. rewrite E. apply in_app_iff. auto. Qed.
Lemma ev_empty a b c : ev a b -> W b -> c < 81 -> P a c = 0%N -> P b c = 0%N.
Proof.
  intros A w Hc Z. destruct (N.eq_dec (P b c) 0) as [E | N]; [exact E | ]. destruct (nonzero_mem _ N) as [x Hx]. apply (e_mono _ _ A c x Hc) in Hx. rewrite Z in Hx. destruct (mem0 x Hx).
Qed.

(** A step from [st]; [F] is known afterwards if it succeeded. *)
Definition went (st : strat) (F : strat -> Prop) (st' : strat) : Prop := sane st' /\ ev st st' /\ F st'.
Definition any (_ : strat) : Prop := True.
Lemma went_any st F st' : went st F st' -> went st any st'.
Proof. intros [A [B _]]. split; [exact A | split; [exact B | exact I]]. Qed.
Lemma went_trans a b F c : ev a b -> went b F c -> went a F c.
Proof. intros E [A [B Q]]. split; [exact A | ]. split; [eapply ev_trans; eassumption | exact Q]. Qed.

(** A step that processes no entry *)
Definition kept (st : strat) (F : strat -> Prop) : strat -> Prop := went st (fun s => s_cnd s = s_cnd st /\ F s).
Lemma kept_any st F st' : kept st F st' -> kept st any st'.
Proof. intros [A [B [C1 _]]]. split; [exact A | split; [exact B | split; [exact C1 | exact I]]]. Qed.
Lemma kept_trans a b F c : ev a b -> s_cnd b = s_cnd a -> kept b F c -> kept a F c.
Proof. intros E Q [A [B [C1 C2]]]. split; [exact A | ]. split; [eapply ev_trans; eassumption | split; [congruence | exact C2]]. Qed.
Lemma kept_refl st (F : strat -> Prop) : sane st -> F st -> kept st F st.
Proof. intros T Q. split; [exact T | split; [apply ev_refl | auto]]. Qed.

Lemma push_went st c d ded : sane st -> c < 81 -> 1 <= d <= 9 -> single_of ded (c, d) ->
  hp (push_new st (c, d) ded) (kept st (fun s => s_cell s = s_cell st)) (fun s => s = st).
Proof.
  intros T Hc Hd' Sg. assert (w := t_w _ T). assert (Lg := w_lg _ w).
  assert (Q : hp (old <- aget (s_grid st) c; if old =? d then Ok (st, true) else if old =? 0 then g <- aset (s_grid st) c d; Ok (set_deds (set_entries (set_grid st g) (s_entries st ++ [(c, d)])) (s_deds st ++ [ded]), true) else Ok (st, false))
    (kept st (fun s => s_cell s = s_cell st)) (fun s => s = st)).
  { rewrite (aget_ok _ _ 0) by lia. cbn [bind]. destruct (Nat.eqb_spec (nth c (s_grid st) 0) d) as [E | E]; [apply kept_refl; [exact T | reflexivity] | ].
    destruct (Nat.eqb_spec (nth c (s_grid st) 0) 0) as [Z | Z]; [ | reflexivity].
    rewrite aset_ok by lia. cbn [bind hp]. assert (V : ev st (set_deds (set_entries (set_grid st (lset (s_grid st) c d)) (s_entries st ++ [(c, d)])) (s_deds st ++ [ded]))).
    { constructor; try reflexivity; try (cbn; lia); [intros k x _ M; exact M | ]. exists [(c, d)], [ded]. split; [reflexivity | ]. split; [reflexivity | ].
      split; [intros x [<- | []]; eauto | ]. cbn [length s_grid set_deds set_entries set_grid]. rewrite <- (zeros_lset (s_grid st) c d) by (try exact Z; lia). lia. }
    split; [ | split; [exact V | split; reflexivity]]. apply (sane_ev st); [exact T | exact V | apply W_push; assumption | apply (t_n _ T)]. }
  destruct Sg as [-> | [h ->]]; unfold push_new; cbn [fst snd]; exact Q.
Qed.

Definition without (c : nat) (mask : N) (s : strat) : Prop := forall x, mem mask x -> ~ mem (P s c) x.
Lemma remove_went naked st c mask : sane st -> c < 81 -> hp (remove_imp st c mask naked) (kept st (without c mask)) (kept st (without c mask)).
Proof.
  intros T Hc. assert (w := t_w _ T). assert (Lp := w_lp _ w). unfold remove_imp. rewrite (aget_ok _ _ 0%N) by lia. cbn [bind]. fold (P st c).
  set (m' := set_without EDigit (P st c) mask). assert (M : forall x, mem m' x <-> mem (P st c) x /\ ~ mem mask x) by (intros x; apply mem_without; apply (w_p _ w c Hc)).
  assert (Sm : is_set EDigit m') by (intros x Hx; apply M in Hx; apply (w_p _ w c Hc x), Hx).
  rewrite aset_ok by lia. cbn [bind]. set (st1 := set_cell st (lset (s_cell st) c m')).
  assert (P1 : forall k, P st1 k = if k =? c then m' else P st k) by (intros k; unfold P, st1; cbn [s_cell set_cell]; rewrite nth_lset by lia; reflexivity).
  assert (Y : nonempty (s_cell st1) <= nonempty (s_cell st)).
  { apply nonempty_lset; [lia | ]. fold (P st c). intros Z. destruct (N.eq_dec m' 0) as [E | N]; [exact E | ]. destruct (nonzero_mem m' N) as [x Hx]. apply M in Hx. rewrite Z in Hx. destruct (mem0 x). tauto. }
  assert (V : ev st st1).
  { constructor; try reflexivity; [ | | exact Y].
    - intros k x Hk. rewrite P1. destruct (Nat.eqb_spec k c) as [-> | ]; [ | auto]. intros Q. apply M, Q.
    - exists [], []. rewrite !app_nil_r. split; [reflexivity | ]. split; [reflexivity | ]. split; [intros x [] | reflexivity]. }
  assert (T1 : sane st1) by (apply (sane_ev st); [exact T | exact V | apply W_set_cell; assumption | change (s_n st1) with (s_n st); pose proof (t_n _ T); lia]).
  assert (Dx : forall s, s_cell s = s_cell st1 -> without c mask s).
  { intros s E x Hx. unfold P. rewrite E. fold (P st1 c). rewrite P1, Nat.eqb_refl. intros Q. apply M in Q. tauto. }
  assert (K1 : kept st (without c mask) st1) by (split; [exact T1 | split; [exact V | split; [reflexivity | apply Dx; reflexivity]]]).
  destruct naked; [ | destruct (set_is_empty m'); cbn [negb hp]; exact K1].
  destruct (unique_cases EDigit m' Sm) as [[E _] | [[x [E Mx]] | [E _]]]; rewrite E; cbn [bind]; [exact K1 | | exact K1].
  assert (Lx : x < 9) by (apply Sm, Mx; reflexivity). rewrite from_index_ok by exact Lx. cbn [bind].
  eapply hp_impl; [apply (push_went st1 c (S x) (DNaked (c, S x)) T1 Hc ltac:(lia)); left; reflexivity | | intros s ->; exact K1]; cbn beta.
  intros s [A [B [C1 C2]]]. split; [exact A | ]. split; [eapply ev_trans; eassumption | ]. split; [exact C1 | apply Dx, C2].
Qed.

(** Loops: what each step establishes for its item is kept by the later steps. *)
Lemma for_went {A} (F : A -> strat -> Prop) (f : A -> strat -> res (strat * bool)) : forall l st, sane st ->
  (forall a s s', In a l -> ev s s' -> F a s -> F a s') ->
  (forall a s, In a l -> sane s -> hp (f a s) (kept s (F a)) (kept s any)) ->
  hp (for_ok l f st) (kept st (fun s => forall a, In a l -> F a s)) (kept st any).
Proof.
  induction l as [ | a l IH]; intros st T K H; cbn [for_ok].
  - apply kept_refl; [exact T | intros a []].
  - eapply hp_bindE; [apply H; [left; reflexivity | exact T] | auto | ]. intros s _ [Ts [Es [Cs Fs]]].
    eapply hp_impl; [apply (IH s Ts) | | ]; cbn beta.
    + intros b x y Hb. apply K. right. exact Hb.
    + intros b x Hb. apply H. right. exact Hb.
    + intros s' [Ts' [Es' [Cs' Fs']]]. split; [exact Ts' | ]. split; [eapply ev_trans; eassumption | ]. split; [congruence | ].
      intros b [<- | Hb]; [ | apply Fs', Hb]. apply (K a s s'); [left; reflexivity | exact Es' | exact Fs].
    + intros s' Q. apply (kept_trans _ s); assumption.
Qed.

Lemma clear_went naked mask cells st : (forall k, In k cells -> k < 81) -> sane st -> hp (clear_neighbors mask naked cells st) (kept st any) (kept st any).
Proof.
  intros H T. unfold clear_neighbors. eapply hp_impl; [apply (for_went (fun _ => any)); [exact T | auto | ] | apply kept_any | auto].
  intros k s Hk Ts. assert (Lp := w_lp _ (t_w _ Ts)). specialize (H k Hk).
  rewrite (aget_ok _ _ 0%N) by lia. cbn [bind]. destruct (set_overlaps EDigit mask _); [ | apply kept_refl; [exact Ts | exact I]].
  eapply hp_impl; [apply remove_went; assumption | intros x Q; eapply kept_any; exact Q | intros x Q; eapply kept_any; exact Q].
Qed.

Lemma insert_went st c d : sane st -> c < 81 -> 1 <= d <= 9 -> P st c <> 0%N ->
  exists st', insert_cp_zs st (c, d) = Ok st' /\ kept st (fun s => P s c = 0%N) st'.
Proof.
  intros T Hc Hd' Np. assert (w := t_w _ T). assert (Lp := w_lp _ w). assert (Cl := nonempty_clear (s_cell st) c ltac:(lia) Np). assert (Xn := t_n _ T).
  unfold insert_cp_zs. cbn [fst snd]. unfold inc8. replace (s_n st <? U8_MAX) with true by (symmetry; apply Nat.ltb_lt; unfold U8_MAX; lia). cbn [bind].
  rewrite aset_ok by lia. cbn [bind]. destruct (digit_set_ok d Hd') as [m [E [Sm M]]]. rewrite E. cbn [bind].
  destruct (houses_eq c Hc) as [A1 [A2 [A3 [A4 [A5 [A6 [B1 [B2 B3]]]]]]]].
  rewrite A1. cbn [bind]. rewrite A2. cbn [bind]. rewrite H_add by (try exact B1; apply (w_lh _ w)). cbn [bind].
  rewrite A3. cbn [bind]. rewrite A4. cbn [bind]. rewrite H_add by (try exact B2; rewrite lset_length; apply (w_lh _ w)). cbn [bind].
  rewrite A5. cbn [bind]. rewrite A6. cbn [bind]. rewrite H_add by (try exact B3; rewrite !lset_length; apply (w_lh _ w)). cbn [bind].
  eexists. split; [reflexivity | ]. match goal with |- kept _ _ ?x => set (st1 := x) end.
  assert (Sh : forall l h, length l = 27 -> h < 27 -> (forall k, k < 27 -> is_set EDigit (nth k l 0%N)) -> forall k, k < 27 -> is_set EDigit (nth k (lset l h (set_or (nth h l 0%N) m)) 0%N)).
  { intros l h Ll Hh Q k Hk. rewrite nth_lset by lia. destruct (k =? h); [ | apply Q, Hk]. intros x Hx. apply mem_or in Hx. destruct Hx as [Hx | Hx]; [apply (Q h Hh x Hx) | apply (Sm x Hx)]. }
  assert (P1 : forall k, P st1 k = if k =? c then 0%N else P st k) by (intros k; unfold P, st1; cbn [s_cell set_house set_cell]; rewrite nth_lset by lia; reflexivity).
  assert (Z1 : s_cell st1 = lset (s_cell st) c 0%N) by reflexivity.
  assert (V : ev st st1).
  { constructor; try reflexivity.
    - intros k x Hk. rewrite P1. destruct (k =? c); [intros Q; destruct (mem0 x Q) | auto].
    - exists [], []. rewrite !app_nil_r. split; [reflexivity | ]. split; [reflexivity | ]. split; [intros x [] | reflexivity].
    - rewrite Z1. lia. }
  split; [ | split; [exact V | ]].
  - apply (sane_ev st); [exact T | exact V | | ].
    + constructor; try apply w; unfold st1; cbn [s_cell s_house set_house set_cell].
      * rewrite lset_length. apply w.
      * rewrite !lset_length. apply w.
      * fold st1. intros k Hk x Q. rewrite P1 in Q. destruct (k =? c); [destruct (mem0 x Q) | apply (w_p _ w k Hk x Q)].
      * unfold Hd. cbn [s_house set_house]. repeat (apply Sh; [rewrite ?lset_length; apply (w_lh _ w) | assumption | ]). apply (w_h _ w).
    + rewrite Z1. change (s_n st1) with (S (s_n st)). lia.
  - split; [reflexivity | ]. rewrite P1, Nat.eqb_refl. reflexivity.
Qed.

Lemma cnd_bound st : sane st -> s_cnd st <= 244.
Proof. intros T. pose proof (w_nl _ (t_w _ T)). pose proof (t_len _ T). lia. Qed.

Lemma step_went st : sane st -> s_cnd st < length (s_entries st) -> went st (fun s => s_cnd s = S (s_cnd st) /\ s_cell s = s_cell st) (set_nd st (S (s_cnd st)) (S (s_hnd st))).
Proof.
  intros T L. assert (w := t_w _ T). assert (V : ev st (set_nd st (S (s_cnd st)) (S (s_hnd st)))).
  { constructor; try reflexivity; [auto | | cbn; lia]. exists [], []. rewrite !app_nil_r. split; [reflexivity | ]. split; [reflexivity | ]. split; [intros x [] | reflexivity]. }
  split; [ | split; [exact V | split; reflexivity]]. apply (sane_ev st); [exact T | exact V | | apply T]. constructor; try apply w; cbn [s_hnd s_cnd set_nd s_entries].
  - f_equal. apply (w_nd _ w).
  - lia.
Qed.

(** The entries with numbers from [a] on that have been processed left their cells without candidates. *)
Definition cleared (a : nat) (st : strat) : Prop := forall i c d, a <= i < s_cnd st -> nth_error (s_entries st) i = Some (c, d) -> P st c = 0%N.
Lemma nth_ev a b i x : ev a b -> nth_error (s_entries a) i = Some x -> nth_error (s_entries b) i = Some x.
Proof. intros E N. destruct (e_new _ _ E) as [n [d [-> _]]]. rewrite nth_error_app1; [exact N | ]. apply nth_error_Some. congruence. Qed.
Lemma nth_ev' a b i x : ev a b -> i < length (s_entries a) -> nth_error (s_entries b) i = Some x -> nth_error (s_entries a) i = Some x.
Proof. intros E L N. destruct (e_new _ _ E) as [n [d [F _]]]. rewrite F, nth_error_app1 in N by exact L. exact N. Qed.
Lemma cleared_ev a st st' : sane st -> W st' -> ev st st' -> s_cnd st' = s_cnd st -> cleared a st -> cleared a st'.
Proof.
  intros T w' E C0 Q i c d Hi Ne. assert (w := t_w _ T). rewrite C0 in Hi. assert (Li : i < length (s_entries st)) by (pose proof (w_nl _ w); lia). assert (Nn := nth_ev' _ _ _ _ E Li Ne).
  apply (ev_empty st st' c E w'); [apply (w_e _ w c d), (nth_error_In _ _ Nn) | apply (Q i c d Hi Nn)].
Qed.

Lemma cleared_cons a st st1 st2 : sane st1 -> W st2 -> ev st1 st2 -> s_cnd st1 = S (s_cnd st) -> cleared (s_cnd st1) st2 -> (forall c d, nth_error (s_entries st1) (s_cnd st) = Some (c, d) -> P st1 c = 0%N) ->
  a = s_cnd st -> cleared a st2.
Proof.
  intros T w2 E C1 Q H -> i c d Hi Ne. destruct (Nat.eq_dec i (s_cnd st)) as [-> | N]; [ | apply (Q i c d); [lia | exact Ne]].
  assert (Li : s_cnd st < length (s_entries st1)) by (pose proof (w_nl _ (t_w _ T)); lia). assert (Nn := nth_ev' _ _ _ _ E Li Ne).
  apply (ev_empty st1 st2 c E w2); [apply (w_e _ (t_w _ T) c d), (nth_error_In _ _ Nn) | apply (H c d Nn)].
Qed.
Lemma cleared_none st : cleared (s_cnd st) st.
Proof. intros i c d Hi. lia. Qed.

Definition left_of (st : strat) : nat := length (s_entries st) + zeros (s_grid st) - s_cnd st.

Lemma singly_went naked : forall fuel st, sane st -> left_of st < fuel ->
  hp (insert_singly_f fuel naked st) (went st (fun s => cleared (s_cnd st) s /\ (s_cnd st < length (s_entries st) -> s_cnd st < s_cnd s))) (went st any).
Proof.
  induction fuel as [ | f IH]; intros st T L; [lia | ]. cbn [insert_singly_f]. assert (w := t_w _ T).
  destruct (Nat.leb_spec (length (s_entries st)) (s_cnd st)) as [G0 | G0].
  { split; [exact T | ]. split; [apply ev_refl | ]. split; [apply cleared_none | lia]. }
  destruct (nth_error (s_entries st) (s_cnd st)) as [[c d] | ] eqn:En; [ | apply nth_error_None in En; lia].
  rewrite (aget_ok _ _ (0, 0)) by exact G0. assert (E := nth_error_nth _ _ (0, 0) En). rewrite E. cbn [bind].
  destruct (w_e _ w c d (nth_error_In _ _ En)) as [Hc Hd'].
  assert (Bc := cnd_bound st T). rewrite !inc16_ok by (try rewrite (w_nd _ w); lia). cbn [bind]. assert (X1 := step_went st T G0). set (st1 := set_nd st _ _) in *.
  destruct X1 as [T1 [E1 [C1 Ce1]]]. assert (w1 := t_w _ T1). cbn [fst snd].
  destruct (digit_set_ok d Hd') as [mask [Em [Sm M]]]. rewrite Em. cbn [bind]. assert (Lp := w_lp _ w1). rewrite (aget_ok (s_cell st1) c 0%N) by (rewrite Lp; exact Hc). cbn [bind]. fold (P st1 c).
  assert (Next : forall st2, sane st2 -> ev st1 st2 -> s_cnd st2 = s_cnd st1 -> P st2 c = 0%N ->
    hp (insert_singly_f f naked st2) (went st (fun s => cleared (s_cnd st) s /\ (s_cnd st < length (s_entries st) -> s_cnd st < s_cnd s))) (went st any)).
  { intros st2 T2 E2 C2 Z2. assert (E02 := ev_trans _ _ _ E1 E2). eapply hp_impl; [apply (IH st2 T2) | | ]; cbn beta.
    - unfold left_of in *. pose proof (ev_len _ _ E02). pose proof (w_nl _ (t_w _ T2)). lia.
    - intros s [Ts [Es [Cs _]]]. split; [exact Ts | ]. split; [eapply ev_trans; eassumption | ]. split; [ | intros _; pose proof (e_cnd _ _ Es); lia].
      apply (cleared_cons (s_cnd st) st st2 s T2 (t_w _ Ts) Es); [lia | exact Cs | | reflexivity]. intros c' d' Ne. assert (Nn := nth_ev _ _ _ _ E02 En). rewrite Nn in Ne. injection Ne as <- <-. exact Z2.
    - intros s Q. apply (went_trans _ st2); [exact E02 | exact Q]. }
  destruct (set_is_empty (P st1 c)) eqn:Ep.
  { apply (Next st1 T1 (ev_refl _) eq_refl). apply (empty_iff EDigit _ (w_p _ w1 c Hc)). exact Ep. }
  assert (Nz : P st1 c <> 0%N) by (intros Z; apply (empty_iff EDigit _ (w_p _ w1 c Hc)) in Z; congruence).
  destruct (set_is_empty (set_and (P st1 c) mask)); [split; [exact T1 | split; [exact E1 | exact I]] | ].
  destruct (insert_went st1 c d T1 Hc Hd' Nz) as [st2 [E2 [T2 [V2 [C2 Z2]]]]]. rewrite E2. cbn [bind]. destruct (neighbors_exact c Hc) as [nb [Enb [_ [_ Nb]]]]. rewrite Enb. cbn [bind].
  eapply hp_bindE; [apply (clear_went naked mask nb st2); [intros k Hk; apply Nb, Hk | exact T2] | intros s Q; apply (went_trans _ st1); [exact E1 | ]; apply (went_trans _ st2); [exact V2 | ]; destruct Q as [A [B _]]; split; [exact A | split; [exact B | exact I]] | ].
  intros st3 _ [T3 [V3 [C3 _]]]. unfold usub. rewrite (proj2 (Nat.leb_le _ _) (w_nl _ (t_w _ T3))). cbn [bind].
  assert (V13 := ev_trans _ _ _ V2 V3). assert (C13 : s_cnd st3 = s_cnd st1) by congruence. assert (Z3 := ev_empty _ _ c V3 (t_w _ T3) Hc Z2).
  destruct (4 <? length (s_entries st3) - s_cnd st3); [ | apply (Next st3); assumption].
  split; [exact T3 | ]. assert (V03 := ev_trans _ _ _ E1 V13). split; [exact V03 | ]. split; [ | intros _; lia].
  apply (cleared_cons (s_cnd st) st st3 st3 T3 (t_w _ T3) (ev_refl _)); [lia | apply cleared_none | | reflexivity].
  intros c' d' Ne. assert (Nn := nth_ev _ _ _ _ V03 En). rewrite Nn in Ne. injection Ne as <- <-. exact Z3.
Qed.

Lemma masks_ok st c : sane st -> c < 81 -> exists a b k, house_masks st c = Ok (a, b, k).
Proof. intros T Hc. rewrite (masks_eq st c (t_w _ T) Hc). eauto. Qed.

Lemma pending_went : forall l st, sane st -> skipn (s_cnd st) (s_entries st) = l ->
  hp (for_ok l batch_insert_one st) (went st (fun s => s_cnd s = s_cnd st + length l /\ s_entries s = s_entries st /\ cleared (s_cnd st) s)) (went st any).
Proof.
  induction l as [ | [c d] l IH]; intros st T El; cbn [for_ok].
  { split; [exact T | ]. split; [apply ev_refl | ]. cbn [length]. split; [lia | ]. split; [reflexivity | apply cleared_none]. }
  destruct (skipn_nth _ _ _ _ El) as [En El']. assert (G0 : s_cnd st < length (s_entries st)) by (apply nth_error_Some; rewrite En; discriminate).
  assert (w := t_w _ T). destruct (w_e _ w c d (nth_error_In _ _ En)) as [Hc Hd']. assert (X1 := step_went st T G0).
  eapply (hp_bindE _ _ (went st (fun s => s_cnd s = S (s_cnd st) /\ s_entries s = s_entries st /\ P s c = 0%N)) (went st any)).
  - unfold batch_insert_one. assert (Bc := cnd_bound st T). rewrite !inc16_ok by (try rewrite (w_nd _ w); lia). cbn [bind]. set (st1 := set_nd st _ _) in *. cbn [fst snd].
    destruct X1 as [T1 [E1 [C1 Ce1]]]. assert (w1 := t_w _ T1).
    assert (Lp := w_lp _ w1). rewrite (aget_ok (s_cell st1) c 0%N) by (rewrite Lp; exact Hc). cbn [bind]. fold (P st1 c).
    destruct (set_is_empty (P st1 c)) eqn:Ep.
    { split; [exact T1 | ]. split; [exact E1 | ]. split; [exact C1 | ]. split; [reflexivity | ]. apply (empty_iff EDigit _ (w_p _ w1 c Hc)). exact Ep. }
    assert (Nz : P st1 c <> 0%N) by (intros Z; apply (empty_iff EDigit _ (w_p _ w1 c Hc)) in Z; congruence). destruct (digit_set_ok d Hd') as [mask [Em _]]. rewrite Em. cbn [bind].
    destruct (masks_ok st1 c T1 Hc) as [a [b [k Ek]]]. rewrite Ek. cbn [bind].
    destruct (_ || _); [split; [exact T1 | split; [exact E1 | exact I]] | ]. destruct (insert_went st1 c d T1 Hc Hd' Nz) as [st2 [E2 [T2 [V2 [C2 Z2]]]]]. assert (En2 : s_entries st2 = s_entries st).
    { unfold insert_cp_zs in E2. repeat match type of E2 with bind ?x _ = _ => destruct x; cbn [bind] in E2; try discriminate end. injection E2 as <-. reflexivity. }
    rewrite E2. cbn [bind hp]. split; [exact T2 | ]. split; [eapply ev_trans; eassumption | ]. split; [congruence | ]. split; [exact En2 | exact Z2].
  - auto.
  - intros st1 _ [T1 [E1 [C1 [Ee1 Z1]]]]. eapply hp_impl; [apply (IH st1 T1); rewrite C1, Ee1; exact El' | | ]; cbn beta.
    + intros s [Ts [Es [Cs [Ees Cls]]]]. split; [exact Ts | ]. split; [eapply ev_trans; eassumption | ]. split; [rewrite Cs, C1; cbn [length]; lia | ]. split; [congruence | ].
      apply (cleared_cons (s_cnd st) st st1 s T1 (t_w _ Ts) Es C1 Cls); [ | reflexivity]. intros c' d' Ne. rewrite Ee1, En in Ne. injection Ne as <- <-. exact Z1.
    + intros s Q. apply (went_trans _ st1); assumption.
Qed.

Lemma conflicts_went naked cells st : (forall k, In k cells -> k < 81) -> sane st ->
  hp (for_ok cells (fun cell st => m <- aget (s_cell st) cell; if set_is_empty m then Ok (st, true) else hm <- house_masks st cell; let '(mr, mk, mb) := hm in remove_imp st cell (set_or (set_or mr mk) mb) naked) st) (kept st any) (kept st any).
Proof.
  intros H T. eapply hp_impl; [apply (for_went (fun _ => any)); [exact T | auto | ] | apply kept_any | auto].
  intros k s Hk Ts. assert (Lp := w_lp _ (t_w _ Ts)). specialize (H k Hk). rewrite (aget_ok _ _ 0%N) by lia. cbn [bind].
  destruct (set_is_empty _); [apply kept_refl; [exact Ts | exact I] | ]. destruct (masks_ok s k Ts H) as [a [b [e Ek]]]. rewrite Ek. cbn [bind].
  eapply hp_impl; [apply remove_went; assumption | intros x Q; eapply kept_any; exact Q | intros x Q; eapply kept_any; exact Q].
Qed.

Lemma batch_went naked st : sane st -> hp (batch_insert naked st) (went st (fun s => length (s_entries st) <= s_cnd s /\ cleared (s_cnd st) s)) (went st any).
Proof.
  intros T. unfold batch_insert, batch_insert_pending, slice_from. assert (L := w_nl _ (t_w _ T)). rewrite (proj2 (Nat.leb_le _ _) L). cbn [bind].
  eapply hp_bindE; [apply (pending_went _ st T eq_refl) | auto | ]. intros st1 _ [T1 [E1 [C1 [Ee Cl]]]]. rewrite skipn_length in C1. unfold batch_remove_conflicts.
  eapply hp_impl; [apply (conflicts_went naked (seq 0 81) st1); [intros k Hk; apply in_seq in Hk; lia | exact T1] | | ]; cbn beta.
  - intros s [Ts [Es [Cs _]]]. split; [exact Ts | ]. split; [eapply ev_trans; eassumption | ]. split; [lia | ]. apply (cleared_ev _ st1 s T1 (t_w _ Ts) Es Cs Cl).
  - intros s [Ts [Es _]]. split; [exact Ts | ]. split; [eapply ev_trans; eassumption | exact I].
Qed.

Lemma cleared_trans a st st' : sane st -> sane st' -> ev st st' -> cleared a st -> cleared (s_cnd st) st' -> cleared a st'.
Proof.
  intros T T' E A B i c d Hi Ne. destruct (Nat.le_gt_cases (s_cnd st) i) as [G0 | G0]; [apply (B i c d); [lia | exact Ne] | ].
  assert (Li : i < length (s_entries st)) by (pose proof (w_nl _ (t_w _ T)); lia). assert (Nn := nth_ev' _ _ _ _ E Li Ne).
  apply (ev_empty st st' c E (t_w _ T')); [apply (w_e _ (t_w _ T) c d), (nth_error_In _ _ Nn) | apply (A i c d); [lia | exact Nn]].
Qed.

Lemma loop_went naked : forall fuel st, sane st -> left_of st < fuel ->
  hp (insert_loop fuel naked st) (went st (fun s => s_cnd s = length (s_entries s) /\ cleared (s_cnd st) s)) (went st any).
Proof.
  induction fuel as [ | f IH]; intros st T L; [lia | ]. cbn [insert_loop]. assert (Ln := w_nl _ (t_w _ T)). unfold usub. rewrite (proj2 (Nat.leb_le _ _) Ln). cbn [bind].
  destruct (length (s_entries st) - s_cnd st) as [ | k] eqn:Ek.
  { split; [exact T | ]. split; [apply ev_refl | ]. split; [lia | apply cleared_none]. }
  assert (Next : forall s, sane s -> ev st s -> s_cnd st < s_cnd s -> cleared (s_cnd st) s ->
    hp (insert_loop f naked s) (went st (fun s => s_cnd s = length (s_entries s) /\ cleared (s_cnd st) s)) (went st any)).
  { intros s Ts Es Cs Cl. eapply hp_impl; [apply (IH s Ts) | | ]; cbn beta.
    - unfold left_of in *. pose proof (ev_len _ _ Es). pose proof (w_nl _ (t_w _ Ts)). lia.
    - intros s' [Ts' [Es' [Cs' Cl']]]. split; [exact Ts' | ]. split; [eapply ev_trans; eassumption | ]. split; [exact Cs' | ]. apply (cleared_trans _ s s' Ts Ts' Es' Cl Cl').
    - intros s' Q. apply (went_trans _ s); assumption. }
  assert (B : hp (st0 <! batch_insert naked st; insert_loop f naked st0) (went st (fun s => s_cnd s = length (s_entries s) /\ cleared (s_cnd st) s)) (went st any)).
  { eapply hp_bindE; [apply (batch_went naked st T) | auto | ]. intros s _ [Ts [Es [Cs Cl]]]. apply (Next s Ts Es); [lia | exact Cl]. }
  assert (Q : hp (st0 <! insert_singly_f (insert_fuel st) naked st; insert_loop f naked st0) (went st (fun s => s_cnd s = length (s_entries s) /\ cleared (s_cnd st) s)) (went st any)).
  { eapply hp_bindE; [apply (singly_went naked (insert_fuel st) st T) | auto | ].
    - unfold insert_fuel, left_of. pose proof (zeros_le (s_grid st)). rewrite (w_lg _ (t_w _ T)) in *. lia.
    - intros s _ [Ts [Es [Cl Cs]]]. apply (Next s Ts Es); [apply Cs; lia | exact Cl]. }
  destruct k as [ | [ | [ | [ | k]]]]; assumption.
Qed.

(** Eliminated candidates are no candidates any more. *)
Definition gone (st : strat) : Prop := forall c d, In (c, d) (s_elims st) -> ~ mem (P st c) (d - 1).
(** Those up to [s_cle] are gone. *)
Definition gone_upto (st : strat) : Prop := forall c d, In (c, d) (firstn (s_cle st) (s_elims st)) -> ~ mem (P st c) (d - 1).
Lemma gone_all st : gone st -> gone_upto st.
Proof. intros Q c d Hi. apply Q. apply in_firstn in Hi. exact Hi. Qed.

Lemma set_cle_went st n : sane st -> n <= length (s_elims st) -> kept st (fun s => s_cell s = s_cell st) (set_cle st n).
Proof.
  intros T L. assert (V : ev st (set_cle st n)).
  { constructor; try reflexivity; [auto | ]. exists [], []. rewrite !app_nil_r. split; [reflexivity | ]. split; [reflexivity | ]. split; [intros x [] | reflexivity]. }
  split; [ | split; [exact V | split; reflexivity]]. apply (sane_ev st); [exact T | exact V | apply W_cle; [apply T | exact L] | apply T].
Qed.

Lemma update_went naked early st : sane st ->
  hp (update_cell_house naked early st) (went st (fun s => s_cnd s = length (s_entries s) /\ cleared (s_cnd st) s /\ (gone_upto st -> gone s))) (went st (fun s => early = false -> gone_upto st -> gone s)).
Proof.
  intros T. unfold update_cell_house, slice_from. assert (w := t_w _ T). rewrite (proj2 (Nat.leb_le _ _) (w_cle _ w)). cbn [bind].
  set (l := skipn (s_cle st) (s_elims st)).
  eapply (hp_bindE _ _ (kept st (fun s => gone_upto st -> gone s)) (fun s => kept st any s /\ early = true)).
  - eapply hp_impl with (Q := kept st (fun s => forall a, In a l -> ~ mem (P s (fst a)) (snd a - 1))) (E := fun s => kept st any s /\ early = true); [ | | auto].
    2:{ intros s [Ts [Es [Cs Fs]]]. split; [exact Ts | ]. split; [exact Es | ]. split; [exact Cs | ]. intros Go c d Hi. rewrite (e_elims _ _ Es) in Hi.
      rewrite <- (firstn_skipn (s_cle st) (s_elims st)) in Hi. apply in_app_iff in Hi. destruct Hi as [Hi | Hi]; [ | apply (Fs (c, d) Hi)].
      intros Q. apply (Go c d Hi). apply (e_mono _ _ Es); [ | exact Q]. apply in_firstn in Hi. apply (w_el _ w c d Hi). }
    unfold apply_elims. assert (Step : forall a s, In a l -> sane s -> exists r, (im <- digit_set (snd a); r <- remove_imp s (fst a) im naked; if early then Ok r else Ok (fst r, true)) = Ok r /\
      kept s (fun s' => ~ mem (P s' (fst a)) (snd a - 1)) (fst r) /\ (snd r = false -> early = true)).
    { intros [c d] s Hi Ts. apply in_skipn in Hi. destruct (w_el _ w c d Hi) as [Hc Hd']. cbn [fst snd]. destruct (digit_set_ok d Hd') as [m [E [_ M]]]. rewrite E. cbn [bind].
      assert (Q := remove_went naked s c m Ts Hc). destruct (remove_imp s c m naked) as [[s' b] | | | ]; try (destruct Q). cbn [bind].
      assert (K : kept s (fun s' => ~ mem (P s' c) (d - 1)) s').
      { assert (Q' : kept s (without c m) s') by (destruct b; exact Q). destruct Q' as [A [B [C1 C2]]]. split; [exact A | ]. split; [exact B | ]. split; [exact C1 | ]. apply C2, M. reflexivity. }
      destruct early; [exists (s', b) | exists (s', true)]; (split; [reflexivity | ]); cbn [fst snd]; (split; [exact K | ]); [auto | discriminate]. }
    assert (Fin : forall s0 : strat, sane s0 -> hp (for_ok l (fun c st => im <- digit_set (snd c); r <- remove_imp st (fst c) im naked; if early then Ok r else Ok (fst r, true)) s0)
      (kept s0 (fun s => forall a, In a l -> ~ mem (P s (fst a)) (snd a - 1))) (fun s => kept s0 any s /\ early = true)); [ | apply Fin, T].
    assert (Lc : forall a, In a l -> fst a < 81) by (intros [c d] Hi; apply in_skipn in Hi; apply (w_el _ w c d Hi)).
    clear T w. generalize dependent l. intros l Step Lc. clear - Step Lc. induction l as [ | a l IH]; intros s0 T0; cbn [for_ok]; [apply kept_refl; [exact T0 | intros a []] | ].
    destruct (Step a s0 (or_introl eq_refl) T0) as [[s b] [E [K Hb]]]. rewrite E. cbn [bindE fst snd] in *. destruct b; cbn [hp].
    + destruct K as [Ts [Es [Cs Fs]]]. eapply hp_impl; [apply IH; [intros b x Hx; apply Step; right; exact Hx | intros b Hx; apply Lc; right; exact Hx | exact Ts] | | ]; cbn beta.
      * intros s' [Ts' [Es' [Cs' Fs']]]. split; [exact Ts' | ]. split; [eapply ev_trans; eassumption | ]. split; [exact (eq_trans Cs' Cs) | ]. intros b [<- | Hx]; [ | apply Fs', Hx].
        intros Q. apply Fs. apply (e_mono _ _ Es'); [apply Lc; left; reflexivity | exact Q].
      * intros s' [Q1 Q2]. split; [apply (kept_trans _ s); assumption | exact Q2].
    + split; [eapply kept_any; exact K | auto].
  - intros s [[A [B _]] Q]. split; [exact A | ]. split; [exact B | ]. rewrite Q. discriminate.
  - intros s _ [Ts [Es [Cs Gs]]]. assert (X1 := set_cle_went s (as_u16 (length (s_elims s))) Ts (as_u16_le _)). set (s1 := set_cle s _) in *. destruct X1 as [T1 [E1 [C1 Ce1]]].
    assert (Kg : forall s2, ev s1 s2 -> gone_upto st -> gone s2).
    { intros s2 E2 Go c d Hi Q. assert (E02 := ev_trans _ _ _ E1 E2). rewrite (e_elims _ _ E02) in Hi. apply (Gs Go c d Hi). apply (e_mono _ _ E02); [apply (w_el _ (t_w _ Ts) c d Hi) | exact Q]. }
    unfold insert_entries. rewrite (w_nd _ (t_w _ T1)), Nat.eqb_refl.
    eapply (hp_bindE _ _ (went s1 (cleared (s_cnd s1))) (went s1 any)).
    + destruct (_ <? _); [ | split; [exact T1 | split; [apply ev_refl | apply cleared_none]]]. eapply hp_impl; [apply (batch_went naked s1 T1) | intros z [Z1 [Z2 [Z3 Z4]]]; split; [exact Z1 | split; [exact Z2 | exact Z4]] | auto].
    + intros s2 [T2 [E2 _]]. split; [exact T2 | ]. split; [apply (ev_trans _ s); [exact Es | ]; apply (ev_trans _ s1); assumption | ]. intros _. apply Kg, E2.
    + intros s2 _ [T2 [E2 C2]]. eapply hp_impl; [apply (loop_went naked (insert_fuel s2) s2 T2) | | ]; cbn beta.
      * unfold insert_fuel, left_of. pose proof (zeros_le (s_grid s2)). rewrite (w_lg _ (t_w _ T2)) in *. lia.
      * intros s3 [T3 [E3 [C3 Cl3]]]. assert (E13 := ev_trans _ _ _ E2 E3). split; [exact T3 | ]. split; [apply (ev_trans _ s); [exact Es | ]; apply (ev_trans _ s1); assumption | ].
        split; [exact C3 | ]. split; [ | apply Kg, E13]. rewrite <- Cs. change (s_cnd s) with (s_cnd s1). apply (cleared_trans _ s2 s3); assumption.
      * intros s3 [T3 [E3 _]]. assert (E13 := ev_trans _ _ _ E2 E3). split; [exact T3 | ]. split; [apply (ev_trans _ s); [exact Es | ]; apply (ev_trans _ s1); assumption | intros _; apply Kg, E13].
Qed.
