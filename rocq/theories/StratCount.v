(** The strategy solver: on a puzzle with a solution the number of eliminations of a run fits into 16 bits. *)
From Coq Require Import List Arith NArith ZArith ZifyNat ZifyN ZifyBool Lia Bool.
From Verif Require Import Spec TableSpec GeomSpec Solver Bits Geom Gen BitLemmas GridProofs BitsProofs GeomProofs GenProofs GuessProofs Strat StratFind StratSolve StratUse StratWhy StratWhyLemmas StratInv StratPos StratFound StratWalk StratWing StratMutant StratCall StratSpec StratHist StratStuck StratPush StratDeduce StratMain StratOnce StratLog StratCertify StratFibre.
Import ListNotations.
Ltac Zify.zify_post_hook ::= Z.to_euclidean_division_equations.

(** * The search of a strategy *)

Definition K_of (S0 : strategy) (st0 : strat) : key -> Prop :=
  match S0 with
  | NakedPairs | NakedTriples | NakedQuads | HiddenPairs | HiddenTriples | HiddenQuads => K_sub
  | XyWing => K_wing 2 (s_cell st0)
  | XyzWing => K_wing 3 (s_cell st0)
  | _ => K_any
  end.

Section Sole.
Variable d0 : list (deduction range).
Definition Rd (st : strat) : Prop := s_deds st = d0.
Definition Qd (st : strat) : Prop := exists d, s_deds st = d0 ++ [d].
Lemma enter_sole cs mk : hits Rd Qd (fun st => Ok (enter_conflicts st cs mk)).
Proof.
  intros st st' b Hr E. unfold enter_conflicts in E. destruct (0 <? _); injection E as <- <-; [right | left]; (split; [reflexivity | ]); unfold Rd, Qd in *; cbn [s_deds set_deds set_elims].
  - rewrite Hr. eexists. reflexivity.
  - exact Hr.
Qed.
Lemma locked_sole poss m d nbs p : hits Rd Qd (on_locked poss m d nbs p).
Proof. intros st st' b Hr E. unfold on_locked in E. inv_bind E cs. revert Hr E. apply enter_sole. Qed.
Lemma naked_sub_sole poss h ps t : hits Rd Qd (on_naked_sub poss h ps t).
Proof. intros st st' b Hr E. unfold on_naked_sub in E. inv_bind E l. inv_bind E cs. revert Hr E. apply enter_sole. Qed.
Lemma hidden_sub_sole pos h ds t : hits Rd Qd (on_hidden_sub pos h ds t).
Proof. intros st st' b Hr E. unfold on_hidden_sub in E. inv_bind E row. inv_bind E l. inv_bind E cs. revert Hr E. apply enter_sole. Qed.
Lemma fish_sole poss all d ls u : hits Rd Qd (on_fish poss all d ls u).
Proof. intros st st' b Hr E. unfold on_fish in E. inv_bind E l. inv_bind E cells. inv_bind E cs. revert Hr E. apply enter_sole. Qed.
Lemma wing_sole xyz poss h hd c1 m1 c2 m2 : hits Rd Qd (on_wing xyz poss h hd c1 m1 c2 m2).
Proof.
  intros st st' b Hr E. unfold on_wing in E. inv_bind E u. destruct u as [ | [x | ]]; try discriminate. inv_bind E d. inv_bind E n0. inv_bind E n1. inv_bind E n2. cbv zeta in E.
  match type of E with (if ?t then _ else _) = _ => destruct t end; [discriminate | ]. inv_bind E cells. inv_bind E cs. inv_bind E s1. inv_bind E s2. revert Hr E. apply enter_sole.
Qed.
End Sole.

(** The state in which the search began, and what the search found *)
Definition searched (S0 : strategy) (stop : bool) (st st' : strat) : Prop := exists D done st0,
  UI D done st0 /\ hist S0 st st0 /\ s_elims st0 = s_elims st /\ found S0 st0 st' /\ more (key_of (hid S0)) (K_of S0 st0) st0 st' /\
  (stop = true -> exists ds, s_deds st' = s_deds st0 ++ ds /\ length ds <= 1).

Lemma sole_of d0 st' : Rd d0 st' \/ Qd d0 st' -> exists ds, s_deds st' = d0 ++ ds /\ length ds <= 1.
Proof. intros [E | [d E]]; [exists []; rewrite app_nil_r; split; [exact E | cbn; lia] | exists [d]; split; [exact E | cbn; lia]]. Qed.
Lemma ok_found (r : res (strat * bool)) S0 st0 st' b : r = Ok (st', b) -> forall Q : strat -> Prop, hp r (fun st => found S0 st0 st /\ Q st) (fun _ => False) -> found S0 st0 st'.
Proof. intros -> Q H. destruct b; cbn [hp] in H; [apply H | destruct H]. Qed.

(** An update, then a search *)
Lemma search_after S0 stop find st st' b : ready_for st -> (forall D done st0, UI D done st0 -> hist S0 st st0 -> s_elims st0 = s_elims st -> find st0 = Ok (st', b) -> s_elims st' = s_elims st \/ searched S0 stop st st') ->
  bindE (update_cell_house_solved st) find = Ok (st', b) -> s_elims st' = s_elims st \/ searched S0 stop st st'.
Proof.
  intros [D [done I]] H E. unfold bindE in E. inv_bind E r. destruct r as [st1 ok]. assert (X := update_inv false S0 D done st I ltac:(discriminate)). unfold update_cell_house_solved in Hb. rewrite Hb in X. cbn [fst snd] in E.
  destruct ok; cbn [hp] in X.
  - destruct X as [H1 [Gr [D' V]]]. apply (H D' done st1 V H1 (g_elims _ _ _ Gr) E).
  - injection E as <- _. left. apply X.
Qed.

Lemma search_rule S0 stop first st st' b : eliminates S0 -> S0 <> AvoidableRectangles -> ready_for st -> deduce S0 stop first st = Ok (st', b) -> s_elims st' = s_elims st \/ searched S0 stop st st'.
Proof.
  intros [N1 N2] Na I.
  assert (Nk : forall n, 2 <= n <= 4 -> s_find_naked_sub n stop st = Ok (st', b) -> s_elims st' = s_elims st \/ searched (naked_strat n) stop st st').
  { intros n Hn. apply search_after; [exact I | ]. intros D done st0 V H E0 E. right. exists D, done, st0. assert (U := v_up _ _ _ V).
    assert (F := find_naked_sub_rule (naked_strat n) st0 stop n (on_naked_sub (s_cell st0)) (u_w _ _ U) ltac:(lia) (fun h F T Hh Pt => naked_callback D st0 U n h F T Hh Hn Pt)).
    split; [exact V | ]. split; [exact H | ]. split; [exact E0 | ]. split; [apply (ok_found _ _ _ _ _ E _ F) | ]. split.
    - assert (M := find_naked_sub_adds (key_of false) _ _ _ _ _ (fun h ps t _ => naked_sub_adds (s_cell st0) h ps t) _ _ _ E). clear -M Hn. assert (X : n = 2 \/ n = 3 \/ n = 4) by lia. destruct X as [-> | [-> | ->]]; exact M.
    - intros ->. apply sole_of, (find_naked_sub_hits _ _ _ _ _ _ (fun h ps t => naked_sub_sole (s_deds st0) _ h ps t) st0 st' b eq_refl E). }
  assert (Hi : forall n, 2 <= n <= 4 -> s_find_hidden_sub n stop st = Ok (st', b) -> s_elims st' = s_elims st \/ searched (hidden_strat n) stop st st').
  { intros n Hn. apply search_after; [exact I | ]. intros D done st1 V1 H1 E1 E. right. destruct (pos_up (hidden_strat n) D done st1 V1) as [st0 [E2 [H2 [V [Po [_ E3]]]]]]. rewrite E2 in E. cbn [bind] in E.
    exists D, (s_elims st0), st0. assert (U := v_up _ _ _ V).
    assert (F := find_hidden_sub_rule (hidden_strat n) st0 stop n (on_hidden_sub (s_pos st0)) (u_w _ _ U) Po ltac:(lia) (fun h F T Hh Pt => hidden_callback D st0 U n h F T Po Hh Hn Pt)).
    split; [exact V | ]. split; [eapply hist_trans; eassumption | ]. split; [congruence | ]. split; [apply (ok_found _ _ _ _ _ E _ F) | ]. split.
    - assert (M := find_hidden_sub_adds (key_of true) _ _ _ _ _ (fun h ps t _ => hidden_sub_adds (s_pos st0) h ps t) _ _ _ E). clear -M Hn. assert (X : n = 2 \/ n = 3 \/ n = 4) by lia. destruct X as [-> | [-> | ->]]; exact M.
    - intros ->. apply sole_of, (find_hidden_sub_hits _ _ _ _ _ _ (fun h ps t => hidden_sub_sole (s_deds st0) _ h ps t) st0 st' b eq_refl E). }
  assert (Fi : forall n, 2 <= n <= 4 -> s_find_fish n stop st = Ok (st', b) -> s_elims st' = s_elims st \/ searched (fish_strat n) stop st st').
  { intros n Hn E. unfold s_find_fish in E. inv_bind E st1. destruct I as [D [done I]]. destruct (pos_inv (fish_strat n) D done st I) as [st1' [E1 [H1 [I1 [Pn [_ El]]]]]]. assert (st1' = st1) by congruence. subst st1'.
    unfold bindE in E. inv_bind E r. destruct r as [st0 ok]. assert (Y := update_inv false (fish_strat n) D _ st1 I1 ltac:(discriminate)). unfold update_cell_house_solved in Hb0. rewrite Hb0 in Y. cbn [fst snd] in E.
    destruct ok; cbn [hp] in Y; [ | injection E as <- _; left; destruct Y as [_ [Y _]]; congruence]. destruct Y as [H2 [Gr [D' V]]]. right. exists D', (s_elims st1), st0. assert (U := v_up _ _ _ V).
    assert (Po : pos_ok st0).
    { apply (pos_ok_of D' st0 U); [rewrite (g_elims _ _ _ Gr); apply (v_pi _ _ _ V) | ]. rewrite (g_pnd _ _ _ Gr), Pn. destruct (grow_false _ _ Gr) as [-> _]. reflexivity. }
    assert (F := find_fish_rule (fish_strat n) st0 stop n (on_fish (s_cell st0)) Po ltac:(lia) (fun all d F T Da Hd' Pt => fish_callback D' st0 U n all d F T Hn Da Hd' Pt)).
    split; [exact V | ]. split; [eapply hist_trans; eassumption | ]. split; [rewrite (g_elims _ _ _ Gr); exact El | ]. split; [apply (ok_found _ _ _ _ _ E _ F) | ]. split.
    - assert (M := find_fish_adds (key_of false) (s_pos st0) n stop (on_fish (s_cell st0)) ltac:(lia) (fun all d ls u Ha _ _ => fish_adds (s_cell st0) all d ls u Ha) _ _ _ E). clear -M Hn. assert (X : n = 2 \/ n = 3 \/ n = 4) by lia. destruct X as [-> | [-> | ->]]; exact M.
    - intros ->. apply sole_of, (find_fish_hits _ _ _ _ _ (fun all d ls u _ => fish_sole (s_deds st0) _ all d ls u) st0 st' b eq_refl E). }
  assert (Wi : forall xyz : bool, (st <! update_cell_house_solved st; find_wing (if xyz then 3 else 2) (if xyz then 2 else 1) (negb xyz) (s_cell st) stop (on_wing xyz (s_cell st)) st) = Ok (st', b) ->
     s_elims st' = s_elims st \/ searched (if xyz then XyzWing else XyWing) stop st st').
  { intros xyz. apply search_after; [exact I | ]. intros D done st0 V H E0 E. right. exists D, done, st0. assert (U := v_up _ _ _ V). set (S1 := if xyz then XyzWing else XyWing) in *.
    assert (F : hp (find_wing (if xyz then 3 else 2) (if xyz then 2 else 1) (negb xyz) (s_cell st0) stop (on_wing xyz (s_cell st0)) st0) (fun st => found S1 st0 st /\ True) (fun _ => False)).
    { eapply hp_impl; [apply (find_wing_rule S1 st0 stop (if xyz then 3 else 2) (if xyz then 2 else 1) (negb xyz) xyz (on_wing xyz (s_cell st0)) (u_w _ _ U)) | | auto].
      - intros h c1 c2 Hh H1 H2 Ge Pt. apply (wing_callback D st0 U xyz (if xyz then 3 else 2) (if xyz then 2 else 1) h c1 c2); try assumption; intros ->; auto.
      - intros st1 [F _]. auto. }
    split; [exact V | ]. split; [exact H | ]. split; [exact E0 | ]. split; [apply (ok_found _ _ _ _ _ E _ F) | ]. split.
    - assert (M := find_wing_adds (key_of false) _ _ _ _ _ _ (fun h hd c1 m1 c2 m2 => wing_adds xyz (s_cell st0) h hd c1 m1 c2 m2) _ _ _ E). clear -M. unfold S1. destruct xyz; exact M.
    - intros ->. apply sole_of, (find_wing_hits (Rd (s_deds st0)) (Qd (s_deds st0)) _ _ _ _ _ (fun h hd c1 m1 c2 m2 => wing_sole (s_deds st0) xyz (s_cell st0) h hd c1 m1 c2 m2) st0 st' b eq_refl E). }
  assert (Mu : forall n, n <> 0 -> s_find_mutant n stop st = Ok (st', b) -> s_elims st' = s_elims st).
  { intros n Nz E. assert (X := mutant_rule MutantSwordfish n stop st Nz ltac:(split; discriminate) ltac:(intros A []) I). rewrite E in X. destruct b; cbn [hp] in X; apply X. }
  destruct S0; cbn [deduce].
  - destruct N1. reflexivity.
  - destruct N2. reflexivity.
  - apply search_after; [exact I | ]. intros D done st0 V H E0 E. right. exists D, done, st0. assert (U := v_up _ _ _ V).
    assert (F := find_locked_rule LockedCandidates st0 stop (on_locked (s_cell st0)) (u_w _ _ U) (fun m x nbs ptg Pt Nb => locked_callback D st0 U m x nbs ptg Pt Nb)).
    split; [exact V | ]. split; [exact H | ]. split; [exact E0 | ]. split; [apply (ok_found _ _ _ _ _ E _ F) | ]. split.
    + apply (find_locked_adds (key_of false) _ _ _ (fun m d nb p Hm En => locked_adds (s_cell st0) m d nb p Hm En) _ _ _ E).
    + intros ->. apply sole_of, (find_locked_hits _ _ _ _ (fun m d nbs p _ => locked_sole (s_deds st0) _ m d nbs p) st0 st' b eq_refl E).
  - apply (Nk 2); lia.
  - apply (Nk 3); lia.
  - apply (Nk 4); lia.
  - apply (Hi 2); lia.
  - apply (Hi 3); lia.
  - apply (Hi 4); lia.
  - apply (Fi 2); lia.
  - apply (Fi 3); lia.
  - apply (Fi 4); lia.
  - apply (Wi false).
  - apply (Wi true).
  - intros E. left. apply (Mu 3 ltac:(discriminate) E).
  - intros E. left. apply (Mu 4 ltac:(discriminate) E).
  - destruct Na. reflexivity.
Qed.

(** * The eliminations of a search, each with the instance that it belongs to *)

Lemma slice_len (L : list cand) r cs : slice L r = Ok cs -> length cs = snd r - fst r.
Proof.
  unfold slice. destruct (Nat.leb_spec (fst r) (snd r)) as [A | A]; cbn [andb]; [ | discriminate]. destruct (Nat.leb_spec (snd r) (length L)) as [B | B]; [ | discriminate].
  intros [= <-]. rewrite firstn_length, skipn_length. lia.
Qed.
Lemma slices_key L h x z : with_slices L x = Ok z -> key_of h z = key_of h x.
Proof.
  destruct x; cbn [with_slices]; try (intros [= <-]; reflexivity);
    match goal with |- bind (slice ?l ?r) _ = _ -> _ => destruct (slice l r) as [q | | | ]; cbn [bind]; try discriminate; intros [= <-]; reflexivity end.
Qed.

Lemma pairs_of keyf L : forall ds a b, tiles a ds b -> NoDup (map keyf ds) -> (forall x, In x ds -> nds L x) ->
  exists E : list (key * cand), NoDup E /\ length E = b - a /\ forall k x, In (k, x) E -> exists d r cs i, In d ds /\ keyf d = k /\ range_of d = Some r /\ slice L r = Ok cs /\ In x cs /\ a <= i /\ nth_error L i = Some x.
Proof.
  induction ds as [ | d ds IH]; intros a b T ND H; cbn [tiles map] in *.
  - exists []. split; [constructor | ]. split; [cbn; lia | intros k x []].
  - apply NoDup_cons_iff in ND. destruct ND as [Nd ND]. destruct (H d (or_introl eq_refl)) as [r [cs [Er [Es Nc]]]]. rewrite Er in T. destruct T as [T1 [T2 T3]].
    destruct (IH (snd r) b T3 ND (fun x Hx => H x (or_intror Hx))) as [E [NE [LE HE]]]. pose proof (tiles_le _ _ _ T3). exists (map (fun x => (keyf d, x)) cs ++ E). split; [ | split].
    + apply NoDup_app_disj; [apply FinFun.Injective_map_NoDup; [intros x y Q; congruence | exact Nc] | exact NE | ]. intros [k x] Hx Hy. apply in_map_iff in Hx. destruct Hx as [x' [Q _]]. injection Q as <- <-.
      destruct (HE _ _ Hy) as [d' [_ [_ [_ [Hd' [Ek _]]]]]]. apply Nd. rewrite <- Ek. apply in_map, Hd'.
    + rewrite app_length, map_length, (slice_len _ _ _ Es), LE. lia.
    + intros k x Hx. apply in_app_iff in Hx. destruct Hx as [Hx | Hx].
      * apply in_map_iff in Hx. destruct Hx as [x' [Q Hx]]. injection Q as <- ->. destruct (proj1 (slice_in _ _ _ Es x) Hx) as [i [Li Ei]]. exists d, r, cs, i. split; [left; reflexivity | ]. repeat (split; [assumption || reflexivity | ]). split; [lia | exact Ei].
      * destruct (HE _ _ Hx) as [d' [r' [cs' [i [Hd' [Ek [Er' [Es' [Hx' [Li Ei]]]]]]]]]]. exists d', r', cs', i. split; [right; exact Hd' | ]. repeat (split; [assumption | ]). split; [lia | exact Ei].
Qed.

Lemma log_of S0 K st0 st' : found S0 st0 st' -> more (key_of (hid S0)) K st0 st' -> exists el E, s_elims st' = s_elims st0 ++ el /\ s_entries st' = s_entries st0 /\ NoDup E /\ length E = length el /\
  forall k x, In (k, x) E -> In x el /\ good st0 x /\ K k /\ exists z, key_of (hid S0) z = k /\ why (listed (s_entries st0)) (listed (s_elims st0)) S0 z /\ In x (removes z).
Proof.
  intros [el [ds [Es [Go [Ti Sh]]]]] [el' [ds' [E1 [E2 [ND H]]]]].
  assert (Ee : s_elims st' = s_elims st0 ++ el) by (rewrite Es; reflexivity). assert (Ed : s_deds st' = s_deds st0 ++ ds) by (rewrite Es; reflexivity). rewrite Ed in E2. apply app_inv_head in E2. subst ds'.
  destruct (pairs_of (key_of (hid S0)) (s_elims st') ds _ _ Ti ND (fun x Hx => proj2 (H x Hx))) as [E [NE [LE HE]]]. exists el, E. split; [exact Ee | ]. split; [rewrite Es; reflexivity | ]. split; [exact NE | ]. split; [rewrite LE, app_length; lia | ].
  intros k x Hx. destruct (HE k x Hx) as [d [r [cs [i [Hd' [Ek [Er [Esl [Hc [Li Ei]]]]]]]]]].
  assert (Hel : In x el) by (rewrite Ee, nth_error_app2 in Ei by exact Li; apply nth_error_In in Ei; exact Ei). split; [exact Hel | ]. split; [apply Go, Hel | ]. split; [rewrite <- Ek; apply H, Hd' | ].
  destruct (Sh d Hd') as [z [Ez [_ [_ Wy]]]]. exists z. split; [rewrite (slices_key _ _ _ _ Ez); exact Ek | ]. split; [exact Wy | ]. rewrite <- Ee in Ez. apply read_removes in Ez. rewrite Er, Esl in Ez. injection Ez as ->. exact Hc.
Qed.

(** * Counting *)

Lemma filter_split {A} (p q : A -> bool) l : (forall x, p x = true -> q x = true) -> length (filter q l) = length (filter p l) + length (filter (fun x => q x && negb (p x)) l).
Proof.
  intros H. induction l as [ | x l IH]; [reflexivity | ]. cbn [filter]. destruct (p x) eqn:Ex.
  - rewrite (H x Ex). cbn [andb negb length]. lia.
  - destruct (q x); cbn [andb negb length]; lia.
Qed.
Lemma flat_map_len {A B} (L : B -> list A) W l : (forall b, In b l -> length (L b) <= W) -> length (flat_map L l) <= W * length l.
Proof.
  induction l as [ | b l IH]; intros H; cbn [flat_map length]; [lia | ]. rewrite app_length. pose proof (H b (or_introl eq_refl)). specialize (IH (fun x Hx => H x (or_intror Hx))). lia.
Qed.
(** Each element of [E] uses up an element of [U], and no element of [U] is used up by more than [W] elements. *)
Lemma spend {A B} (E : list A) (f : A -> B) (L : B -> list A) W U (before after : B -> bool) : NoDup E -> (forall b, after b = true -> before b = true) ->
  (forall a, In a E -> In (f a) U /\ before (f a) = true /\ after (f a) = false /\ In a (L (f a))) -> (forall b, In b U -> length (L b) <= W) ->
  length E + W * length (filter after U) <= W * length (filter before U).
Proof.
  intros ND Mono H HL. rewrite (filter_split after before U Mono). set (T := filter (fun x => before x && negb (after x)) U). assert (X : length E <= length (flat_map L T)).
  { apply NoDup_incl_length; [exact ND | ]. intros a Ha. destruct (H a Ha) as [Hu [Hb [Haf Hl]]]. apply in_flat_map. exists (f a). split; [ | exact Hl]. unfold T. apply filter_In. split; [exact Hu | ]. rewrite Hb, Haf. reflexivity. }
  pose proof (flat_map_len L W T (fun b Hb => HL b (proj1 (proj1 (filter_In _ _ _) Hb)))). lia.
Qed.

(** A digit that is still possible, as a boolean *)
Definition possibleb (en el : list cand) (x : cand) : bool :=
  (fst x <? 81) && (1 <=? snd x) && (snd x <=? 9) && negb (if in_dec cand_dec x el then true else false) &&
  forallb (fun y => negb (fst x =? fst y) && negb (peersb (fst x) (fst y) && (snd x =? snd y))) en.
Lemma possibleb_iff en el c d : possibleb en el (c, d) = true <-> possible (listed en) (listed el) c d.
Proof.
  unfold possibleb, possible, listed. cbn [fst snd]. rewrite !andb_true_iff, Nat.ltb_lt, !Nat.leb_le, negb_true_iff, forallb_forall. split.
  - intros [[[[A B] C] E] F]. split; [exact A | ]. split; [lia | ]. split; [destruct (in_dec cand_dec (c, d) el); [discriminate | assumption] | ]. intros c' d' Hi. specialize (F (c', d') Hi). cbn [fst snd] in F.
    apply andb_true_iff in F. destruct F as [F1 F2]. apply negb_true_iff, Nat.eqb_neq in F1. split; [exact F1 | ]. intros [Pe ->]. apply peersb_iff in Pe. rewrite Pe, Nat.eqb_refl in F2. discriminate.
  - intros [A [B [C F]]]. split; [split; [split; [split; [exact A | lia] | lia] | ] | ]; [destruct (in_dec cand_dec (c, d) el); [contradiction | reflexivity] | ].
    intros [c' d'] Hi. cbn [fst snd]. destruct (F c' d' Hi) as [F1 F2]. apply andb_true_iff. rewrite !negb_true_iff, Nat.eqb_neq. split; [exact F1 | ].
    destruct (peersb c c') eqn:Pe; [ | reflexivity]. apply peersb_iff in Pe. cbn [andb]. apply Nat.eqb_neq. intros Z. apply F2. auto.
Qed.
Lemma possibleb_mono en en' el el' x : possibleb (en ++ en') (el ++ el') x = true -> possibleb en el x = true.
Proof.
  destruct x as [c d]. rewrite !possibleb_iff. apply possible_mono; intros c' d' Hi; apply in_app_iff; left; exact Hi.
Qed.

Section Count.
Variable s : grid.
Hypothesis So : solved s.

(** Two cells of a house, one of which may have the digit of the other *)
Definition slot : Type := nat * (nat * nat).
Definition slots : list slot := list_prod (seq 0 27) (filter (fun pq => fst pq <? snd pq) (list_prod (seq 0 9) (seq 0 9))).
Definition live (en el : list cand) (t : slot) : bool := let '(h, (p, q)) := t in
  possibleb en el (cell_at h p, at_ s (cell_at h q)) || possibleb en el (cell_at h q, at_ s (cell_at h p)).
Lemma live_mono en en' el el' t : live (en ++ en') (el ++ el') t = true -> live en el t = true.
Proof. destruct t as [h [p q]]. cbn [live]. rewrite !orb_true_iff. intros [Q | Q]; apply possibleb_mono in Q; auto. Qed.
Definition open (el : list cand) (x : cand) : bool := if in_dec cand_dec x el then false else true.
Lemma open_mono el el' x : open (el ++ el') x = true -> open el x = true.
Proof. unfold open. destruct (in_dec cand_dec x (el ++ el')) as [ | N]; [discriminate | ]. intros _. destruct (in_dec cand_dec x el) as [Y | ]; [destruct N; apply in_app_iff; auto | reflexivity]. Qed.

Definition sub_dec S0 : {is_sub S0} + {~ is_sub S0}.
Proof. destruct S0; (left; exact I) || (right; intros []). Defined.
(** An upper bound for what full searches of the strategy can still eliminate *)
Definition pot (S0 : strategy) (st : strat) : nat :=
  if sub_dec S0 then 35 * length (filter (live (s_entries st) (s_elims st)) slots) else 81 * length (left_over (s_elims st)).

Lemma pot_mono S0 a b en el : s_entries b = s_entries a ++ en -> s_elims b = s_elims a ++ el -> pot S0 b <= pot S0 a /\ length (left_over (s_elims b)) <= length (left_over (s_elims a)).
Proof.
  intros E1 E2. unfold pot. rewrite E1, E2. assert (X := filter_le (open (s_elims a ++ el)) (open (s_elims a)) (list_prod (seq 0 81) (seq 1 9)) (open_mono _ _)). change (length (left_over (s_elims a ++ el)) <= length (left_over (s_elims a))) in X.
  assert (Y := filter_le (live (s_entries a ++ en) (s_elims a ++ el)) (live (s_entries a) (s_elims a)) slots (live_mono _ _ _ _)).
  split; [ | exact X]. destruct (sub_dec S0); [apply Nat.mul_le_mono_l; exact Y | apply Nat.mul_le_mono_l; exact X].
Qed.
Lemma hist_app S0 a b : hist S0 a b -> exists en el, s_entries b = s_entries a ++ en /\ s_elims b = s_elims a ++ el.
Proof. intros H. destruct (h_new _ _ _ H) as [en [el [ds [E1 [E2 _]]]]]. exists en, el. auto. Qed.

Lemma in_slots h p q : h < 27 -> p < q -> q < 9 -> In (h, (p, q)) slots.
Proof. intros Hh L Hq. apply in_prod; [apply in_seq; lia | ]. apply filter_In. split; [apply in_prod; apply in_seq; lia | cbn [fst snd]; apply Nat.ltb_lt, L]. Qed.

(** The instances that can use up a pair of cells *)
Definition arrow_keys (S0 : strategy) (h p q : nat) : list (key * cand) :=
  map (fun F => ((h, 0, F), (cell_at h p, at_ s (cell_at h q))))
    (if hid S0 then with_without (pattern_size S0) (at_ s (cell_at h p) - 1) (at_ s (cell_at h q) - 1) else with_without (pattern_size S0) q p).
Definition slot_keys (S0 : strategy) (en el : list cand) (t : slot) : list (key * cand) := let '(h, (p, q)) := t in
  if possibleb en el (cell_at h p, at_ s (cell_at h q)) && negb (possibleb en el (cell_at h q, at_ s (cell_at h p))) then arrow_keys S0 h p q else arrow_keys S0 h q p.
Definition slot_of (a : key * cand) : slot :=
  let h := fst (fst (fst a)) in let p := pos_in_house h (fst (snd a)) in let q := pos_in_house h (place s (snd (snd a)) h) in (h, (Nat.min p q, Nat.max p q)).

Lemma sub_size S0 : is_sub S0 -> 2 <= pattern_size S0 <= 4.
Proof. destruct S0; intros []; cbn; lia. Qed.
Lemma slot_keys_len S0 en el t : is_sub S0 -> In t slots -> length (slot_keys S0 en el t) <= 35.
Proof.
  intros HS Ht. destruct t as [h [p q]]. apply in_prod_iff in Ht. destruct Ht as [Hh Hpq]. apply in_seq in Hh. apply filter_In in Hpq. destruct Hpq as [Hpq L]. apply in_prod_iff in Hpq. rewrite !in_seq in Hpq. cbn [fst snd] in L. apply Nat.ltb_lt in L.
  assert (R : forall p, p < 9 -> at_ s (cell_at h p) - 1 < 9).
  { intros p0 Hp. destruct (cell_at_ok h p0 ltac:(lia) Hp) as [_ [Lk _]]. destruct So as [_ [R _]]. specialize (R _ Lk). lia. }
  assert (A : forall p q, p < 9 -> q < 9 -> length (arrow_keys S0 h p q) <= 35).
  { intros p0 q0 Hp Hq. unfold arrow_keys. rewrite map_length. destruct (hid S0); apply with_without_len; try (apply sub_size, HS); auto. }
  cbn [slot_keys]. destruct (_ && _); apply A; lia.
Qed.

(** A full search *)
Lemma full_pass S0 D st0 st' : UP D st0 -> Snd s st0 -> found S0 st0 st' -> more (key_of (hid S0)) (K_of S0 st0) st0 st' -> S0 <> AvoidableRectangles -> eliminates S0 -> S0 <> MutantSwordfish -> S0 <> MutantJellyfish ->
  length (s_elims st') + pot S0 st' <= length (s_elims st0) + pot S0 st0.
Proof.
  intros U Ss F M Na [N1 N2] N3 N4. destruct (log_of S0 _ st0 st' F M) as [el [E [E1 [E2 [NE [LE HE]]]]]]. set (en := s_entries st0) in *. set (e0 := s_elims st0) in *.
  assert (Cs : completion (listed en) (listed e0) s) by (split; [exact So | exact Ss]).
  assert (Pm : forall c d, c < 81 -> 1 <= d <= 9 -> (mem (P st0 c) (d - 1) <-> possible (listed en) (listed e0) c d)).
  { intros c d Hc Hd. rewrite (cand_iff D st0 c d U Hc Hd). split; [intros [A B]; split; [exact Hc | split; [exact Hd | split; [exact A | exact B]]] | intros [_ [_ [A B]]]; split; [exact A | exact B]]. }
  assert (Pi : forall c, c < 81 -> is_set EDigit (P st0 c)) by exact (w_p _ (u_w _ _ U)).
  assert (Al : forall x, good st0 x -> possible (listed en) (listed e0) (fst x) (snd x)).
  { intros [c d] [Hc [Hd [Mx _]]]. cbn [fst snd] in *. apply (cand_iff D st0 c d U Hc Hd) in Mx. destruct Mx as [A B]. split; [exact Hc | ]. split; [exact Hd | ]. split; [exact A | exact B]. }
  assert (Wk : forall W L, pot S0 st0 = W * length (left_over e0) -> pot S0 st' = W * length (left_over (s_elims st')) -> (forall x, fst x < 81 -> length (L x) <= W) ->
     (forall z x, why (listed en) (listed e0) S0 z -> In x (removes z) -> K_of S0 st0 (key_of (hid S0) z) -> In (key_of (hid S0) z) (L x)) -> length (s_elims st') + pot S0 st' <= length e0 + pot S0 st0).
  { intros W L P0 P1 HL HI. rewrite P0, P1, E1, app_length, <- LE. assert (X := spend E snd (fun x => map (fun k => (k, x)) (L x)) W (list_prod (seq 0 81) (seq 1 9)) (open e0) (open (e0 ++ el)) NE (open_mono e0 el)).
    assert (Y : length E + W * length (left_over (e0 ++ el)) <= W * length (left_over e0)); [ | lia]. apply X.
    - intros [k [c d]] Hk. cbn [snd]. destruct (HE k (c, d) Hk) as [Hel [Go [Kk [z [Ek [Wy Hz]]]]]]. destruct (Al _ Go) as [Hc [Hd [Ne _]]]. cbn [fst snd] in *. split; [apply in_prod; apply in_seq; lia | ]. split; [ | split].
      + unfold open. destruct (in_dec cand_dec (c, d) e0) as [Y | ]; [destruct (Ne Y) | reflexivity].
      + unfold open. destruct (in_dec cand_dec (c, d) (e0 ++ el)) as [ | N]; [reflexivity | destruct N; apply in_app_iff; right; exact Hel].
      + apply (in_map (fun k => (k, (c, d)))). rewrite <- Ek. apply HI; [exact Wy | exact Hz | rewrite Ek; exact Kk].
    - intros [c d] Hb. apply in_prod_iff in Hb. rewrite !in_seq in Hb. rewrite map_length. apply HL. cbn [fst]. lia. }
  destruct (sub_dec S0) as [HS | Ns].
  - (* subsets *)
    unfold pot. destruct (sub_dec S0) as [_ | N]; [ | contradiction]. rewrite E1, E2, app_length, <- LE.
    assert (Mono : forall t, live en (e0 ++ el) t = true -> live en e0 t = true) by (intros t; rewrite <- (app_nil_r en) at 1; apply live_mono).
    assert (X := spend E slot_of (slot_keys S0 en e0) 35 slots (live en e0) (live en (e0 ++ el)) NE Mono).
    assert (Y : length E + 35 * length (filter (live en (e0 ++ el)) slots) <= 35 * length (filter (live en e0) slots)); [ | fold en e0; lia]. apply X; [ | intros t Ht; apply slot_keys_len; assumption].
    intros [k [c d]] Hk. destruct (HE k (c, d) Hk) as [Hel [Go [Kk [z [Ek [Wy Hz]]]]]]. assert (Ks : K_sub k) by (destruct S0; try contradiction; exact Kk). rewrite <- Ek in Ks.
    destruct (subset_slot _ _ s Cs S0 z c d HS Wy Hz Ks) as [h [F' [q [Eh [Hh [Hc [Ic [Hq [Nq [Eq [Np HF]]]]]]]]]]]. rewrite Ek in Eh. clear Ek. subst k. destruct (cell_at_inv h c Hh Hc Ic) as [Lp Cc]. set (p := pos_in_house h c) in *.
    destruct (cell_at_ok h q Hh Hq) as [_ [Lk [Ik Pk]]]. assert (Epl : place s d h = cell_at h q) by (apply (place_of _ _ s Cs); assumption).
    unfold slot_of. cbv zeta. cbn [fst snd]. rewrite Epl, Pk. fold p. assert (A0 := Al _ Go). cbn [fst snd] in A0.
    assert (T1 : possibleb en e0 (c, d) = true) by (apply possibleb_iff, A0).
    assert (T2 : possibleb en e0 (cell_at h q, at_ s c) = false) by (destruct (possibleb en e0 (cell_at h q, at_ s c)) eqn:T; [exfalso; apply Np, possibleb_iff, T | reflexivity]).
    assert (T3 : possibleb en (e0 ++ el) (c, d) = false).
    { destruct (possibleb en (e0 ++ el) (c, d)) eqn:T; [exfalso | reflexivity]. apply possibleb_iff in T. destruct T as [_ [_ [T _]]]. apply T. unfold listed. apply in_app_iff. right. exact Hel. }
    assert (T4 : possibleb en (e0 ++ el) (cell_at h q, at_ s c) = false).
    { destruct (possibleb en (e0 ++ el) (cell_at h q, at_ s c)) eqn:T; [exfalso | reflexivity]. rewrite <- (app_nil_r en) in T. apply possibleb_mono in T. congruence. }
    assert (Ha : In ((h, 0, F'), (c, d)) (arrow_keys S0 h p q)).
    { unfold arrow_keys. rewrite Cc, Eq. apply in_map_iff. exists F'. split; [reflexivity | exact HF]. }
    destruct (Nat.lt_ge_cases p q) as [L | L].
    + rewrite Nat.min_l, Nat.max_r by lia. split; [apply in_slots; assumption | ]. cbn [live slot_keys]. rewrite Cc, Eq, T1, T2, T3, T4. cbn [orb andb negb]. auto.
    + rewrite Nat.min_r, Nat.max_l by lia. split; [apply in_slots; lia | ]. cbn [live slot_keys]. rewrite Cc, Eq, T1, T2, T3, T4. cbn [orb andb negb]. auto.
  - assert (P0 : forall st, pot S0 st = 81 * length (left_over (s_elims st))) by (intros st; unfold pot; destruct (sub_dec S0); [contradiction | reflexivity]).
    destruct S0; try (destruct Ns; exact I); try (destruct N1; reflexivity); try (destruct N2; reflexivity); try (destruct Na; reflexivity); try (destruct N3; reflexivity); try (destruct N4; reflexivity).
    + apply (Wk 81 locked_keys (P0 st0) (P0 st') locked_keys_len). intros z x Wy Hz _. apply (locked_keys_in _ _ z x Wy Hz).
    + apply (Wk 81 (fish_keys s 2) (P0 st0) (P0 st') (fun x Hx => fish_keys_len s 2 x ltac:(lia) Hx)). intros z x Wy Hz _. apply (fish_keys_in _ _ s Cs XWing z x I Wy Hz).
    + apply (Wk 81 (fish_keys s 3) (P0 st0) (P0 st') (fun x Hx => fish_keys_len s 3 x ltac:(lia) Hx)). intros z x Wy Hz _. apply (fish_keys_in _ _ s Cs Swordfish z x I Wy Hz).
    + apply (Wk 81 (fish_keys s 4) (P0 st0) (P0 st') (fun x Hx => fish_keys_len s 4 x ltac:(lia) Hx)). intros z x Wy Hz _. apply (fish_keys_in _ _ s Cs Jellyfish z x I Wy Hz).
    + apply (Wk 81 (wing_keys s (P st0)) (P0 st0) (P0 st')); [intros x _; rewrite wing_keys_len; lia | ]. intros z x Wy Hz [h [c1 [c2 [F' [K1 [_ K2]]]]]]. refine (wing_keys_in _ _ s Cs (P st0) Pi Pm XyWing z x (or_introl eq_refl) Wy Hz _). exists h, c1, c2, F'. auto.
    + apply (Wk 81 (wing_keys s (P st0)) (P0 st0) (P0 st')); [intros x _; rewrite wing_keys_len; lia | ]. intros z x Wy Hz [h [c1 [c2 [F' [K1 [_ K2]]]]]]. refine (wing_keys_in _ _ s Cs (P st0) Pi Pm XyzWing z x (or_intror eq_refl) Wy Hz _). exists h, c1, c2, F'. auto.
Qed.

(** A single deduction *)
Lemma new_count e0 el : NoDup el -> (forall x, In x el -> fst x < 81 /\ 1 <= snd x <= 9 /\ ~ In x e0) -> length el + length (left_over (e0 ++ el)) <= length (left_over e0).
Proof.
  intros ND H. assert (X := spend el (fun x => x) (fun x => [x]) 1 (list_prod (seq 0 81) (seq 1 9)) (open e0) (open (e0 ++ el)) ND (open_mono e0 el)).
  assert (Y : length el + 1 * length (left_over (e0 ++ el)) <= 1 * length (left_over e0)); [ | lia]. apply X.
  - intros [c d] Hx. destruct (H (c, d) Hx) as [Hc [Hd' Ne]]. cbn [fst snd] in *. split; [apply in_prod; apply in_seq; lia | ]. unfold open. split; [ | split].
    + destruct (in_dec cand_dec (c, d) e0); [contradiction | reflexivity].
    + destruct (in_dec cand_dec (c, d) (e0 ++ el)) as [ | N]; [reflexivity | destruct N; apply in_app_iff; right; exact Hx].
    + left. reflexivity.
  - intros b _. cbn. lia.
Qed.
Lemma one_pass S0 D K st0 st' : UP D st0 -> found S0 st0 st' -> more (key_of (hid S0)) K st0 st' -> (exists ds, s_deds st' = s_deds st0 ++ ds /\ length ds <= 1) ->
  length (s_elims st') + length (left_over (s_elims st')) <= length (s_elims st0) + length (left_over (s_elims st0)).
Proof.
  intros U [el [ds [Es [Go [Ti _]]]]] [el' [ds' [_ [E2 [_ H]]]]] [ds1 [E3 L1]].
  assert (Ee : s_elims st' = s_elims st0 ++ el) by (rewrite Es; reflexivity). assert (Ed : s_deds st' = s_deds st0 ++ ds) by (rewrite Es; reflexivity).
  rewrite Ed in E2, E3. apply app_inv_head in E2, E3. subst ds' ds1. rewrite Ee, app_length. enough (X : length el + length (left_over (s_elims st0 ++ el)) <= length (left_over (s_elims st0))) by lia.
  apply new_count.
  - destruct ds as [ | d [ | d' ds]]; [ | | cbn [length] in L1; lia].
    + cbn [tiles] in Ti. rewrite app_length in Ti. destruct el; [constructor | cbn [length] in Ti; lia].
    + destruct (H d (or_introl eq_refl)) as [_ [r [cs [Er [Esl Nc]]]]]. cbn [tiles] in Ti. rewrite Er in Ti. destruct Ti as [T1 [T2 T3]]. unfold slice in Esl. destruct ((fst r <=? snd r) && _); [ | discriminate].
      injection Esl as <-. rewrite T1, T3, Ee in Nc. rewrite skipn_app, skipn_all, Nat.sub_diag in Nc. cbn [app skipn] in Nc. rewrite firstn_all2 in Nc by (rewrite app_length; lia). exact Nc.
  - intros [c d] Hx. destruct (Go _ Hx) as [Hc [Hd' [Mx _]]]. cbn [fst snd] in *. split; [exact Hc | ]. split; [exact Hd' | ]. apply (cand_iff D st0 c d U Hc Hd') in Mx. apply Mx.
Qed.

(** The length of the list of eliminations, and how much it may still grow *)
Definition budget (first : strategy) (st : strat) : nat := length (s_elims st) + length (left_over (s_elims st)) + pot first st.

Lemma hist_budget first S0 a b : hist S0 a b -> pot first b <= pot first a /\ length (left_over (s_elims b)) <= length (left_over (s_elims a)).
Proof. intros H. destruct (hist_app S0 a b H) as [en [el [E1 E2]]]. apply (pot_mono first a b en el E1 E2). Qed.

Lemma mutant_same S0 stop is_first st st' b : S0 = MutantSwordfish \/ S0 = MutantJellyfish -> ready_for st -> deduce S0 stop is_first st = Ok (st', b) -> s_elims st' = s_elims st.
Proof.
  intros HS I E. assert (Mu : forall n, n <> 0 -> s_find_mutant n stop st = Ok (st', b) -> s_elims st' = s_elims st).
  { intros n Nz F. assert (X := mutant_rule MutantSwordfish n stop st Nz ltac:(split; discriminate) ltac:(intros A []) I). rewrite F in X. destruct b; cbn [hp] in X; apply X. }
  destruct HS as [-> | ->]; [apply (Mu 3 ltac:(discriminate) E) | apply (Mu 4 ltac:(discriminate) E)].
Qed.
Lemma mutant_dec S0 : {S0 = MutantSwordfish \/ S0 = MutantJellyfish} + {S0 <> MutantSwordfish /\ S0 <> MutantJellyfish}.
Proof. destruct S0; (left; left; reflexivity) || (left; right; reflexivity) || (right; split; discriminate). Qed.

Lemma step_kept S0 stop is_first st st' b : implemented [S0] -> ready_for st -> Snd s st -> deduce S0 stop is_first st = Ok (st', b) ->
  hist S0 st st' /\ (b = true -> ready_for st') /\ Snd s st' /\
  (s_elims st' = s_elims st \/ (eliminates S0 /\ S0 <> AvoidableRectangles /\ S0 <> MutantSwordfish /\ S0 <> MutantJellyfish /\ searched S0 stop st st')).
Proof.
  intros Im I Ss E. assert (X := deduce_spec S0 stop is_first st (Im S0 (or_introl eq_refl)) I). rewrite E in X. cbn [hp] in X. assert (H : hist S0 st st') by (destruct b; apply X). split; [exact H | ]. split; [ | split; [apply (h_snd _ _ _ H s So Ss) | ]].
  - intros ->. destruct X as [_ [[D [done [I1 _]]] _]]. exists D, done. exact I1.
  - destruct (is_single_dec S0) as [Y | N]; [left; apply (single_no_elims S0 _ _ Y H) | ]. assert (El : eliminates S0) by (split; intros Z; apply N; [left | right]; exact Z).
    assert (Na : S0 <> AvoidableRectangles) by (intros ->; discriminate E). destruct (mutant_dec S0) as [Mu | [N3 N4]]; [left; apply (mutant_same S0 stop is_first st st' b Mu I E) | ].
    destruct (search_rule S0 stop is_first st st' b El Na I E) as [Q | Q]; [left; exact Q | right; auto].
Qed.

Lemma budget_one first S0 st st' b : implemented [S0] -> ready_for st -> Snd s st -> deduce S0 true false st = Ok (st', b) -> budget first st' <= budget first st /\ Snd s st' /\ (b = true -> ready_for st').
Proof.
  intros Im I Ss E. destruct (step_kept S0 true false st st' b Im I Ss E) as [H [R [S1 C]]]. split; [ | auto]. destruct (hist_budget first S0 st st' H) as [B1 B2]. unfold budget. destruct C as [Q | [El [Na [N3 [N4 [D [done [st0 [V [H0 [E0 [F [M So']]]]]]]]]]]]].
  - rewrite Q in *. lia.
  - pose proof (one_pass S0 D _ st0 st' (v_up _ _ _ V) F M (So' eq_refl)) as X. rewrite E0 in X. lia.
Qed.
Lemma budget_all first st st' b : implemented [first] -> ready_for st -> Snd s st -> deduce first false true st = Ok (st', b) -> budget first st' <= budget first st /\ Snd s st' /\ (b = true -> ready_for st').
Proof.
  intros Im I Ss E. destruct (step_kept first false true st st' b Im I Ss E) as [H [R [S1 C]]]. split; [ | auto]. destruct (hist_budget first first st st' H) as [B1 B2]. unfold budget. destruct C as [Q | [El [Na [N3 [N4 [D [done [st0 [V [H0 [E0 [F [M _]]]]]]]]]]]]].
  - rewrite Q in *. lia.
  - pose proof (full_pass first D st0 st' (v_up _ _ _ V) (h_snd _ _ _ H0 s So Ss) F M Na El N3 N4) as X. destruct (hist_budget first first st st0 H0) as [B3 _]. rewrite E0 in X. lia.
Qed.

Lemma one_of {S0 t} : implemented (S0 :: t) -> implemented [S0].
Proof. intros Im S1 [<- | []]. apply Im. left. reflexivity. Qed.
Lemma rest_budget first nd ne : forall rest st st' again, implemented rest -> ready_for st -> Snd s st -> try_rest rest nd ne st = Ok (st', again) -> budget first st' <= budget first st /\ Snd s st' /\ (again = true -> ready_for st').
Proof.
  induction rest as [ | S0 t IH]; intros st st' again Im I Ss E; cbn [try_rest] in E; [injection E as <- <-; split; [lia | split; [exact Ss | discriminate]] | ].
  inv_bind E r. destruct r as [st1 ok]. unfold deduce_one in Hb. destruct (budget_one first S0 st st1 ok (one_of Im) I Ss Hb) as [P1 [S1 R1]].
  destruct ok; cbn [negb] in E; [ | injection E as <- <-; split; [exact P1 | split; [exact S1 | discriminate]]].
  destruct ((nd <? length (s_entries st1)) || (ne <? length (s_elims st1))); [injection E as <- <-; auto | ].
  destruct (IH st1 st' again (fun S Hi => Im S (or_intror Hi)) (R1 eq_refl) S1 E) as [P2 R2]. split; [lia | exact R2].
Qed.
Lemma loop_budget first rest : implemented (first :: rest) -> forall fuel st st', ready_for st -> Snd s st -> try_loop fuel first rest st = Ok st' -> budget first st' <= budget first st.
Proof.
  intros Im. induction fuel as [ | f IH]; intros st st' I Ss E; cbn [try_loop] in E; [discriminate | ].
  destruct (strat_is_solved st); [injection E as <-; lia | ]. inv_bind E r. destruct r as [st1 ok]. unfold deduce_all in Hb.
  destruct (budget_all first st st1 ok (one_of Im) I Ss Hb) as [P1 [S1 R1]].
  destruct ok; cbn [negb] in E; [ | injection E as <-; lia]. assert (I1 := R1 eq_refl).
  destruct (length (s_entries st) <? length (s_entries st1)); [specialize (IH _ _ I1 S1 E); lia | ]. inv_bind E r. destruct r as [st2 again].
  destruct (rest_budget first _ _ _ _ _ _ (fun S Hi => Im S (or_intror Hi)) I1 S1 Hb0) as [P2 [S2 I2]]. destruct again; [specialize (IH _ _ (I2 eq_refl) S2 E); lia | injection E as <-; lia].
Qed.
Lemma slots_len : length slots = 972.
Proof. vm_compute. reflexivity. Qed.
Lemma pot_max first st : (N.of_nat (pot first st) <= 59049)%N.
Proof.
  unfold pot. destruct (sub_dec first).
  - assert (Y := filter_le (live (s_entries st) (s_elims st)) (fun _ => true) slots (fun _ _ => eq_refl)). assert (Z : forall l : list slot, length (filter (fun _ => true) l) = length l) by (clear; induction l as [ | x l IH]; cbn [filter length]; congruence).
    rewrite Z, slots_len in Y. lia.
  - pose proof (left_over_max (s_elims st)). lia.
Qed.
Lemma try_solve_elims first rest st st' : implemented (first :: rest) -> ready_for st -> Snd s st -> try_solve (first :: rest) st = Ok st' -> (N.of_nat (length (s_elims st')) <= N.of_nat (length (s_elims st)) + 59778)%N.
Proof.
  intros Im I Ss. cbn [try_solve]. intros E. apply loop_budget in E; try assumption. unfold budget in E. pose proof (left_over_max (s_elims st)). pose proof (pot_max first st). lia.
Qed.
End Count.
