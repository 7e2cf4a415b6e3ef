(** The strategy solver: a search finds no instance of its pattern twice, and an instance eliminates no candidate twice. *)
From Coq Require Import List Arith NArith ZArith ZifyNat ZifyN ZifyBool Lia Bool.
From Verif Require Import Spec TableSpec GeomSpec Solver Bits Geom Gen BitLemmas GridProofs BitsProofs GeomProofs GenProofs GuessProofs Strat StratFind StratSolve StratUse StratWhy StratInv StratPos StratFound StratWalk StratWing StratOnce.
Import ListNotations.
Ltac Zify.zify_post_hook ::= Z.to_euclidean_division_equations.

(** * The log of a search *)

Definition key : Type := nat * nat * N.
(** What tells an instance of a pattern from the others: the house and the cells of a naked subset, the house and the digits of
    a hidden one, the digit and the lines of a fish, the miniline, digit and kind of locked candidates, the cells of a wing. *)
Definition key_of {A} (hid : bool) (x : deduction A) : key :=
  match x with
  | DSubsets h p d _ => (h, 0, if hid then d else p)
  | DBasicFish d ls _ _ => (d, 0, ls)
  | DLocked d m p _ => (m, d, if p then 1%N else 0%N)
  | DWing h _ p _ => (h, 0, p)
  | _ => (0, 0, 0%N)
  end.

Section Log.
Variable keyf : deduction range -> key.
(** The candidates of the deduction in the list of eliminations are distinct. *)
Definition nds (l : list cand) (x : deduction range) : Prop := exists r cs, range_of x = Some r /\ slice l r = Ok cs /\ NoDup cs.
(** The new deductions have distinct keys, which satisfy [K]. *)
Definition more (K : key -> Prop) (a b : strat) : Prop := exists el ds, s_elims b = s_elims a ++ el /\ s_deds b = s_deds a ++ ds /\
  NoDup (map keyf ds) /\ forall x, In x ds -> K (keyf x) /\ nds (s_elims b) x.
Definition adds {R} (K : key -> Prop) (f : strat -> res (strat * R)) : Prop := forall s s' b, f s = Ok (s', b) -> more K s s'.

Lemma more_refl K s : more K s s.
Proof. exists [], []. rewrite !app_nil_r. repeat split; [constructor | destruct H | destruct H]. Qed.
Lemma more_impl (K K' : key -> Prop) a b : (forall k, K k -> K' k) -> more K a b -> more K' a b.
Proof. intros H [el [ds [A [B [C D]]]]]. exists el, ds. repeat split; try assumption; [apply H | ]; apply D; assumption. Qed.
Lemma more_trans (K1 K2 K : key -> Prop) a b c : (forall k, K1 k -> K2 k -> False) -> (forall k, K1 k -> K k) -> (forall k, K2 k -> K k) -> more K1 a b -> more K2 b c -> more K a c.
Proof.
  intros Dj H1 H2 [el1 [ds1 [A1 [B1 [C1 D1]]]]] [el2 [ds2 [A2 [B2 [C2 D2]]]]]. exists (el1 ++ el2), (ds1 ++ ds2).
  split; [rewrite A2, A1, app_assoc; reflexivity | ]. split; [rewrite B2, B1, app_assoc; reflexivity | ]. split.
  - rewrite map_app. apply NoDup_app_disj; [exact C1 | exact C2 | ]. intros k Hk Hk'. apply in_map_iff in Hk. destruct Hk as [x [<- Hx]]. apply in_map_iff in Hk'. destruct Hk' as [y [E Hy]].
    apply (Dj (keyf x)); [apply D1, Hx | rewrite <- E; apply D2, Hy].
  - intros x Hx. apply in_app_iff in Hx. destruct Hx as [Hx | Hx]; [ | split; [apply H2 | ]; apply D2, Hx]. destruct (D1 x Hx) as [Q [r [cs [E1 [E2 E3]]]]].
    split; [apply H1, Q | ]. exists r, cs. split; [exact E1 | ]. split; [rewrite A2; apply slice_app, E2 | exact E3].
Qed.

Lemma adds_impl {R} (K K' : key -> Prop) (f : strat -> res (strat * R)) : (forall k, K k -> K' k) -> adds K f -> adds K' f.
Proof. intros H A s s' b E. apply (more_impl K); [exact H | apply (A s s' b E)]. Qed.
Lemma adds_same {R} K (x : R) : adds K (fun s => Ok (s, x)).
Proof. intros s s' b E. injection E as <- _. apply more_refl. Qed.
Lemma adds_map {R R'} K (f : strat -> res (strat * R)) (g : R -> R') : adds K f -> adds K (fun s => r <- f s; Ok (fst r, g (snd r))).
Proof. intros A s s' b E. inv_bind E r. destruct r as [s1 x]. injection E as <- _. apply (A s s1 x Hb). Qed.
Lemma adds_for_ord {A} (f : A -> strat -> res (strat * ctl)) (Kx : A -> key -> Prop) (l : list A) : ForallOrdPairs (fun x y => forall k, Kx x k -> Kx y k -> False) l ->
  (forall x, In x l -> adds (Kx x) (f x)) -> adds (fun k => exists x, In x l /\ Kx x k) (for_ctl l f).
Proof.
  induction 1 as [ | x l Dj _ IH]; intros H; [apply adds_same | ]. intros s s' c E. cbn [for_ctl] in E. inv_bind E r. destruct r as [s1 c1]. cbn [fst snd] in E.
  assert (M1 := H x (or_introl eq_refl) s s1 c1 Hb).
  assert (X : adds (fun k => exists y, In y l /\ Kx y k) (for_ctl l f)) by (apply IH; intros y Hy; apply H; right; exact Hy).
  assert (Only : more (fun k => exists y, In y (x :: l) /\ Kx y k) s s1) by (apply (more_impl (Kx x)); [intros k Hk; exists x; split; [left; reflexivity | exact Hk] | exact M1]).
  destruct c1; [ | injection E as <- _; exact Only | injection E as <- _; exact Only].
  apply (more_trans (Kx x) (fun k => exists y, In y l /\ Kx y k) _ s s1 s'); [ | | | exact M1 | apply (X s1 s' c E)].
  - intros k Hk [y [Hy Hk']]. rewrite Forall_forall in Dj. apply (Dj y Hy k Hk Hk').
  - intros k Hk. exists x. split; [left; reflexivity | exact Hk].
  - intros k [y [Hy Hk]]. exists y. split; [right; exact Hy | exact Hk].
Qed.
Lemma adds_for {A} (l : list A) (f : A -> strat -> res (strat * ctl)) (Kx : A -> key -> Prop) : NoDup l -> (forall x, In x l -> adds (Kx x) (f x)) ->
  (forall x y k, In x l -> In y l -> Kx x k -> Kx y k -> x = y) -> adds (fun k => exists x, In x l /\ Kx x k) (for_ctl l f).
Proof.
  intros ND H Dj. apply adds_for_ord; [ | exact H]. clear H. induction ND as [ | x l Nx ND IH]; constructor.
  - apply Forall_forall. intros y Hy k Hx Hk. apply Nx. rewrite (Dj x y k (or_introl eq_refl) (or_intror Hy) Hx Hk). exact Hy.
  - apply IH. intros y z k Hy Hz. apply Dj; right; assumption.
Qed.
Lemma adds_finish K f : adds K f -> adds K (fun s => finish (f s)).
Proof. apply (adds_map K f ctl_ok). Qed.

(** ** Walks over the subsets of a list *)

(** [F] is [pset] and at least one element of [l]. *)
Definition beyond (pset : N) (l : list nat) (F : N) : Prop := (forall i, mem pset i -> mem F i) /\ (forall i, mem F i -> mem pset i \/ In i l) /\ exists i, In i l /\ mem F i.
Definition keys (mk : N -> key) (Q : N -> Prop) (k : key) : Prop := exists F, k = mk F /\ Q F.

Variable mk : N -> key.
Hypothesis mk_inj : forall F F', mk F = mk F' -> F = F'.

Lemma enter_then pset l a b c : (forall i, In i l -> ~ mem pset i) -> more (fun k => k = mk pset) a b -> more (keys mk (beyond pset l)) b c ->
  more (keys mk (fun F => F = pset \/ beyond pset l F)) a c.
Proof.
  intros Dj. apply more_trans.
  - intros k -> [F [E [_ [_ [i [Hi Mi]]]]]]. apply mk_inj in E. subst F. apply (Dj i Hi Mi).
  - intros k ->. exists pset. auto.
  - intros k [F [E Q]]. exists F. auto.
Qed.
Lemma walk_step pset pset' p l a b c : (forall i, mem pset' i <-> mem pset i \/ i = p) -> ~ mem pset p -> ~ In p l ->
  more (keys mk (fun F => F = pset' \/ beyond pset' l F)) a b -> more (keys mk (beyond pset l)) b c -> more (keys mk (beyond pset (p :: l))) a c.
Proof.
  intros Mp Np Nl. assert (Has : forall F, F = pset' \/ beyond pset' l F -> mem F p) by (intros F [-> | [Q _]]; [apply Mp; auto | apply Q, Mp; auto]). apply more_trans.
  - intros k [F [E Q]] [F' [E' Q']]. rewrite E in E'. apply mk_inj in E'. subst F'. apply Has in Q. destruct Q' as [_ [Q' _]]. destruct (Q' p Q) as [X | X]; contradiction.
  - intros k [F [E Q]]. exists F. split; [exact E | ]. assert (H := Has F Q). split; [ | split; [ | exists p; split; [left; reflexivity | exact H]]].
    + intros i Hi. destruct Q as [-> | [Q _]]; [apply Mp; auto | apply Q, Mp; auto].
    + intros i Hi. destruct Q as [-> | [_ [Q _]]]; [apply Mp in Hi; destruct Hi as [Hi | ->]; [left; exact Hi | right; left; reflexivity] | ].
      destruct (Q i Hi) as [X | X]; [apply Mp in X; destruct X as [X | ->]; [left; exact X | right; left; reflexivity] | right; right; exact X].
  - intros k [F [E [Q1 [Q2 [i [Hi Mi]]]]]]. exists F. split; [exact E | ]. split; [exact Q1 | ]. split; [intros j Hj; destruct (Q2 j Hj); [left; assumption | right; right; assumption] | ].
    exists i. split; [right; exact Hi | exact Mi].
Qed.
Lemma walk_skip pset p l a b : more (keys mk (beyond pset l)) a b -> more (keys mk (beyond pset (p :: l))) a b.
Proof.
  apply more_impl. intros k [F [E [Q1 [Q2 [i [Hi Mi]]]]]]. exists F. split; [exact E | ]. split; [exact Q1 | ]. split; [intros j Hj; destruct (Q2 j Hj); [left; assumption | right; right; assumption] | ].
  exists i. split; [right; exact Hi | exact Mi].
Qed.
Lemma enter_only pset l a b : more (fun k => k = mk pset) a b -> more (keys mk (fun F => F = pset \/ beyond pset l F)) a b.
Proof. apply more_impl. intros k ->. exists pset. auto. Qed.
Lemma enter_rest pset l a b : more (keys mk (beyond pset l)) a b -> more (keys mk (fun F => F = pset \/ beyond pset l F)) a b.
Proof. apply more_impl. intros k [F [E Q]]. exists F. auto. Qed.

Lemma naked_enter_adds house size stop on pset total rest l : (forall i, In i l -> ~ mem pset i) -> (set_len pset = size -> adds (fun k => k = mk pset) (on house pset total)) ->
  adds (keys mk (beyond pset l)) rest -> adds (keys mk (fun F => F = pset \/ beyond pset l F)) (naked_enter house size stop on pset total rest).
Proof.
  intros Dj H1 H2 s s' b E. unfold naked_enter in E. destruct (size <? set_len pset); [injection E as <- _; apply more_refl | ].
  destruct (Nat.eqb_spec (set_len pset) size) as [Es | _]; cbn [andb] in E; [ | apply enter_rest, (H2 s s' b E)].
  destruct (set_len total =? set_len pset); [ | apply enter_rest, (H2 s s' b E)].
  inv_bind E r. destruct r as [s1 b1]. cbn [fst snd] in E. specialize (H1 Es s s1 b1 Hb). destruct (b1 && stop); [injection E as <- _; apply enter_only, H1 | ].
  apply (enter_then pset l s s1 s' Dj H1 (H2 s1 s' b E)).
Qed.
Lemma naked_walk_adds poss house size stop on : (forall ps t, set_len ps = size -> adds (fun k => k = mk ps) (on house ps t)) ->
  forall l pset total, NoDup l -> (forall i, In i l -> ~ mem pset i) -> adds (keys mk (beyond pset l)) (naked_walk poss house size stop on l pset total).
Proof.
  intros H. induction l as [ | p l IH]; intros pset total ND Dj s s' b E; cbn [naked_walk] in E; [injection E as <- _; apply more_refl | ]. inv_bind E cell. inv_bind E m.
  apply NoDup_cons_iff in ND. destruct ND as [Np ND]. assert (Dj' : forall i, In i l -> ~ mem pset i) by (intros i Hi; apply Dj; right; exact Hi).
  destruct (set_is_empty m); [apply walk_skip, (IH pset total ND Dj' s s' b E) | ]. inv_bind E ps. inv_bind E r. destruct r as [s1 b1]. cbn [fst snd] in E.
  assert (Mp : forall i, mem (set_or pset ps) i <-> mem pset i \/ i = p) by (intros i; rewrite mem_or; match goal with X : as_set _ p = Ok ps |- _ => rewrite (mem_single _ _ _ _ X) end; reflexivity).
  assert (M1 : more (keys mk (fun F => F = set_or pset ps \/ beyond (set_or pset ps) l F)) s s1).
  { assert (Dj2 : forall i, In i l -> ~ mem (set_or pset ps) i) by (intros i Hi Q; apply Mp in Q; destruct Q as [Q | ->]; [apply (Dj' i Hi Q) | contradiction]).
    match goal with X : naked_enter _ _ _ _ _ _ _ _ = Ok (s1, b1) |- _ => revert X end. apply naked_enter_adds; [exact Dj2 | apply H | apply IH; assumption]. }
  assert (M2 : b1 = false -> more (keys mk (beyond pset l)) s1 s') by (intros ->; apply (IH pset total ND Dj' s1 s' b E)).
  apply (walk_step pset (set_or pset ps) p l s s1 s' Mp (Dj p (or_introl eq_refl)) Np M1). destruct b1; [injection E as <- _; apply more_refl | apply M2; reflexivity].
Qed.

Lemma hidden_enter_adds house size stop on pset total rest l : (forall i, In i l -> ~ mem pset i) -> (set_len pset = size -> adds (fun k => k = mk pset) (on house pset total)) ->
  adds (keys mk (beyond pset l)) rest -> adds (keys mk (fun F => F = pset \/ beyond pset l F)) (hidden_enter house size stop on pset total rest).
Proof.
  intros Dj H1 H2 s s' b E. unfold hidden_enter in E. destruct (size <? set_len pset); [injection E as <- _; apply more_refl | ].
  destruct (Nat.eqb_spec (set_len pset) size) as [Es | _]; cbn [andb] in E; [ | apply enter_rest, (H2 s s' b E)].
  destruct (set_len total =? size); [ | apply enter_rest, (H2 s s' b E)].
  inv_bind E r. destruct r as [s1 b1]. cbn [fst snd] in E. specialize (H1 Es s s1 b1 Hb). destruct (b1 && stop); [injection E as <- _; apply enter_only, H1 | ].
  apply (enter_then pset l s s1 s' Dj H1 (H2 s1 s' b E)).
Qed.
Lemma hidden_walk_adds row house size stop on : (forall ps t, set_len ps = size -> adds (fun k => k = mk ps) (on house ps t)) ->
  forall l pset total, (forall d, In d l -> 1 <= d) -> NoDup l -> (forall i, In i (map pred l) -> ~ mem pset i) -> adds (keys mk (beyond pset (map pred l))) (hidden_walk row house size stop on l pset total).
Proof.
  intros H. induction l as [ | d l IH]; intros pset total Pos ND Dj s s' b E; cbn [hidden_walk] in E; [injection E as <- _; apply more_refl | ]. inv_bind E m.
  apply NoDup_cons_iff in ND. destruct ND as [Np ND]. cbn [map] in *. assert (Dj' : forall i, In i (map pred l) -> ~ mem pset i) by (intros i Hi; apply Dj; right; exact Hi).
  assert (Pos' : forall d, In d l -> 1 <= d) by (intros e He; apply Pos; right; exact He).
  assert (Np' : ~ In (pred d) (map pred l)).
  { intros Q. apply in_map_iff in Q. destruct Q as [e [Q He]]. apply Np. assert (1 <= d) by (apply Pos; left; reflexivity). specialize (Pos' e He). replace d with e by lia. exact He. }
  destruct (set_is_empty m); [apply walk_skip, (IH pset total Pos' ND Dj' s s' b E) | ]. inv_bind E ps. inv_bind E r. destruct r as [s1 b1]. cbn [fst snd] in E.
  assert (Mp : forall i, mem (set_or pset ps) i <-> mem pset i \/ i = pred d).
  { intros i. rewrite mem_or. match goal with X : digit_set d = Ok ps |- _ => unfold digit_set in X; rewrite (mem_single _ _ _ _ X) end. unfold digit_as_index. rewrite Nat.sub_1_r. reflexivity. }
  assert (M1 : more (keys mk (fun F => F = set_or pset ps \/ beyond (set_or pset ps) (map pred l) F)) s s1).
  { assert (Dj2 : forall i, In i (map pred l) -> ~ mem (set_or pset ps) i) by (intros i Hi Q; apply Mp in Q; destruct Q as [Q | ->]; [apply (Dj' i Hi Q) | contradiction]).
    match goal with X : hidden_enter _ _ _ _ _ _ _ _ = Ok (s1, b1) |- _ => revert X end. apply hidden_enter_adds; [exact Dj2 | apply H | apply IH; assumption]. }
  assert (M2 : b1 = false -> more (keys mk (beyond pset (map pred l))) s1 s') by (intros ->; apply (IH pset total Pos' ND Dj' s1 s' b E)).
  apply (walk_step pset (set_or pset ps) (pred d) (map pred l) s s1 s' Mp (Dj _ (or_introl eq_refl)) Np' M1). destruct b1; [injection E as <- _; apply more_refl | apply M2; reflexivity].
Qed.

Lemma fish_enter_adds d size all stop on ls u rest l : (forall i, In i l -> ~ mem ls i) -> (set_len ls = size -> adds (fun k => k = mk ls) (on all d ls u)) ->
  adds (keys mk (beyond ls l)) rest -> adds (keys mk (fun F => F = ls \/ beyond ls l F)) (fish_enter d size all stop on ls u rest).
Proof.
  intros Dj H1 H2 s s' b E. unfold fish_enter in E. destruct (Nat.eqb_spec (set_len ls) size) as [Es | _]; [ | apply enter_rest, (H2 s s' b E)].
  destruct (negb (set_len u =? size)); [injection E as <- _; apply more_refl | ].
  inv_bind E r. destruct r as [s1 b1]. cbn [fst snd] in E. specialize (H1 Es s s1 b1 Hb). destruct b1; [injection E as <- _; apply enter_only, H1 | ].
  apply (enter_then ls l s s1 s' Dj H1 (H2 s1 s' b E)).
Qed.
Lemma fish_walk_adds pos d size all stop on : (forall ls u, set_len ls = size -> (forall i, mem ls i -> mem all i) -> adds (fun k => k = mk ls) (on all d ls u)) ->
  forall l ls u, (forall i, In i l -> mem all i) -> (forall i, mem ls i -> mem all i) -> NoDup l -> (forall i, In i l -> ~ mem ls i) -> adds (keys mk (beyond ls l)) (fish_walk pos d size all stop on l ls u).
Proof.
  intros H. induction l as [ | p l IH]; intros ls u Al As ND Dj s s' b E; cbn [fish_walk] in E; [injection E as <- _; apply more_refl | ]. inv_bind E h. inv_bind E m. inv_bind E lp.
  apply NoDup_cons_iff in ND. destruct ND as [Np ND]. assert (Dj' : forall i, In i l -> ~ mem ls i) by (intros i Hi; apply Dj; right; exact Hi).
  assert (Al' : forall i, In i l -> mem all i) by (intros i Hi; apply Al; right; exact Hi).
  destruct ((set_len m <? 2) || (size <? set_len (set_or u lp))); [apply walk_skip, (IH ls u Al' As ND Dj' s s' b E) | ]. inv_bind E ps. inv_bind E r. destruct r as [s1 b1]. cbn [fst snd] in E.
  assert (Mp : forall i, mem (set_or ls ps) i <-> mem ls i \/ i = p) by (intros i; rewrite mem_or; match goal with X : as_set _ p = Ok ps |- _ => rewrite (mem_single _ _ _ _ X) end; reflexivity).
  assert (As' : forall i, mem (set_or ls ps) i -> mem all i) by (intros i Hi; apply Mp in Hi; destruct Hi as [Hi | ->]; [apply As, Hi | apply Al; left; reflexivity]).
  assert (M1 : more (keys mk (fun F => F = set_or ls ps \/ beyond (set_or ls ps) l F)) s s1).
  { assert (Dj2 : forall i, In i l -> ~ mem (set_or ls ps) i) by (intros i Hi Q; apply Mp in Q; destruct Q as [Q | ->]; [apply (Dj' i Hi Q) | contradiction]).
    match goal with X : fish_enter _ _ _ _ _ _ _ _ _ = Ok (s1, b1) |- _ => revert X end. apply fish_enter_adds; [exact Dj2 | intros Es; apply H; assumption | apply IH; assumption]. }
  assert (M2 : b1 = false -> more (keys mk (beyond ls l)) s1 s') by (intros ->; apply (IH ls u Al' As ND Dj' s1 s' b E)).
  apply (walk_step ls (set_or ls ps) p l s s1 s' Mp (Dj p (or_introl eq_refl)) Np M1). destruct b1; [injection E as <- _; apply more_refl | apply M2; reflexivity].
Qed.
End Log.

(** ** The searches *)

Definition K_any (_ : key) : Prop := True.
Definition K_sub (k : key) : Prop := forall i, mem (snd k) i -> i < 9.
Lemma set_ext (a b : N) : (forall i, mem a i <-> mem b i) -> a = b.
Proof.
  intros H. apply N.bits_inj. intros i. specialize (H (N.to_nat i)). unfold mem in H. rewrite N2Nat.id in H. destruct (N.testbit a i), (N.testbit b i); try reflexivity; destruct H as [H1 H2]; [rewrite H1 | rewrite <- H2]; reflexivity.
Qed.

Section Finds.
Variable keyf : deduction range -> key.

Lemma find_naked_sub_adds poss hs size stop on : (forall h ps t, set_len ps = size -> adds keyf (fun k => k = (h, 0, ps)) (on h ps t)) -> adds keyf K_sub (find_naked_sub poss hs size stop on).
Proof.
  intros H. unfold find_naked_sub. apply adds_finish. apply (adds_impl keyf (fun k => exists h, In h (seq 0 27) /\ exists F, k = (h, 0, F) /\ is_set EDigit F)); [intros k [h [_ [F [-> Q]]]]; exact Q | ]. apply adds_for; [apply seq_NoDup | | ].
  - intros h _ s s' c E. inv_bind E hm. destruct (set_is_full EDigit hm); [injection E as <- _; apply more_refl | ]. inv_bind E l. inv_bind E r. destruct r as [s1 b]. injection E as <- _.
    destruct (set_iter_members _ _ _ Hb0) as [_ El]. cbn [fst].
    assert (ND : NoDup l) by (rewrite El; apply NoDup_filter, seq_NoDup). assert (Dj : forall i, In i l -> ~ mem (set_none EPosHouse) i) by (intros i _ Q; destruct (mem_none _ _ Q)).
    assert (Inj : forall F F' : N, (h, 0, F) = (h, 0, F') -> F = F') by (intros F F' Q; injection Q as ->; reflexivity).
    apply (more_impl keyf (keys (fun F => (h, 0, F)) (fun F => F = set_none EPosHouse \/ beyond (set_none EPosHouse) l F))); [ | ].
    { intros k [F [E [-> | [_ [Q _]]]]]; exists F || eexists; (split; [exact E | ]); intros i Hi; [destruct (mem_none _ _ Hi) | ]. destruct (Q i Hi) as [X | X]; [destruct (mem_none _ _ X) | ].
      rewrite El in X. unfold members in X. apply filter_In in X. destruct X as [X _]. apply in_seq in X. apply X. }
    revert Hb1. apply (naked_enter_adds keyf _ Inj); [exact Dj | intros Es; apply H, Es | ]. apply (naked_walk_adds keyf _ Inj); [intros; apply H; assumption | exact ND | exact Dj].
  - intros x y k _ _ [F [-> _]] [F' [E _]]. congruence.
Qed.
Lemma find_hidden_sub_adds hs pos size stop on : (forall h ds t, set_len ds = size -> adds keyf (fun k => k = (h, 0, ds)) (on h ds t)) -> adds keyf K_sub (find_hidden_sub hs pos size stop on).
Proof.
  intros H. unfold find_hidden_sub. apply adds_finish. apply (adds_impl keyf (fun k => exists h, In h (seq 0 27) /\ exists F, k = (h, 0, F) /\ is_set EDigit F)); [intros k [h [_ [F [-> Q]]]]; exact Q | ]. apply adds_for; [apply seq_NoDup | | ].
  - intros h _ s s' c E. inv_bind E hm. destruct (set_is_full EDigit hm); [injection E as <- _; apply more_refl | ]. inv_bind E row. inv_bind E l. inv_bind E r. destruct r as [s1 b]. injection E as <- _. cbn [fst].
    assert (Sa : is_set EDigit (set_all EDigit)) by (apply (proj2 (is_set_lt EDigit _)); reflexivity). destruct (digits_of_ok _ Sa) as [l' [El [ND Il]]]. assert (l' = l) by congruence. subst l'.
    assert (Pos : forall d, In d l -> 1 <= d) by (intros d Hd; apply Il in Hd; lia).
    assert (Dj : forall i, In i (map pred l) -> ~ mem (set_none EDigit) i) by (intros i _ Q; destruct (mem_none _ _ Q)).
    assert (Inj : forall F F' : N, (h, 0, F) = (h, 0, F') -> F = F') by (intros F F' Q; injection Q as ->; reflexivity).
    apply (more_impl keyf (keys (fun F => (h, 0, F)) (fun F => F = set_none EDigit \/ beyond (set_none EDigit) (map pred l) F))); [ | ].
    { intros k [F [E [-> | [_ [Q _]]]]]; exists F || eexists; (split; [exact E | ]); intros i Hi; [destruct (mem_none _ _ Hi) | ]. destruct (Q i Hi) as [X | X]; [destruct (mem_none _ _ X) | ].
      apply in_map_iff in X. destruct X as [d [<- Hd]]. apply Il in Hd. change (esize EDigit) with 9. lia. }
    revert Hb2. apply (hidden_enter_adds keyf _ Inj); [exact Dj | intros Es; apply H, Es | ]. apply (hidden_walk_adds keyf _ Inj); [intros; apply H; assumption | exact Pos | exact ND | exact Dj].
  - intros x y k _ _ [F [-> _]] [F' [E _]]. congruence.
Qed.
Lemma find_fish_adds pos size stop on : 0 < size -> (forall all d ls u, In all [LINE_ALL_ROWS; LINE_ALL_COLS] -> set_len ls = size -> (forall i, mem ls i -> mem all i) -> adds keyf (fun k => k = (d, 0, ls)) (on all d ls u)) ->
  adds keyf K_any (find_fish pos size stop on).
Proof.
  intros Pz H. unfold find_fish. apply adds_finish. apply (adds_impl keyf (fun k => exists d, In d (seq 1 9) /\ exists F, k = (d, 0, F))); [intros; exact I | ]. apply adds_for; [apply seq_NoDup | | intros x y k _ _ [F ->] [F' E]; congruence].
  intros d _. set (Kx := fun (all : N) (k : key) => exists F, k = (d, 0, F) /\ (exists i, mem F i) /\ forall i, mem F i -> mem all i).
  apply (adds_impl keyf (fun k => exists all, In all [LINE_ALL_ROWS; LINE_ALL_COLS] /\ Kx all k)); [intros k [all [_ [F [E _]]]]; exists F; exact E | ].
  apply adds_for_ord.
  - constructor; [ | constructor; [constructor | constructor]]. constructor; [ | constructor]. intros k [F [E [[i Mi] Q]]] [F' [E' [_ Q']]]. rewrite E in E'. injection E' as <-.
    specialize (Q i Mi). specialize (Q' i Mi). apply rows_mem in Q. apply cols_mem in Q'. lia.
  - intros all Ha s s' c E. inv_bind E l. inv_bind E r. destruct r as [s1 b]. injection E as <- _. cbn [fst]. destruct (set_iter_members _ _ _ Hb) as [Sa El].
    assert (ND : NoDup l) by (rewrite El; apply NoDup_filter, seq_NoDup). assert (Dj : forall i, In i l -> ~ mem (set_none ELine) i) by (intros i _ Q; destruct (mem_none _ _ Q)).
    assert (Al : forall i, In i l -> mem all i) by (intros i Hi; rewrite El in Hi; apply (members_in ELine _ i Sa) in Hi; exact Hi).
    assert (Inj : forall F F' : N, (d, 0, F) = (d, 0, F') -> F = F') by (intros F F' Q; injection Q as ->; reflexivity).
    assert (Nz : set_len (set_none ELine) =? size = false) by (apply Nat.eqb_neq; change (set_len (set_none ELine)) with 0; lia). unfold fish_enter in Hb0. rewrite Nz in Hb0.
    apply (more_impl keyf (keys (fun F => (d, 0, F)) (beyond (set_none ELine) l))).
    + intros k [F [E [_ [Q [i [_ Mi]]]]]]. exists F. split; [exact E | ]. split; [exists i; exact Mi | ]. intros j Hj. destruct (Q j Hj) as [X | X]; [destruct (mem_none _ _ X) | apply Al, X].
    + revert Hb0. apply (fish_walk_adds keyf _ Inj); [intros ls u Es As; apply H; assumption | exact Al | intros i Q; destruct (mem_none _ _ Q) | exact ND | exact Dj].
Qed.

Lemma find_locked_adds poss stop on : (forall m d nb (p : bool), m < 54 -> miniline_neighbors m = Ok nb -> adds keyf (fun k => k = (m, d, if p then 1%N else 0%N)) (on m d (if p then fst nb else snd nb) p)) ->
  adds keyf K_any (find_locked poss stop on).
Proof.
  intros H. unfold find_locked. apply adds_finish. apply (adds_impl keyf (fun k => exists ch, In ch (seq 0 6) /\ fst (fst k) / 9 = ch)); [intros; exact I | ]. apply adds_for; [apply seq_NoDup | | intros x y k _ _ <- <-; reflexivity].
  intros ch Hch s s' c E. apply in_seq in Hch. inv_bind E mpd. inv_bind E lu. inv_bind E bu. revert E. apply (adds_impl keyf (fun k => exists i, In i (seq 0 9) /\ fst (fst k) = ch * 9 + i)).
  { intros k [i [Hi ->]]. apply in_seq in Hi. lia. }
  apply adds_for; [apply seq_NoDup | | intros x y k _ _ E1 E2; lia].
  intros i Hi t t' ct E. apply in_seq in Hi. inv_bind E ml. inv_bind E pd. inv_bind E l1. inv_bind E b1. inv_bind E nb.
  assert (Em : ml = ch * 9 + i).
  { unfold chute_minilines in Hb2. unfold aget in Hb2. destruct (nth_error _ i) as [x | ] eqn:Q; [ | discriminate]. injection Hb2 as <-. rewrite nth_error_map in Q. destruct (nth_error (seq 0 9) i) as [j | ] eqn:Qj; [ | discriminate].
    injection Q as <-. apply nth_error_nth with (d := 0) in Qj. rewrite seq_nth in Qj by lia. lia. }
  destruct nb as [ln fn]. revert E. set (Kx := fun (x : N * list nat * bool) (k : key) => fst (fst k) = ml /\ snd k = if snd x then 1%N else 0%N).
  apply (adds_impl keyf (fun k => exists x, In x [(set_and pd l1, fn, false); (set_and pd b1, ln, true)] /\ Kx x k)); [intros k [x [_ [Q _]]]; rewrite Q; exact Em | ]. apply adds_for_ord.
  - constructor; [ | constructor; [constructor | constructor]]. constructor; [ | constructor]. intros k [_ A] [_ B]. cbn [snd] in A, B. congruence.
  - intros [[un nbs] p] Hx u u' cu E. destruct (set_is_empty un); [injection E as <- _; apply more_refl | ]. inv_bind E l.
    assert (Nb : nbs = if p then fst (ln, fn) else snd (ln, fn)) by (destruct Hx as [Hx | [Hx | []]]; injection Hx as _ <- <-; reflexivity).
    assert (ND : NoDup l). { unfold digits_of in Hb7. inv_bind Hb7 q. destruct (set_iter_members _ _ _ Hb8) as [Su _]. destruct (digits_of_ok un Su) as [l' [El [ND _]]]. unfold digits_of in El. rewrite Hb8 in El. cbn [bind] in El. replace l with l' by congruence. exact ND. }
    revert E. apply (adds_impl keyf (fun k => exists d, In d l /\ k = (ml, d, if p then 1%N else 0%N))); [intros k [d [_ ->]]; split; reflexivity | ]. apply adds_for; [exact ND | | intros x y k _ _ -> Q; congruence].
    intros d _ w w' cw E. inv_bind E r. destruct r as [w1 b]. injection E as <- _. cbn [fst]. rewrite Nb in Hb8. refine (H ml d _ p _ Hb6 _ _ _ Hb8). lia.
Qed.

(** The hinge has [n] candidates, the pincers have two. *)
Definition K_wing (n : nat) (poss : list N) (k : key) : Prop := exists h c1 c2 F, k = (h, 0, F) /\ h < 81 /\ c1 < 81 /\ c2 < 81 /\ set_len (nth h poss 0%N) = n /\ set_len (nth c1 poss 0%N) = 2 /\ set_len (nth c2 poss 0%N) = 2 /\
  forall i, mem F i <-> i = c1 \/ i = c2.
Lemma bivalue_in poss hd cm cells l : bivalue_cells poss hd cm cells = Ok l -> is_set ECell cells /\ NoDup l /\ forall x, In x l -> mem cells (fst x) /\ snd x = nth (fst x) poss 0%N /\ set_len (snd x) = 2.
Proof.
  intros E. unfold bivalue_cells in E. inv_bind E q. inv_bind E r. injection E as <-. destruct (set_iter_members _ _ _ Hb) as [Sc ->]. split; [exact Sc | ].
  assert (X : forall q r, rmap (fun cell => m <- aget poss cell; Ok (cell, m)) q = Ok r -> r = map (fun c => (c, nth c poss 0%N)) q).
  { clear. induction q as [ | c q IH]; intros r E; cbn [rmap] in E; [injection E as <-; reflexivity | ]. inv_bind E y. inv_bind Hb m. injection Hb as <-. inv_bind E t. injection E as <-. cbn [map]. rewrite (IH t Hb).
    unfold aget in Hb0. destruct (nth_error poss c) as [z | ] eqn:Q; [ | discriminate]. injection Hb0 as <-. apply nth_error_nth with (d := 0%N) in Q. rewrite Q. reflexivity. }
  apply X in Hb0. subst r. split.
  - apply NoDup_filter. apply FinFun.Injective_map_NoDup; [intros a b Q; congruence | ]. apply NoDup_filter, seq_NoDup.
  - intros x Hx. apply filter_In in Hx. destruct Hx as [Hx T]. apply in_map_iff in Hx. destruct Hx as [c [<- Hc]]. cbn [fst snd] in *. apply andb_true_iff in T. rewrite !Nat.eqb_eq in T.
    apply (members_in ECell cells c Sc) in Hc. tauto.
Qed.
Lemma find_wing_adds n cm wl poss stop on : (forall h hd c1 m1 c2 m2, adds keyf (fun k => exists F, k = (h, 0, F) /\ forall i, mem F i <-> i = c1 \/ i = c2) (on h hd c1 m1 c2 m2)) ->
  adds keyf (K_wing n poss) (find_wing n cm wl poss stop on).
Proof.
  intros H. unfold find_wing. apply adds_finish. apply (adds_impl keyf (fun k => exists h, In h (seq 0 81) /\ (fst (fst k) = h /\ K_wing n poss k))); [intros k [h [_ [_ Q]]]; exact Q | ].
  apply adds_for; [apply seq_NoDup | | intros x y k _ _ [<- _] [<- _]; reflexivity].
  intros h Hh s s' c E. apply in_seq in Hh. inv_bind E pd. destruct (Nat.eqb_spec (set_len pd) n) as [En | ]; cbn [negb] in E; [ | injection E as <- _; apply more_refl].
  destruct (cell_conversions h ltac:(lia)) as [Er [Ek [Eb _]]]. rewrite Er, Ek, Eb in E. cbn [bind] in E.
  destruct (rcb_cells_exact (row_of h) ltac:(apply row_lt; lia)) as [[SR MR] _].
  destruct (rcb_cells_exact (col_of h) ltac:(apply col_lt; lia)) as [_ [[SC MC] _]].
  destruct (rcb_cells_exact (block_of h) ltac:(apply block_lt; lia)) as [_ [_ [SB MB]]].
  set (rc := cells_of_row (row_of h)) in *. set (cc := cells_of_col (col_of h)) in *. set (bc := cells_of_block (block_of h)) in *.
  assert (Ep : pd = nth h poss 0%N) by (unfold aget in Hb; destruct (nth_error poss h) as [z | ] eqn:Q; [ | discriminate]; injection Hb as <-; apply nth_error_nth with (d := 0%N) in Q; symmetry; exact Q).
  set (Kx := fun (x : N * N) (k : key) => fst (fst k) = h /\ K_wing n poss k /\ exists c1 c2, mem (fst x) c1 /\ mem (snd x) c2 /\ forall i, mem (snd k) i <-> i = c1 \/ i = c2).
  revert E. match goal with |- for_ctl ?l _ _ = _ -> _ => set (lx := l) end.
  assert (Hx : forall x, In x lx -> forall c, mem (fst x) c -> mem (snd x) c -> False).
  { intros x Hx c0. unfold lx in Hx. apply in_app_iff in Hx. cbn [In] in Hx. destruct Hx as [[<- | [<- | []]] | Hx].
    - cbn [fst snd]. rewrite !(mem_without ECell), MB, MR by assumption. tauto.
    - cbn [fst snd]. rewrite !(mem_without ECell), MB, MC by assumption. tauto.
    - destruct wl; [ | destruct Hx]. destruct Hx as [<- | []]. cbn [fst snd]. rewrite !(mem_without ECell), MB, MR, MC by assumption. intros [[_ A] B] [[_ C0] D].
      apply B. assert (c0 = h) by (unfold row_of, col_of in *; lia). subst c0. split; [lia | reflexivity]. }
  apply (adds_impl keyf (fun k => exists x, In x lx /\ Kx x k)); [intros k [x [_ [A [B _]]]]; auto | ]. apply adds_for_ord.
  - assert (Two : forall a b a' b' : nat, (a = a' \/ a = b') -> (b = a' \/ b = b') -> (a' = a \/ a' = b) -> (b' = a \/ b' = b) -> (a = a' /\ b = b') \/ (a = b' /\ b = a')) by (intros; lia).
    assert (Eq : forall x y k, Kx x k -> Kx y k -> exists a b a' b', mem (fst x) a /\ mem (snd x) b /\ mem (fst y) a' /\ mem (snd y) b' /\ ((a = a' /\ b = b') \/ (a = b' /\ b = a'))).
    { intros x y k [_ [_ [a [b [A [B Q]]]]]] [_ [_ [a' [b' [A' [B' Q']]]]]]. exists a, b, a', b'. repeat (split; [assumption | ]).
      apply Two; [apply Q' | apply Q' | apply Q | apply Q]; [apply Q | apply Q | apply Q' | apply Q']; auto. }
    assert (Hinge : forall c, c < 81 -> row_of c = row_of h -> col_of c = col_of h -> c = h) by (intros c0 _ A B; unfold row_of, col_of in *; lia).
    assert (P12 : forall k, Kx (set_without ECell bc rc, set_without ECell rc bc) k -> Kx (set_without ECell bc cc, set_without ECell cc bc) k -> False).
    { intros k A B. destruct (Eq _ _ k A B) as [a [b [a' [b' [Ha [Hb0 [Ha' [Hb' Q]]]]]]]]. cbn [fst snd] in *. rewrite (mem_without ECell) in Ha, Hb0, Ha', Hb' by assumption. rewrite MB, MR in Ha, Hb0. rewrite MB, MC in Ha', Hb'.
      destruct Q as [[-> ->] | [-> ->]]; [ | tauto]. assert (b' = h) by (apply Hinge; tauto). subst b'. tauto. }
    unfold lx. destruct wl; cbn [app]; [constructor; [ | constructor; [ | constructor; [constructor | constructor]]] | constructor; [ | constructor; [constructor | constructor]]].
    + constructor; [exact P12 | constructor; [ | constructor]]. intros k A B. destruct (Eq _ _ k A B) as [a [b [a' [b' [Ha [Hb0 [Ha' [Hb' Q]]]]]]]]. cbn [fst snd] in *. rewrite (mem_without ECell) in Ha, Hb0, Ha', Hb' by assumption. rewrite MB in Ha, Hb0, Ha', Hb'. rewrite MR in Ha, Hb0, Ha'. rewrite MC in Hb'.
      destruct Q as [[-> ->] | [-> ->]]; tauto.
    + constructor; [ | constructor]. intros k A B. destruct (Eq _ _ k A B) as [a [b [a' [b' [Ha [Hb0 [Ha' [Hb' Q]]]]]]]]. cbn [fst snd] in *. rewrite (mem_without ECell) in Ha, Hb0, Ha', Hb' by assumption. rewrite MB in Ha, Hb0, Ha', Hb'. rewrite MR in Ha'. rewrite MC in Ha, Hb0, Hb'.
      destruct Q as [[-> ->] | [-> ->]]; tauto.
    + constructor; [exact P12 | constructor].
  - intros x Hx' t t' ct E. specialize (Hx x Hx'). inv_bind E l1. inv_bind E l2. destruct (bivalue_in _ _ _ _ _ Hb0) as [S1 [N1 I1]]. destruct (bivalue_in _ _ _ _ _ Hb1) as [S2 [N2 I2]].
    set (Ky := fun (p1 : nat * N) (k : key) => fst (fst k) = h /\ K_wing n poss k /\ exists c2, mem (fst x) (fst p1) /\ mem (snd x) c2 /\ forall i, mem (snd k) i <-> i = fst p1 \/ i = c2).
    revert E. apply (adds_impl keyf (fun k => exists p1, In p1 l1 /\ Ky p1 k)).
    { intros k [p1 [_ [A [B [c2 [C1 [C2 Q]]]]]]]. split; [exact A | ]. split; [exact B | ]. exists (fst p1), c2. auto. }
    apply adds_for; [exact N1 | | ].
    + intros p1 H1 u u' cu. destruct (I1 p1 H1) as [M1 [V1 L1]].
      apply (adds_impl keyf (fun k => exists p2, In p2 l2 /\ exists F, k = (h, 0, F) /\ forall i, mem F i <-> i = fst p1 \/ i = fst p2)).
      { intros k [p2 [H2 [F [-> Q]]]]. destruct (I2 p2 H2) as [M2 [V2 L2]]. split; [reflexivity | ]. split; [ | exists (fst p2); auto].
        exists h, (fst p1), (fst p2), F. rewrite <- V1, <- V2, <- Ep. split; [reflexivity | ]. split; [lia | ]. split; [apply S1 in M1; exact M1 | ]. split; [apply S2 in M2; exact M2 | ]. auto. }
      apply adds_for; [exact N2 | | ].
      * intros p2 H2 w w' cw E. match type of E with (if ?t then _ else _) = _ => destruct t end; [injection E as <- _; apply more_refl | ]. inv_bind E r. destruct r as [w1 b]. injection E as <- _. cbn [fst]. apply (H _ _ _ _ _ _ _ _ _ Hb2).
      * intros p2 p2' k H2 H2' [F [-> Q]] [F' [E Q']]. injection E as <-. destruct (I2 p2 H2) as [M2 [V2 _]]. destruct (I2 p2' H2') as [M2' [V2' _]].
        assert (X : fst p2' = fst p1 \/ fst p2' = fst p2) by (apply Q, Q'; auto). destruct X as [X | X]; [exfalso; apply (Hx (fst p1) M1); rewrite <- X; exact M2' | ].
        rewrite (surjective_pairing p2), (surjective_pairing p2'), V2, V2', X. reflexivity.
    + intros p1 p1' k H1 H1' [_ [_ [c2 [A [B Q]]]]] [_ [_ [c2' [A' [B' Q']]]]]. destruct (I1 p1 H1) as [M1 [V1 _]]. destruct (I1 p1' H1') as [M1' [V1' _]].
      assert (X : fst p1' = fst p1 \/ fst p1' = c2) by (apply Q, Q'; auto). destruct X as [X | X]; [ | exfalso; apply (Hx c2); [rewrite <- X; exact A' | exact B]].
      rewrite (surjective_pairing p1), (surjective_pairing p1'), V1, V1', X. reflexivity.
Qed.
End Finds.

(** ** What is entered *)

Lemma rmap_all {A B} (f : A -> res B) : forall l r, rmap f l = Ok r -> Forall2 (fun x y => f x = Ok y) l r.
Proof. induction l as [ | x l IH]; intros r E; cbn [rmap] in E; [injection E as <-; constructor | ]. inv_bind E y. inv_bind E t. injection E as <-. constructor; [exact Hb | apply IH, Hb0]. Qed.
Lemma rmap_nodup {A B} (f : A -> res B) l r : NoDup l -> (forall x x' y, In x l -> In x' l -> f x = Ok y -> f x' = Ok y -> x = x') -> rmap f l = Ok r -> NoDup r.
Proof.
  intros ND Inj E. apply rmap_all in E. revert ND Inj. induction E as [ | x y l r Exy F IH]; intros ND Inj; [constructor | ]. apply NoDup_cons_iff in ND. destruct ND as [Nx ND]. constructor.
  - intros Hy. destruct (Forall2_in_r _ _ _ F y Hy) as [x' [Hx' E']]. apply Nx. rewrite (Inj x x' y (or_introl eq_refl) (or_intror Hx') Exy E'). exact Hx'.
  - apply (IH ND). intros a b z Ha Hb. apply Inj; right; assumption.
Qed.
Lemma rflat_in {A B} (f : A -> res (list B)) l r b : rflat f l = Ok r -> In b r -> exists x y, In x l /\ f x = Ok y /\ In b y.
Proof.
  unfold rflat. intros E Hi. inv_bind E q. injection E as <-. apply rmap_all in Hb. apply in_concat in Hi. destruct Hi as [y [Hy Hi]]. destruct (Forall2_in_r _ _ _ Hb y Hy) as [x [Hx E]]. exists x, y. auto.
Qed.
Lemma rflat_nodup {A B} (f : A -> res (list B)) l r : NoDup l -> (forall x y, In x l -> f x = Ok y -> NoDup y) ->
  (forall x x' y y' b, In x l -> In x' l -> f x = Ok y -> f x' = Ok y' -> In b y -> In b y' -> x = x') -> rflat f l = Ok r -> NoDup r.
Proof.
  unfold rflat. intros ND Nd Dj E. inv_bind E q. injection E as <-. apply rmap_all in Hb. revert ND Nd Dj. induction Hb as [ | x y l q Exy F IH]; intros ND Nd Dj; [constructor | ]. apply NoDup_cons_iff in ND. destruct ND as [Nx ND].
  cbn [concat]. apply NoDup_app_disj.
  - apply (Nd x y (or_introl eq_refl) Exy).
  - apply (IH ND); [intros a b Ha; apply Nd; right; exact Ha | intros a a' b b' z Ha Ha'; apply Dj; right; assumption].
  - intros b Hb Hb'. apply in_concat in Hb'. destruct Hb' as [y' [Hy' Hb']]. destruct (Forall2_in_r _ _ _ F y' Hy') as [x' [Hx' E']]. apply Nx. rewrite (Dj x x' y y' b (or_introl eq_refl) (or_intror Hx') Exy E' Hb Hb'). exact Hx'.
Qed.
Lemma digits_of_nodup m l : digits_of m = Ok l -> NoDup l.
Proof. intros E. assert (E' := E). unfold digits_of in E'. inv_bind E' q. destruct (set_iter_members _ _ _ Hb) as [Sm _]. destruct (digits_of_ok m Sm) as [l' [El [ND _]]]. replace l with l' by congruence. exact ND. Qed.
Lemma cands_of_nodup c m l : cands_of c m = Ok l -> NoDup l /\ forall x, In x l -> fst x = c.
Proof.
  unfold cands_of. intros E. inv_bind E q. injection E as <-. split; [apply FinFun.Injective_map_NoDup; [intros a b Q; congruence | apply (digits_of_nodup m q Hb)] | ].
  intros x Hx. apply in_map_iff in Hx. destruct Hx as [d [<- _]]. reflexivity.
Qed.
Lemma with_digit_nodup poss d cells l : NoDup cells -> with_digit poss d cells = Ok l -> NoDup l.
Proof.
  intros ND. unfold with_digit. apply rflat_nodup; [exact ND | | ].
  - intros c y _ E. inv_bind E m. inv_bind E s. injection E as <-. destruct (set_contains m s); repeat constructor. intros [].
  - intros c c' y y' b _ _ E E' Hi Hi'. inv_bind E m. inv_bind E s. injection E as <-. inv_bind E' m'. inv_bind E' s'. injection E' as <-.
    destruct (set_contains m s); [ | destruct Hi]. destruct (set_contains m' s'); [ | destruct Hi']. destruct Hi as [<- | []]. destruct Hi' as [Q | []]. congruence.
Qed.
Lemma set_iter_nodup e m l : set_iter e m = Ok l -> NoDup l.
Proof. intros E. destruct (set_iter_members _ _ _ E) as [_ ->]. apply NoDup_filter, seq_NoDup. Qed.

Section Enter.
Variable keyf : deduction range -> key.
Lemma enter_adds cs mk k : NoDup cs -> (forall r, range_of (mk r) = Some r) -> (forall r, keyf (mk r) = k) -> adds keyf (fun k' => k' = k) (fun st => Ok (enter_conflicts st cs mk)).
Proof.
  intros ND Mk Ek st st' b E. unfold enter_conflicts in E. destruct (0 <? _); injection E as <- _.
  - exists cs, [mk (length (s_elims st), length (s_elims st ++ cs))]. cbn [s_elims s_deds set_elims set_deds]. split; [reflexivity | ]. split; [reflexivity | ]. split; [cbn [map]; constructor; [intros [] | constructor] | ].
    intros x [<- | []]. split; [apply Ek | ]. eexists _, cs. split; [apply Mk | ]. split; [ | exact ND]. unfold slice. cbn [fst snd]. rewrite app_length, (proj2 (Nat.leb_le _ _)) by lia. rewrite (proj2 (Nat.leb_le _ _)) by lia. cbn [andb].
    f_equal. rewrite skipn_app, skipn_all, Nat.sub_diag. cbn [app skipn]. replace (length (s_elims st) + length cs - length (s_elims st)) with (length cs) by lia. apply firstn_all.
  - exists cs, []. cbn [s_elims s_deds set_elims]. rewrite app_nil_r. repeat split; [constructor | destruct H | destruct H].
Qed.
End Enter.

Lemma cell_at_house h p c : house_cell_at h p = Ok c -> p < 9 -> h < 27 /\ c < 81 /\ in_house h c /\ pos_in_house h c = p.
Proof.
  intros E Hp. assert (Hh : h < 27).
  { unfold house_cell_at, house_categorize in E. inv_bind E t. destruct (Nat.ltb_spec h 27); [assumption | ]. destruct (Nat.ltb_spec h 9), (Nat.ltb_spec h 18); try lia. discriminate. }
  destruct (cell_at_ok h p Hh Hp) as [E' Q]. replace c with (cell_at h p) by congruence. auto.
Qed.

Lemma naked_sub_adds poss h ps t : adds (key_of false) (fun k => k = (h, 0, ps)) (on_naked_sub poss h ps t).
Proof.
  intros st st' b E. unfold on_naked_sub in E. inv_bind E l. inv_bind E cs. revert E. apply enter_adds; [ | reflexivity | reflexivity]. destruct (set_iter_members _ _ _ Hb) as [Sl El].
  revert Hb0. apply rflat_nodup; [apply (set_iter_nodup _ _ _ Hb) | | ].
  - intros p y _ E. inv_bind E c. inv_bind E m. apply (cands_of_nodup _ _ _ E).
  - intros p p' y y' x Hp Hp' E E' Hi Hi'. inv_bind E c. inv_bind E m. inv_bind E' c'. inv_bind E' m'. apply (proj2 (cands_of_nodup _ _ _ E)) in Hi. apply (proj2 (cands_of_nodup _ _ _ E')) in Hi'.
    rewrite El in Hp, Hp'. apply (members_in EPosHouse _ _ Sl), Sl in Hp. apply (members_in EPosHouse _ _ Sl), Sl in Hp'. destruct (cell_at_house h p c Hb0 Hp) as [_ [_ [_ <-]]]. destruct (cell_at_house h p' c' Hb2 Hp') as [_ [_ [_ <-]]]. congruence.
Qed.
Lemma hidden_sub_adds pos h ds t : adds (key_of true) (fun k => k = (h, 0, ds)) (on_hidden_sub pos h ds t).
Proof.
  intros st st' b E. unfold on_hidden_sub in E. inv_bind E row. inv_bind E l. inv_bind E cs. revert E. apply enter_adds; [ | reflexivity | reflexivity].
  revert Hb1. apply rflat_nodup; [apply (digits_of_nodup _ _ Hb0) | | ].
  - intros d y _ E. inv_bind E m. inv_bind E ps. destruct (set_iter_members _ _ _ Hb2) as [Sl El]. revert E. apply rmap_nodup; [apply (set_iter_nodup _ _ _ Hb2) | ].
    intros p p' z Hp Hp' E E'. inv_bind E c. inv_bind E' c'. rewrite El in Hp, Hp'. apply (members_in EPosHouse _ _ Sl), Sl in Hp. apply (members_in EPosHouse _ _ Sl), Sl in Hp'.
    destruct (cell_at_house h p c Hb3 Hp) as [_ [_ [_ <-]]]. destruct (cell_at_house h p' c' Hb4 Hp') as [_ [_ [_ <-]]]. congruence.
  - assert (X : forall d y x, (m <- aget row (digit_as_index d); ps <- set_iter EPosHouse (set_and m t); rmap (fun p => cell <- house_cell_at h p; Ok (cell, d)) ps) = Ok y -> In x y -> snd x = d).
    { intros d y x E Hi. inv_bind E m. inv_bind E ps. apply rmap_all in E. destruct (Forall2_in_r _ _ _ E x Hi) as [p [_ Q]]. inv_bind Q c. injection Q as <-. reflexivity. }
    intros d d' y y' x _ _ E E' Hi Hi'. rewrite <- (X d y x E Hi). apply (X d' y' x E' Hi').
Qed.
Lemma fish_adds poss all d ls u : In all [LINE_ALL_ROWS; LINE_ALL_COLS] -> adds (key_of false) (fun k => k = (d, 0, ls)) (on_fish poss all d ls u).
Proof.
  intros Ha st st' b E. unfold on_fish in E. inv_bind E l. inv_bind E cells. inv_bind E cs. revert E. apply enter_adds; [ | reflexivity | reflexivity]. revert Hb1. apply with_digit_nodup.
  assert (Sa : is_set ELine all) by (apply (proj2 (is_set_lt ELine all)); destruct Ha as [<- | [<- | []]]; reflexivity).
  assert (Al : forall i, In i l -> mem all i) by (destruct (set_iter_members _ _ _ Hb) as [Sl ->]; intros i Hi; apply (members_in ELine _ i Sl) in Hi; apply (mem_without ELine all ls i Sa) in Hi; apply Hi).
  assert (At : forall i p c, mem all i -> p < 9 -> line_cell_at i p = Ok c -> i < 27 /\ c < 81 /\ in_house i c /\ pos_in_house i c = p /\ i < 18).
  { intros i p c Mi Hp Ec. assert (Hi : i < 18) by (apply Sa in Mi; exact Mi). destruct (cell_at_ok i p ltac:(lia) Hp) as [E [A [B C0]]].
    rewrite (line_house_cell_at i p Hi) in Ec. replace c with (cell_at i p) by congruence. split; [lia | auto]. }
  revert Hb0. apply rflat_nodup; [apply (set_iter_nodup _ _ _ Hb) | | ].
  - intros i y Hi E. inv_bind E ps. destruct (set_iter_members _ _ _ Hb0) as [Sl El]. revert E. apply rmap_nodup; [apply (set_iter_nodup _ _ _ Hb0) | ].
    intros p p' c Hp Hp' E E'. rewrite El in Hp, Hp'. apply (members_in EPosLine _ _ Sl), Sl in Hp. apply (members_in EPosLine _ _ Sl), Sl in Hp'.
    destruct (At i p c (Al i Hi) Hp E) as [_ [_ [_ [<- _]]]]. destruct (At i p' c (Al i Hi) Hp' E') as [_ [_ [_ [<- _]]]]. reflexivity.
  - intros i i' y y' c Hi Hi' E E' Hc Hc'. inv_bind E ps. inv_bind E' ps'. destruct (set_iter_members _ _ _ Hb0) as [Sl El]. destruct (set_iter_members _ _ _ Hb1) as [Sl' El'].
    apply rmap_all in E. apply rmap_all in E'. destruct (Forall2_in_r _ _ _ E c Hc) as [p [Hp Q]]. destruct (Forall2_in_r _ _ _ E' c Hc') as [p' [Hp' Q']].
    rewrite El in Hp. rewrite El' in Hp'. apply (members_in EPosLine _ _ Sl), Sl in Hp. apply (members_in EPosLine _ _ Sl'), Sl' in Hp'.
    destruct (At i p c (Al i Hi) Hp Q) as [A [_ [B _]]]. destruct (At i' p' c (Al i' Hi') Hp' Q') as [A' [_ [B' _]]]. apply (house_uniq i i' c A A'); [ | exact B | exact B'].
    specialize (Al i Hi) as M. specialize (Al i' Hi') as M'. destruct Ha as [<- | [<- | []]]; [rewrite rows_mem in M, M' | rewrite cols_mem in M, M']; lia.
Qed.
Lemma wing_adds xyz poss h hd c1 m1 c2 m2 : adds (key_of false) (fun k => exists F, k = (h, 0, F) /\ forall i, mem F i <-> i = c1 \/ i = c2) (on_wing xyz poss h hd c1 m1 c2 m2).
Proof.
  intros st st' b E. unfold on_wing in E. inv_bind E u. destruct u as [ | [x | ]]; try discriminate. inv_bind E d. inv_bind E n0. inv_bind E n1. inv_bind E n2. cbv zeta in E.
  match type of E with (if ?t then _ else _) = _ => destruct t end; [discriminate | ]. inv_bind E cells. inv_bind E cs. inv_bind E s1. inv_bind E s2.
  refine (adds_impl (key_of false) (fun k => k = (h, 0, set_or s1 s2)) _ (fun st => Ok (enter_conflicts st cs (DWing h hd (set_or s1 s2)))) _ _ st st' b E).
  - intros k ->. exists (set_or s1 s2). split; [reflexivity | ]. intros i. rewrite mem_or, (mem_single _ _ _ _ Hb6), (mem_single _ _ _ _ Hb7). reflexivity.
  - apply enter_adds; [ | reflexivity | reflexivity]. revert Hb5. apply with_digit_nodup, (set_iter_nodup _ _ _ Hb4).
Qed.
Lemma locked_adds poss m d nb (p : bool) : m < 54 -> miniline_neighbors m = Ok nb -> adds (key_of false) (fun k => k = (m, d, if p then 1%N else 0%N)) (on_locked poss m d (if p then fst nb else snd nb) p).
Proof.
  intros Hm En st st' b E. unfold on_locked in E. inv_bind E cs. revert E. apply enter_adds; [ | reflexivity | reflexivity].
  set (cl := fun nb => match cells_of_miniline nb with Ok cm => match set_iter ECell cm with Ok l => l | _ => [] end | _ => [] end).
  assert (X : forallb (fun m => match miniline_neighbors m with Ok nb => forallb (fun l => match l with [a; b] => negb (a =? b) && forallb (fun c => negb (existsb (Nat.eqb c) (cl b))) (cl a) | _ => false end) [fst nb; snd nb] | _ => true end) (seq 0 54) = true) by (vm_compute; reflexivity).
  rewrite forallb_forall in X. specialize (X m ltac:(apply in_seq; lia)). cbv beta in X. rewrite En in X. rewrite forallb_forall in X.
  specialize (X (if p then fst nb else snd nb) ltac:(destruct p; [left | right; left]; reflexivity)). cbv beta in X.
  destruct (if p then fst nb else snd nb) as [ | a [ | a' [ | ? ?]]]; try discriminate. apply andb_true_iff in X. destruct X as [Na X]. apply negb_true_iff, Nat.eqb_neq in Na. rewrite forallb_forall in X.
  set (f := fun nb => cm <- cells_of_miniline nb; cells <- set_iter ECell cm; rflat (fun cell => m <- aget poss cell; d0 <- digit_set d; cands_of cell (set_and m d0)) cells) in Hb.
  assert (Cl : forall q y x, f q = Ok y -> In x y -> In (fst x) (cl q)).
  { intros q y x E Hi. unfold f in E. inv_bind E cm. inv_bind E cells. destruct (rflat_in _ _ _ _ E Hi) as [c [z [Hc [Ez Hx]]]]. inv_bind Ez mm. inv_bind Ez dd. apply (proj2 (cands_of_nodup _ _ _ Ez)) in Hx. rewrite Hx.
    unfold cl. rewrite Hb0, Hb1. exact Hc. }
  revert Hb. apply rflat_nodup.
  - constructor; [intros [Q | []]; congruence | constructor; [intros [] | constructor]].
  - intros q y _ E. unfold f in E. inv_bind E cm. inv_bind E cells. revert E. apply rflat_nodup; [apply (set_iter_nodup _ _ _ Hb0) | | ].
    + intros c z _ E. inv_bind E mm. inv_bind E dd. apply (cands_of_nodup _ _ _ E).
    + intros c c' z z' x _ _ E E' Hi Hi'. inv_bind E mm. inv_bind E dd. inv_bind E' mm'. inv_bind E' dd'. rewrite <- (proj2 (cands_of_nodup _ _ _ E) x Hi). apply (proj2 (cands_of_nodup _ _ _ E') x Hi').
  - assert (Dj : forall c, In c (cl a) -> In c (cl a') -> False).
    { intros c Hc Hc'. specialize (X c Hc). apply negb_true_iff in X. assert (Y : existsb (Nat.eqb c) (cl a') = true) by (apply existsb_exists; exists c; split; [exact Hc' | apply Nat.eqb_refl]). congruence. }
    intros q q' y y' x Hq Hq' E E' Hi Hi'. assert (C1 := Cl q y x E Hi). assert (C2 := Cl q' y' x E' Hi'). destruct Hq as [<- | [<- | []]], Hq' as [<- | [<- | []]]; try reflexivity; exfalso; [apply (Dj _ C1 C2) | apply (Dj _ C2 C1)].
Qed.
