(** The strategy solver: invariant of the caches of candidates and placed digits. *)
From Coq Require Import List Arith NArith ZArith ZifyNat ZifyN ZifyBool Lia Bool.
From Verif Require Import Spec TableSpec GeomSpec Solver Bits Geom Gen BitLemmas GridProofs BitsProofs GeomProofs GenProofs Strat StratFind StratSolve StratUse StratWhy StratWhyLemmas.
Import ListNotations.
Ltac Zify.zify_post_hook ::= Z.to_euclidean_division_equations.

(** * Outcomes *)

(** No panic and enough fuel; [Q] holds of the state after [Ok(())], [E] of the state after [Err(Unsolvable)]. *)
Definition hp {S} (r : res (S * bool)) (Q E : S -> Prop) : Prop :=
  match r with Ok (s, true) => Q s | Ok (s, false) => E s | _ => False end.

Lemma hp_bindE {S} (r : res (S * bool)) f (Q0 E0 Q E : S -> Prop) : hp r Q0 E0 -> (forall s, E0 s -> E s) ->
  (forall s, r = Ok (s, true) -> Q0 s -> hp (f s) Q E) -> hp (bindE r f) Q E.
Proof. unfold bindE. destruct r as [[s [ | ]] | | | ]; cbn; auto. Qed.

Lemma hp_impl {S} (r : res (S * bool)) (Q E Q' E' : S -> Prop) : hp r Q E -> (forall s, Q s -> Q' s) -> (forall s, E s -> E' s) -> hp r Q' E'.
Proof. destruct r as [[s [ | ]] | | | ]; cbn; auto. Qed.

Lemma hp_bind {A S} (r : res A) (f : A -> res (S * bool)) (Q0 : A -> Prop) (Q E : S -> Prop) : (exists a, r = Ok a /\ Q0 a) ->
  (forall a, Q0 a -> hp (f a) Q E) -> hp (bind r f) Q E.
Proof. intros [a [-> H]] F. cbn. auto. Qed.

(** * State *)

Definition P (st : strat) (c : nat) : N := nth c (s_cell st) 0%N.
Definition Hd (st : strat) (h : nat) : N := nth h (s_house st) 0%N.
Definition G (st : strat) (c : nat) : nat := at_ (s_grid st) c.
Definition zeros (g : grid) : nat := length (filter (fun d => d =? 0) g).

Record W (st : strat) : Prop := {
  w_lg : length (s_grid st) = 81;
  w_lp : length (s_cell st) = 81;
  w_lh : length (s_house st) = 27;
  w_g : forall c, c < 81 -> G st c <= 9;
  w_p : forall c, c < 81 -> is_set EDigit (P st c);
  w_h : forall h, h < 27 -> is_set EDigit (Hd st h);
  w_e : okst (s_entries st);
  w_el : okst (s_elims st);
  w_nd : s_hnd st = s_cnd st;
  w_nl : s_cnd st <= length (s_entries st);
  w_cle : s_cle st <= length (s_elims st)
}.

(** [D c] is the digit placed in cell [c] by the entries processed so far, 0 if there is none. *)
Record C (D : nat -> nat) (st : strat) : Prop := {
  c_done : forall c, D c <> 0 -> c < 81 /\ In (c, D c) (firstn (s_cnd st) (s_entries st)) /\ P st c = 0%N;
  c_ent : forall c d, In (c, d) (firstn (s_cnd st) (s_entries st)) -> D c = d;
  c_empty : forall c, c < 81 -> P st c = 0%N -> D c <> 0;
  c_house : forall h x, h < 27 -> (mem (Hd st h) x <-> exists c, c < 81 /\ in_house h c /\ D c = S x);
  c_valid : forall c c', c < 81 -> c' < 81 -> peers c c' -> D c <> 0 -> D c <> D c';
  c_lower : forall c x, c < 81 -> D c = 0 -> x < 9 -> ~ mem (P st c) x ->
    In (c, S x) (s_elims st) \/ exists c', c' < 81 /\ peers c c' /\ D c' = S x;
  c_n : s_n st = length (filter (fun c => negb (D c =? 0)) (seq 0 81));
  c_fun : forall c d d', In (c, d) (s_entries st) -> In (c, d') (s_entries st) -> d = d';
  c_grid : forall c, c < 81 -> G st c <> 0 -> In (c, G st c) (s_entries st)
}.

(** Candidates are not among the placed digits of the houses. *)
Definition disj (st : strat) : Prop :=
  forall c x h, c < 81 -> h < 27 -> in_house h c -> mem (P st c) x -> ~ mem (Hd st h) x.
(** Eliminated candidates have been removed or are pending. *)
Definition upper (st : strat) : Prop :=
  forall c d, In (c, d) (s_elims st) -> ~ mem (P st c) (d - 1) \/ In (c, d) (skipn (s_cle st) (s_elims st)).
(** The entries of the cell [c] have been processed or are known to the grid. *)
Definition known (D : nat -> nat) (st : strat) (c : nat) : Prop := forall d, In (c, d) (s_entries st) -> D c = d \/ G st c = d.
Definition K (D : nat -> nat) (st : strat) : Prop := forall c, known D st c.

(** Entries and eliminations agree with the solved grid [s]. *)
Definition Snd (s : grid) (st : strat) : Prop :=
  (forall c d, In (c, d) (s_entries st) -> at_ s c = d) /\ (forall c d, In (c, d) (s_elims st) -> at_ s c <> d).

(** What holds even after an error: one digit per cell, the digits of the grid are entries, the processed entries are valid. *)
Record core (st : strat) : Prop := {
  o_fun : forall c d d', In (c, d) (s_entries st) -> In (c, d') (s_entries st) -> d = d';
  o_grid : forall c, c < 81 -> G st c <> 0 -> In (c, G st c) (s_entries st);
  o_n : exists D, (forall c, D c <> 0 -> In (c, D c) (s_entries st)) /\
    (forall c c', c < 81 -> c' < 81 -> peers c c' -> D c <> 0 -> D c <> D c') /\
    s_n st = length (filter (fun c => negb (D c =? 0)) (seq 0 81))
}.

(** Effect of the updates on the history: entries are appended, each with its deduction, for cells without entry. *)
Record grow (naked : bool) (st st' : strat) : Prop := {
  g_w : W st';
  g_new : exists new, s_entries st' = s_entries st ++ new /\ s_deds st' = s_deds st ++ map DNaked new /\
    (naked = false -> new = []) /\
    (forall c d d', In (c, d) new -> ~ In (c, d') (s_entries st)) /\
    length new + zeros (s_grid st') = zeros (s_grid st);
  g_elims : s_elims st' = s_elims st;
  g_clues : s_clues st' = s_clues st;
  g_slast : s_last st' = s_last st;
  g_pnd : s_pnd st' = s_pnd st;
  g_ple : s_ple st' = s_ple st;
  g_pos : s_pos st' = s_pos st;
  g_core : core st';
  g_why : forall new, s_entries st' = s_entries st ++ new -> explained [NakedSingles] (listed (s_entries st)) (listed (s_elims st)) (map DNaked new)
}.

Lemma no_why l st st' new : s_entries st' = s_entries st -> s_entries st' = s_entries st ++ new -> explained l (listed (s_entries st)) (listed (s_elims st)) (map DNaked new).
Proof. intros -> E. rewrite <- (app_nil_r (s_entries st)) in E at 1. apply app_inv_head in E. subst new. exact Logic.I. Qed.

Lemma grow_refl naked st : W st -> core st -> grow naked st st.
Proof. intros w o. constructor; try reflexivity; [exact w | | exact o | intros new; apply (no_why _ st st); reflexivity]. exists []. rewrite !app_nil_r. split; [reflexivity | ]. split; [reflexivity | ].
  split; [reflexivity | ]. split; [intros c d d' [] | reflexivity]. Qed.

Lemma grow_trans naked a b c : grow naked a b -> grow naked b c -> grow naked a c.
Proof.
  intros [w1 [n1 [E1 [D1 [F1 [N1 Z1]]]]] e1 c1 l1 p1 q1 r1 o1 y1] [w2 [n2 [E2 [D2 [F2 [N2 Z2]]]]] e2 c2 l2 p2 q2 r2 o2 y2].
  constructor; try congruence; try assumption.
  2:{ intros new E. assert (Q : new = n1 ++ n2) by (apply (app_inv_head (s_entries a)); rewrite <- E, E2, E1, app_assoc; reflexivity). subst new. rewrite map_app.
    apply explained_app; [apply y1; exact E1 | ]. apply (explained_mono _ _ (listed (s_entries b)) _ (listed (s_elims b)) _); [ | | apply y2; exact E2].
    - intros k d. unfold listed, all_places. rewrite E1, in_app_iff. split; (intros [Q | Q]; [left; exact Q | right]).
      + exists (DNaked (k, d)). split; [apply in_map; exact Q | left; reflexivity].
      + destruct Q as [z [Hz Q]]. apply in_map_iff in Hz. destruct Hz as [x [<- Hx]]. destruct Q as [Q | [h Q]]; [injection Q as ->; exact Hx | discriminate].
    - intros k d Q. left. unfold listed in *. rewrite <- e1. exact Q. }
  exists (n1 ++ n2). split; [rewrite E2, E1, app_assoc; reflexivity | ].
  split; [rewrite D2, D1, map_app, app_assoc; reflexivity | ]. split; [intros Q; rewrite (F1 Q), (F2 Q); reflexivity | ].
  split; [ | rewrite app_length; lia]. intros k d d' Hi Hj. apply in_app_iff in Hi. destruct Hi as [Hi | Hi]; [apply (N1 k d d' Hi Hj) | ].
  apply (N2 k d d' Hi). rewrite E1. apply in_app_iff. auto.
Qed.

Lemma grow_entries naked st st' x : grow naked st st' -> In x (s_entries st) -> In x (s_entries st').
Proof. intros [_ [n [E _]] _ _ _ _ _ _ _ _] Hx. rewrite E. apply in_app_iff. auto. Qed.
Lemma grow_false st st' : grow false st st' -> s_entries st' = s_entries st /\ s_deds st' = s_deds st /\ zeros (s_grid st') = zeros (s_grid st).
Proof. intros [_ [n [E [D [F [_ Z]]]]] _ _ _ _ _ _ _ _]. rewrite (F eq_refl) in *. rewrite app_nil_r in *. cbn in Z. auto. Qed.
Lemma grow_len naked st st' : grow naked st st' -> length (s_entries st') + zeros (s_grid st') = length (s_entries st) + zeros (s_grid st).
Proof. intros [_ [n [E [D [F [_ Z]]]]] _ _ _ _ _ _ _ _]. rewrite E, app_length. lia. Qed.

Lemma zeros_lset g : forall c d, c < length g -> nth c g 0 = 0 -> d <> 0 -> S (zeros (lset g c d)) = zeros g.
Proof.
  induction g as [ | a g IH]; intros c d Hc Z Nd; [cbn in Hc; lia | ]. unfold zeros in *. destruct c as [ | c].
  - cbn [nth] in Z. subst a. cbn [lset filter]. apply Nat.eqb_neq in Nd. rewrite Nd. reflexivity.
  - cbn [nth length] in Z, Hc. cbn [lset filter]. specialize (IH c d ltac:(lia) Z Nd). destruct (a =? 0); cbn [length]; lia.
Qed.
Lemma zeros_le g : zeros g <= length g.
Proof. unfold zeros. induction g as [ | a g IH]; cbn [filter]; [lia | ]. destruct (a =? 0); cbn [length]; lia. Qed.

Lemma in_firstn {A} n (l : list A) x : In x (firstn n l) -> In x l.
Proof. intros Hi. rewrite <- (firstn_skipn n l). apply in_app_iff. auto. Qed.
Lemma firstn_grow {A} n (l l' : list A) : n <= length l -> firstn n (l ++ l') = firstn n l.
Proof. intros L. rewrite firstn_app. replace (n - length l) with 0 by lia. cbn [firstn]. apply app_nil_r. Qed.

Lemma C_core D st : C D st -> core st.
Proof.
  intros I. constructor; [apply (c_fun _ _ I) | apply (c_grid _ _ I) | ]. exists D. split; [ | split; [apply (c_valid _ _ I) | apply (c_n _ _ I)]].
  intros c N. destruct (c_done _ _ I c N) as [_ [Q _]]. apply in_firstn in Q. exact Q.
Qed.

(** * Grids that agree with the history *)

(** Every cell has a digit that differs from the digits of the other cells of its houses with entries.  [Ev]: the
    cells with entries; all cells if new entries are deduced *)
Definition fit (Ev : nat -> Prop) (naked : bool) (s : grid) : Prop :=
  (forall c, c < 81 -> 1 <= at_ s c <= 9) /\ (forall c c', c < 81 -> c' < 81 -> peers c c' -> Ev c' -> at_ s c <> at_ s c') /\ (naked = true -> forall c, Ev c).
Definition SndE (Ev : nat -> Prop) (s : grid) (st : strat) : Prop := Snd s st /\ forall c d, In (c, d) (s_entries st) -> Ev c.

(** A grid that agrees with the history keeps the candidates. *)
Lemma keepsE Ev naked D st s c : C D st -> fit Ev naked s -> SndE Ev s st -> c < 81 -> D c = 0 -> mem (P st c) (at_ s c - 1).
Proof.
  intros I So [[S1 S2] S3] Hc Z. destruct (N.testbit (P st c) (N.of_nat (at_ s c - 1))) eqn:T; [exact T | exfalso].
  assert (NM : ~ mem (P st c) (at_ s c - 1)) by (unfold mem; rewrite T; discriminate).
  destruct So as [R [V _]]. specialize (R c Hc) as Rc.
  destruct (c_lower _ _ I c (at_ s c - 1) Hc Z ltac:(lia) NM) as [Hi | [c' [Hc' [Pe Dc']]]].
  - apply S2 in Hi. lia.
  - destruct (c_done _ _ I c' ltac:(lia)) as [_ [Hi _]]. rewrite Dc' in Hi. apply in_firstn in Hi. apply (V c c' Hc Hc' Pe (S3 _ _ Hi)).
    apply S1 in Hi. lia.
Qed.

(** * Removing candidates of one cell *)

(** Fields not touched by the removal of candidates *)
Record keep (st st' : strat) : Prop := {
  k_house : s_house st' = s_house st;
  k_cnd : s_cnd st' = s_cnd st;
  k_hnd : s_hnd st' = s_hnd st;
  k_n : s_n st' = s_n st;
  k_cle : s_cle st' = s_cle st
}.
Lemma keep_refl st : keep st st. Proof. constructor; reflexivity. Qed.
Lemma keep_trans a b c : keep a b -> keep b c -> keep a c.
Proof. intros [] []. constructor; congruence. Qed.

Lemma P_set st c m k : c < 81 -> length (s_cell st) = 81 -> P (set_cell st (lset (s_cell st) c m)) k = if k =? c then m else P st k.
Proof. intros Hc L. unfold P. cbn [s_cell set_cell]. rewrite nth_lset by lia. reflexivity. Qed.

Lemma W_set_cell st c m : W st -> c < 81 -> is_set EDigit m -> W (set_cell st (lset (s_cell st) c m)).
Proof.
  intros w Hc Sm. constructor; try apply w.
  - cbn [s_cell set_cell]. rewrite lset_length. apply w.
  - intros k Hk. rewrite P_set by (try exact Hc; apply w). destruct (k =? c); [exact Sm | apply (w_p _ w k Hk)].
Qed.

Lemma C_set_cell D st c m : C D st -> W st -> c < 81 -> D c = 0 -> m <> 0%N ->
  (forall x, x < 9 -> ~ mem m x -> In (c, S x) (s_elims st) \/ exists c', c' < 81 /\ peers c c' /\ D c' = S x) ->
  C D (set_cell st (lset (s_cell st) c m)).
Proof.
  intros I w Hc Z Nz J. constructor; try apply I.
  - intros k Nk. destruct (c_done _ _ I k Nk) as [A [B E]]. split; [exact A | ]. split; [exact B | ].
    rewrite P_set by (try exact Hc; apply w). destruct (Nat.eqb_spec k c) as [-> | _]; [congruence | exact E].
  - intros k Hk. rewrite P_set by (try exact Hc; apply w). destruct (Nat.eqb_spec k c) as [-> | _]; [intros Q; destruct (Nz Q) | apply (c_empty _ _ I k Hk)].
  - intros k x Hk Zk Hx. rewrite P_set by (try exact Hc; apply w). destruct (Nat.eqb_spec k c) as [-> | _]; [apply J; exact Hx | apply (c_lower _ _ I k x Hk Zk Hx)].
Qed.

(** The state after [push_new] has added an entry *)
Definition pushed (st : strat) (c d : nat) : strat :=
  set_deds (set_entries (set_grid st (lset (s_grid st) c d)) (s_entries st ++ [(c, d)])) (s_deds st ++ [DNaked (c, d)]).

Lemma okst_snoc l c d : okst l -> c < 81 -> 1 <= d <= 9 -> okst (l ++ [(c, d)]).
Proof. intros O Hc Hd' c' d' Hi. apply in_app_iff in Hi. destruct Hi as [Hi | [[= <- <-] | []]]; auto. Qed.

Lemma G_lset st c d k : W st -> c < 81 -> at_ (lset (s_grid st) c d) k = if k =? c then d else G st k.
Proof. intros w Hc. unfold G, at_. rewrite nth_lset by (rewrite (w_lg _ w); exact Hc). reflexivity. Qed.

Lemma W_push st c d x : W st -> c < 81 -> 1 <= d <= 9 -> W (set_deds (set_entries (set_grid st (lset (s_grid st) c d)) (s_entries st ++ [(c, d)])) x).
Proof.
  intros w Hc Hd'. constructor; try apply w; cbn [s_grid s_entries set_deds set_entries set_grid s_cnd].
  - rewrite lset_length. apply w.
  - intros k Hk. unfold G. cbn [s_grid set_deds set_entries set_grid]. rewrite (G_lset st c d k w Hc). destruct (k =? c); [lia | apply (w_g _ w k Hk)].
  - apply okst_snoc; [apply w | exact Hc | exact Hd'].
  - rewrite app_length. pose proof (w_nl _ w). lia.
Qed.

Lemma C_push D st c d x : C D st -> W st -> c < 81 -> (forall d', ~ In (c, d') (s_entries st)) ->
  C D (set_deds (set_entries (set_grid st (lset (s_grid st) c d)) (s_entries st ++ [(c, d)])) x).
Proof.
  intros I w Hc F. assert (FE := firstn_grow (s_cnd st) (s_entries st) [(c, d)] (w_nl _ w)).
  constructor; try apply I; cbn [s_grid s_entries set_deds set_entries set_grid s_cnd]; try (rewrite FE; apply I).
  - intros k d1 d2 H1 H2. apply in_app_iff in H1, H2. destruct H1 as [H1 | [E1 | []]], H2 as [H2 | [E2 | []]].
    + apply (c_fun _ _ I k d1 d2 H1 H2).
    + assert (k = c) by congruence. subst k. destruct (F d1 H1).
    + assert (k = c) by congruence. subst k. destruct (F d2 H2).
    + congruence.
  - intros k Hk. unfold G. cbn [s_grid set_deds set_entries set_grid]. rewrite (G_lset st c d k w Hc).
    destruct (Nat.eqb_spec k c) as [-> | Nk]; intros Q; apply in_app_iff; [right; left; reflexivity | left; apply (c_grid _ _ I k Hk Q)].
Qed.

Definition only (m : N) (x : nat) : Prop := forall i, mem m i <-> i = x.

Lemma remove_spec Ev naked D st c mask : W st -> C D st -> c < 81 ->
  (forall x, mem mask x -> mem (P st c) x -> In (c, S x) (s_elims st) \/ exists c', c' < 81 /\ peers c c' /\ D c' = S x) ->
  (naked = true -> known D st c \/ forall x, ~ (forall i, i = x <-> mem (P st c) i /\ ~ mem mask i)) ->
  hp (remove_imp st c mask naked)
    (fun st' => grow naked st st' /\ keep st st' /\ C D st' /\ D c = 0 /\
       (forall x, mem (P st' c) x <-> mem (P st c) x /\ ~ mem mask x) /\ (forall k, k < 81 -> k <> c -> P st' k = P st k) /\
       (forall k, known D st k -> known D st' k) /\
       (forall s, fit Ev naked s -> SndE Ev s st -> SndE Ev s st'))
    (fun st' => grow naked st st' /\ (D c = 0 -> forall s, fit Ev naked s -> ~ SndE Ev s st) /\ s_entries st' = s_entries st).
Proof.
  intros w I Hc J KK. unfold remove_imp.
  rewrite (aget_ok _ _ 0%N) by (rewrite (w_lp _ w); exact Hc). cbn [bind]. fold (P st c).
  assert (Sp := w_p _ w c Hc). set (m' := set_without EDigit (P st c) mask).
  assert (M : forall x, mem m' x <-> mem (P st c) x /\ ~ mem mask x) by (intros x; apply mem_without; exact Sp).
  assert (Sm : is_set EDigit m') by (intros x Hx; apply M in Hx; apply Sp, Hx).
  rewrite aset_ok by (rewrite (w_lp _ w); exact Hc). cbn [bind].
  set (st' := set_cell st (lset (s_cell st) c m')).
  assert (w' : W st') by (apply W_set_cell; assumption).
  assert (Pc : P st' c = m') by (unfold st'; rewrite P_set by (try exact Hc; apply (w_lp _ w)); rewrite Nat.eqb_refl; reflexivity).
  assert (Pk : forall k, k < 81 -> k <> c -> P st' k = P st k).
  { intros k _ Nk. unfold st'. rewrite P_set by (try exact Hc; apply (w_lp _ w)). apply Nat.eqb_neq in Nk. rewrite Nk. reflexivity. }
  assert (Gr : grow naked st st').
  { constructor; try reflexivity; [exact w' | | destruct (C_core _ _ I); constructor; assumption | intros new; apply (no_why _ st st'); reflexivity]. exists []. rewrite !app_nil_r. split; [reflexivity | ]. split; [reflexivity | ].
    split; [reflexivity | ]. split; [intros k d d' [] | reflexivity]. }
  assert (Kp : keep st st') by (constructor; reflexivity).
  assert (Nz0 : m' <> 0%N -> D c = 0).
  { intros Nz. destruct (Nat.eq_dec (D c) 0) as [ | N]; [assumption | exfalso]. destruct (c_done _ _ I c N) as [_ [_ E]].
    destruct (nonzero_mem m' Nz) as [x Hx]. apply M in Hx. rewrite E in Hx. apply (mem0 x). tauto. }
  assert (Cm : m' <> 0%N -> C D st').
  { intros Nz. apply C_set_cell; try assumption; [apply Nz0; exact Nz | ]. intros x Hx Nm.
    destruct (N.testbit (P st c) (N.of_nat x)) eqn:T.
    - apply J; [ | exact T]. destruct (N.testbit mask (N.of_nat x)) eqn:T'; [exact T' | exfalso]. apply Nm, M. split; [exact T | unfold mem; rewrite T'; discriminate].
    - apply (c_lower _ _ I c x Hc (Nz0 Nz) Hx). unfold mem. rewrite T. discriminate. }
  assert (Bad : D c = 0 -> forall s, fit Ev naked s -> SndE Ev s st -> mem m' (at_ s c - 1)).
  { intros Z s So Ss. assert (Q := keepsE Ev naked D st s c I So Ss Hc Z). apply M. split; [exact Q | ]. intros Mm.
    pose proof So as [R [V _]]. specialize (R c Hc) as Rc. destruct Ss as [[S1 S2] S3].
    destruct (J _ Mm Q) as [Hi | [c' [Hc' [Pe Dc']]]].
    - apply S2 in Hi. lia.
    - destruct (c_done _ _ I c' ltac:(lia)) as [_ [Hi _]]. rewrite Dc' in Hi. apply in_firstn in Hi. apply (V c c' Hc Hc' Pe (S3 _ _ Hi)). apply S1 in Hi. lia. }
  assert (Err : m' = 0%N -> grow naked st st' /\ (D c = 0 -> forall s, fit Ev naked s -> ~ SndE Ev s st) /\ s_entries st' = s_entries st).
  { intros E. split; [exact Gr | ]. split; [ | reflexivity]. intros Z s So Ss. apply (mem0 (at_ s c - 1)). rewrite <- E. apply (Bad Z s So Ss). }
  assert (Fin : m' <> 0%N -> grow naked st st' /\ keep st st' /\ C D st' /\ D c = 0 /\
       (forall x, mem (P st' c) x <-> mem (P st c) x /\ ~ mem mask x) /\ (forall k, k < 81 -> k <> c -> P st' k = P st k) /\
       (forall k, known D st k -> known D st' k) /\ (forall s, fit Ev naked s -> SndE Ev s st -> SndE Ev s st')).
  { intros Nz. split; [exact Gr | ]. split; [exact Kp | ]. split; [apply Cm; exact Nz | ]. split; [apply Nz0; exact Nz | ].
    rewrite Pc. split; [exact M | ]. split; [exact Pk | ]. split; [exact (fun _ q => q) | exact (fun s _ q => q)]. }
  destruct naked.
  - destruct (unique_cases EDigit m' Sm) as [[U E] | [[x [U E]] | [U [i [j [Hi [Hj _]]]]]]]; rewrite U; cbn [bind hp].
    + apply Err. destruct (N.eq_dec m' 0) as [ | N]; [assumption | ]. destruct (nonzero_mem m' N) as [x Hx]. destruct (E x Hx).
    + assert (Hx : x < 9) by (apply Sm, E; reflexivity). rewrite from_index_ok by exact Hx. cbn [bind].
      assert (Nz : m' <> 0%N) by (intros Z; apply (mem0 x); rewrite <- Z; apply E; reflexivity).
      assert (Kd : known D st c).
      { destruct (KK eq_refl) as [X | X]; [exact X | exfalso]. apply (X x). intros i. rewrite <- M, E. reflexivity. }
      specialize (Fin Nz). specialize (Cm Nz). specialize (Nz0 Nz).
      unfold push_new. cbn [fst snd]. change (s_grid st') with (s_grid st).
      rewrite (aget_ok _ _ 0) by (rewrite (w_lg _ w); exact Hc). cbn [bind]. change (nth c (s_grid st) 0) with (G st c).
      destruct (Nat.eqb_spec (G st c) (S x)) as [E1 | N1]; [cbn [hp]; exact Fin | ].
      destruct (Nat.eqb_spec (G st c) 0) as [E2 | N2].
      2:{ cbn [hp]. split; [exact Gr | ]. split; [ | reflexivity]. intros Z s So Ss. assert (Q := Bad Z s So Ss). apply E in Q. pose proof So as [R _]. specialize (R c Hc).
          assert (Q2 := c_grid _ _ I c Hc N2). destruct Ss as [[Ss _] _]. apply Ss in Q2. lia. }
      rewrite aset_ok by (rewrite (w_lg _ w); exact Hc). cbn [bind hp].
      change (set_deds (set_entries (set_grid st' (lset (s_grid st) c (S x))) (s_entries st' ++ [(c, S x)])) (s_deds st' ++ [DNaked (c, S x)])) with (pushed st' c (S x)).
      assert (Fr : forall d', ~ In (c, d') (s_entries st)).
      { intros d' Hi. destruct (w_e _ w c d' Hi) as [_ Hd']. destruct (Kd d' Hi) as [Q | Q]; lia. }
      split; [ | split; [ | split; [ | split; [ | split; [ | split; [ | split]]]]]].
      * constructor; try reflexivity.
        -- apply W_push; [exact w' | exact Hc | lia].
        -- exists [(c, S x)]. split; [reflexivity | ]. split; [reflexivity | ]. split; [discriminate | ]. split.
           ++ intros k d d' [[= <- <-] | []]. apply Fr.
           ++ cbn [pushed s_grid set_deds set_entries set_grid length]. change (s_grid st') with (s_grid st).
              rewrite <- (zeros_lset (s_grid st) c (S x)); [lia | rewrite (w_lg _ w); exact Hc | exact E2 | lia].
        -- apply (C_core D). apply C_push; assumption.
        -- intros new En. cbn [pushed s_entries set_deds set_entries] in En. change (s_entries st') with (s_entries st) in En. apply app_inv_head in En. subst new. cbn [map explained].
           split; [ | exact Logic.I]. exists NakedSingles. split; [left; reflexivity | ]. split; [reflexivity | ]. cbn [why]. split; [reflexivity | ]. split; [exact Hc | ]. split; [lia | ].
           split; [intros d'; apply Fr | ]. intros d' [_ [Ld [Ne Nc]]]. destruct (N.testbit m' (N.of_nat (d' - 1))) eqn:T.
           ++ apply E in T. lia.
           ++ exfalso. destruct (c_lower _ _ Cm c (d' - 1) Hc Nz0 ltac:(lia)) as [Q | [c' [Hc' [Pe Dc']]]].
              ** unfold mem. rewrite Pc, T. discriminate.
              ** apply Ne. unfold listed. replace d' with (S (d' - 1)) by lia. exact Q.
              ** destruct (c_done _ _ I c' ltac:(lia)) as [_ [Hi _]]. apply in_firstn in Hi. apply (Nc c' (D c') Hi). split; [exact Pe | lia].
      * constructor; reflexivity.
      * apply C_push; assumption.
      * exact Nz0.
      * change (P (pushed st' c (S x)) c) with (P st' c). rewrite Pc. exact M.
      * exact Pk.
      * intros k Kk d Hi. unfold pushed in Hi. cbn [s_entries set_deds set_entries] in Hi. apply in_app_iff in Hi.
        unfold G. cbn [pushed s_grid set_deds set_entries set_grid]. change (s_grid st') with (s_grid st). rewrite (G_lset st c (S x) k w Hc).
        destruct Hi as [Hi | [[= <- <-] | []]]; [ | rewrite Nat.eqb_refl; auto].
        destruct (Nat.eqb_spec k c) as [-> | Nk]; [destruct (Fr d Hi) | apply (Kk d Hi)].
      * intros s So [[S1 S2] S3]. split; [ | intros; apply So; reflexivity]. split; [ | exact S2]. intros k d Hi. unfold pushed in Hi. cbn [s_entries set_deds set_entries] in Hi. apply in_app_iff in Hi.
        destruct Hi as [Hi | [[= <- <-] | []]]; [apply S1; exact Hi | ]. assert (Q := Bad Nz0 s So (conj (conj S1 S2) S3)). apply E in Q.
        pose proof So as [R _]. specialize (R c Hc). lia.
    + apply Fin. intros Z. apply (mem0 i). rewrite <- Z. exact Hi.
  - destruct (set_is_empty m') eqn:Em; cbn [negb hp].
    + apply Err. apply (empty_iff EDigit m' Sm). exact Em.
    + apply Fin. intros Z. rewrite (proj2 (empty_iff EDigit m' Sm) Z) in Em. discriminate.
Qed.

(** * Inserting an entry *)

Definition upd (D : nat -> nat) (c d k : nat) : nat := if k =? c then d else D k.

Lemma count_upd D c d l : NoDup l -> In c l -> D c = 0 -> d <> 0 ->
  length (filter (fun k => negb (upd D c d k =? 0)) l) = S (length (filter (fun k => negb (D k =? 0)) l)).
Proof.
  intros ND Hi Z Nd. induction ND as [ | a l Na ND IH]; [destruct Hi | ]. cbn [filter]. destruct Hi as [-> | Hi].
  - unfold upd at 1. rewrite Nat.eqb_refl, Z. apply Nat.eqb_neq in Nd. rewrite Nd. cbn [negb Nat.eqb length]. f_equal.
    clear IH ND. induction l as [ | b l IH]; [reflexivity | ]. cbn [filter]. unfold upd at 1.
    destruct (Nat.eqb_spec b c) as [-> | _]; [destruct Na; left; reflexivity | ].
    assert (Na' : ~ In c l) by (intros Q; apply Na; right; exact Q). destruct (negb (D b =? 0)); cbn [length]; rewrite (IH Na'); reflexivity.
  - unfold upd at 1. destruct (Nat.eqb_spec a c) as [-> | _]; [destruct (Na Hi) | ].
    destruct (negb (D a =? 0)); cbn [length]; rewrite (IH Hi); reflexivity.
Qed.

Lemma firstn_snoc {A} (l : list A) : forall n x, nth_error l n = Some x -> firstn (S n) l = firstn n l ++ [x].
Proof.
  induction l as [ | a l IH]; intros [ | n] x E; try discriminate.
  - cbn in E. injection E as ->. reflexivity.
  - cbn [nth_error] in E. rewrite !firstn_cons. cbn [app]. rewrite <- (IH n x E). reflexivity.
Qed.

Lemma count_le D : length (filter (fun c => negb (D c =? 0)) (seq 0 81)) <= 81.
Proof. rewrite filter_length_le, seq_length. lia. Qed.

Lemma houses_eq c : c < 81 ->
  row_of_cell c = Ok (row_of c) /\ house_of_row (row_of c) = Ok (row_of c) /\
  col_of_cell c = Ok (col_of c) /\ house_of_col (col_of c) = Ok (9 + col_of c) /\
  block_of_cell c = Ok (block_of c) /\ house_of_block (block_of c) = Ok (18 + block_of c) /\
  row_of c < 27 /\ 9 + col_of c < 27 /\ 18 + block_of c < 27.
Proof.
  intros Hc. destruct (cell_conversions c Hc) as [E1 [E2 [E3 _]]].
  pose proof (row_lt c Hc). pose proof (col_lt c). pose proof (block_lt c Hc).
  unfold house_of_row, house_of_col, house_of_block, COL_OFFSET, BLOCK_OFFSET. rewrite !chk_ok by lia.
  rewrite (Nat.add_comm (col_of c) 9), (Nat.add_comm (block_of c) 18). repeat (split; [first [assumption | reflexivity | lia] | ]). lia.
Qed.

Lemma insert_spec D st c d : W st -> C D st -> nth_error (s_entries st) (s_cnd st) = Some (c, d) -> P st c <> 0%N ->
  (forall h, h < 27 -> in_house h c -> ~ mem (Hd st h) (d - 1)) ->
  exists st1, insert_cp_zs (set_nd st (S (s_cnd st)) (S (s_hnd st))) (c, d) = Ok st1 /\ grow false st st1 /\ C (upd D c d) st1 /\
    s_cnd st1 = S (s_cnd st) /\ s_cle st1 = s_cle st /\ s_grid st1 = s_grid st /\
    (forall k, k < 81 -> P st1 k = if k =? c then 0%N else P st k) /\
    (forall h x, h < 27 -> (mem (Hd st1 h) x <-> mem (Hd st h) x \/ (in_house h c /\ x = d - 1))) /\ D c = 0.
Proof.
  intros w I En Np V.
  assert (Hin : In (c, d) (s_entries st)) by (eapply nth_error_In; exact En).
  destruct (w_e _ w c d Hin) as [Hc Hd'].
  assert (Ln : s_cnd st < length (s_entries st)) by (apply nth_error_Some; rewrite En; discriminate).
  assert (Z : D c = 0).
  { destruct (Nat.eq_dec (D c) 0) as [ | N]; [assumption | ]. destruct (c_done _ _ I c N) as [_ [_ E]]. congruence. }
  unfold insert_cp_zs. cbn [s_n s_cell s_house set_nd fst snd].
  unfold inc8. replace (s_n st <? U8_MAX) with true by (symmetry; apply Nat.ltb_lt; rewrite (c_n _ _ I); pose proof (count_le D); unfold U8_MAX; lia).
  cbn [bind]. rewrite aset_ok by (rewrite (w_lp _ w); exact Hc). cbn [bind]. destruct (digit_set_ok d Hd') as [m [E [Sm M]]]. rewrite E. cbn [bind].
  destruct (houses_eq c Hc) as [A1 [A2 [A3 [A4 [A5 [A6 [B1 [B2 B3]]]]]]]].
  rewrite A1. cbn [bind]. rewrite A2. cbn [bind]. rewrite H_add by (try exact B1; apply (w_lh _ w)). cbn [bind].
  rewrite A3. cbn [bind]. rewrite A4. cbn [bind]. rewrite H_add by (try exact B2; rewrite lset_length; apply (w_lh _ w)). cbn [bind].
  rewrite A5. cbn [bind]. rewrite A6. cbn [bind]. rewrite H_add by (try exact B3; rewrite !lset_length; apply (w_lh _ w)). cbn [bind].
  eexists. split; [reflexivity | ]. match goal with |- grow false st ?x /\ _ => set (st1 := x) end.
  assert (Pk : forall k, k < 81 -> P st1 k = if k =? c then 0%N else P st k).
  { intros k Hk. unfold P, st1. cbn [s_cell set_house set_cell]. rewrite nth_lset by (rewrite (w_lp _ w); exact Hc). reflexivity. }
  assert (Hk : forall h x, h < 27 -> (mem (Hd st1 h) x <-> mem (Hd st h) x \/ (in_house h c /\ x = d - 1))).
  { intros h x Hh. unfold Hd, st1. cbn [s_house set_house].
    rewrite (nth_lset _ (18 + block_of c)) by (rewrite !lset_length, (w_lh _ w); lia).
    rewrite (nth_lset _ (9 + col_of c) _ h) by (rewrite !lset_length, (w_lh _ w); lia).
    rewrite (nth_lset _ (row_of c) _ h) by (rewrite (w_lh _ w); lia).
    rewrite (nth_lset _ (9 + col_of c) _ (18 + block_of c)) by (rewrite !lset_length, (w_lh _ w); lia).
    rewrite (nth_lset _ (row_of c) _ (18 + block_of c)) by (rewrite (w_lh _ w); lia).
    rewrite (nth_lset _ (row_of c) _ (9 + col_of c)) by (rewrite (w_lh _ w); lia).
    pose proof (row_lt c Hc). pose proof (col_lt c). assert (Q := in_house_iff c h Hc).
    destruct (Nat.eqb_spec h (18 + block_of c)) as [Eb | Nb].
    - subst h. destruct (Nat.eqb_spec (18 + block_of c) (9 + col_of c)); [lia | ]. destruct (Nat.eqb_spec (18 + block_of c) (row_of c)); [lia | ].
      rewrite mem_or, M. assert (in_house (18 + block_of c) c) by (apply Q; lia). tauto.
    - destruct (Nat.eqb_spec h (9 + col_of c)) as [Ec | Nc].
      + subst h. destruct (Nat.eqb_spec (9 + col_of c) (row_of c)); [lia | ].
        rewrite mem_or, M. assert (in_house (9 + col_of c) c) by (apply Q; lia). tauto.
      + destruct (Nat.eqb_spec h (row_of c)) as [Er | Nr].
        * subst h. rewrite mem_or, M. assert (in_house (row_of c) c) by (apply Q; lia). tauto.
        * assert (~ in_house h c) by (intros X; destruct (proj1 Q (conj Hh X)) as [? | [? | ?]]; lia). tauto. }
  assert (w1 : W st1).
  { constructor; try apply w; unfold st1; cbn [s_grid s_cell s_house s_entries s_elims s_hnd s_cnd s_cle set_house set_cell set_n set_nd].
    - rewrite lset_length. apply w.
    - rewrite !lset_length. apply w.
    - intros k Hx x Q. change (mem (P st1 k) x) in Q. rewrite Pk in Q by exact Hx. destruct (k =? c); [destruct (mem0 x Q) | apply (w_p _ w k Hx x Q)].
    - intros h Hh x Q. change (mem (Hd st1 h) x) in Q. apply (Hk h x Hh) in Q. destruct Q as [Q | [_ ->]]; [apply (w_h _ w h Hh x Q) | cbn; lia].
    - f_equal. apply (w_nd _ w).
    - lia. }
  enough (I1 : C (upd D c d) st1).
  { split; [ | split; [exact I1 | split; [reflexivity | split; [reflexivity | split; [reflexivity | split; [exact Pk | split; [exact Hk | exact Z]]]]]]].
    constructor; try reflexivity; [exact w1 | | apply (C_core _ _ I1) | intros new; apply (no_why _ st st1); reflexivity]. exists []. rewrite !app_nil_r. split; [reflexivity | ]. split; [reflexivity | ].
    split; [reflexivity | ]. split; [intros k x y [] | reflexivity]. }
  assert (FS := firstn_snoc _ _ _ En).
  constructor; unfold st1; cbn [s_cnd s_entries s_elims s_n set_house set_cell set_n set_nd].
  - fold st1. unfold upd. intros k. destruct (Nat.eqb_spec k c) as [-> | Nk]; intros Nz.
    + split; [exact Hc | ]. rewrite FS. split; [apply in_app_iff; right; left; reflexivity | ]. rewrite Pk by exact Hc. rewrite Nat.eqb_refl. reflexivity.
    + destruct (c_done _ _ I k Nz) as [A [B Q]]. split; [exact A | ]. rewrite FS. split; [apply in_app_iff; left; exact B | ].
      rewrite Pk by exact A. apply Nat.eqb_neq in Nk. rewrite Nk. exact Q.
  - intros k d' Hi. rewrite FS in Hi. apply in_app_iff in Hi. unfold upd. destruct Hi as [Hi | [[= <- <-] | []]]; [ | rewrite Nat.eqb_refl; reflexivity].
    destruct (Nat.eqb_spec k c) as [-> | Nk]; [ | apply (c_ent _ _ I k d' Hi)]. apply (c_fun _ _ I c); [exact Hin | apply in_firstn in Hi; exact Hi].
  - fold st1. intros k Hx Q. rewrite Pk in Q by exact Hx. unfold upd. destruct (k =? c); [lia | apply (c_empty _ _ I k Hx Q)].
  - fold st1. intros h x Hh. rewrite Hk by exact Hh. rewrite (c_house _ _ I h x Hh). unfold upd. split.
    + intros [[k [K1 [K2 K3]]] | [Q ->]].
      * exists k. split; [exact K1 | ]. split; [exact K2 | ]. destruct (Nat.eqb_spec k c) as [-> | _]; [lia | exact K3].
      * exists c. split; [exact Hc | ]. split; [exact Q | ]. rewrite Nat.eqb_refl. lia.
    + intros [k [K1 [K2 K3]]]. destruct (Nat.eqb_spec k c) as [-> | _]; [right; split; [exact K2 | lia] | left; exists k; auto].
  - intros k k' Kk Kk' Pe N. unfold upd in *.
    assert (X : forall y, y < 81 -> y <> c -> peers c y -> d <> D y).
    { intros y Hy Ny Py Ed. destruct (peers_house c y Hc Hy Py) as [h [Hh [A B]]]. apply (V h Hh A). apply (c_house _ _ I h _ Hh).
      exists y. split; [exact Hy | ]. split; [exact B | lia]. }
    destruct (Nat.eqb_spec k c) as [-> | Nk], (Nat.eqb_spec k' c) as [-> | Nk'].
    + destruct Pe as [[] _]. reflexivity.
    + apply X; assumption.
    + apply not_eq_sym. apply X; [assumption | assumption | apply peers_sym; exact Pe].
    + apply (c_valid _ _ I); assumption.
  - fold st1. intros k x Hx Zk Hx9 NM. rewrite Pk in NM by exact Hx. unfold upd in Zk. destruct (Nat.eqb_spec k c) as [-> | Nk]; [lia | ].
    destruct (c_lower _ _ I k x Hx Zk Hx9 NM) as [Q | [c' [Hc' [Pe Dc']]]]; [left; exact Q | right].
    exists c'. split; [exact Hc' | ]. split; [exact Pe | ]. unfold upd. destruct (Nat.eqb_spec c' c) as [-> | _]; [lia | exact Dc'].
  - rewrite (count_upd D c d) by (try apply seq_NoDup; try exact Z; try lia; apply in_seq; lia). rewrite (c_n _ _ I). reflexivity.
  - apply (c_fun _ _ I).
  - apply (c_grid _ _ I).
Qed.

(** An entry for a cell that is already solved is skipped. *)
Lemma skip_spec D st c d : W st -> C D st -> nth_error (s_entries st) (s_cnd st) = Some (c, d) -> P st c = 0%N ->
  let st1 := set_nd st (S (s_cnd st)) (S (s_hnd st)) in grow false st st1 /\ C D st1.
Proof.
  intros w I En E0 st1.
  assert (Hin : In (c, d) (s_entries st)) by (eapply nth_error_In; exact En).
  destruct (w_e _ w c d Hin) as [Hc Hd'].
  assert (Ln : s_cnd st < length (s_entries st)) by (apply nth_error_Some; rewrite En; discriminate).
  assert (FS := firstn_snoc _ _ _ En).
  assert (w1 : W st1).
  { constructor; try apply w; unfold st1; cbn [s_entries s_hnd s_cnd set_nd]; [f_equal; apply w | lia]. }
  split.
  { constructor; try reflexivity; [exact w1 | | destruct (C_core _ _ I); constructor; assumption | intros new; apply (no_why _ st st1); reflexivity]. exists []. rewrite !app_nil_r. split; [reflexivity | ]. split; [reflexivity | ].
    split; [reflexivity | ]. split; [intros k x y [] | reflexivity]. }
  constructor; try apply I; unfold st1; cbn [s_cnd s_entries set_nd].
  - intros k Nz. destruct (c_done _ _ I k Nz) as [A [B Q]]. split; [exact A | ]. rewrite FS. split; [apply in_app_iff; left; exact B | exact Q].
  - intros k d' Hi. rewrite FS in Hi. apply in_app_iff in Hi. destruct Hi as [Hi | [[= <- <-] | []]]; [apply (c_ent _ _ I k d' Hi) | ].
    assert (N := c_empty _ _ I c Hc E0). destruct (c_done _ _ I c N) as [_ [B _]]. apply (c_fun _ _ I c); [ | exact Hin]. apply in_firstn in B. exact B.
Qed.

(** * Removing a placed digit from the neighbors *)

Lemma clear_spec Ev naked D c d mask : (forall i, mem mask i <-> i = d - 1) -> 1 <= d <= 9 -> c < 81 -> D c = d ->
  forall cells st, W st -> C D st -> (forall k, In k cells -> k < 81 /\ peers c k) ->
  (naked = true -> forall k, k < 81 -> known D st k \/ exists x y, x <> y /\ x <> d - 1 /\ y <> d - 1 /\ mem (P st k) x /\ mem (P st k) y) ->
  hp (clear_neighbors mask naked cells st)
    (fun st' => grow naked st st' /\ keep st st' /\ C D st' /\
       (forall k x, k < 81 -> (mem (P st' k) x <-> mem (P st k) x /\ ~ (In k cells /\ x = d - 1))) /\
       (forall k, known D st k -> known D st' k) /\ (forall s, fit Ev naked s -> SndE Ev s st -> SndE Ev s st'))
    (fun st' => grow naked st st' /\ forall s, fit Ev naked s -> ~ SndE Ev s st).
Proof.
  intros M Hd' Hc Dc cells. unfold clear_neighbors. induction cells as [ | k cells IH]; intros st w I Cs KK; cbn [for_ok].
  - cbn [hp]. split; [apply grow_refl; [exact w | apply (C_core D); exact I] | ]. split; [apply keep_refl | ]. split; [exact I | ].
    split; [intros k x _; split; [intros Q; split; [exact Q | intros [[] _]] | tauto] | ]. split; auto.
  - destruct (Cs k (or_introl eq_refl)) as [Hk Pk].
    assert (Cs' : forall k', In k' cells -> k' < 81 /\ peers c k') by (intros k' Hi; apply Cs; right; exact Hi).
    rewrite (aget_ok _ _ 0%N) by (rewrite (w_lp _ w); exact Hk). cbn [bind]. fold (P st k).
    destruct (set_overlaps EDigit mask (P st k)) eqn:Ov.
    + apply overlaps_iff in Ov. destruct Ov as [x [Hx Hx']]. apply M in Hx. subst x.
      assert (Z : D k = 0).
      { destruct (Nat.eq_dec (D k) 0) as [ | N]; [assumption | ]. destruct (c_done _ _ I k N) as [_ [_ E]]. rewrite E in Hx'. destruct (mem0 _ Hx'). }
      eapply hp_bindE; [apply (remove_spec Ev naked D st k mask w I Hk) | | ].
      * intros x Hx _. apply M in Hx. subst x. right. exists c. split; [exact Hc | ]. split; [apply peers_sym; exact Pk | lia].
      * intros Nk. destruct (KK Nk k Hk) as [Q | [y [z [N1 [N2 [N3 [M1 M2]]]]]]]; [left; exact Q | right]. intros x E.
        apply N1. transitivity x; [apply E | symmetry; apply E]; (split; [assumption | rewrite M; assumption]).
      * intros st' [Gr [Er _]]. split; [exact Gr | exact (Er Z)].
      * intros st1 _ [Gr [Kp [I1 [_ [M1 [P1 [K1 S1]]]]]]].
        eapply hp_impl; [apply (IH st1 (g_w _ _ _ Gr) I1 Cs') | | ].
        -- intros Nk k' Hk'. destruct (KK Nk k' Hk') as [Q | [y [z [N1 [N2 [N3 [M2 M3]]]]]]]; [left; auto | right].
           exists y, z. split; [exact N1 | ]. split; [exact N2 | ]. split; [exact N3 | ]. destruct (Nat.eq_dec k' k) as [-> | Ne]; [ | rewrite P1 by assumption; auto].
           rewrite !M1, !M. auto.
        -- intros st2 [Gr2 [Kp2 [I2 [M2 [K2 S2]]]]]. split; [eapply grow_trans; eassumption | ]. split; [eapply keep_trans; eassumption | ].
           split; [exact I2 | ]. split; [ | split; auto].
           intros k' x Hk'. rewrite (M2 k' x Hk'). destruct (Nat.eq_dec k' k) as [-> | Ne].
           ++ rewrite M1, M. cbn [In]. tauto.
           ++ rewrite P1 by assumption. cbn [In]. assert (k <> k') by auto. tauto.
        -- intros st2 [Gr2 Er]. split; [eapply grow_trans; eassumption | ]. intros s So Ss. apply (Er s So). auto.
    + cbn [bindE bind fst snd]. eapply hp_impl; [apply (IH st w I Cs' KK) | | auto].
      intros st2 [Gr2 [Kp2 [I2 [M2 [K2 S2]]]]]. split; [exact Gr2 | ]. split; [exact Kp2 | ]. split; [exact I2 | ]. split; [ | auto].
      intros k' x Hk'. rewrite (M2 k' x Hk'). cbn [In]. split; [ | tauto]. intros [Q1 Q2]. split; [exact Q1 | ]. intros [[<- | Q3] ->]; [ | tauto].
      assert (set_overlaps EDigit mask (P st k) = true) by (apply overlaps_iff; exists (d - 1); split; [apply M; reflexivity | exact Q1]). congruence.
Qed.

(** * One entry at a time *)

Definition bd (st : strat) : Prop := length (s_entries st) + zeros (s_grid st) <= 300.
Definition shrink (st st' : strat) : Prop := forall k x, k < 81 -> mem (P st' k) x -> mem (P st k) x.
Lemma shrink_refl st : shrink st st. Proof. intros k x _ Q. exact Q. Qed.
Lemma shrink_trans a b c : shrink a b -> shrink b c -> shrink a c.
Proof. intros A B k x Hk Q. apply A; [exact Hk | ]. apply B; assumption. Qed.

Lemma bd_grow naked st st' : grow naked st st' -> bd st -> bd st'.
Proof. intros Gr B. unfold bd in *. pose proof (grow_len _ _ _ Gr). lia. Qed.
Lemma grow_weak naked st st' : grow false st st' -> grow naked st st'.
Proof.
  intros Gr. destruct (grow_false _ _ Gr) as [E1 [E2 E3]]. destruct Gr. constructor; try assumption.
  exists []. rewrite !app_nil_r. split; [exact E1 | ]. split; [exact E2 | ]. split; [reflexivity | ]. split; [intros c d d' [] | cbn; lia].
Qed.

Lemma inc16_ok n : n <= 300 -> inc16 n = Ok (S n).
Proof. intros H. unfold inc16, U16_MAX. replace (N.of_nat n <? 65535)%N with true by (symmetry; apply N.ltb_lt; lia). reflexivity. Qed.

(** Up to four entries cannot leave a cell with one candidate. *)
Definition pend (D : nat -> nat) (st : strat) (k : nat) : Prop :=
  D k = 0 /\ exists i d, i < 4 /\ nth_error (s_entries st) i = Some (k, d) /\ 9 <= set_len (P st k) + s_cnd st.
Definition mode (naked : bool) (D : nat -> nat) (st : strat) : Prop := naked = true -> forall k, k < 81 -> known D st k \/ pend D st k.

(** An entry of a cell without digit has not been processed. *)
Lemma pend_index D st k i d : C D st -> okst (s_entries st) -> D k = 0 -> nth_error (s_entries st) i = Some (k, d) -> s_cnd st <= i.
Proof.
  intros I O Z E. destruct (Nat.le_gt_cases (s_cnd st) i) as [L | L]; [exact L | exfalso].
  assert (Hi : In (k, d) (firstn (s_cnd st) (s_entries st))).
  { assert (X : nth_error (firstn (s_cnd st) (s_entries st)) i = Some (k, d)) by (rewrite <- E; clear - L; revert i L; generalize (s_cnd st) as n; induction (s_entries st) as [ | a l IH]; intros [ | n] [ | i] L; cbn; try reflexivity; try lia; apply IH; lia).
    apply nth_error_In in X. exact X. }
  assert (X := c_ent _ _ I k d Hi). apply nth_error_In in E. destruct (O _ _ E). lia.
Qed.

Lemma two_members e m a : is_set e m -> 3 <= set_len m -> exists x y, x <> y /\ x <> a /\ y <> a /\ mem m x /\ mem m y.
Proof.
  intros S L. rewrite (len_members e m S) in L. assert (I := fun i => members_in e m i S). assert (N : NoDup (members e m)) by (apply NoDup_filter, seq_NoDup).
  destruct (members e m) as [ | x [ | y [ | z t]]]; cbn [length] in L; try lia. clear L.
  assert (mem m x) by (apply I; cbn; auto). assert (mem m y) by (apply I; cbn; auto). assert (mem m z) by (apply I; cbn; auto).
  inversion N as [ | ? ? N1 N']. inversion N' as [ | ? ? N2 _]. cbn [In] in *.
  destruct (Nat.eq_dec x a), (Nat.eq_dec y a); [exfalso; apply N1; left; congruence | exists y, z | exists x, z | exists x, y];
    (split; [intros Q; subst; tauto | ]); (split; [intros Q; subst; tauto | ]); split; try assumption; try (intros Q; subst; tauto); auto.
Qed.

Lemma set_len_minus e m m' a : is_set e m -> (forall x, x <> a -> mem m x -> mem m' x) -> is_set e m' -> set_len m <= S (set_len m').
Proof.
  intros S H S'. rewrite (len_members e m S), (len_members e m' S').
  transitivity (length (a :: members e m')); [ | cbn [length]; lia]. apply NoDup_incl_length; [apply NoDup_filter, seq_NoDup | ].
  intros x Hx. apply (members_in e m x S) in Hx. destruct (Nat.eq_dec x a) as [-> | N]; [left; reflexivity | right]. apply (members_in e m' x S'). auto.
Qed.

Lemma grow_nd st n : W st -> core st -> s_cnd st <= n -> n <= length (s_entries st) -> grow false st (set_nd st n n).
Proof.
  intros w o Ln Ln'. constructor; try reflexivity.
  - constructor; try apply w; cbn [s_entries s_hnd s_cnd set_nd]; [reflexivity | exact Ln'].
  - exists []. rewrite !app_nil_r. split; [reflexivity | ]. split; [reflexivity | ]. split; [reflexivity | ]. split; [intros c d d' [] | reflexivity].
  - destruct o. constructor; assumption.
  - intros new. apply (no_why _ st (set_nd st n n)). reflexivity.
Qed.

Lemma all_K D st : C D st -> length (s_entries st) <= s_cnd st -> K D st.
Proof. intros I L c d Hi. left. apply (c_ent _ _ I). rewrite firstn_all2 by exact L. exact Hi. Qed.

Lemma Snd_grow_false Ev st st' s : grow false st st' -> SndE Ev s st -> SndE Ev s st'.
Proof. intros Gr [[S1 S2] S3]. destruct (grow_false _ _ Gr) as [E _]. split; [split; [rewrite E | rewrite (g_elims _ _ _ Gr)] | rewrite E]; assumption. Qed.

Lemma singly_spec Ev naked : forall fuel D st, W st -> C D st -> disj st -> mode naked D st -> bd st ->
  length (s_entries st) + zeros (s_grid st) - s_cnd st < fuel ->
  hp (insert_singly_f fuel naked st)
    (fun st' => grow naked st st' /\ shrink st st' /\ s_cle st' = s_cle st /\ (forall s, fit Ev naked s -> SndE Ev s st -> SndE Ev s st') /\
       s_cnd st <= s_cnd st' /\ (s_cnd st < length (s_entries st) -> s_cnd st < s_cnd st') /\
       (length (s_entries st') <= s_cnd st' \/ 4 < length (s_entries st') - s_cnd st') /\
       exists D', C D' st' /\ disj st' /\ mode naked D' st')
    (fun st' => grow naked st st' /\ forall s, fit Ev naked s -> ~ SndE Ev s st).
Proof.
  induction fuel as [ | fuel IH]; intros D st w I J Mo B Fu; [lia | ]. cbn [insert_singly_f].
  destruct (Nat.leb_spec (length (s_entries st)) (s_cnd st)) as [Le | Lt].
  { cbn [hp]. split; [apply grow_refl; [exact w | apply (C_core D); exact I] | ]. split; [apply shrink_refl | ]. split; [reflexivity | ]. split; [auto | ]. split; [lia | ]. split; [lia | ].
    split; [left; exact Le | ]. exists D. auto. }
  rewrite (aget_ok _ _ ((0, 0) : cand)) by exact Lt. cbn [bind]. destruct (nth (s_cnd st) (s_entries st) ((0, 0) : cand)) as [c d] eqn:En0.
  assert (En : nth_error (s_entries st) (s_cnd st) = Some (c, d)) by (rewrite <- En0; apply nth_error_nth'; exact Lt). clear En0.
  assert (Hin : In (c, d) (s_entries st)) by (eapply nth_error_In; exact En).
  destruct (w_e _ w c d Hin) as [Hc Hd'].
  rewrite inc16_ok by (unfold bd in B; lia). cbn [bind]. rewrite (w_nd _ w). rewrite inc16_ok by (unfold bd in B; lia). cbn [bind fst snd].
  destruct (digit_set_ok d Hd') as [mask [Em [Sm M]]]. rewrite Em. cbn [bind].
  rewrite (aget_ok _ _ 0%N) by (cbn [s_cell set_nd]; rewrite (w_lp _ w); exact Hc). cbn [bind]. change (nth c (s_cell (set_nd st (S (s_cnd st)) (S (s_cnd st)))) 0%N) with (P st c).
  assert (Sp := w_p _ w c Hc).
  destruct (set_is_empty (P st c)) eqn:Ep.
  { apply (empty_iff EDigit _ Sp) in Ep. destruct (skip_spec D st c d w I En Ep) as [Gr I1]. rewrite (w_nd _ w) in Gr, I1.
    set (st1 := set_nd st (S (s_cnd st)) (S (s_cnd st))) in *.
    assert (Gr' := grow_weak naked _ _ Gr).
    eapply hp_impl; [apply (IH D st1 (g_w _ _ _ Gr) I1 J) | | ].
    - intros Nk k Hk. destruct (Mo Nk k Hk) as [Q | [Z [i [e [L4 [Ee Q]]]]]]; [left; exact Q | right]. split; [exact Z | ]. exists i, e. split; [exact L4 | ]. split; [exact Ee | ].
      change (P st1 k) with (P st k). unfold st1. cbn [s_cnd set_nd]. lia.
    - exact (bd_grow _ _ _ Gr B).
    - unfold st1. cbn [s_cnd s_entries s_grid set_nd]. lia.
    - intros st' [G2 [Sh [Cl [Ss [L1 [L2 [L3 X]]]]]]]. split; [eapply grow_trans; eassumption | ]. split; [exact Sh | ]. split; [exact Cl | ].
      split; [exact Ss | ]. unfold st1 in L1. cbn [s_cnd set_nd] in L1. split; [lia | ]. split; [lia | ]. auto.
    - intros st' [G2 Er]. split; [eapply grow_trans; eassumption | exact Er]. }
  assert (Np : P st c <> 0%N) by (intros Q; apply (empty_iff EDigit _ Sp) in Q; congruence).
  assert (Z : D c = 0).
  { destruct (Nat.eq_dec (D c) 0) as [ | N]; [assumption | ]. destruct (c_done _ _ I c N) as [_ [_ E]]. congruence. }
  assert (Sa : is_set EDigit (set_and (P st c) mask)) by (intros x Hx; apply mem_and in Hx; apply Sp, Hx).
  destruct (set_is_empty (set_and (P st c) mask)) eqn:Ea.
  { cbn [hp]. split; [apply grow_weak, grow_nd; [exact w | apply (C_core D); exact I | lia | lia] | ]. intros s So Ss. assert (Q := keepsE Ev naked D st s c I So Ss Hc Z).
    apply (proj1 (is_empty_meaning EDigit _ Sa) Ea (d - 1)). apply mem_and. split; [ | apply M; reflexivity].
    destruct Ss as [[S1 _] _]. rewrite (S1 c d Hin) in Q. exact Q. }
  assert (Md : mem (P st c) (d - 1)).
  { destruct (nonzero_mem (set_and (P st c) mask)) as [x Hx].
    - intros Q. rewrite (proj2 (empty_iff EDigit _ Sa) Q) in Ea. discriminate.
    - apply mem_and in Hx. destruct Hx as [Hx Hx']. apply M in Hx'. subst x. exact Hx. }
  destruct (insert_spec D st c d w I En Np) as [st1 [Ei [Gr1 [I1 [Cn1 [Cl1 [Gd1 [P1 [H1 _]]]]]]]]].
  { intros h Hh Hi. apply (J c (d - 1) h Hc Hh Hi Md). }
  rewrite (w_nd _ w) in Ei. rewrite Ei. cbn [bind].
  destruct (neighbors_exact c Hc) as [nb [Enb [_ [_ Inb]]]]. rewrite Enb. cbn [bind].
  destruct (grow_false _ _ Gr1) as [Ee1 [Ed1 Ez1]].
  assert (Cs : forall k, In k nb -> k < 81 /\ peers c k) by (intros k; apply Inb).
  assert (Dc : upd D c d c = d) by (unfold upd; rewrite Nat.eqb_refl; reflexivity).
  assert (Kn1 : forall k, k < 81 -> known D st k -> known (upd D c d) st1 k).
  { intros k Hk Kk e Hi. rewrite Ee1 in Hi. unfold G, upd. rewrite Gd1. destruct (Nat.eqb_spec k c) as [-> | Ne]; [left; apply (c_fun _ _ I c); assumption | apply (Kk e Hi)]. }
  assert (Pe1 : forall k, k < 81 -> k <> c -> pend D st k -> 7 <= set_len (P st1 k) /\ P st1 k = P st k).
  { intros k Hk Ne [Z' [i [e [L4 [Ei' Q]]]]]. assert (X := pend_index D st k i e I (w_e _ w) Z' Ei').
    assert (i <> s_cnd st) by (intros ->; rewrite En in Ei'; injection Ei' as E1 _; congruence).
    assert (X2 : P st1 k = P st k) by (rewrite P1 by exact Hk; apply Nat.eqb_neq in Ne; rewrite Ne; reflexivity). rewrite X2. split; [lia | reflexivity]. }
  assert (Kc1 : known (upd D c d) st1 c) by (intros e Hi; rewrite Ee1 in Hi; left; rewrite Dc; apply (c_fun _ _ I c); assumption).
  assert (Mo1 : naked = true -> forall k, k < 81 -> known (upd D c d) st1 k \/ exists x y, x <> y /\ x <> d - 1 /\ y <> d - 1 /\ mem (P st1 k) x /\ mem (P st1 k) y).
  { intros Nk k Hk. destruct (Nat.eq_dec k c) as [-> | Ne]; [left; exact Kc1 | ]. destruct (Mo Nk k Hk) as [Q | Q]; [left; auto | right].
    destruct (Pe1 k Hk Ne Q) as [L7 _]. apply (two_members EDigit); [apply (w_p _ (g_w _ _ _ Gr1) k Hk) | lia]. }
  eapply hp_bindE; [apply (clear_spec Ev naked (upd D c d) c d mask M Hd' Hc Dc nb st1 (g_w _ _ _ Gr1) I1 Cs Mo1) | | ].
  { intros st' [G2 Er]. split; [eapply grow_trans; [apply grow_weak; exact Gr1 | exact G2] | ]. intros s So Ss. apply (Er s So), (Snd_grow_false _ _ _ _ Gr1 Ss). }
  intros st2 _ [Gr2 [Kp2 [I2 [M2 [K2 S2]]]]].
  assert (Gr : grow naked st st2) by (eapply grow_trans; [apply grow_weak; exact Gr1 | exact Gr2]).
  assert (w2 := g_w _ _ _ Gr2). assert (Cn2 : s_cnd st2 = S (s_cnd st)) by (rewrite (k_cnd _ _ Kp2); exact Cn1).
  assert (Sh2 : shrink st st2).
  { intros k x Hk Q. apply (M2 k x Hk) in Q. destruct Q as [Q _]. rewrite P1 in Q by exact Hk. destruct (k =? c); [destruct (mem0 x Q) | exact Q]. }
  assert (J2 : disj st2).
  { intros k x h Hk Hh Hi Q. assert (Q' := Sh2 k x Hk Q). unfold Hd. rewrite (k_house _ _ Kp2). fold (Hd st1 h). rewrite (H1 h x Hh). intros [X | [X ->]].
    - apply (J k x h Hk Hh Hi Q' X).
    - apply (M2 k _ Hk) in Q. destruct Q as [Q Nq]. destruct (Nat.eq_dec k c) as [-> | Ne].
      + rewrite P1 in Q by exact Hk. rewrite Nat.eqb_refl in Q. destruct (mem0 _ Q).
      + apply Nq. split; [ | reflexivity]. apply Inb. split; [exact Hk | ]. apply (house_peers h); auto. }
  assert (Mo2 : mode naked (upd D c d) st2).
  { intros Nk k Hk. destruct (Nat.eq_dec k c) as [-> | Ne]; [left; auto | ]. destruct (Mo Nk k Hk) as [Q | Q]; [left; auto | right].
    destruct (Pe1 k Hk Ne Q) as [_ E1]. destruct Q as [Z' [i [e [L4 [Ei' Q]]]]]. split; [unfold upd; apply Nat.eqb_neq in Ne; rewrite Ne; exact Z' | ].
    exists i, e. split; [exact L4 | ]. split.
    - destruct (g_new _ _ _ Gr) as [new [E2 _]]. rewrite E2, nth_error_app1; [exact Ei' | ]. apply nth_error_Some. congruence.
    - rewrite Cn2. assert (set_len (P st k) <= S (set_len (P st2 k))); [ | lia]. apply (set_len_minus EDigit _ _ (d - 1)).
      + apply (w_p _ w k Hk).
      + intros x Nx Hx. apply (M2 k x Hk). rewrite E1. split; [exact Hx | ]. intros [_ E]. contradiction.
      + apply (w_p _ w2 k Hk). }
  assert (L2 := w_nl _ w2). assert (Gl := grow_len _ _ _ Gr).
  assert (Sn : forall s, fit Ev naked s -> SndE Ev s st -> SndE Ev s st2) by (intros s So Ss; apply (S2 s So), (Snd_grow_false _ _ _ _ Gr1 Ss)).
  assert (Cl2 : s_cle st2 = s_cle st) by (rewrite (k_cle _ _ Kp2); exact Cl1).
  unfold usub. rewrite (proj2 (Nat.leb_le _ _) L2). cbn [bind].
  destruct (Nat.ltb_spec 4 (length (s_entries st2) - s_cnd st2)) as [L4 | L4].
  { cbn [hp]. split; [exact Gr | ]. split; [exact Sh2 | ]. split; [exact Cl2 | ]. split; [exact Sn | ]. split; [lia | ]. split; [lia | ]. split; [right; exact L4 | ].
    exists (upd D c d). auto. }
  eapply hp_impl; [apply (IH (upd D c d) st2 w2 I2 J2 Mo2) | | ].
  - exact (bd_grow _ _ _ Gr B).
  - lia.
  - intros st' [G3 [Sh3 [Cl3 [Ss3 [L31 [L32 [L33 X]]]]]]]. split; [eapply grow_trans; eassumption | ]. split; [eapply shrink_trans; eassumption | ].
    split; [congruence | ]. split; [auto | ]. split; [lia | ]. split; [lia | ]. auto.
  - intros st' [G3 Er]. split; [eapply grow_trans; eassumption | ]. intros s So Ss. apply (Er s So). auto.
Qed.

(** * All outstanding entries at once *)

Lemma masks_eq st c : W st -> c < 81 -> house_masks st c = Ok (Hd st (row_of c), Hd st (9 + col_of c), Hd st (18 + block_of c)).
Proof.
  intros w Hc. unfold house_masks, house_get. destruct (houses_eq c Hc) as [A1 [A2 [A3 [A4 [A5 [A6 [B1 [B2 B3]]]]]]]].
  rewrite A1. cbn [bind]. rewrite A2. cbn [bind]. rewrite (aget_ok _ _ 0%N) by (rewrite (w_lh _ w); exact B1). cbn [bind].
  rewrite A3. cbn [bind]. rewrite A4. cbn [bind]. rewrite (aget_ok _ _ 0%N) by (rewrite (w_lh _ w); exact B2). cbn [bind].
  rewrite A5. cbn [bind]. rewrite A6. cbn [bind]. rewrite (aget_ok _ _ 0%N) by (rewrite (w_lh _ w); exact B3). reflexivity.
Qed.

Lemma any_mask st c x : c < 81 -> (mem (Hd st (row_of c)) x \/ mem (Hd st (9 + col_of c)) x \/ mem (Hd st (18 + block_of c)) x <->
  exists h, h < 27 /\ in_house h c /\ mem (Hd st h) x).
Proof.
  intros Hc. split.
  - intros [Q | [Q | Q]]; eexists; (split; [ | split; [ | exact Q]]); eapply (in_house_iff c); auto.
  - intros [h [Hh [Hi Q]]]. destruct (proj1 (in_house_iff c h Hc) (conj Hh Hi)) as [E | [E | E]]; subst h; auto.
Qed.

Lemma skipn_nth {A} (l : list A) : forall n x t, skipn n l = x :: t -> nth_error l n = Some x /\ skipn (S n) l = t.
Proof.
  induction l as [ | a l IH]; intros n x t E.
  - rewrite skipn_nil in E. discriminate.
  - destruct n as [ | n]; [cbn in E; injection E as <- <-; auto | ]. rewrite skipn_cons in E. exact (IH n x t E).
Qed.

Lemma pending_spec Ev naked : forall l D st, W st -> C D st -> bd st -> skipn (s_cnd st) (s_entries st) = l ->
  hp (for_ok l batch_insert_one st)
    (fun st' => grow false st st' /\ shrink st st' /\ s_cle st' = s_cle st /\ s_cnd st' = length (s_entries st') /\ s_cnd st <= s_cnd st' /\ exists D', C D' st')
    (fun st' => grow false st st' /\ forall s, fit Ev naked s -> ~ SndE Ev s st).
Proof.
  induction l as [ | [c d] l IH]; intros D st w I B El; cbn [for_ok].
  - cbn [hp]. split; [apply grow_refl; [exact w | apply (C_core D); exact I] | ]. split; [apply shrink_refl | ]. split; [reflexivity | ]. split; [ | split; [lia | exists D; exact I]].
    assert (L := w_nl _ w). apply (f_equal (@length _)) in El. rewrite skipn_length in El. cbn [length] in El. lia.
  - destruct (skipn_nth _ _ _ _ El) as [En El'].
    assert (Lt : s_cnd st < length (s_entries st)) by (apply nth_error_Some; rewrite En; discriminate).
    assert (Hin : In (c, d) (s_entries st)) by (eapply nth_error_In; exact En).
    destruct (w_e _ w c d Hin) as [Hc Hd'].
    unfold batch_insert_one at 1. rewrite inc16_ok by (unfold bd in B; lia). cbn [bind]. rewrite (w_nd _ w). rewrite inc16_ok by (unfold bd in B; lia). cbn [bind fst snd].
    set (st1 := set_nd st (S (s_cnd st)) (S (s_cnd st))).
    rewrite (aget_ok _ _ 0%N) by (cbn [st1 s_cell set_nd]; rewrite (w_lp _ w); exact Hc). cbn [bind]. change (nth c (s_cell st1) 0%N) with (P st c).
    assert (Sp := w_p _ w c Hc).
    assert (Gn : grow false st st1) by (apply grow_nd; [exact w | apply (C_core D); exact I | lia | lia]).
    destruct (set_is_empty (P st c)) eqn:Ep.
    { apply (empty_iff EDigit _ Sp) in Ep. destruct (skip_spec D st c d w I En Ep) as [_ I1]. rewrite (w_nd _ w) in I1. fold st1 in I1.
      cbn [bindE bind fst snd]. eapply hp_impl; [apply (IH D st1 (g_w _ _ _ Gn) I1 (bd_grow _ _ _ Gn B) El') | | ].
      - intros st' [G2 [Sh [Cl [Cn [L1 X]]]]]. split; [eapply grow_trans; eassumption | ]. split; [exact Sh | ]. split; [exact Cl | ]. split; [exact Cn | ].
        unfold st1 in L1. cbn [s_cnd set_nd] in L1. split; [lia | exact X].
      - intros st' [G2 Er]. split; [eapply grow_trans; eassumption | exact Er]. }
    assert (Np : P st c <> 0%N) by (intros Q; apply (empty_iff EDigit _ Sp) in Q; congruence).
    assert (Z : D c = 0).
    { destruct (Nat.eq_dec (D c) 0) as [ | N]; [assumption | ]. destruct (c_done _ _ I c N) as [_ [_ E]]. congruence. }
    destruct (digit_set_ok d Hd') as [mask [Em [Sm M]]]. rewrite Em. cbn [bind].
    rewrite (masks_eq st1 c (g_w _ _ _ Gn) Hc). cbn [bind]. change (Hd st1) with (Hd st).
    destruct (set_overlaps EDigit (Hd st (row_of c)) mask || set_overlaps EDigit (Hd st (9 + col_of c)) mask || set_overlaps EDigit (Hd st (18 + block_of c)) mask) eqn:Ov.
    + cbn [bindE bind fst snd hp]. split; [exact Gn | ]. intros s So [[S1 S2] S3].
      assert (X : exists h, h < 27 /\ in_house h c /\ mem (Hd st h) (d - 1)).
      { apply (any_mask st c _ Hc). apply orb_true_iff in Ov. rewrite orb_true_iff, !overlaps_iff in Ov.
        destruct Ov as [[[x [A1 A2]] | [x [A1 A2]]] | [x [A1 A2]]]; apply M in A2; subst x; auto. }
      destruct X as [h [Hh [Hi Q]]]. apply (c_house _ _ I h _ Hh) in Q. destruct Q as [k [Hk [Hik Dk]]].
      destruct (c_done _ _ I k ltac:(lia)) as [_ [Q _]]. apply in_firstn in Q. assert (Ek := S3 _ _ Q). apply S1 in Q. assert (Q2 := S1 c d Hin).
      destruct So as [_ [V _]]. apply (V c k Hc Hk); [ | exact Ek | lia]. apply (house_peers h); [exact Hi | exact Hik | ]. intros ->. lia.
    + destruct (insert_spec D st c d w I En Np) as [st2 [Ei [Gr1 [I1 [Cn1 [Cl1 [Gd1 [P1 [H1 _]]]]]]]]].
      { intros h Hh Hi Q. assert (X := proj2 (any_mask st c (d - 1) Hc) (ex_intro _ h (conj Hh (conj Hi Q)))).
        apply orb_false_iff in Ov. rewrite orb_false_iff in Ov. destruct Ov as [[O1 O2] O3].
        assert (T : forall m, mem m (d - 1) -> set_overlaps EDigit m mask = true) by (intros m Q'; apply overlaps_iff; exists (d - 1); split; [exact Q' | apply M; reflexivity]).
        destruct X as [X | [X | X]]; apply T in X; congruence. }
      rewrite (w_nd _ w) in Ei. fold st1 in Ei. rewrite Ei. cbn [bindE bind fst snd].
      destruct (grow_false _ _ Gr1) as [Ee1 [Ed1 Ez1]].
      eapply hp_impl; [apply (IH (upd D c d) st2 (g_w _ _ _ Gr1) I1 (bd_grow _ _ _ Gr1 B)) | | ].
      * rewrite Ee1, Cn1. exact El'.
      * intros st' [G2 [Sh [Cl [Cn [L1 X]]]]]. split; [eapply grow_trans; eassumption | ]. split; [ | split; [congruence | split; [exact Cn | split; [lia | exact X]]]].
        eapply shrink_trans; [ | exact Sh]. intros k x Hk Q. rewrite P1 in Q by exact Hk. destruct (k =? c); [destruct (mem0 x Q) | exact Q].
      * intros st' [G2 Er]. split; [eapply grow_trans; eassumption | ]. intros s So Ss. apply (Er s So), (Snd_grow_false _ _ _ _ Gr1 Ss).
Qed.

Lemma conflicts_spec Ev naked D : forall cells st, W st -> C D st -> (naked = true -> K D st) -> (forall k, In k cells -> k < 81) ->
  hp (for_ok cells (fun cell st =>
    m <- aget (s_cell st) cell;
    if set_is_empty m then Ok (st, true)
    else
      hm <- house_masks st cell;
      let '(mr, mk, mb) := hm in
      remove_imp st cell (set_or (set_or mr mk) mb) naked) st)
    (fun st' => grow naked st st' /\ shrink st st' /\ keep st st' /\ C D st' /\ (naked = true -> K D st') /\
       (forall k x h, In k cells -> h < 27 -> in_house h k -> mem (P st' k) x -> ~ mem (Hd st h) x) /\ (forall s, fit Ev naked s -> SndE Ev s st -> SndE Ev s st'))
    (fun st' => grow naked st st' /\ forall s, fit Ev naked s -> ~ SndE Ev s st).
Proof.
  induction cells as [ | c cells IH]; intros st w I Kd Cs; cbn [for_ok].
  - cbn [hp]. split; [apply grow_refl; [exact w | apply (C_core D); exact I] | ]. split; [apply shrink_refl | ]. split; [apply keep_refl | ]. split; [exact I | ]. split; [exact Kd | ].
    split; [intros k x h [] | auto].
  - assert (Hc : c < 81) by (apply Cs; left; reflexivity). assert (Cs' : forall k, In k cells -> k < 81) by (intros k Hi; apply Cs; right; exact Hi).
    rewrite (aget_ok _ _ 0%N) by (rewrite (w_lp _ w); exact Hc). cbn [bind]. fold (P st c). assert (Sp := w_p _ w c Hc).
    destruct (set_is_empty (P st c)) eqn:Ep.
    + apply (empty_iff EDigit _ Sp) in Ep. cbn [bindE bind fst snd]. eapply hp_impl; [apply (IH st w I Kd Cs') | | auto].
      intros st' [G2 [Sh [Kp [I2 [K2 [Q S2]]]]]]. split; [exact G2 | ]. split; [exact Sh | ]. split; [exact Kp | ]. split; [exact I2 | ]. split; [exact K2 | ]. split; [ | exact S2].
      intros k x h [<- | Hi]; [ | apply (Q k x h Hi)]. intros _ _ X. apply (Sh c x Hc) in X. rewrite Ep in X. destruct (mem0 _ X).
    + assert (Np : P st c <> 0%N) by (intros Q; apply (empty_iff EDigit _ Sp) in Q; congruence).
      assert (Z : D c = 0).
      { destruct (Nat.eq_dec (D c) 0) as [ | N]; [assumption | ]. destruct (c_done _ _ I c N) as [_ [_ E]]. congruence. }
      rewrite (masks_eq st c w Hc). cbn [bind].
      set (mask := set_or (set_or (Hd st (row_of c)) (Hd st (9 + col_of c))) (Hd st (18 + block_of c))).
      assert (M : forall x, mem mask x <-> exists h, h < 27 /\ in_house h c /\ mem (Hd st h) x).
      { intros x. unfold mask. rewrite !mem_or, <- (any_mask st c x Hc). tauto. }
      eapply hp_bindE; [apply (remove_spec Ev naked D st c mask w I Hc) | | ].
      * intros x Hx _. right. apply M in Hx. destruct Hx as [h [Hh [Hi Q]]]. apply (c_house _ _ I h _ Hh) in Q. destruct Q as [k [Hk [Hik Dk]]].
        exists k. split; [exact Hk | ]. split; [ | exact Dk]. apply (house_peers h); [exact Hi | exact Hik | ]. intros ->. lia.
      * intros Nk. left. apply (Kd Nk).
      * intros st' [Gr [Er _]]. split; [exact Gr | exact (Er Z)].
      * intros st1 _ [Gr [Kp [I1 [_ [M1 [P1 [K1 S1]]]]]]].
        eapply hp_impl; [apply (IH st1 (g_w _ _ _ Gr) I1 ltac:(intros Nk k; apply K1, (Kd Nk)) Cs') | | ].
        -- intros st2 [Gr2 [Sh2 [Kp2 [I2 [K2 [Q S2]]]]]]. split; [eapply grow_trans; eassumption | ].
           split. { eapply shrink_trans; [ | exact Sh2]. intros k x Hk X. destruct (Nat.eq_dec k c) as [-> | Ne]; [apply M1 in X; tauto | rewrite P1 in X by assumption; exact X]. }
           split; [eapply keep_trans; eassumption | ]. split; [exact I2 | ]. split; [exact K2 | ]. split; [ | auto].
           assert (Eh : forall h, Hd st1 h = Hd st h) by (intros h; unfold Hd; rewrite (k_house _ _ Kp); reflexivity).
           intros k x h [<- | Hi] Hh Ih X; [ | rewrite <- Eh; apply (Q k x h Hi Hh Ih X)]. apply (Sh2 c x Hc), M1 in X. intros Y. apply X, M. exists h. auto.
        -- intros st2 [Gr2 Er]. split; [eapply grow_trans; eassumption | ]. intros s So Ss. apply (Er s So). auto.
Qed.

Lemma batch_spec Ev naked D st : W st -> C D st -> bd st ->
  hp (batch_insert naked st)
    (fun st' => grow naked st st' /\ shrink st st' /\ s_cle st' = s_cle st /\ (forall s, fit Ev naked s -> SndE Ev s st -> SndE Ev s st') /\
       s_cnd st' <= length (s_entries st') /\ length (s_entries st) <= s_cnd st' /\
       exists D', C D' st' /\ disj st' /\ mode naked D' st')
    (fun st' => grow naked st st' /\ forall s, fit Ev naked s -> ~ SndE Ev s st).
Proof.
  intros w I B. unfold batch_insert, batch_insert_pending, slice_from. rewrite (proj2 (Nat.leb_le _ _) (w_nl _ w)). cbn [bind].
  eapply hp_bindE; [apply (pending_spec Ev naked _ D st w I B eq_refl) | | ].
  - intros st' [Gr Er]. split; [apply grow_weak; exact Gr | exact Er].
  - intros st1 _ [Gr1 [Sh1 [Cl1 [Cn1 [L1 [D' I1]]]]]]. destruct (grow_false _ _ Gr1) as [Ee1 _]. assert (Kd : K D' st1) by (apply all_K; [exact I1 | lia]).
    unfold batch_remove_conflicts. eapply hp_impl; [apply (conflicts_spec Ev naked D' (seq 0 81) st1 (g_w _ _ _ Gr1) I1) | | ].
    + intros _. exact Kd.
    + intros k Hi. apply in_seq in Hi. lia.
    + intros st2 [Gr2 [Sh2 [Kp2 [I2 [K2 [Q S2]]]]]]. split; [eapply grow_trans; [apply grow_weak; exact Gr1 | exact Gr2] | ].
      split; [eapply shrink_trans; eassumption | ]. split; [rewrite (k_cle _ _ Kp2); exact Cl1 | ].
      split; [intros s So Ss; apply (S2 s So), (Snd_grow_false _ _ _ _ Gr1 Ss) | ].
      split; [apply (w_nl _ (g_w _ _ _ Gr2)) | ]. split; [rewrite (k_cnd _ _ Kp2), Cn1, Ee1; reflexivity | ].
      exists D'. split; [exact I2 | ]. split; [ | intros Nk k _; left; apply (K2 Nk)]. intros k x h Hk Hh Hi X. unfold Hd. rewrite (k_house _ _ Kp2). apply (Q k x h); try assumption. apply in_seq. lia.
    + intros st2 [Gr2 Er]. split; [eapply grow_trans; [apply grow_weak; exact Gr1 | exact Gr2] | ]. intros s So Ss. apply (Er s So), (Snd_grow_false _ _ _ _ Gr1 Ss).
Qed.

(** * Inserting the outstanding entries *)

Lemma insert_loop_spec Ev naked : forall fuel D st, W st -> C D st -> bd st ->
  (disj st /\ mode naked D st \/ 4 < length (s_entries st) - s_cnd st) ->
  length (s_entries st) + zeros (s_grid st) - s_cnd st < fuel ->
  hp (insert_loop fuel naked st)
    (fun st' => grow naked st st' /\ shrink st st' /\ s_cle st' = s_cle st /\ (forall s, fit Ev naked s -> SndE Ev s st -> SndE Ev s st') /\
       s_cnd st' = length (s_entries st') /\ exists D', C D' st' /\ (disj st -> disj st') /\ (4 < length (s_entries st) - s_cnd st -> disj st'))
    (fun st' => grow naked st st' /\ forall s, fit Ev naked s -> ~ SndE Ev s st).
Proof.
  induction fuel as [ | fuel IH]; intros D st w I B Mo Fu; [lia | ]. cbn [insert_loop].
  assert (L := w_nl _ w). unfold usub. rewrite (proj2 (Nat.leb_le _ _) L). cbn [bind].
  destruct (length (s_entries st) - s_cnd st) as [ | n] eqn:En.
  { cbn [hp]. split; [apply grow_refl; [exact w | apply (C_core D); exact I] | ]. split; [apply shrink_refl | ]. split; [reflexivity | ]. split; [auto | ]. split; [lia | ].
    exists D. split; [exact I | ]. split; [auto | lia]. }
  assert (Bat : hp (st0 <! batch_insert naked st; insert_loop fuel naked st0)
    (fun st' => grow naked st st' /\ shrink st st' /\ s_cle st' = s_cle st /\ (forall s, fit Ev naked s -> SndE Ev s st -> SndE Ev s st') /\
       s_cnd st' = length (s_entries st') /\ exists D', C D' st' /\ (disj st -> disj st') /\ (4 < length (s_entries st) - s_cnd st -> disj st'))
    (fun st' => grow naked st st' /\ forall s, fit Ev naked s -> ~ SndE Ev s st)).
  { eapply hp_bindE; [apply (batch_spec Ev naked D st w I B) | auto | ].
    intros st1 _ [Gr [Sh [Cl [Sn [L1 [L2 [D' [I1 [J1 M1]]]]]]]]]. assert (Gl := grow_len _ _ _ Gr).
    eapply hp_impl; [apply (IH D' st1 (g_w _ _ _ Gr) I1 (bd_grow _ _ _ Gr B) (or_introl (conj J1 M1))); lia | | ].
    - intros st2 [Gr2 [Sh2 [Cl2 [Sn2 [Cn2 [D2 [I2 [J2 _]]]]]]]]. split; [eapply grow_trans; eassumption | ]. split; [eapply shrink_trans; eassumption | ].
      split; [congruence | ]. split; [auto | ]. split; [exact Cn2 | ]. exists D2. auto.
    - intros st2 [Gr2 Er]. split; [eapply grow_trans; eassumption | ]. intros s So Ss. apply (Er s So). auto. }
  rewrite En in Bat.
  destruct (Nat.ltb_spec 4 (S n)) as [L4 | L4].
  { destruct n as [ | [ | [ | [ | n]]]]; [lia | lia | lia | lia | exact Bat]. }
  destruct Mo as [[J Mo] | Q]; [ | lia].
  assert (Sg : hp (st0 <! insert_singly_f (insert_fuel st) naked st; insert_loop fuel naked st0)
    (fun st' => grow naked st st' /\ shrink st st' /\ s_cle st' = s_cle st /\ (forall s, fit Ev naked s -> SndE Ev s st -> SndE Ev s st') /\
       s_cnd st' = length (s_entries st') /\ exists D', C D' st' /\ (disj st -> disj st') /\ (4 < S n -> disj st'))
    (fun st' => grow naked st st' /\ forall s, fit Ev naked s -> ~ SndE Ev s st)).
  { eapply hp_bindE; [apply (singly_spec Ev naked (insert_fuel st) D st w I J Mo B) | auto | ].
    - unfold insert_fuel. pose proof (zeros_le (s_grid st)). rewrite (w_lg _ w) in *. lia.
    - intros st1 _ [Gr [Sh [Cl [Sn [L1 [L2 [_ [D' [I1 [J1 M1]]]]]]]]]]. assert (Gl := grow_len _ _ _ Gr). specialize (L2 ltac:(lia)).
      assert (Lx := w_nl _ (g_w _ _ _ Gr)).
      eapply hp_impl; [apply (IH D' st1 (g_w _ _ _ Gr) I1 (bd_grow _ _ _ Gr B) (or_introl (conj J1 M1))); lia | | ].
      + intros st2 [Gr2 [Sh2 [Cl2 [Sn2 [Cn2 [D2 [I2 [J2 _]]]]]]]]. split; [eapply grow_trans; eassumption | ]. split; [eapply shrink_trans; eassumption | ].
        split; [congruence | ]. split; [auto | ]. split; [exact Cn2 | ]. exists D2. auto.
      + intros st2 [Gr2 Er]. split; [eapply grow_trans; eassumption | ]. intros s So Ss. apply (Er s So). auto. }
  destruct n as [ | [ | [ | [ | n]]]]; [exact Sg | exact Sg | exact Sg | exact Sg | lia].
Qed.

(** * Applying the new eliminations *)

Definition dead (st : strat) : Prop := forall c d, In (c, d) (s_elims st) -> ~ mem (P st c) (d - 1).

Lemma apply_spec Ev naked D : forall l st, W st -> C D st -> incl l (s_elims st) -> (naked = true -> forall c d, In (c, d) l -> known D st c) ->
  hp (apply_elims naked true l st)
    (fun st' => grow naked st st' /\ shrink st st' /\ keep st st' /\ C D st' /\ (forall k, known D st k -> known D st' k) /\ (forall k, k < 81 -> (forall d, ~ In (k, d) l) -> P st' k = P st k) /\
       (forall c d, In (c, d) l -> ~ mem (P st' c) (d - 1)) /\ (forall s, fit Ev naked s -> SndE Ev s st -> SndE Ev s st'))
    (fun st' => grow naked st st' /\ (forall s, fit Ev naked s -> SndE Ev s st -> SndE Ev s st') /\
       ((forall c d, In (c, d) l -> P st c <> 0%N) -> forall s, fit Ev naked s -> ~ SndE Ev s st)).
Proof.
  unfold apply_elims. induction l as [ | [c d] l IH]; intros st w I Il Kd; cbn [for_ok].
  - cbn [hp]. split; [apply grow_refl; [exact w | apply (C_core D); exact I] | ]. split; [apply shrink_refl | ]. split; [apply keep_refl | ]. split; [exact I | ]. split; [auto | ]. split; [auto | ].
    split; [intros c d [] | auto].
  - assert (Hin : In (c, d) (s_elims st)) by (apply Il; left; reflexivity). destruct (w_el _ w c d Hin) as [Hc Hd'].
    cbn [fst snd]. destruct (digit_set_ok d Hd') as [mask [Em [Sm M]]]. rewrite Em. cbn [bind].
    assert (Rs : hp (remove_imp st c mask naked)
      (fun st' => grow naked st st' /\ keep st st' /\ C D st' /\ D c = 0 /\
       (forall x, mem (P st' c) x <-> mem (P st c) x /\ ~ mem mask x) /\ (forall k, k < 81 -> k <> c -> P st' k = P st k) /\
       (forall k, known D st k -> known D st' k) /\
       (forall s, fit Ev naked s -> SndE Ev s st -> SndE Ev s st'))
      (fun st' => grow naked st st' /\ (D c = 0 -> forall s, fit Ev naked s -> ~ SndE Ev s st) /\ s_entries st' = s_entries st)).
    { apply (remove_spec Ev); try assumption.
      - intros x Hx _. left. apply M in Hx. subst x. replace (S (d - 1)) with d by lia. exact Hin.
      - intros Nk. left. apply (Kd Nk c d). left. reflexivity. }
    destruct (remove_imp st c mask naked) as [[st1 [ | ]] | | | ]; cbn [hp] in Rs; try contradiction; cbn [bindE bind fst snd].
    + destruct Rs as [Gr [Kp [I1 [Z [M1 [P1 [K1 S1]]]]]]].
      assert (Sh1 : shrink st st1) by (intros k x Hk X; destruct (Nat.eq_dec k c) as [-> | Ne]; [apply M1 in X; tauto | rewrite P1 in X by assumption; exact X]).
      eapply hp_impl; [apply (IH st1 (g_w _ _ _ Gr) I1) | | ].
      * rewrite (g_elims _ _ _ Gr). intros x Hx. apply Il. right. exact Hx.
      * intros Nk k e Hi. apply K1, (Kd Nk k e). right. exact Hi.
      * intros st2 [Gr2 [Sh2 [Kp2 [I2 [K2 [U2 [Q S2]]]]]]]. split; [eapply grow_trans; eassumption | ]. split; [eapply shrink_trans; eassumption | ].
        split; [eapply keep_trans; eassumption | ]. split; [exact I2 | ]. split; [auto | ]. split; [ | split; [ | auto]].
        { intros k Hk N. rewrite U2; [apply P1; [exact Hk | ] | exact Hk | intros e Hi; apply (N e); right; exact Hi]. intros ->. apply (N d). left. reflexivity. }
        intros k e [E | Hi]; [ | apply (Q k e Hi)]. injection E as <- <-. intros X. apply (Sh2 c _ Hc), M1 in X. apply X, M. reflexivity.
      * intros st2 [Gr2 [S2 Er]]. split; [eapply grow_trans; eassumption | ]. split; [auto | ]. intros Op s So Ss. refine (Er _ s So (S1 s So Ss)).
        intros k e Hi. assert (Hk : k < 81) by (apply (w_el _ w k e), Il; right; exact Hi).
        destruct (Nat.eq_dec k c) as [-> | Ne]; [ | rewrite P1 by assumption; apply (Op k e); right; exact Hi].
        intros Q. apply (c_empty _ _ I1 c Hc) in Q. lia.
    + destruct Rs as [Gr [Er Ee]]. cbn [hp]. split; [exact Gr | ]. split.
      * intros s So [[S1 S2] S3]. split; [split; [rewrite Ee | rewrite (g_elims _ _ _ Gr)] | rewrite Ee]; assumption.
      * intros Op s So. apply Er; [ | exact So]. destruct (Nat.eq_dec (D c) 0) as [Z | N]; [exact Z | ].
        destruct (c_done _ _ I c N) as [_ [_ E]]. destruct (Op c d (or_introl eq_refl) E).
Qed.

(** * [_update_cell_poss_house_solved] *)

(** Entries that are not known to the grid are the clues of a new solver, and nothing has been eliminated in their cells. *)
Definition ready (D : nat -> nat) (st : strat) : Prop := forall k, k < 81 ->
  known D st k \/ ((forall d, ~ In (k, d) (skipn (s_cle st) (s_elims st))) /\ (4 < length (s_entries st) - s_cnd st \/ pend D st k)).

Lemma as_u16_le n : as_u16 n <= n.
Proof. unfold as_u16, U16_MAX. pose proof (N.mod_le (N.of_nat n) (65535 + 1) ltac:(discriminate)). lia. Qed.

Lemma W_cle st n : W st -> n <= length (s_elims st) -> W (set_cle st n).
Proof. intros w L. constructor; try apply w. exact L. Qed.
Lemma C_cle D st n : C D st -> C D (set_cle st n).
Proof. intros I. constructor; apply I. Qed.
Lemma grow_cle naked st n : W st -> core st -> n <= length (s_elims st) -> grow naked st (set_cle st n).
Proof.
  intros w o L. constructor; try reflexivity; [apply W_cle; assumption | | destruct o; constructor; assumption | intros new; apply (no_why _ st (set_cle st n)); reflexivity].
  exists []. rewrite !app_nil_r. split; [reflexivity | ]. split; [reflexivity | ]. split; [reflexivity | ]. split; [intros c d d' [] | reflexivity].
Qed.

(** Pending eliminations belong to cells with candidates. *)
Definition open_elims (st : strat) : Prop := forall c d, In (c, d) (skipn (s_cle st) (s_elims st)) -> P st c <> 0%N.

Lemma in_skipn {A} n (l : list A) x : In x (skipn n l) -> In x l.
Proof. intros Hi. rewrite <- (firstn_skipn n l). apply in_app_iff. auto. Qed.

Lemma updateE Ev naked D st : W st -> C D st -> disj st -> upper st -> bd st -> (naked = true -> ready D st) ->
  hp (update_cell_house naked true st)
    (fun st' => grow naked st st' /\ shrink st st' /\ dead st' /\ (forall s, fit Ev naked s -> SndE Ev s st -> SndE Ev s st') /\
       s_cnd st' = length (s_entries st') /\ s_cle st' = as_u16 (length (s_elims st')) /\ exists D', C D' st' /\ disj st')
    (fun st' => grow naked st st' /\ (forall s, fit Ev naked s -> SndE Ev s st -> SndE Ev s st') /\ (open_elims st -> forall s, fit Ev naked s -> ~ SndE Ev s st)).
Proof.
  intros w I J U B R. unfold update_cell_house, slice_from. rewrite (proj2 (Nat.leb_le _ _) (w_cle _ w)). cbn [bind].
  assert (Kd : naked = true -> forall c d, In (c, d) (skipn (s_cle st) (s_elims st)) -> known D st c).
  { intros Nk c d Hi. destruct (R Nk c (proj1 (w_el _ w c d (in_skipn _ _ _ Hi)))) as [Q | [Q _]]; [exact Q | destruct (Q d Hi)]. }
  eapply hp_bindE; [apply (apply_spec Ev naked D _ st w I) | | ].
  - intros x. apply in_skipn.
  - exact Kd.
  - intros st' [Gr [Ss Er]]. auto.
  - intros st1 _ [Gr1 [Sh1 [Kp1 [I1 [K1 [U1 [Q1 S1]]]]]]].
    assert (Lf : (length (s_elims st) <? s_cle st) = false) by (apply Nat.ltb_ge, (w_cle _ w)). rewrite Lf.
    unfold insert_entries. cbn [s_cnd s_hnd set_cle]. rewrite (w_nd _ (g_w _ _ _ Gr1)), Nat.eqb_refl. cbn [bindE bind fst snd].
    set (st2 := set_cle st1 (as_u16 (length (s_elims st1)))).
    assert (Lu := as_u16_le (length (s_elims st1))).
    assert (Gr2 : grow naked st1 st2) by (apply grow_cle; [apply Gr1 | apply Gr1 | exact Lu]).
    assert (Gr : grow naked st st2) by (eapply grow_trans; eassumption).
    assert (J2 : disj st2).
    { intros k x h Hk Hh Hi X. change (Hd st2 h) with (Hd st1 h). unfold Hd. rewrite (k_house _ _ Kp1). apply (J k x h Hk Hh Hi). apply (Sh1 k x Hk). exact X. }
    assert (Q2 : disj st2 /\ mode naked D st2 \/ 4 < length (s_entries st2) - s_cnd st2).
    { destruct (Nat.ltb_spec 4 (length (s_entries st2) - s_cnd st2)) as [L4 | L4]; [right; exact L4 | left]. split; [exact J2 | ].
      intros Nk k Hk. destruct (R Nk k Hk) as [Kx | [N [Q | [Z [i [d [Li [Ei Q]]]]]]]]; [left; exact (K1 k Kx) | exfalso | right].
      - unfold st2 in L4. cbn [s_entries s_cnd set_cle] in L4. rewrite (k_cnd _ _ Kp1) in L4. destruct (g_new _ _ _ Gr1) as [new [E _]]. rewrite E, app_length in L4. lia.
      - split; [exact Z | ]. exists i, d. split; [exact Li | ]. unfold st2. cbn [s_entries s_cnd set_cle]. split.
        + destruct (g_new _ _ _ Gr1) as [new [E _]]. rewrite E, nth_error_app1; [exact Ei | ]. apply nth_error_Some. congruence.
        + rewrite (k_cnd _ _ Kp1). change (9 <= set_len (P st1 k) + s_cnd st). rewrite (U1 k Hk N). exact Q. }
    assert (Gl := grow_len _ _ _ Gr2). assert (Zl := zeros_le (s_grid st2)). rewrite (w_lg _ (g_w _ _ _ Gr2)) in Zl.
    eapply hp_impl; [apply (insert_loop_spec Ev naked (insert_fuel st2) D st2 (g_w _ _ _ Gr2) (C_cle _ _ _ I1) (bd_grow _ _ _ Gr B) Q2) | | ].
    + unfold insert_fuel. lia.
    + intros st3 [Gr3 [Sh3 [Cl3 [S3 [Cn3 [D' [I3 [J3 _]]]]]]]]. split; [eapply grow_trans; eassumption | ].
      split; [eapply shrink_trans; [exact Sh1 | exact Sh3] | ]. split; [ | split; [intros s So Ss; apply (S3 s So), (S1 s So), Ss | split; [exact Cn3 | split; [rewrite (g_elims _ _ _ Gr3); exact Cl3 | exists D'; auto]]]].
      intros c d Hi X. rewrite (g_elims _ _ _ Gr3) in Hi. change (s_elims st2) with (s_elims st1) in Hi. rewrite (g_elims _ _ _ Gr1) in Hi.
      assert (Hc := proj1 (w_el _ w c d Hi)). apply (Sh3 c _ Hc) in X. change (P st2 c) with (P st1 c) in X.
      destruct (U c d Hi) as [Y | Y]; [apply Y, (Sh1 c _ Hc X) | apply (Q1 c d Y X)].
    + intros st3 [Gr3 Er]. split; [eapply grow_trans; eassumption | ]. split; [ | intros _]; intros s So Ss; [exfalso | ]; apply (Er s So), (S1 s So Ss).
Qed.

Lemma fit_solved naked s : solved s -> fit (fun _ => True) naked s.
Proof. intros [_ [R V]]. split; [exact R | ]. split; [intros c c' Hc Hc' Pe _; apply V; assumption | auto]. Qed.
Lemma SndE_all s st : SndE (fun _ => True) s st <-> Snd s st.
Proof. unfold SndE. split; [intros [A _]; exact A | auto]. Qed.

(** A solved grid that agrees with the history keeps the candidates. *)
Lemma keeps D st s c : C D st -> solved s -> Snd s st -> c < 81 -> D c = 0 -> mem (P st c) (at_ s c - 1).
Proof. intros I So Ss. apply (keepsE (fun _ => True) true); [exact I | apply fit_solved; exact So | apply SndE_all; exact Ss]. Qed.

Lemma update_spec naked D st : W st -> C D st -> disj st -> upper st -> bd st -> (naked = true -> ready D st) ->
  hp (update_cell_house naked true st)
    (fun st' => grow naked st st' /\ shrink st st' /\ dead st' /\ (forall s, solved s -> Snd s st -> Snd s st') /\
       s_cnd st' = length (s_entries st') /\ s_cle st' = as_u16 (length (s_elims st')) /\ exists D', C D' st' /\ disj st')
    (fun st' => grow naked st st' /\ (forall s, solved s -> Snd s st -> Snd s st') /\ (open_elims st -> forall s, solved s -> ~ Snd s st)).
Proof.
  intros w I J U B R. eapply hp_impl; [apply (updateE (fun _ => True) naked D st w I J U B R) | | ].
  - intros st' [Gr [Sh [De [Sn Q]]]]. split; [exact Gr | ]. split; [exact Sh | ]. split; [exact De | ]. split; [ | exact Q].
    intros s So Ss. apply SndE_all, (Sn s (fit_solved naked s So)), SndE_all, Ss.
  - intros st' [Gr [Sn Er]]. split; [exact Gr | ]. split.
    + intros s So Ss. apply SndE_all, (Sn s (fit_solved naked s So)), SndE_all, Ss.
    + intros Op s So Ss. apply (Er Op s (fit_solved naked s So)), SndE_all, Ss.
Qed.
