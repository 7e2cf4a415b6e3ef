(** The strategy solver: history of a solving step and invariant between steps. *)
From Coq Require Import List Arith NArith ZArith ZifyNat ZifyN ZifyBool Lia Bool.
From Verif Require Import Spec TableSpec GeomSpec Solver Bits Geom Gen BitLemmas GridProofs BitsProofs GeomProofs GenProofs Strat StratFind StratSolve StratUse StratWhy StratWhyLemmas StratInv StratPos StratFound StratWalk StratCall.
Import ListNotations.
Ltac Zify.zify_post_hook ::= Z.to_euclidean_division_equations.

(** * What the deductions [ds] tell about the change from state [a] to state [b] *)

Definition told (l : list strategy) (a b : strat) (ds : list (deduction range)) : Prop := exists zs,
  Forall2 (fun y z => with_slices (s_elims b) y = Ok z) ds zs /\ explained l (listed (s_entries a)) (listed (s_elims a)) zs /\
  same (listed (s_entries b)) (all_places (listed (s_entries a)) zs) /\ same (listed (s_elims b)) (all_removes (listed (s_elims a)) zs).

Lemma told_refl l a b : s_entries b = s_entries a -> s_elims b = s_elims a -> told l a b [].
Proof. intros E F. exists []. rewrite E, F. split; [constructor | ]. split; [exact I | ]. split; apply same_sym; [apply all_places_nil | apply all_removes_nil]. Qed.

Lemma all_places_app pl r1 r2 : same (all_places (all_places pl r1) r2) (all_places pl (r1 ++ r2)).
Proof.
  intros c d. unfold all_places. split.
  - intros [[Q | [z [Hz Q]]] | [z [Hz Q]]]; [left; exact Q | right; exists z | right; exists z]; rewrite in_app_iff; auto.
  - intros [Q | [z [Hz Q]]]; [auto | ]. apply in_app_iff in Hz. destruct Hz as [Hz | Hz]; [left; right; exists z; auto | right; exists z; auto].
Qed.
Lemma all_removes_app el r1 r2 : same (all_removes (all_removes el r1) r2) (all_removes el (r1 ++ r2)).
Proof.
  intros c d. unfold all_removes. split.
  - intros [[Q | [z [Hz Q]]] | [z [Hz Q]]]; [left; exact Q | right; exists z | right; exists z]; rewrite in_app_iff; auto.
  - intros [Q | [z [Hz Q]]]; [auto | ]. apply in_app_iff in Hz. destruct Hz as [Hz | Hz]; [left; right; exists z; auto | right; exists z; auto].
Qed.
Lemma all_places_same pl pl' r : same pl pl' -> same (all_places pl r) (all_places pl' r).
Proof. intros H c d. unfold all_places. rewrite (H c d). reflexivity. Qed.
Lemma all_removes_same el el' r : same el el' -> same (all_removes el r) (all_removes el' r).
Proof. intros H c d. unfold all_removes. rewrite (H c d). reflexivity. Qed.
Lemma same_trans f g h : same f g -> same g h -> same f h.
Proof. intros A B c d. rewrite (A c d). apply B. Qed.

Lemma told_trans l a b c ds1 ds2 more : s_elims c = s_elims b ++ more -> told l a b ds1 -> told l b c ds2 -> told l a c (ds1 ++ ds2).
Proof.
  intros Em [z1 [F1 [X1 [P1 R1]]]] [z2 [F2 [X2 [P2 R2]]]]. exists (z1 ++ z2). split; [ | split; [ | split]].
  - apply Forall2_app; [ | exact F2]. rewrite Em. clear -F1. induction F1 as [ | y z ds zs E F IH]; constructor; [apply slices_app, E | exact IH].
  - apply explained_app; [exact X1 | ]. apply (explained_mono l z2 _ _ _ _ P1 (same_below _ _ R1) X2).
  - apply (same_trans _ _ _ P2), (same_trans _ _ _ (all_places_same _ _ z2 P1)), all_places_app.
  - apply (same_trans _ _ _ R2), (same_trans _ _ _ (all_removes_same _ _ z2 R1)), all_removes_app.
Qed.

Lemma told_incl l l' a b ds : incl l l' -> told l a b ds -> told l' a b ds.
Proof. intros H [zs [F [X Q]]]. exists zs. split; [exact F | ]. split; [apply (explained_incl l l' H), X | exact Q]. Qed.

(** Every elimination lies in the range of a deduction. *)
Lemma slice_in (L : list cand) r x : slice L r = Ok x -> forall c, In c x <-> exists i, fst r <= i < snd r /\ nth_error L i = Some c.
Proof.
  unfold slice. destruct (Nat.leb_spec (fst r) (snd r)) as [A | A]; cbn [andb]; [ | discriminate].
  destruct (Nat.leb_spec (snd r) (length L)) as [B | B]; [ | discriminate]. intros [= <-] c. split.
  - intros Hi. apply In_nth_error in Hi. destruct Hi as [i Hi].
    assert (Li : i < length (firstn (snd r - fst r) (skipn (fst r) L))) by (apply nth_error_Some; congruence). rewrite firstn_length, skipn_length in Li.
    exists (fst r + i). split; [lia | ]. rewrite <- Hi. rewrite <- (firstn_skipn (fst r) L) at 1. rewrite nth_error_app2 by (rewrite firstn_length; lia). rewrite firstn_length.
    replace (fst r + i - Nat.min (fst r) (length L)) with i by lia. rewrite <- (firstn_skipn (snd r - fst r) (skipn (fst r) L)) at 1. rewrite nth_error_app1; [reflexivity | rewrite firstn_length, skipn_length; lia].
  - intros [i [Li Hi]]. apply (nth_error_In _ (i - fst r)). rewrite <- Hi. rewrite <- (firstn_skipn (fst r) L) at 2. rewrite nth_error_app2 by (rewrite firstn_length; lia). rewrite firstn_length.
    replace (i - Nat.min (fst r) (length L)) with (i - fst r) by lia. rewrite <- (firstn_skipn (snd r - fst r) (skipn (fst r) L)) at 2. rewrite nth_error_app1; [reflexivity | rewrite firstn_length, skipn_length; lia].
Qed.

Lemma read_removes L y z : with_slices L y = Ok z -> match range_of y with None => removes z = [] | Some r => slice L r = Ok (removes z) end.
Proof.
  destruct y; cbn [with_slices range_of]; try discriminate; try (intros [= <-]; reflexivity);
    match goal with |- bind (slice ?l ?r) _ = _ -> _ => destruct (slice l r) as [q | | | ]; cbn [bind]; try discriminate; intros [= <-]; reflexivity end.
Qed.

Lemma tiles_removes L : forall ds zs a b, Forall2 (fun y z => with_slices L y = Ok z) ds zs -> tiles a ds b ->
  forall c, (exists z, In z zs /\ In c (removes z)) <-> exists i, a <= i < b /\ nth_error L i = Some c.
Proof.
  intros ds zs a b F. revert a. induction F as [ | y z ds zs E F IH]; intros a T c; cbn [tiles] in T.
  - subst b. split; [intros [z [[] _]] | intros [i [Li _]]; lia].
  - apply read_removes in E. destruct (range_of y) as [r | ].
    + destruct T as [T1 [T2 T3]]. assert (Le := tiles_le _ _ _ T3). specialize (IH _ T3 c). assert (S0 := slice_in _ _ _ E c). split.
      * intros [z' [[<- | Hz] Q]]; [apply S0 in Q; destruct Q as [i [Li Q]]; exists i; split; [lia | exact Q] | ].
        destruct (proj1 IH (ex_intro _ z' (conj Hz Q))) as [i [Li Q']]. exists i. split; [lia | exact Q'].
      * intros [i [Li Q]]. destruct (Nat.lt_ge_cases i (snd r)) as [Lt | Ge].
        -- exists z. split; [left; reflexivity | ]. apply S0. exists i. split; [lia | exact Q].
        -- destruct (proj2 IH (ex_intro _ i (conj (conj Ge (proj2 Li)) Q))) as [z' [Hz Q']]. exists z'. split; [right; exact Hz | exact Q'].
    + specialize (IH _ T c). rewrite <- IH. split; intros [z' [Hz Q]]; exists z'; (split; [ | exact Q]).
      * destruct Hz as [<- | Hz]; [rewrite E in Q; destruct Q | exact Hz].
      * right. exact Hz.
Qed.

Lemma told_removes L0 el ds zs : Forall2 (fun y z => with_slices (L0 ++ el) y = Ok z) ds zs -> tiles (length L0) ds (length (L0 ++ el)) ->
  same (listed (L0 ++ el)) (all_removes (listed L0) zs).
Proof.
  intros F T c d. unfold all_removes, listed. assert (X := tiles_removes _ _ _ _ _ F T (c, d)). rewrite X, in_app_iff. split.
  - intros [Q | Q]; [left; exact Q | right]. apply In_nth_error in Q. destruct Q as [i Q]. exists (length L0 + i). assert (Li : i < length el) by (apply nth_error_Some; intros Z; apply eq_trans with (1 := eq_sym Q) in Z; discriminate).
    rewrite app_length. split; [lia | ]. rewrite nth_error_app2 by lia. replace (length L0 + i - length L0) with i by lia. exact Q.
  - intros [Q | [i [Li Q]]]; [left; exact Q | right]. rewrite nth_error_app2 in Q by lia. apply (nth_error_In _ _ Q).
Qed.

(** * History *)

(** What a step with strategy [S0] adds to the history *)
Record hist (S0 : strategy) (st st' : strat) : Prop := {
  h_w : W st';
  h_core : core st';
  h_clues : s_clues st' = s_clues st;
  h_new : exists en el ds, s_entries st' = s_entries st ++ en /\ s_elims st' = s_elims st ++ el /\ s_deds st' = s_deds st ++ ds /\
    tiles (length (s_elims st)) ds (length (s_elims st')) /\
    (forall y, In y ds -> reads S0 (s_elims st') y) /\
    (forall c d d', In (c, d) en -> ~ In (c, d') (s_entries st)) /\
    (forall x, In x el -> ~ In x (s_elims st) /\ forall d, ~ In (fst x, d) (s_entries st)) /\
    (forall x, In x en <-> exists y, In y ds /\ single_of y x) /\ told [S0] st st' ds;
  h_len : length (s_entries st') + 2 * zeros (s_grid st') <= length (s_entries st) + 2 * zeros (s_grid st);
  h_snd : forall s, solved s -> Snd s st -> Snd s st'
}.

Lemma hist_refl S0 st : W st -> core st -> hist S0 st st.
Proof.
  intros w o. constructor; [exact w | exact o | reflexivity | | lia | auto]. exists [], [], []. rewrite !app_nil_r. repeat (split; [reflexivity | ]).
  split; [intros y [] | ]. split; [intros c d d' [] | ]. split; [intros x [] | ]. split; [ | apply told_refl; reflexivity]. intros x. split; [intros [] | intros [y [[] _]]].
Qed.

Lemma hist_trans S0 a b c : hist S0 a b -> hist S0 b c -> hist S0 a c.
Proof.
  intros [w1 o1 c1 [en1 [el1 [ds1 [E1 [F1 [G1 [T1 [R1 [N1 [M1 [Y1 W1]]]]]]]]]]] L1 S1] [w2 o2 c2 [en2 [el2 [ds2 [E2 [F2 [G2 [T2 [R2 [N2 [M2 [Y2 W2]]]]]]]]]]] L2 S2].
  constructor; [exact w2 | exact o2 | congruence | | lia | auto].
  exists (en1 ++ en2), (el1 ++ el2), (ds1 ++ ds2). split; [rewrite E2, E1, app_assoc; reflexivity | ]. split; [rewrite F2, F1, app_assoc; reflexivity | ].
  split; [rewrite G2, G1, app_assoc; reflexivity | ]. split; [eapply tiles_app; eassumption | ].
  split; [intros y Hy; apply in_app_iff in Hy; destruct Hy as [Hy | Hy]; [rewrite F2; apply reads_app, R1, Hy | apply R2, Hy] | ].
  split; [intros k d d' Hi Hj; apply in_app_iff in Hi; destruct Hi as [Hi | Hi]; [apply (N1 k d d' Hi Hj) | apply (N2 k d d' Hi); rewrite E1; apply in_app_iff; auto] | ].
  split; [intros x Hi; apply in_app_iff in Hi; destruct Hi as [Hi | Hi]; [apply (M1 x Hi) | destruct (M2 x Hi) as [A B]; split; [intros Hj; apply A; rewrite F1 | intros d Hj; apply (B d); rewrite E1]; apply in_app_iff; auto] | ].
  split; [ | apply (told_trans [S0] a b c ds1 ds2 el2 F2 W1 W2)].
  intros x. rewrite in_app_iff, Y1, Y2. split.
  - intros [[y [A B]] | [y [A B]]]; exists y; rewrite in_app_iff; auto.
  - intros [y [A B]]. apply in_app_iff in A. destruct A as [A | A]; [left | right]; exists y; auto.
Qed.

Lemma hist_grow naked S0 st st' : (naked = true -> S0 = NakedSingles) -> grow naked st st' -> (forall s, solved s -> Snd s st -> Snd s st') -> hist S0 st st'.
Proof.
  intros Nk Gr Sn. assert (Gr' := Gr). destruct Gr' as [w [new [E1 [E2 [Fl [Nw Z]]]]] Ee Ec _ _ _ _ o Wy]. constructor; [exact w | exact o | exact Ec | | | exact Sn].
  - exists new, [], (map DNaked new). split; [exact E1 | ]. split; [rewrite Ee, app_nil_r; reflexivity | ]. split; [exact E2 | ]. split; [rewrite Ee; apply tiles_naked | ].
    split; [ | split; [exact Nw | split; [intros x [] | split]]].
    + intros y Hy. apply in_map_iff in Hy. destruct Hy as [c [<- Hc]]. destruct naked; [ | rewrite (Fl eq_refl) in Hc; destruct Hc].
      rewrite (Nk eq_refl). exists (DNaked c). split; [reflexivity | split; [reflexivity | constructor]].
    + intros x. split.
      * intros Hx. exists (DNaked x). split; [apply in_map; exact Hx | left; reflexivity].
      * intros [y [Hy [-> | [h ->]]]]; apply in_map_iff in Hy; destruct Hy as [c [Q Hc]]; [injection Q as ->; exact Hc | discriminate].
    + exists (map DNaked new). split; [clear; induction new; constructor; [reflexivity | assumption] | ]. split; [ | split].
      * destruct naked; [rewrite (Nk eq_refl); apply Wy, E1 | rewrite (Fl eq_refl); exact I].
      * rewrite E1. intros c d. unfold all_places, listed. rewrite in_app_iff. split.
        -- intros [Q | Q]; [left; exact Q | right]. exists (DNaked (c, d)). split; [apply in_map, Q | left; reflexivity].
        -- intros [Q | [z [Hz Q]]]; [left; exact Q | right]. apply in_map_iff in Hz. destruct Hz as [x [<- Hx]]. destruct Q as [Q | [h Q]]; [injection Q as ->; exact Hx | discriminate].
      * rewrite Ee. intros c d. unfold all_removes, listed. split; [auto | ]. intros [Q | [z [Hz Q]]]; [exact Q | ]. apply in_map_iff in Hz. destruct Hz as [x [<- Hx]]. destruct Q.
  - rewrite E1, app_length. lia.
Qed.

(** * Invariant *)

Definition small (st : strat) : Prop := (N.of_nat (length (s_elims st)) <= U16_MAX)%N.

(** Between steps *)
Record Inv (D : nat -> nat) (done : list cand) (st : strat) : Prop := {
  i_w : W st;
  i_c : C D st;
  i_disj : disj st;
  i_upper : upper st;
  i_ready : ready D st;
  i_pi : PI done st;
  i_len : length (s_entries st) + 2 * zeros (s_grid st) <= 243;
  i_last : s_last st <= 27;
  i_open : small st -> open_elims st
}.

(** After an update *)
Record UI (D : nat -> nat) (done : list cand) (st : strat) : Prop := {
  v_up : UP D st;
  v_pi : PI done st;
  v_len : length (s_entries st) + 2 * zeros (s_grid st) <= 243;
  v_last : s_last st <= 27;
  v_cle : s_cle st = as_u16 (length (s_elims st))
}.

Lemma small_u16 st : small st -> as_u16 (length (s_elims st)) = length (s_elims st).
Proof. unfold small, as_u16. intros L. rewrite N.mod_small by lia. lia. Qed.

Lemma UP_K D st : UP D st -> K D st.
Proof. intros U c d Hi. left. apply (u_entry D st c d U Hi). Qed.

Lemma update_inv naked S0 D done st : Inv D done st -> (naked = true -> S0 = NakedSingles) ->
  hp (update_cell_house naked true st)
    (fun st' => hist S0 st st' /\ grow naked st st' /\ exists D', UI D' done st')
    (fun st' => hist S0 st st' /\ s_elims st' = s_elims st /\ (small st -> forall s, solved s -> ~ Snd s st)).
Proof.
  intros I Nk. assert (L := i_len _ _ _ I).
  eapply hp_impl; [apply (update_spec naked D st (i_w _ _ _ I) (i_c _ _ _ I) (i_disj _ _ _ I) (i_upper _ _ _ I)) | | ].
  - unfold bd. lia.
  - intros _. apply (i_ready _ _ _ I).
  - intros st' [Gr [_ [De [Sn [Al [Cl [D' [I' J']]]]]]]]. assert (Hi := hist_grow naked S0 st st' Nk Gr Sn). split; [exact Hi | ]. split; [exact Gr | ].
    exists D'. constructor; [constructor; try assumption; apply (g_w _ _ _ Gr) | | | | exact Cl].
    + apply (PI_append done st st' (i_pi _ _ _ I) (g_pos _ _ _ Gr) (g_pnd _ _ _ Gr) (g_ple _ _ _ Gr)).
      * destruct (g_new _ _ _ Gr) as [new [E _]]. exists new. exact E.
      * exists []. rewrite app_nil_r. apply (g_elims _ _ _ Gr).
    + pose proof (h_len _ _ _ Hi). lia.
    + rewrite (g_slast _ _ _ Gr). apply (i_last _ _ _ I).
  - intros st' [Gr [Sn Er]]. split; [apply (hist_grow naked); assumption | ]. split; [apply (g_elims _ _ _ Gr) | ]. intros Sm. apply Er, (i_open _ _ _ I Sm).
Qed.

Definition eliminates (S0 : strategy) : Prop := S0 <> NakedSingles /\ S0 <> HiddenSingles.

Lemma found_hist D S0 st0 st : eliminates S0 -> UP D st0 -> found S0 st0 st -> hist S0 st0 st.
Proof.
  intros [Nn Nh] U [el [ds [-> [Go [Ti Re]]]]]. assert (w := u_w _ _ U). assert (o := C_core D st0 (u_c _ _ U)). constructor.
  - constructor; try apply w; cbn [s_elims s_cle set_elims set_deds].
    + intros c d Hi. apply in_app_iff in Hi. destruct Hi as [Hi | Hi]; [apply (w_el _ w c d Hi) | ]. destruct (Go _ Hi) as [Lc [Ld _]]. cbn [fst snd] in *. auto.
    + rewrite app_length. pose proof (w_cle _ w). lia.
  - destruct o; constructor; assumption.
  - reflexivity.
  - exists [], el, ds. cbn [s_entries s_elims s_deds set_elims set_deds]. rewrite app_nil_r. repeat (split; [reflexivity | ]). split; [exact Ti | ]. split; [intros y Hy; apply (shows_reads st0), Re, Hy | ].
    split; [intros c d d' [] | ]. split; [ | split].
    + intros [c d] Hi. destruct (Go _ Hi) as [Lc [_ [M _]]]. cbn [fst snd] in *. split; [intros Hj; apply (u_dead _ _ U c d Hj M) | ].
      intros d' Hj. assert (Q := u_entry D st0 c d' U Hj). destruct (u_open D st0 c _ U Lc M) as [Z _]. destruct (w_e _ w c d' Hj). lia.
    + intros x. split; [intros [] | ]. intros [y [Hy [-> | [h ->]]]]; destruct (Re _ Hy) as [z [Ez [Rz _]]]; cbn [with_slices] in Ez; injection Ez as <-; cbn [ded_strategy] in Rz; injection Rz as <-; contradiction.
    + assert (X : exists zs, Forall2 (fun y z => with_slices (s_elims st0 ++ el) y = Ok z /\ ded_strategy z = Ok S0 /\ why (listed (s_entries st0)) (listed (s_elims st0)) S0 z) ds zs).
      { clear -Re. induction ds as [ | y ds IH]; [exists []; constructor | ]. destruct IH as [zs F]; [intros x Hx; apply Re; right; exact Hx | ].
        destruct (Re y (or_introl eq_refl)) as [z [Ez [Rz [_ Wz]]]]. exists (z :: zs). constructor; auto. }
      destruct X as [zs F]. assert (F' : Forall2 (fun y z => with_slices (s_elims st0 ++ el) y = Ok z) ds zs) by (clear -F; induction F as [ | y z ds zs Q F IH]; constructor; [apply Q | exact IH]).
      assert (Np : forall z, In z zs -> forall c d, ~ places z c d).
      { intros z Hz c d Q. destruct (Forall2_in_r _ _ _ F z Hz) as [y [_ [_ [Rz _]]]]. destruct Q as [-> | [h ->]]; cbn [ded_strategy] in Rz; injection Rz as <-; contradiction. }
      exists zs. split; [exact F' | ]. cbn [s_entries s_elims set_elims set_deds]. split; [ | split; [ | apply (told_removes _ _ _ _ F' Ti)]].
      * apply explained_each. intros z Hz. split; [ | apply Np, Hz]. destruct (Forall2_in_r _ _ _ F z Hz) as [y [_ [_ [Rz Wz]]]]. exists S0. split; [left; reflexivity | auto].
      * intros c d. unfold all_places. split; [auto | intros [Q | [z [Hz Q]]]; [exact Q | destruct (Np z Hz c d Q)]].
  - cbn [s_entries s_grid set_elims set_deds]. lia.
  - intros s So [S1 S2]. split; cbn [s_entries s_elims set_elims set_deds]; [exact S1 | ]. intros c d Hi. apply in_app_iff in Hi. destruct Hi as [Hi | Hi]; [apply (S2 c d Hi) | ].
    destruct (Go _ Hi) as [_ [_ [_ Q]]]. apply (Q s So). split; assumption.
Qed.

Lemma found_inv D done S0 st0 st : eliminates S0 -> UI D done st0 -> found S0 st0 st -> Inv D done st.
Proof.
  intros El V F. assert (U := v_up _ _ _ V). assert (w := u_w _ _ U). assert (Hi := found_hist D S0 st0 st El U F). assert (F' := F). destruct F' as [el [ds [E [Go [Ti Re]]]]].
  assert (Ee : s_elims st = s_elims st0 ++ el) by (rewrite E; reflexivity).
  assert (EP : forall k, P st k = P st0 k) by (intros k; rewrite E; reflexivity). assert (Ec : s_cle st = s_cle st0) by (rewrite E; reflexivity).
  constructor.
  - apply (h_w _ _ _ Hi).
  - destruct (u_c _ _ U). rewrite E. constructor; try assumption. intros c x Hc Z Hx N. destruct (c_lower c x Hc Z Hx N) as [Q | Q]; [left | right; exact Q].
    cbn [s_elims set_elims set_deds]. apply in_app_iff. auto.
  - rewrite E. apply (u_disj _ _ U).
  - intros c d Hj. rewrite Ee, Ec, EP in *. apply in_app_iff in Hj. destruct Hj as [Hj | Hj]; [left; apply (u_dead _ _ U c d Hj) | right].
    rewrite skipn_app. apply in_app_iff. right. replace (s_cle st0 - length (s_elims st0)) with 0 by (pose proof (w_cle _ w); lia). exact Hj.
  - intros k _. left. rewrite E. apply (UP_K D st0 U k).
  - apply (PI_append done st0 st (v_pi _ _ _ V)); try (rewrite E; reflexivity); [exists []; rewrite app_nil_r, E; reflexivity | exists el; exact Ee].
  - rewrite E. apply (v_len _ _ _ V).
  - rewrite E. apply (v_last _ _ _ V).
  - intros Sm c d Hj. rewrite EP. rewrite Ee, Ec in Hj. 
    assert (Lc : s_cle st0 = length (s_elims st0)) by (rewrite (v_cle _ _ _ V); apply small_u16; unfold small in *; rewrite Ee, app_length in Sm; lia).
    rewrite Lc, skipn_app, skipn_all, Nat.sub_diag in Hj. destruct (Go _ Hj) as [_ [_ [M _]]]. cbn [fst snd] in M. intros Q. rewrite Q in M. destruct (mem0 _ M).
Qed.

Lemma UI_inv D done st : UI D done st -> Inv D done st.
Proof. intros V. apply (found_inv D done LockedCandidates st st); [split; discriminate | exact V | apply found_refl]. Qed.

(** * The cache of positions *)

Lemma pos_inv S0 D done st : Inv D done st -> exists st', update_pos st = Ok st' /\ hist S0 st st' /\ Inv D (s_elims st') st' /\
  s_pnd st' = length (s_entries st') /\ s_entries st' = s_entries st /\ s_elims st' = s_elims st.
Proof.
  intros I. assert (w := i_w _ _ _ I). assert (L := i_len _ _ _ I).
  destruct (update_pos_spec done st (i_pi _ _ _ I) (w_e _ w) (w_el _ w) ltac:(lia)) as [p' [n' [E Pi]]]. rewrite E. eexists. split; [reflexivity | ].
  set (st' := set_pos st (length (s_entries st)) n' p') in *.
  assert (Ci : C D st') by (destruct (i_c _ _ _ I); constructor; assumption).
  assert (w' : W st') by (constructor; apply w).
  split; [ | split; [ | split; [reflexivity | split; reflexivity]]].
  - constructor; [exact w' | apply (C_core D); exact Ci | reflexivity | | reflexivity | auto].
    destruct (h_new _ _ _ (hist_refl S0 st w (C_core D st (i_c _ _ _ I)))) as [en [el [ds Q]]]. exists en, el, ds. exact Q.
  - constructor; try apply I; assumption.
Qed.
Lemma pos_up S0 D done st : UI D done st -> exists st', update_pos st = Ok st' /\ hist S0 st st' /\ UI D (s_elims st') st' /\ pos_ok st' /\
  s_entries st' = s_entries st /\ s_elims st' = s_elims st.
Proof.
  intros V. assert (U := v_up _ _ _ V). assert (w := u_w _ _ U). assert (L := v_len _ _ _ V).
  destruct (update_pos_spec done st (v_pi _ _ _ V) (w_e _ w) (w_el _ w) ltac:(lia)) as [p' [n' [E Pi]]]. rewrite E. eexists. split; [reflexivity | ].
  set (st' := set_pos st (length (s_entries st)) n' p') in *.
  assert (Ci : C D st') by (destruct (u_c _ _ U); constructor; assumption).
  assert (w' : W st') by (constructor; apply w).
  assert (U' : UP D st') by (constructor; try assumption; apply U).
  split; [ | split; [ | split; [ | split; reflexivity]]].
  - constructor; [exact w' | apply (C_core D); exact Ci | reflexivity | | reflexivity | auto].
    destruct (h_new _ _ _ (hist_refl S0 st w (C_core D st (u_c _ _ U)))) as [en [el [ds Q]]]. exists en, el, ds. exact Q.
  - constructor; try assumption; apply V.
  - apply (pos_ok_of D st' U' Pi). reflexivity.
Qed.
