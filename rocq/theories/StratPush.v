(** The strategy solver: the searches for singles. *)
From Coq Require Import List Arith NArith ZArith ZifyNat ZifyN ZifyBool Lia Bool.
From Verif Require Import Spec TableSpec GeomSpec Solver Bits Geom Gen BitLemmas GridProofs BitsProofs GeomProofs GenProofs Strat StratFind StratSolve StratUse StratWhy StratWhyLemmas StratInv StratPos StratFound StratWalk StratCall StratSpec StratHist StratStuck.
Import ListNotations.
Ltac Zify.zify_post_hook ::= Z.to_euclidean_division_equations.

(** A digit that every solved grid agreeing with the history has in an open cell *)
Definition forced (st : strat) (x : cand) : Prop :=
  fst x < 81 /\ 1 <= snd x <= 9 /\ mem (P st (fst x)) (snd x - 1) /\ forall s, solved s -> Snd s st -> at_ s (fst x) = snd x.

(** [st] is [st0] with digits placed by the strategy [S0]; the caches are those of [st0]. *)
Definition pushes (S0 : strategy) (st0 st : strat) : Prop := exists en ds g n,
  st = set_deds (set_entries (set_last (set_grid st0 g) n) (s_entries st0 ++ en)) (s_deds st0 ++ ds) /\ n <= 27 /\ length g = 81 /\
  (forall c d, In (c, d) en -> forced st0 (c, d) /\ at_ g c = d) /\
  (forall c, c < 81 -> (forall d, ~ In (c, d) en) -> at_ g c = G st0 c) /\
  length en + 2 * zeros g <= 2 * zeros (s_grid st0) /\
  (forall y, In y ds -> range_of y = None /\ forall el, reads S0 el y) /\
  (forall x, In x en <-> exists y, In y ds /\ single_of y x) /\
  (exists zs, (forall el, Forall2 (fun y z => with_slices el y = Ok z) ds zs) /\ explained [S0] (listed (s_entries st0)) (listed (s_elims st0)) zs /\
    same (listed (s_entries st0 ++ en)) (all_places (listed (s_entries st0)) zs)).

Lemma set_same st : set_deds (set_entries (set_last (set_grid st (s_grid st)) (s_last st)) (s_entries st ++ [])) (s_deds st ++ []) = st.
Proof. rewrite !app_nil_r. destruct st. reflexivity. Qed.

Lemma pushes_refl S0 st : length (s_grid st) = 81 -> s_last st <= 27 -> pushes S0 st st.
Proof.
  intros L L2. exists [], [], (s_grid st), (s_last st). split; [symmetry; apply set_same | ]. split; [exact L2 | ]. split; [exact L | ]. split; [intros c d [] | ]. split; [reflexivity | ].
  split; [cbn [length]; lia | ]. split; [intros y [] | ]. split; [intros x; split; [intros [] | intros [y [[] _]]] | ].
  exists []. split; [constructor | ]. split; [exact Logic.I | ]. rewrite app_nil_r. apply same_sym, all_places_nil.
Qed.

Lemma tiles_none a : forall ds, (forall y, In y ds -> range_of y = None) -> tiles a ds a.
Proof. induction ds as [ | y ds IH]; intros H; cbn [tiles]; [reflexivity | ]. rewrite (H y (or_introl eq_refl)). apply IH. intros z Hz. apply H. right. exact Hz. Qed.

(** An open cell has no digit in the grid. *)
Lemma open_grid D st c x : UP D st -> c < 81 -> mem (P st c) x -> G st c = 0.
Proof.
  intros U Hc M. destruct (Nat.eq_dec (G st c) 0) as [Z | N]; [exact Z | exfalso]. destruct (u_open D st c x U Hc M) as [Z _].
  apply (c_grid _ _ (u_c _ _ U) c Hc) in N as N'. apply (u_entry D st c _ U) in N'. congruence.
Qed.

Lemma pushes_inv D done S0 st0 st : UI D done st0 -> pushes S0 st0 st -> hist S0 st0 st /\ Inv D done st.
Proof.
  intros V [en [ds [g [n [E [Ln [Lg [Fo [Ot [Ze [Re [Si Wy]]]]]]]]]]]]. assert (U := v_up _ _ _ V). assert (w := u_w _ _ U). assert (Ci := u_c _ _ U).
  assert (Ee : s_entries st = s_entries st0 ++ en) by (rewrite E; reflexivity). assert (El : s_elims st = s_elims st0) by (rewrite E; reflexivity).
  assert (EG : forall c, G st c = at_ g c) by (intros c; rewrite E; reflexivity). assert (EP : forall c, P st c = P st0 c) by (intros c; rewrite E; reflexivity).
  assert (Fr : forall c d d', In (c, d) en -> ~ In (c, d') (s_entries st0)).
  { intros c d d' Hi Hj. destruct (Fo c d Hi) as [[Lc [_ [M _]]] _]. cbn [fst snd] in *. destruct (u_open D st0 c _ U Lc M) as [Z _]. assert (Q := u_entry D st0 c d' U Hj). destruct (w_e _ w c d' Hj). lia. }
  assert (Dec : forall c, (exists d, In (c, d) en) \/ forall d, ~ In (c, d) en).
  { intros c. destruct (existsb (fun x => fst x =? c) en) eqn:T.
    - left. apply existsb_exists in T. destruct T as [[k d] [Hi Q]]. apply Nat.eqb_eq in Q. cbn [fst] in Q. subst k. exists d. exact Hi.
    - right. intros d Hi. assert (X : existsb (fun x => fst x =? c) en = true); [ | congruence]. apply existsb_exists. exists (c, d). split; [exact Hi | apply Nat.eqb_refl]. }
  assert (W' : W st).
  { rewrite E. constructor; try apply w; cbn [s_grid s_entries s_cnd set_deds set_entries set_last set_grid].
    - exact Lg.
    - intros c Hc. change (at_ g c <= 9). destruct (Dec c) as [[d Hi] | N].
      + destruct (Fo c d Hi) as [[_ [Q _]] Q']. cbn [snd] in Q. lia.
      + rewrite (Ot c Hc N). apply (w_g _ w c Hc).
    - intros c d Hi. apply in_app_iff in Hi. destruct Hi as [Hi | Hi]; [apply (w_e _ w c d Hi) | ]. destruct (Fo c d Hi) as [[A [B _]] _]. auto.
    - rewrite app_length. pose proof (w_nl _ w). lia. }
  assert (Fi : firstn (s_cnd st) (s_entries st) = firstn (s_cnd st0) (s_entries st0)).
  { rewrite Ee. replace (s_cnd st) with (s_cnd st0) by (rewrite E; reflexivity). apply firstn_grow, (w_nl _ w). }
  assert (C' : C D st).
  { constructor.
    - intros c N. rewrite Fi, EP. apply (c_done _ _ Ci c N).
    - intros c d. rewrite Fi. apply (c_ent _ _ Ci).
    - intros c Hc. rewrite EP. apply (c_empty _ _ Ci c Hc).
    - intros h x Hh. replace (Hd st h) with (Hd st0 h) by (rewrite E; reflexivity). apply (c_house _ _ Ci h x Hh).
    - apply (c_valid _ _ Ci).
    - intros c x. rewrite EP, El. apply (c_lower _ _ Ci).
    - replace (s_n st) with (s_n st0) by (rewrite E; reflexivity). apply (c_n _ _ Ci).
    - intros c d d' Hi Hj. rewrite Ee in Hi, Hj. apply in_app_iff in Hi, Hj. destruct Hi as [Hi | Hi], Hj as [Hj | Hj].
      + apply (c_fun _ _ Ci c d d' Hi Hj).
      + destruct (Fr c d' d Hj Hi).
      + destruct (Fr c d d' Hi Hj).
      + destruct (Fo c d Hi) as [_ Q1]. destruct (Fo c d' Hj) as [_ Q2]. congruence.
    - intros c Hc. rewrite EG, Ee, in_app_iff. intros N. destruct (Dec c) as [[d Hi] | Nn].
      + right. destruct (Fo c d Hi) as [_ Q]. rewrite Q. exact Hi.
      + left. rewrite (Ot c Hc Nn) in *. apply (c_grid _ _ Ci c Hc N). }
  split.
  - constructor; [exact W' | apply (C_core D); exact C' | rewrite E; reflexivity | | | ].
    + exists en, [], ds. split; [exact Ee | ]. split; [rewrite El, app_nil_r; reflexivity | ]. split; [rewrite E; reflexivity | ]. rewrite El.
      split; [apply tiles_none; intros y Hy; apply Re, Hy | ]. split; [intros y Hy; apply Re, Hy | ]. split; [exact Fr | ]. split; [intros x [] | ]. split; [exact Si | ].
      destruct Wy as [zs [F [X Q]]]. exists zs. split; [apply F | ]. split; [exact X | ]. rewrite Ee, El. split; [exact Q | ].
      assert (T : tiles (length (s_elims st0)) ds (length (s_elims st0 ++ []))) by (rewrite app_nil_r; apply tiles_none; intros y Hy; apply Re, Hy).
      assert (R := told_removes (s_elims st0) [] ds zs (F _) T). rewrite app_nil_r in R. exact R.
    + replace (s_grid st) with g by (rewrite E; reflexivity). rewrite Ee, app_length. lia.
    + intros s So Ss. assert (Ss' := Ss). destruct Ss' as [S1 S2]. split; [ | rewrite El; exact S2]. intros c d Hi. rewrite Ee in Hi. apply in_app_iff in Hi. destruct Hi as [Hi | Hi]; [apply (S1 c d Hi) | ].
      destruct (Fo c d Hi) as [[_ [_ [_ Q]]] _]. apply (Q s So Ss).
  - constructor; [exact W' | exact C' | | | | | | | ].
    + rewrite E. apply (u_disj _ _ U).
    + intros c d Hi. rewrite El in Hi. rewrite EP. left. apply (u_dead _ _ U c d Hi).
    + intros c _. left. intros d Hi. rewrite Ee in Hi. apply in_app_iff in Hi. destruct Hi as [Hi | Hi]; [left; apply (u_entry D st0 c d U Hi) | right; rewrite EG; apply (Fo c d Hi)].
    + apply (PI_append done st0 st (v_pi _ _ _ V)); try (rewrite E; reflexivity); [exists en; exact Ee | exists []; rewrite app_nil_r; exact El].
    + replace (s_grid st) with g by (rewrite E; reflexivity). rewrite Ee, app_length. pose proof (v_len _ _ _ V). lia.
    + rewrite E. exact Ln.
    + intros Sm c d Hi. rewrite El in Hi. replace (s_cle st) with (s_cle st0) in Hi by (rewrite E; reflexivity). unfold small in Sm. rewrite El in Sm.
      rewrite (v_cle _ _ _ V), (small_u16 st0 Sm), skipn_all in Hi. destruct Hi.
Qed.

Definition longer (st0 st : strat) : Prop := length (s_entries st0) < length (s_entries st).

(** The deduction places the candidate and follows from the entries of [st] and the eliminations of [st0]. *)
Definition follows (S0 : strategy) (st0 st : strat) (x : cand) (ded : deduction range) : Prop := exists z,
  (forall el, with_slices el ded = Ok z) /\ ded_strategy z = Ok S0 /\ (forall c d, places z c d <-> (c, d) = x) /\ why (listed (s_entries st)) (listed (s_elims st0)) S0 z.

(** Several copies [m] of the entry, with one deduction *)
Lemma push_fresh S0 st0 st c d ded (m : nat) : pushes S0 st0 st -> forced st0 (c, d) -> G st0 c = 0 -> G st c = 0 -> length (s_grid st0) = 81 ->
  range_of ded = None -> (forall el, reads S0 el ded) -> (forall x, single_of ded x <-> x = (c, d)) -> follows S0 st0 st (c, d) ded -> m <= 1 ->
  forall g', g' = lset (s_grid st) c d ->
  pushes S0 st0 (set_deds (set_entries (set_grid st g') (s_entries st ++ repeat (c, d) m ++ [(c, d)])) (s_deds st ++ [ded])).
Proof.
  intros [en [ds [g [n [E [Ln [Lg [Fo [Ot [Ze [Re [Si Wy]]]]]]]]]]]] Fd G0 Gc L0 Rn Rd Sd Fw Hm g' Eg. assert (Hc : c < 81) by apply Fd. assert (Hd' : 1 <= d <= 9) by apply Fd.
  assert (Es : s_grid st = g) by (rewrite E; reflexivity). rewrite Es in Eg. unfold G in Gc. rewrite Es in Gc.
  exists (en ++ repeat (c, d) m ++ [(c, d)]), (ds ++ [ded]), g', n.
  assert (Ins : forall x, In x (en ++ repeat (c, d) m ++ [(c, d)]) <-> In x en \/ x = (c, d)).
  { intros x. rewrite !in_app_iff. cbn [In]. split; [intros [Q | [Q | [Q | []]]]; auto; right; apply repeat_spec in Q; exact Q | intros [Q | Q]; auto]. }
  split; [rewrite E; cbn [s_deds s_entries s_elims set_deds set_entries set_last set_grid s_grid s_n s_last s_clues s_cnd s_cle s_cell s_hnd s_house s_pnd s_ple s_pos]; rewrite <- !app_assoc; reflexivity | ].
  split; [exact Ln | ]. split; [rewrite Eg, lset_length; exact Lg | ].
  assert (At : forall k, at_ g' k = if k =? c then d else at_ g k) by (intros k; rewrite Eg; unfold at_; apply nth_lset; rewrite Lg; exact Hc).
  split; [ | split; [ | split; [ | split; [ | split]]]].
  - intros k e Hi. apply Ins in Hi. destruct Hi as [Hi | Q].
    + destruct (Fo k e Hi) as [Q1 Q2]. split; [exact Q1 | ]. rewrite At. destruct (Nat.eqb_spec k c) as [-> | ]; [ | exact Q2]. destruct Q1 as [_ [Q1 _]]. cbn [snd] in Q1. lia.
    + injection Q as -> ->. split; [exact Fd | ]. rewrite At, Nat.eqb_refl. reflexivity.
  - intros k Hk N. rewrite At. destruct (Nat.eqb_spec k c) as [-> | ]; [destruct (N d); apply Ins; auto | ]. apply (Ot k Hk). intros e Hi. apply (N e), Ins. auto.
  - rewrite !app_length, repeat_length. cbn [length]. assert (X := zeros_lset g c d ltac:(lia) Gc ltac:(lia)). rewrite <- Eg in X. lia.
  - intros y Hy. apply in_app_iff in Hy. destruct Hy as [Hy | [<- | []]]; [apply Re, Hy | auto].
  - intros x. rewrite Ins, Si. split.
    + intros [[y [A B]] | ->]; [exists y; rewrite in_app_iff; auto | exists ded; rewrite in_app_iff; split; [right; left; reflexivity | apply Sd; reflexivity]].
    + intros [y [A B]]. apply in_app_iff in A. destruct A as [A | [<- | []]]; [left; exists y; auto | right; apply Sd, B].
  - destruct Wy as [zs [F [X Q]]]. destruct Fw as [z [Fz [Rz [Pz Wz]]]]. exists (zs ++ [z]). split; [intros el; apply Forall2_app; [apply F | constructor; [apply Fz | constructor]] | ].
    assert (Ee : s_entries st = s_entries st0 ++ en) by (rewrite E; reflexivity). split.
    + apply explained_app; [exact X | ]. cbn [explained]. split; [ | exact Logic.I]. exists S0. split; [left; reflexivity | ]. split; [exact Rz | ]. rewrite Ee in Wz.
      apply (why_mono _ _ _ _ _ _ Q (fun k e H => or_introl H) Wz).
    + intros k e. rewrite <- (all_places_app (listed (s_entries st0)) zs [z] k e). unfold all_places at 1. rewrite <- (Q k e). unfold listed. rewrite (in_app_iff (s_entries st0) (en ++ repeat (c, d) m ++ [(c, d)])), Ins, in_app_iff. split.
      * intros [Y | [Y | Y]]; [auto | auto | right]. exists z. split; [left; reflexivity | apply Pz, Y].
      * intros [[Y | Y] | [z' [[<- | []] Y]]]; [auto | auto | right; right; apply Pz, Y].
Qed.

Lemma pushes_grid S0 D st0 st c d : UP D st0 -> pushes S0 st0 st -> c < 81 -> mem (P st0 c) (d - 1) -> G st c <> 0 -> forced st0 (c, G st c) /\ longer st0 st.
Proof.
  intros U [en [ds [g [n [E [Ln [Lg [Fo [Ot [Ze [Re [Si Wy]]]]]]]]]]]] Hc M N. assert (EG : G st c = at_ g c) by (rewrite E; reflexivity). rewrite EG in *.
  destruct (existsb (fun x => fst x =? c) en) eqn:T.
  - apply existsb_exists in T. destruct T as [[k e] [Hi Q]]. apply Nat.eqb_eq in Q. cbn [fst] in Q. subst k. destruct (Fo c e Hi) as [Q1 Q2]. rewrite Q2. split; [exact Q1 | ].
    unfold longer. rewrite E. cbn [s_entries set_deds set_entries]. rewrite app_length. destruct en; [destruct Hi | cbn [length]; lia].
  - exfalso. rewrite Ot in N; [apply N, (open_grid D st0 c _ U Hc M) | exact Hc | ]. intros e Hi. assert (X : existsb (fun x => fst x =? c) en = true); [ | congruence]. apply existsb_exists. exists (c, e). split; [exact Hi | apply Nat.eqb_refl].
Qed.

Lemma push_rule S0 D st0 st c d ded : UP D st0 -> pushes S0 st0 st -> forced st0 (c, d) ->
  match ded with DNaked _ | DHidden _ _ => True | _ => False end -> (forall el, reads S0 el ded) -> (forall x, single_of ded x <-> x = (c, d)) ->
  (G st c = 0 -> follows S0 st0 st (c, d) ded) ->
  hp (push_new st (c, d) ded) (fun st' => pushes S0 st0 st' /\ longer st0 st') (fun st' => pushes S0 st0 st' /\ forall s, solved s -> ~ Snd s st0).
Proof.
  intros U Pu Fd Kd Rd Sd Fw. assert (w := u_w _ _ U). assert (Hc : c < 81) by apply Fd. assert (Hd' : 1 <= d <= 9) by apply Fd. assert (M : mem (P st0 c) (d - 1)) by apply Fd.
  assert (Lg : length (s_grid st) = 81) by (destruct Pu as [en [ds [g [n [E [_ [Q _]]]]]]]; rewrite E; exact Q).
  assert (Rn : range_of ded = None) by (destruct ded; try contradiction; reflexivity).
  assert (X : hp (old <- aget (s_grid st) c;
      if old =? d then Ok (st, true)
      else if old =? 0 then
        g <- aset (s_grid st) c d;
        Ok (set_deds (set_entries (set_grid st g) (s_entries st ++ [(c, d)])) (s_deds st ++ [ded]), true)
      else Ok (st, false)) (fun st' => pushes S0 st0 st' /\ longer st0 st') (fun st' => pushes S0 st0 st' /\ forall s, solved s -> ~ Snd s st0)).
  { rewrite (aget_ok _ _ 0) by lia. cbn [bind]. change (nth c (s_grid st) 0) with (G st c). destruct (Nat.eqb_spec (G st c) d) as [Ed | Nd].
    - cbn [hp]. split; [exact Pu | ]. apply (pushes_grid S0 D st0 st c d U Pu Hc M). lia.
    - destruct (Nat.eqb_spec (G st c) 0) as [Z | N].
      + rewrite aset_ok by lia. cbn [bind hp]. split.
        * apply (push_fresh S0 st0 st c d ded 0); try assumption; [apply (open_grid D st0 c _ U Hc M) | apply (w_lg _ w) | apply Fw, Z | lia | reflexivity].
        * unfold longer. cbn [s_entries set_deds set_entries]. rewrite app_length. cbn [length]. destruct Pu as [en [ds [g [n [E _]]]]]. rewrite E. cbn [s_entries set_deds set_entries]. rewrite app_length. lia.
      + cbn [hp]. split; [exact Pu | ]. intros s So Ss. destruct (pushes_grid S0 D st0 st c d U Pu Hc M N) as [[_ [_ [_ Q]]] _]. cbn [fst snd] in Q. destruct Fd as [_ [_ [_ Q']]]. cbn [fst snd] in Q'.
        specialize (Q s So Ss). specialize (Q' s So Ss). congruence. }
  unfold push_new. cbn [fst snd]. destruct ded; try contradiction; exact X.
Qed.

(** Placed digits: where a digit was placed in [st] the grid is not empty. *)
Lemma pushed_vacant S0 D st0 st c x : UP D st0 -> pushes S0 st0 st -> c < 81 -> mem (P st0 c) x -> G st c = 0 -> vacant (listed (s_entries st)) c.
Proof.
  intros U [en [ds [g [n [E [Ln [Lg [Fo [Ot [Ze [Re [Si Wy]]]]]]]]]]]] Hc M Z d Q. assert (EG : G st c = at_ g c) by (rewrite E; reflexivity).
  assert (Ee : s_entries st = s_entries st0 ++ en) by (rewrite E; reflexivity). unfold listed in Q. rewrite Ee in Q. apply in_app_iff in Q. destruct Q as [Q | Q]; [apply (mem_vacant D st0 U c x Hc M d Q) | ].
  destruct (Fo c d Q) as [[_ [Ld _]] A]. cbn [snd] in Ld. lia.
Qed.
Lemma pushed_absent S0 D st0 st h c x : UP D st0 -> pushes S0 st0 st -> h < 27 -> c < 81 -> in_house h c -> mem (P st0 c) x ->
  (forall c', c' < 81 -> in_house h c' -> mem (P st0 c') x -> c' = c) -> G st c = 0 -> absent (listed (s_entries st)) h (S x).
Proof.
  intros U [en [ds [g [n [E [Ln [Lg [Fo [Ot [Ze [Re [Si Wy]]]]]]]]]]]] Hh Hc Ic M Un Z k Ik Q. assert (EG : G st c = at_ g c) by (rewrite E; reflexivity).
  assert (Ee : s_entries st = s_entries st0 ++ en) by (rewrite E; reflexivity). unfold listed in Q. rewrite Ee in Q. apply in_app_iff in Q. destruct Q as [Q | Q]; [apply (mem_absent D st0 U h c x Hh Hc Ic M k Ik Q) | ].
  destruct (Fo k _ Q) as [[Lk [_ [Mk _]]] A]. cbn [fst snd] in *. replace (S x - 1) with x in Mk by lia. assert (k = c) by (apply Un; assumption). subst k. lia.
Qed.
Lemma pushed_poss S0 D st0 st c d : UP D st0 -> pushes S0 st0 st -> possible (listed (s_entries st)) (listed (s_elims st0)) c d -> c < 81 /\ 1 <= d <= 9 /\ mem (P st0 c) (d - 1).
Proof.
  intros U [en [ds [g [n [E _]]]]] Q. apply (poss_mem D st0 U). refine (possible_mono _ _ _ _ c d _ (fun _ _ H => H) Q). intros k e H. unfold listed in *. rewrite E. cbn [s_entries set_deds set_entries]. apply in_app_iff. auto.
Qed.

(** ** Naked singles *)

Lemma naked_forced D st0 c x : UP D st0 -> c < 81 -> (forall i, mem (P st0 c) i <-> i = x) -> forced st0 (c, S x).
Proof.
  intros U Hc M. assert (Mx : mem (P st0 c) x) by (apply M; reflexivity). destruct (u_open D st0 c x U Hc Mx) as [Z Hx]. split; [exact Hc | ]. cbn [fst snd]. split; [lia | ].
  replace (S x - 1) with x by lia. split; [exact Mx | ]. intros s So Ss. destruct (u_digit D st0 s c U So Ss Hc) as [Q | [_ Q]].
  - destruct So as [_ [R _]]. specialize (R c Hc). lia.
  - apply M in Q. destruct So as [_ [R _]]. specialize (R c Hc). lia.
Qed.

Lemma find_naked_spec D st0 stop : UP D st0 -> s_last st0 <= 27 ->
  hp (find_naked (s_cell st0) stop (fun c st => push_new (set_entries st (s_entries st ++ [c])) c (DNaked c)) st0)
    (fun st => pushes NakedSingles st0 st /\ (longer st0 st \/ ~ naked_single (alive (s_entries st0) (s_elims st0))))
    (fun _ => False).
Proof.
  intros U L27. assert (w := u_w _ _ U). unfold find_naked.
  set (I := fun l st => pushes NakedSingles st0 st /\ (forall c, c < 81 -> ~ In c l -> G st c = G st0 c) /\
    (longer st0 st \/ forall c x, In c l -> ~ (forall i, mem (P st0 c) i <-> i = x))).
  eapply hp_impl; [apply (finish_rule _ (I (seq 0 81)) (fun st => pushes NakedSingles st0 st /\ longer st0 st) (fun _ => False)) | | auto].
  - apply (for_ctl_rule _ I _ _ (seq 0 81) []); cbn [app].
    + intros pre c post st El [Pu [Gs Fa]]. assert (Hc : c < 81) by (assert (X : In c (seq 0 81)) by (rewrite El; apply in_app_iff; right; left; reflexivity); apply in_seq in X; lia).
      assert (Nc : ~ In c pre) by (assert (X := seq_NoDup 81 0); rewrite El in X; apply NoDup_remove_2 in X; intros Q; apply X, in_app_iff; auto).
      rewrite (aget_ok _ _ 0%N) by (rewrite (w_lp _ w); exact Hc). cbn [bind]. fold (P st0 c).
      assert (Skip : (forall x, ~ (forall i, mem (P st0 c) i <-> i = x)) -> I (pre ++ [c]) st).
      { intros Nx. split; [exact Pu | ]. split; [intros k Hk Ni; apply Gs; [exact Hk | ]; intros Q; apply Ni, in_app_iff; auto | ].
        destruct Fa as [Fa | Fa]; [left; exact Fa | right]. intros k x Hi. apply in_app_iff in Hi. destruct Hi as [Hi | [<- | []]]; [apply Fa, Hi | apply Nx]. }
      destruct (unique_cases EDigit _ (w_p _ w c Hc)) as [[Eu Q] | [[x [Eu Q]] | [Eu [i [j [Q1 [Q2 Q3]]]]]]]; rewrite Eu; cbn [bind].
      * cbn [okc]. apply Skip. intros x X. apply (Q x), X. reflexivity.
      * assert (Fd := naked_forced D st0 c x U Hc Q). destruct (u_open D st0 c x U Hc ltac:(apply Q; reflexivity)) as [_ Hx]. rewrite from_index_ok by exact Hx. cbn [bind].
        unfold push_new. cbn [fst snd]. cbn [s_grid set_entries s_entries s_deds].
        assert (Lg : length (s_grid st) = 81) by (destruct Pu as [en [ds [g [n [E [_ [X _]]]]]]]; rewrite E; exact X).
        rewrite (aget_ok _ _ 0) by lia. cbn [bind]. change (nth c (s_grid st) 0) with (G st c).
        assert (G0 : G st0 c = 0) by (apply (open_grid D st0 c x U Hc), Q; reflexivity). rewrite (Gs c Hc Nc), G0. cbn [Nat.eqb].
        rewrite aset_ok by lia. cbn [bind fst snd].
        assert (Fw : follows NakedSingles st0 st (c, S x) (DNaked (c, S x))).
        { exists (DNaked (c, S x)). split; [reflexivity | ]. split; [reflexivity | ]. split; [intros k e; split; [intros [Y | [h Y]]; [injection Y as -> ->; reflexivity | discriminate] | intros Y; left; rewrite Y; reflexivity] | ].
          cbn [why]. split; [reflexivity | ]. split; [exact Hc | ]. split; [lia | ]. split; [apply (pushed_vacant NakedSingles D st0 st c x U Pu Hc); [apply Q; reflexivity | rewrite (Gs c Hc Nc); exact G0] | ].
          intros e A. apply (pushed_poss NakedSingles D st0 st c e U Pu) in A. destruct A as [_ [Le A]]. apply Q in A. lia. }
        assert (Pn := push_fresh NakedSingles st0 st c (S x) (DNaked (c, S x)) 1 Pu Fd G0 ltac:(rewrite (Gs c Hc Nc); exact G0) (w_lg _ w) eq_refl
          ltac:(intros el; exists (DNaked (c, S x)); split; [reflexivity | split; [reflexivity | constructor]])
          ltac:(intros y; unfold single_of; split; [intros [Y | [h Y]]; [injection Y as ->; reflexivity | discriminate] | intros ->; left; reflexivity]) Fw (le_n 1) _ eq_refl).
        cbn [repeat app] in Pn.
        match goal with |- okc (Ok (?s, _)) _ _ _ => replace s with (set_deds (set_entries (set_grid st (lset (s_grid st) c (S x))) (s_entries st ++ [(c, S x); (c, S x)])) (s_deds st ++ [DNaked (c, S x)])) end.
        2:{ cbn [s_deds s_entries s_elims set_deds set_entries set_last set_grid s_grid s_n s_last s_clues s_cnd s_cle s_cell s_hnd s_house s_pnd s_ple s_pos]. rewrite <- app_assoc. reflexivity. }
        assert (Lo : longer st0 (set_deds (set_entries (set_grid st (lset (s_grid st) c (S x))) (s_entries st ++ [(c, S x); (c, S x)])) (s_deds st ++ [DNaked (c, S x)]))).
        { unfold longer. cbn [s_entries set_deds set_entries]. rewrite app_length. cbn [length]. destruct Pu as [en [ds [g [n [E _]]]]]. rewrite E. cbn [s_entries set_deds set_entries]. rewrite app_length. lia. }
        destruct stop; cbn [stop_if okc]; [auto | ]. split; [exact Pn | ]. split; [ | left; exact Lo].
        intros k Hk Ni. unfold G. cbn [s_grid set_deds set_entries set_grid]. unfold at_. rewrite nth_lset by lia.
        destruct (Nat.eqb_spec k c) as [-> | _]; [destruct Ni; apply in_app_iff; right; left; reflexivity | ]. apply (Gs k Hk). intros X. apply Ni, in_app_iff. auto.
      * cbn [okc]. apply Skip. intros x X. apply X in Q1, Q2. congruence.
    + split; [apply pushes_refl; [apply (w_lg _ w) | exact L27] | ]. split; [auto | right; intros c x []].
  - intros st [[Pu [_ Fa]] | [Pu Lo]]; (split; [exact Pu | ]); [ | left; exact Lo]. destruct Fa as [Fa | Fa]; [left; exact Fa | right].
    intros [c [d [M Un]]]. assert (R := proj1 (alive_iff D st0 U c d) M). destruct R as [Hc [Hd' Mc]].
    apply (Fa c (d - 1)); [apply in_seq; lia | ]. intros i. split; [ | intros ->; exact Mc]. intros Mi. apply (alive_mem D st0 U c i Hc), Un in Mi. lia.
Qed.

(** ** Hidden singles *)

Lemma occurrences_conv poss : length poss = 81 -> forall cells u m u' m', (forall c, In c cells -> c < 81) -> NoDup cells ->
  occurrences cells poss u m = Ok (u', m') -> forall x, mem m' x -> mem m x \/ (mem u x /\ exists c, In c cells /\ mem (nth c poss 0%N) x) \/
    exists c c', c <> c' /\ In c cells /\ In c' cells /\ mem (nth c poss 0%N) x /\ mem (nth c' poss 0%N) x.
Proof.
  intros L cells. induction cells as [ | k t IH]; intros u m u' m' Cs ND; cbn [occurrences].
  - intros [= <- <-] x Q. auto.
  - rewrite (aget_ok _ _ 0%N) by (rewrite L; apply Cs; left; reflexivity). cbn [bind]. intros E x Q. inversion ND as [ | ? ? Nk ND']. subst.
    destruct (IH _ _ _ _ (fun c Hc => Cs c (or_intror Hc)) ND' E x Q) as [Q1 | [[Q1 [c [Hc Q2]]] | [c [c' [N [Hc [Hc' [Q1 Q2]]]]]]]].
    + rewrite mem_or, mem_and in Q1. destruct Q1 as [Q1 | [Q1 Q2]]; [auto | right; left; split; [exact Q1 | ]]. exists k. split; [left; reflexivity | exact Q2].
    + rewrite mem_or in Q1. destruct Q1 as [Q1 | Q1].
      * right. left. split; [exact Q1 | ]. exists c. split; [right; exact Hc | exact Q2].
      * right. right. exists k, c. split; [intros ->; contradiction | ]. split; [left; reflexivity | ]. split; [right; exact Hc | auto].
    + right. right. exists c, c'. split; [exact N | ]. split; [right; exact Hc | ]. split; [right; exact Hc' | auto].
Qed.

Definition lone (st0 : strat) (h c x : nat) : Prop := c < 81 /\ in_house h c /\ mem (P st0 c) x /\ forall c', c' < 81 -> in_house h c' -> mem (P st0 c') x -> c' = c.

Lemma hidden_forced D st0 h c x : UP D st0 -> h < 27 -> lone st0 h c x -> forced st0 (c, S x).
Proof.
  intros U Hh [Hc [Ic [M Un]]]. destruct (u_open D st0 c x U Hc M) as [Z Hx]. split; [exact Hc | ]. cbn [fst snd]. split; [lia | ]. replace (S x - 1) with x by lia. split; [exact M | ].
  intros s So Ss. destruct (u_house D st0 s h c x U So Ss Hh Hc Ic M) as [k [Hk [Ik [E [Mk _]]]]]. rewrite <- (Un k Hk Ik Mk). exact E.
Qed.

Lemma categorize_ok h : h < 27 -> exists t, house_categorize h = Ok t.
Proof.
  intros Hh. unfold house_categorize. rewrite (proj2 (Nat.ltb_lt _ _) Hh). unfold COL_OFFSET, BLOCK_OFFSET.
  destruct (Nat.leb_spec h 8); [rewrite chk_ok by lia; eexists; reflexivity | ]. destruct (Nat.leb_spec h 17); rewrite chk_ok by lia; eexists; reflexivity.
Qed.

Lemma categorize_number h t : h < 27 -> house_categorize h = Ok t -> house_number t = h.
Proof.
  intros Hh. unfold house_categorize. rewrite (proj2 (Nat.ltb_lt _ _) Hh). unfold COL_OFFSET, BLOCK_OFFSET.
  destruct (Nat.leb_spec h 8); [rewrite chk_ok by lia; intros [= <-]; reflexivity | ]. destruct (Nat.leb_spec h 17); rewrite chk_ok by lia; intros [= <-]; cbn [house_number]; lia.
Qed.

Definition on_hidden (c : cand) (house : nat) (st : strat) : res (strat * bool) := t <- house_categorize house; push_new st c (DHidden c t).

Lemma hidden_cells_spec D st0 stop h : UP D st0 -> h < 27 -> forall cells singles st, (forall c, In c cells -> c < 81 /\ in_house h c) -> is_set EDigit singles ->
  (forall x, mem singles x -> forall c, c < 81 -> in_house h c -> mem (P st0 c) x -> lone st0 h c x) ->
  pushes HiddenSingles st0 st ->
  okc (hidden_cells cells (s_cell st0) h stop on_hidden singles st)
    (fun st' => pushes HiddenSingles st0 st' /\ (longer st0 st -> longer st0 st') /\ (longer st0 st' \/ forall c x, In c cells -> mem singles x -> ~ mem (P st0 c) x))
    (fun st' => pushes HiddenSingles st0 st' /\ longer st0 st') (fun st' => pushes HiddenSingles st0 st' /\ forall s, solved s -> ~ Snd s st0).
Proof.
  intros U Hh. assert (w := u_w _ _ U). induction cells as [ | c t IH]; intros singles st Cs Ss Lo Pu; cbn [hidden_cells].
  - cbn [okc]. split; [exact Pu | ]. split; [auto | right; intros c x []].
  - destruct (Cs c (or_introl eq_refl)) as [Hc Ic]. assert (Cs' : forall k, In k t -> k < 81 /\ in_house h k) by (intros k Hk; apply Cs; right; exact Hk).
    rewrite (aget_ok _ _ 0%N) by (rewrite (w_lp _ w); exact Hc). cbn [bind]. fold (P st0 c).
    assert (Sa : is_set EDigit (set_and (P st0 c) singles)) by (intros i Q; apply mem_and in Q; apply Ss, Q).
    destruct (unique_cases EDigit _ Sa) as [[Eu Q] | [[x [Eu Q]] | [Eu [i [j [Q1 [Q2 Q3]]]]]]]; rewrite Eu; cbn [bind].
    + eapply okc_impl; [apply (IH singles st Cs' Ss Lo Pu) | | auto | auto]. intros st' [P' [G' Fa]]. split; [exact P' | ]. split; [exact G' | ]. destruct Fa as [Fa | Fa]; [auto | right].
      intros k x [<- | Hk] Mx Mc; [apply (Q x), mem_and; auto | apply (Fa k x Hk Mx Mc)].
    + assert (Mx : mem (P st0 c) x /\ mem singles x) by (apply mem_and, Q; reflexivity). destruct Mx as [Mc Mx]. destruct (u_open D st0 c x U Hc Mc) as [_ Hx]. rewrite from_index_ok by exact Hx. cbn [bind].
      assert (Fd := hidden_forced D st0 h c x U Hh (Lo x Mx c Hc Ic Mc)). unfold on_hidden at 1. destruct (categorize_ok h Hh) as [ty Et]. rewrite Et. cbn [bind].
      assert (Fw : G st c = 0 -> follows HiddenSingles st0 st (c, S x) (DHidden (c, S x) ty)).
      { intros Z. exists (DHidden (c, S x) ty). split; [reflexivity | ]. split; [reflexivity | ]. split; [intros k e; split; [intros [Y | [h' Y]]; [discriminate | injection Y as -> -> _; reflexivity] | intros Y; right; exists ty; rewrite Y; reflexivity] | ].
        destruct (Lo x Mx c Hc Ic Mc) as [_ [_ [_ Un]]]. cbn [why]. rewrite (categorize_number h ty Hh Et). split; [reflexivity | ]. split; [exact Hc | ]. split; [lia | ]. split; [exact Hh | ]. split; [exact Ic | ].
        split; [apply (pushed_vacant HiddenSingles D st0 st c x U Pu Hc Mc Z) | ]. split; [apply (pushed_absent HiddenSingles D st0 st h c x U Pu Hh Hc Ic Mc Un Z) | ].
        intros c' Ic' A. apply (pushed_poss HiddenSingles D st0 st c' _ U Pu) in A. destruct A as [Hc' [_ A]]. replace (S x - 1) with x in A by lia. apply (Un c' Hc' Ic' A). }
      assert (Pr := push_rule HiddenSingles D st0 st c (S x) (DHidden (c, S x) ty) U Pu Fd I ltac:(intros el; exists (DHidden (c, S x) ty); split; [reflexivity | split; [reflexivity | constructor]])
        ltac:(intros y; unfold single_of; split; [intros [Y | [h' Y]]; [discriminate | injection Y as ->; reflexivity] | intros ->; right; exists ty; reflexivity]) Fw).
      destruct (push_new st (c, S x) (DHidden (c, S x) ty)) as [[st1 [ | ]] | | | ]; cbn [hp] in Pr; try contradiction; cbn [bind fst snd]; [ | exact Pr].
      destruct Pr as [P1 L1]. destruct (digit_set_ok (S x) ltac:(lia)) as [m [Em [Sm M]]]. rewrite Em. cbn [bind].
      destruct stop; [cbn [okc]; auto | ]. destruct (set_is_empty (set_without EDigit singles m)); [cbn [okc]; auto | ].
      eapply okc_impl; [apply (IH (set_without EDigit singles m) st1 Cs') | | auto | auto].
      * intros i Hi. apply (mem_without EDigit) in Hi; [ | exact Ss]. apply Ss, Hi.
      * intros y Hy. apply (mem_without EDigit) in Hy; [ | exact Ss]. apply Lo, Hy.
      * exact P1.
      * intros st' [P' [G' _]]. split; [exact P' | ]. split; [auto | left; auto].
    + cbn [okc]. split; [exact Pu | ]. intros s So Sn. apply mem_and in Q1, Q2. destruct Q1 as [A1 B1], Q2 as [A2 B2].
      destruct (hidden_forced D st0 h c i U Hh (Lo i B1 c Hc Ic A1)) as [_ [_ [_ X1]]]. destruct (hidden_forced D st0 h c j U Hh (Lo j B2 c Hc Ic A2)) as [_ [_ [_ X2]]].
      specialize (X1 s So Sn). specialize (X2 s So Sn). cbn [fst snd] in X1, X2. congruence.
Qed.

Lemma next_pushes S0 st0 st : pushes S0 st0 st -> pushes S0 st0 (next_house st) /\ (longer st0 st -> longer st0 (next_house st)).
Proof.
  intros [en [ds [g [n [E [Ln Q]]]]]]. assert (El : s_last st = n) by (rewrite E; reflexivity). split; [ | unfold longer; rewrite E; auto].
  exists en, ds, g, (if n <? 27 then n + 1 else 0). split; [unfold next_house; rewrite El, E; reflexivity | ]. split; [destruct (Nat.ltb_spec n 27); lia | exact Q].
Qed.

Lemma houses_from_all last : last <= 27 -> forall h, In h (houses_from last) <-> h < 27.
Proof.
  intros L h. assert (X : forallb (fun l => forallb (fun x => x <? 27) (houses_from l) && forallb (fun x => existsb (Nat.eqb x) (houses_from l)) (seq 0 27)) (seq 0 28) = true) by (vm_compute; reflexivity).
  rewrite forallb_forall in X. specialize (X last ltac:(apply in_seq; lia)). apply andb_true_iff in X. destruct X as [X1 X2]. rewrite forallb_forall in X1, X2. split.
  - intros Hi. apply Nat.ltb_lt, X1, Hi.
  - intros Hi. specialize (X2 h ltac:(apply in_seq; lia)). apply existsb_exists in X2. destruct X2 as [y [Hy E]]. apply Nat.eqb_eq in E. subst y. exact Hy.
Qed.

Lemma find_hidden_spec D st0 stop : UP D st0 -> s_last st0 <= 27 ->
  hp (find_hidden (s_last st0) next_house (s_cell st0) (s_house st0) stop on_hidden st0)
    (fun st => pushes HiddenSingles st0 st /\ (longer st0 st \/ ~ hidden_single (alive (s_entries st0) (s_elims st0))))
    (fun st => pushes HiddenSingles st0 st /\ forall s, solved s -> ~ Snd s st0).
Proof.
  intros U L27. assert (w := u_w _ _ U). unfold find_hidden.
  set (I := fun hs st => pushes HiddenSingles st0 st /\ (longer st0 st \/ forall h c x, In h hs -> ~ lone st0 h c x)).
  eapply hp_impl; [apply (finish_rule _ (I (houses_from (s_last st0))) (fun st => pushes HiddenSingles st0 st /\ longer st0 st) (fun st => pushes HiddenSingles st0 st /\ forall s, solved s -> ~ Snd s st0)) | | auto].
  - apply (for_ctl_rule _ I _ _ (houses_from (s_last st0)) []); cbn [app].
    + intros pre h post st El [Pu0 Fa0]. assert (Hh : h < 27) by (apply (houses_from_all _ L27); rewrite El; apply in_app_iff; right; left; reflexivity).
      destruct (next_pushes _ _ _ Pu0) as [Pu Lo0]. set (st1 := next_house st) in *. assert (Fa : longer st0 st1 \/ forall h c x, In h pre -> ~ lone st0 h c x) by (destruct Fa0; auto). clear Pu0 Fa0 Lo0.
      destruct (house_cells_exact h Hh) as [cm [Ec [Sc Mc]]]. rewrite Ec. cbn [bind]. rewrite (iter_exact ECell cm Sc). cbn [bind].
      assert (Cs : forall c, In c (members ECell cm) <-> c < 81 /\ in_house h c) by (intros c; rewrite (members_in ECell cm c Sc); apply Mc).
      assert (NDc : NoDup (members ECell cm)) by (apply NoDup_filter, seq_NoDup).
      destruct (occurrences_spec (s_cell st0) (w_lp _ w) (members ECell cm) (set_none EDigit) (set_none EDigit)) as [u [mu [Eo [Mu Mm]]]]; [intros c Hi; apply Cs in Hi; apply Hi | ].
      assert (Cv := occurrences_conv (s_cell st0) (w_lp _ w) _ _ _ _ _ (fun c Hi => proj1 (proj1 (Cs c) Hi)) NDc Eo).
      rewrite Eo. cbn [bind]. unfold house_get. rewrite (aget_ok _ _ 0%N) by (rewrite (w_lh _ w); exact Hh). cbn [bind]. fold (Hd st0 h).
      assert (Mu' : forall x, mem u x <-> exists c, c < 81 /\ in_house h c /\ mem (P st0 c) x).
      { intros x. rewrite Mu. split; [intros [Q | [c [Hi Q]]]; [destruct (mem_none _ _ Q) | exists c; apply Cs in Hi; tauto] | intros [c [A [B Q]]]; right; exists c; split; [apply Cs; auto | exact Q]]. }
      assert (Su : is_set EDigit u) by (intros x Q; apply Mu' in Q; destruct Q as [c [Hc [_ Q]]]; apply (w_p _ w c Hc), Q).
      destruct (N.eqb_spec (set_or u (Hd st0 h)) (set_all EDigit)) as [Ea | Na]; cbn [negb].
      2:{ cbn [okc]. split; [exact Pu | ]. intros s So Ss. apply Na. apply mem_ext. intros x. rewrite mem_or, mem_all. split; [intros [Q | Q]; [apply Su, Q | apply (w_h _ w h Hh), Q] | ].
          intros Hx. destruct (any_house_has_digit s h (S x) So Hh ltac:(cbn in Hx; lia)) as [k [Hk [Ik E]]]. destruct (u_digit D st0 s k U So Ss Hk) as [Q | [_ Q]].
          - right. apply (c_house _ _ (u_c _ _ U) h x Hh). exists k. split; [exact Hk | ]. split; [exact Ik | congruence].
          - left. apply Mu'. exists k. split; [exact Hk | ]. split; [exact Ik | ]. rewrite E in Q. replace (S x - 1) with x in Q by lia. exact Q. }
      assert (Ss : is_set EDigit (set_without EDigit u mu)) by (intros i Q; apply (mem_without EDigit) in Q; [apply Su, Q | exact Su]).
      assert (Lo : forall x, mem (set_without EDigit u mu) x -> forall c, c < 81 -> in_house h c -> mem (P st0 c) x -> lone st0 h c x).
      { intros x Mx c Hc Ic M. apply (mem_without EDigit) in Mx; [ | exact Su]. destruct Mx as [_ Nm]. destruct (Mm x Nm) as [_ [_ Un]]. split; [exact Hc | ]. split; [exact Ic | ]. split; [exact M | ].
        intros c' Hc' Ic' M'. apply Un; try assumption; apply Cs; auto. }
      assert (Hv : forall c x, lone st0 h c x -> mem (set_without EDigit u mu) x).
      { intros c x [Hc [Ic [M Un]]]. apply (mem_without EDigit); [exact Su | ]. split; [apply Mu'; exists c; auto | ]. intros Q. destruct (Cv x Q) as [X | [[X _] | [a [b [N [Ha [Hb [A B]]]]]]]]; [destruct (mem_none _ _ X) | destruct (mem_none _ _ X) | ].
        apply N. apply Cs in Ha, Hb. rewrite (Un a), (Un b); tauto. }
      assert (Keep : (forall c x, ~ lone st0 h c x) -> longer st0 st1 \/ forall h' c x, In h' (pre ++ [h]) -> ~ lone st0 h' c x).
      { intros Nx. destruct Fa as [Fa | Fa]; [auto | right]. intros h' c x Hi. apply in_app_iff in Hi. destruct Hi as [Hi | [<- | []]]; [apply Fa, Hi | apply Nx]. }
      destruct (set_is_empty (set_without EDigit u mu)) eqn:Em.
      * cbn [okc]. split; [exact Pu | ]. apply Keep. intros c x X. apply Hv in X. apply (empty_iff EDigit _ Ss) in Em. rewrite Em in X. destruct (mem0 _ X).
      * assert (Cl := hidden_cells_spec D st0 stop h U Hh (members ECell cm) _ st1 (fun c Hi => proj1 (Cs c) Hi) Ss Lo Pu).
        eapply okc_impl; [exact Cl | | auto | auto]. intros st' [P' [G' Fa']]. split; [exact P' | ]. destruct Fa' as [Fa' | Fa']; [auto | ].
        destruct Fa as [Fa | Fa]; [left; auto | right]. intros h' c x Hi. apply in_app_iff in Hi. destruct Hi as [Hi | [<- | []]]; [apply Fa, Hi | ].
        intros X. assert (X' := Hv c x X). destruct X as [Hc [Ic [M _]]]. apply (Fa' c x); [apply Cs; auto | exact X' | exact M].
    + split; [apply pushes_refl; [apply (w_lg _ w) | exact L27] | right; intros h c x []].
  - intros st [[Pu Fa] | [Pu Lo]]; (split; [exact Pu | ]); [ | left; exact Lo]. destruct Fa as [Fa | Fa]; [left; exact Fa | right].
    intros [h [c [d [Hh [Ic [M Un]]]]]]. assert (R := proj1 (alive_iff D st0 U c d) M). destruct R as [Hc [Hd' Mc]].
    apply (Fa h c (d - 1)); [apply (houses_from_all _ L27), Hh | ]. split; [exact Hc | ]. split; [exact Ic | ]. split; [exact Mc | ]. intros c' Hc' Ic' M'. apply Un; [exact Ic' | ].
    apply (alive_mem D st0 U c' _ Hc') in M'. replace (S (d - 1)) with d in M' by lia. exact M'.
Qed.
