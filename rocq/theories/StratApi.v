(** The strategy solver: solving a puzzle. *)
From Coq Require Import List Arith NArith ZArith ZifyNat ZifyN ZifyBool Lia Bool.
From Verif Require Import Spec TableSpec GeomSpec Solver Bits Geom Gen BitLemmas GridProofs BitsProofs GeomProofs GenProofs Strat StratFind StratSolve StratInv StratPos StratFound StratWalk StratWing StratMutant StratCall StratSpec StratHist StratStuck StratPush StratDeduce StratMain StratOnce StratUse StratWhy StratWhyLemmas.
Import ListNotations.
Ltac Zify.zify_post_hook ::= Z.to_euclidean_division_equations.

(** * Writing the entries into the grid *)

Lemma write_spec : forall l g, length g = 81 -> okst l -> (forall c d d', In (c, d) l -> In (c, d') l -> d = d') ->
  exists g', write_entries l g = Ok g' /\ length g' = 81 /\ forall c, c < 81 ->
    (forall d, In (c, d) l -> at_ g' c = d) /\ ((forall d, ~ In (c, d) l) -> at_ g' c = at_ g c).
Proof.
  induction l as [ | [k e] t IH]; intros g Lg Ok_ Fu; cbn [write_entries].
  - exists g. split; [reflexivity | ]. split; [exact Lg | ]. intros c Hc. split; [intros d [] | reflexivity].
  - destruct (Ok_ k e (or_introl eq_refl)) as [Hk He]. rewrite aset_ok by lia. cbn [bind].
    destruct (IH (lset g k e)) as [g' [E [Lg' Q]]]; [rewrite lset_length; exact Lg | intros c d Hi; apply Ok_; right; exact Hi | intros c d d' A B; apply (Fu c); right; assumption | ].
    exists g'. split; [exact E | ]. split; [exact Lg' | ]. intros c Hc. destruct (Q c Hc) as [Q1 Q2]. split.
    + intros d [X | Hi]; [ | apply Q1, Hi]. injection X as -> ->. destruct (existsb (fun x => fst x =? c) t) eqn:T.
      * apply existsb_exists in T. destruct T as [[k' d'] [Hi X]]. apply Nat.eqb_eq in X. cbn [fst] in X. subst k'. rewrite (Q1 d' Hi). apply (Fu c); [right; exact Hi | left; reflexivity].
      * rewrite Q2; [unfold at_; rewrite nth_lset by lia; rewrite Nat.eqb_refl; reflexivity | ]. intros d' Hi. assert (X : existsb (fun x => fst x =? c) t = true); [ | congruence].
        apply existsb_exists. exists (c, d'). split; [exact Hi | apply Nat.eqb_refl].
    + intros N. rewrite Q2 by (intros d Hi; apply (N d); right; exact Hi). unfold at_. rewrite nth_lset by lia. destruct (Nat.eqb_spec c k) as [-> | _]; [destruct (N e); left; reflexivity | reflexivity].
Qed.

(** The grid shows the entries. *)
Lemma final_grid st : W st -> core st -> exists g, update_grid st = Ok (set_grid st g) /\ length g = 81 /\
  (forall c d, c < 81 -> 1 <= d -> (at_ g c = d <-> In (c, d) (s_entries st))) /\ (forall c, c < 81 -> at_ g c <= 9).
Proof.
  intros w o. destruct (write_spec (s_entries st) (s_grid st) (w_lg _ w) (w_e _ w) (o_fun _ o)) as [g [E [Lg Q]]]. exists g. unfold update_grid. rewrite E. cbn [bind].
  split; [reflexivity | ]. split; [exact Lg | ].
  assert (R : forall c, c < 81 -> (exists d, In (c, d) (s_entries st)) \/ at_ g c = G st c /\ forall d, ~ In (c, d) (s_entries st)).
  { intros c Hc. destruct (existsb (fun x => fst x =? c) (s_entries st)) eqn:T.
    - left. apply existsb_exists in T. destruct T as [[k d] [Hi X]]. apply Nat.eqb_eq in X. cbn [fst] in X. subst k. exists d. exact Hi.
    - assert (N : forall d, ~ In (c, d) (s_entries st)); [ | right; split; [apply (Q c Hc), N | exact N]].
      intros d Hi. assert (X : existsb (fun x => fst x =? c) (s_entries st) = true); [ | congruence]. apply existsb_exists. exists (c, d). split; [exact Hi | apply Nat.eqb_refl]. }
  split.
  - intros c d Hc Hd'. split; [ | apply (Q c Hc)]. intros E'. destruct (R c Hc) as [[e Hi] | [E2 N]].
    + assert (X := proj1 (Q c Hc) e Hi). congruence.
    + exfalso. apply (N (G st c)). apply (o_grid _ o c Hc). lia.
  - intros c Hc. destruct (R c Hc) as [[e Hi] | [E2 _]]; [rewrite (proj1 (Q c Hc) e Hi); apply (w_e _ w c e Hi) | rewrite E2; apply (w_g _ w c Hc)].
Qed.

(** * The state created from a puzzle *)

Lemma entries_from_ok : forall g cell, Forall (fun d => d <= 9) g -> cell + length g <= 81 ->
  exists l, entries_from cell g = Ok l /\ length l <= length g /\ forall c d, In (c, d) l <-> cell <= c < cell + length g /\ d <> 0 /\ nth (c - cell) g 0 = d.
Proof.
  induction g as [ | a g IH]; intros cell F L; cbn [entries_from].
  - exists []. split; [reflexivity | ]. split; [cbn; lia | ]. intros c d. cbn [In length]. split; [intros [] | lia].
  - inversion F as [ | ? ? Ha F']. subst. cbn [length] in L. destruct (IH (S cell) F' ltac:(lia)) as [l [E [Ll Q]]]. rewrite E. cbn [bind length].
    assert (R : forall c d, In (c, d) l <-> S cell <= c < cell + S (length g) /\ d <> 0 /\ nth (c - cell) (a :: g) 0 = d).
    { intros c d. rewrite Q. replace (S cell + length g) with (cell + S (length g)) by lia. split; intros [A [B X]]; (split; [exact A | ]); (split; [exact B | ]).
      - replace (c - cell) with (S (c - S cell)) by lia. exact X.
      - replace (c - cell) with (S (c - S cell)) in X by lia. exact X. }
    destruct (Nat.eqb_spec a 0) as [-> | Nz].
    + exists l. split; [reflexivity | ]. split; [lia | ]. intros c d. rewrite R. split; intros [A [B X]]; (split; [ | auto]); [lia | ].
      destruct (Nat.eq_dec c cell) as [-> | ]; [rewrite Nat.sub_diag in X; cbn [nth] in X; congruence | lia].
    + exists ((cell, a) :: l). split.
      * rewrite (proj1 (candidate_new_exact cell a) ltac:(lia)). reflexivity.
      * cbn [length]. split; [lia | ]. intros c d. cbn [In]. rewrite R. split.
        -- intros [X | [A B]]; [injection X as <- <-; split; [lia | ]; split; [exact Nz | rewrite Nat.sub_diag; reflexivity] | split; [lia | exact B]].
        -- intros [A [B X]]. destruct (Nat.eq_dec c cell) as [-> | ]; [left; rewrite Nat.sub_diag in X; cbn [nth] in X; congruence | right; split; [lia | auto]].
Qed.


Lemma fresh_inv en el cl : okst en -> okst el -> (forall c d d', In (c, d) en -> In (c, d') en -> d = d') -> (forall c d d', In (c, d) en -> ~ In (c, d') el) ->
  length en <= 81 -> ready_for (set_clues (set_elims (set_entries strat_empty en) el) cl).
Proof.
  intros Oe Ol Fu Di Le. set (st := set_clues (set_elims (set_entries strat_empty en) el) cl).
  assert (Pc : forall c, c < 81 -> P st c = set_all EDigit) by (intros c Hc; unfold P; cbn [st s_cell set_clues set_elims set_entries strat_empty]; apply (repeat_spec 81), nth_In; rewrite repeat_length; exact Hc).
  assert (Hh : forall h, h < 27 -> Hd st h = set_none EDigit) by (intros h Hh; unfold Hd; cbn [st s_house set_clues set_elims set_entries strat_empty]; apply (repeat_spec 27), nth_In; rewrite repeat_length; exact Hh).
  assert (Gc : forall c, c < 81 -> G st c = 0) by (intros c Hc; unfold G, at_; cbn [st s_grid set_clues set_elims set_entries strat_empty]; apply (repeat_spec 81), nth_In; rewrite repeat_length; exact Hc).
  exists (fun _ => 0), []. constructor.
  - constructor; cbn [st s_grid s_cell s_house s_entries s_elims s_cnd s_hnd s_cle set_clues set_elims set_entries strat_empty]; try lia; try (apply repeat_length).
    + intros c Hc. change (G st c <= 9). rewrite Gc by exact Hc. lia.
    + intros c Hc. change (is_set EDigit (P st c)). rewrite Pc by exact Hc. apply is_set_all.
    + intros h Hh'. change (is_set EDigit (Hd st h)). rewrite Hh by exact Hh'. intros i Hi. destruct (mem_none _ _ Hi).
    + exact Oe.
    + exact Ol.
  - constructor; cbn [st s_entries s_elims s_cnd s_n set_clues set_elims set_entries strat_empty firstn].
    + intros c N. destruct N. reflexivity.
    + intros c d [].
    + intros c Hc. change (P st c = 0%N -> 0 <> 0). rewrite Pc by exact Hc. discriminate.
    + intros h x Hh'. change (mem (Hd st h) x <-> exists c, c < 81 /\ in_house h c /\ 0 = S x). rewrite Hh by exact Hh'. split; [intros Q0; destruct (mem_none _ _ Q0) | intros [c [_ [_ X]]]; discriminate].
    + intros c c' _ _ _ N. destruct N. reflexivity.
    + intros c x Hc _ Hx N. change (~ mem (P st c) x) in N. rewrite Pc in N by exact Hc. destruct N. apply mem_all. exact Hx.
    + vm_compute. reflexivity.
    + exact Fu.
    + intros c Hc. change (G st c <> 0 -> In (c, G st c) en). rewrite Gc by exact Hc. intros N. destruct N. reflexivity.
  - intros c x h Hc Hh' _ _ Q0. rewrite Hh in Q0 by exact Hh'. destruct (mem_none _ _ Q0).
  - intros c d Hi. right. exact Hi.
  - intros k Hk. destruct (existsb (fun x => fst x =? k) en) eqn:T.
    + apply existsb_exists in T. destruct T as [[k' d] [Hi X]]. apply Nat.eqb_eq in X. cbn [fst] in X. subst k'. right. split; [intros d'; exact (Di k d d' Hi) | ].
      destruct (Nat.leb_spec (length en) 4) as [Lf | Gt]; [right | left; cbn [st s_entries s_cnd set_clues set_elims set_entries strat_empty]; lia]. split; [reflexivity | ].
      apply In_nth_error in Hi. destruct Hi as [i Ei]. exists i, d.
      assert (i < length en) by (apply (proj1 (nth_error_Some en i)); intros X; assert (Y : Some (k, d) = None) by (rewrite <- Ei; exact X); discriminate). split; [lia | ]. split; [exact Ei | ]. rewrite Pc by exact Hk. change (set_len (set_all EDigit)) with 9. lia.
    + left. intros d Hi. exfalso. assert (X : existsb (fun x => fst x =? k) en = true); [ | rewrite X in T; discriminate]. apply existsb_exists. exists (k, d). split; [exact Hi | apply Nat.eqb_refl].
  - apply PI_new; reflexivity.
  - cbn [st s_entries s_grid set_clues set_elims set_entries strat_empty]. change (zeros (repeat 0 81)) with 81. lia.
  - cbn [st s_last set_clues set_elims set_entries strat_empty]. lia.
  - intros _ c d Hi. rewrite Pc; [discriminate | ]. apply (Ol c d Hi).
Qed.

(** * The state created from a grid with candidates *)

Lemma from_states_ok : forall g cell en el, Forall ok_state g ->
  exists en' el', from_states cell g en el = Ok (en ++ en', el ++ el') /\ length en' <= length g /\ length el' <= 9 * length g /\
    (forall c d, In (c, d) en' <-> cell <= c /\ nth_error g (c - cell) = Some (CDigit d)) /\
    (forall c d, In (c, d) el' <-> cell <= c /\ 1 <= d <= 9 /\ exists m, nth_error g (c - cell) = Some (CCands m) /\ ~ mem m (d - 1)).
Proof.
  induction g as [ | x g IH]; intros cell en el F; cbn [from_states].
  - exists [], []. rewrite !app_nil_r. split; [reflexivity | ]. split; [cbn; lia | ]. split; [cbn; lia | ]. split; intros c d; (split; [intros [] | ]).
    + intros [_ X]. destruct (c - cell); discriminate.
    + intros [_ [_ [m [X _]]]]. destruct (c - cell); discriminate.
  - inversion F as [ | ? ? Hx F']. subst. destruct x as [e | m]; cbn [ok_state] in Hx; [ | change (is_set EDigit m) in Hx].
    + destruct (IH (S cell) (en ++ [(cell, e)]) el F') as [en' [el' [E [L1 [L2 [Q1 Q2]]]]]]. exists ((cell, e) :: en'), el'. rewrite E, <- app_assoc. split; [reflexivity | ]. cbn [length].
      split; [lia | ]. split; [lia | ]. split; intros c d; cbn [In].
      * rewrite Q1. split.
        -- intros [X | [A B]]; [injection X as <- <-; split; [lia | rewrite Nat.sub_diag; reflexivity] | ]. split; [lia | ]. replace (c - cell) with (S (c - S cell)) by lia. exact B.
        -- intros [A B]. destruct (Nat.eq_dec c cell) as [-> | Nc]; [left; rewrite Nat.sub_diag in B; cbn [nth_error] in B; congruence | right]. split; [lia | ]. replace (c - cell) with (S (c - S cell)) in B by lia. exact B.
      * rewrite Q2. split; intros [A [R [m [B X]]]].
        -- split; [lia | ]. split; [exact R | ]. exists m. split; [ | exact X]. replace (c - cell) with (S (c - S cell)) by lia. exact B.
        -- destruct (Nat.eq_dec c cell) as [-> | Nc]; [rewrite Nat.sub_diag in B; discriminate | ]. split; [lia | ]. split; [exact R | ]. exists m. split; [ | exact X]. replace (c - cell) with (S (c - S cell)) in B by lia. exact B.
    + assert (Sn : is_set EDigit (set_not EDigit m)) by (intros i Hi; apply mem_not in Hi; [apply Hi | exact Hx]).
      destruct (digits_of_ok _ Sn) as [dl [Ed [Nd Q]]]. rewrite Ed. cbn [bind].
      destruct (IH (S cell) en (el ++ map (fun d => (cell, d)) dl) F') as [en' [el' [E [L1 [L2 [Q1 Q2]]]]]]. exists en', (map (fun d => (cell, d)) dl ++ el'). rewrite E, app_assoc. split; [reflexivity | ]. cbn [length].
      assert (Ld : length dl <= 9). { rewrite <- (seq_length 9 1). apply NoDup_incl_length; [exact Nd | ]. intros d Hd'. apply Q in Hd'. apply in_seq. lia. }
      split; [lia | ]. split; [rewrite app_length, map_length; apply (Nat.le_trans _ (9 + 9 * length g)); [apply Nat.add_le_mono; [exact Ld | exact L2] | lia] | ]. split; intros c d.
      * rewrite Q1. split; intros [A B].
        -- split; [lia | ]. replace (c - cell) with (S (c - S cell)) by lia. exact B.
        -- destruct (Nat.eq_dec c cell) as [-> | Nc]; [rewrite Nat.sub_diag in B; discriminate | ]. split; [lia | ]. replace (c - cell) with (S (c - S cell)) in B by lia. exact B.
      * rewrite in_app_iff, in_map_iff, Q2. split.
        -- intros [[d' [X Hd']] | [A [R [m' [B X]]]]].
           ++ injection X as <- ->. apply Q in Hd'. destruct Hd' as [R M]. apply mem_not in M; [ | exact Hx]. split; [lia | ]. split; [exact R | ]. exists m. rewrite Nat.sub_diag. split; [reflexivity | apply M].
           ++ split; [lia | ]. split; [exact R | ]. exists m'. split; [ | exact X]. replace (c - cell) with (S (c - S cell)) by lia. exact B.
        -- intros [A [R [m' [B X]]]]. destruct (Nat.eq_dec c cell) as [-> | Nc].
           ++ left. rewrite Nat.sub_diag in B. cbn [nth_error] in B. injection B as <-. exists d. split; [reflexivity | ]. apply Q. split; [exact R | ]. apply mem_not; [exact Hx | ]. split; [cbn; lia | exact X].
           ++ right. split; [lia | ]. split; [exact R | ]. exists m'. split; [ | exact X]. replace (c - cell) with (S (c - S cell)) in B by lia. exact B.
Qed.

(** * The operations between creation and solving *)

Lemma zeros_mono : forall g' g : grid, length g' = length g -> (forall c, c < length g -> at_ g' c = 0 -> at_ g c = 0) -> zeros g' <= zeros g.
Proof.
  unfold zeros. induction g' as [ | x g' IH]; intros [ | y g] L H; cbn [length] in L; try lia. cbn [filter].
  specialize (IH g ltac:(lia) (fun c Hc => H (S c) ltac:(cbn [length]; lia))). assert (X := H 0 ltac:(cbn [length]; lia)). unfold at_ in X. cbn [nth] in X.
  destruct (Nat.eqb_spec x 0) as [-> | ], (Nat.eqb_spec y 0) as [-> | Ny]; cbn [length]; try lia; destruct (Ny (X eq_refl)).
Qed.

Lemma zeros_same : forall g' g : grid, length g' = length g -> (forall c, c < length g -> at_ g c = 0 -> at_ g' c = 0) -> zeros g' = zeros g -> forall c, c < length g -> at_ g' c = 0 -> at_ g c = 0.
Proof.
  induction g' as [ | x g' IH]; intros [ | y g] L H Z; cbn [length] in L; try lia.
  assert (H' : forall c, c < length g -> at_ g c = 0 -> at_ g' c = 0) by (intros c Hc; apply (H (S c)); cbn [length]; lia).
  assert (M := zeros_mono g g' ltac:(lia) ltac:(intros c Hc; apply H'; lia)). assert (X := H 0 ltac:(cbn [length]; lia)). unfold at_ in X. cbn [nth] in X.
  assert (Zx : forall a (t : grid), zeros (a :: t) = (if a =? 0 then 1 else 0) + zeros t) by (intros a t; unfold zeros; cbn [filter]; destruct (a =? 0); reflexivity). rewrite !Zx in Z.
  intros [ | c] Hc; unfold at_; cbn [nth].
  - intros ->. destruct (Nat.eqb_spec y 0) as [-> | ]; [reflexivity | ]. cbn [Nat.eqb] in Z. lia.
  - apply (IH g ltac:(lia) H'); [ | cbn [length] in Hc; lia]. destruct (Nat.eqb_spec y 0) as [-> | ]; [rewrite (X eq_refl) in Z; cbn [Nat.eqb] in Z; lia | ]. destruct (x =? 0); lia.
Qed.

Lemma grid_inv st : ready_for st -> exists g, update_grid st = Ok (set_grid st g) /\ ready_for (set_grid st g) /\ length g = 81 /\
  (forall c d, c < 81 -> 1 <= d -> (at_ g c = d <-> In (c, d) (s_entries st))) /\ (forall c, c < 81 -> at_ g c <= 9).
Proof.
  intros [D [done I]]. assert (w := i_w _ _ _ I). assert (Ci := i_c _ _ _ I). destruct (final_grid st w (C_core _ _ Ci)) as [g [E [L [Q R]]]]. exists g. split; [exact E | ]. split; [ | split; [exact L | split; [exact Q | exact R]]].
  exists D, done. assert (w' : W (set_grid st g)) by (constructor; try apply w; [exact L | exact R]).
  assert (Gq : forall c, G (set_grid st g) c = at_ g c) by reflexivity. constructor.
  - exact w'.
  - destruct Ci. constructor; try assumption. intros c Hc. rewrite Gq. intros N. apply Q; [exact Hc | lia | reflexivity].
  - apply (i_disj _ _ _ I).
  - apply (i_upper _ _ _ I).
  - intros k Hk. left. intros d Hi. right. rewrite Gq. destruct (w_e _ w k d Hi). apply Q; [exact Hk | lia | exact Hi].
  - apply (PI_append done st _ (i_pi _ _ _ I)); try reflexivity; exists []; rewrite app_nil_r; reflexivity.
  - cbn [s_entries s_grid set_grid]. assert (zeros g <= zeros (s_grid st)); [ | pose proof (i_len _ _ _ I); lia]. apply zeros_mono; [rewrite L, (w_lg _ w); reflexivity | ].
    intros c Hc Z. rewrite (w_lg _ w) in Hc. destruct (Nat.eq_dec (at_ (s_grid st) c) 0) as [E0 | N]; [exact E0 | ]. assert (X := c_grid _ _ (i_c _ _ _ I) c Hc N). apply Q in X; [ | exact Hc | unfold G; lia]. unfold G in X. lia.
  - apply (i_last _ _ _ I).
  - apply (i_open _ _ _ I).
Qed.

Lemma removelast_snoc {A} (l : list A) x : removelast (l ++ [x]) = l.
Proof. rewrite removelast_app by discriminate. apply app_nil_r. Qed.

(** [insert_candidate] fails exactly if the cell holds another digit. *)
Lemma insert_ok st c d : ready_for st -> s_deds st = [] -> c < 81 -> 1 <= d <= 9 ->
  exists st' b, insert_candidate st (c, d) = Ok (st', b) /\ ready_for st' /\ s_deds st' = [] /\ s_elims st' = s_elims st /\
    (if b then (forall x, In x (s_entries st') <-> In x (s_entries st) \/ x = (c, d)) else s_entries st' = s_entries st) /\
    (b = false <-> exists e, In (c, e) (s_entries st) /\ e <> d).
Proof.
  intros I Nd Hc Hd'. destruct (grid_inv st I) as [g [E [I1 [L [Q R]]]]]. unfold insert_candidate. rewrite E. cbn [bind]. unfold push_new. cbn [fst snd]. set (st1 := set_grid st g) in *.
  change (s_grid st1) with g. rewrite (aget_ok g c 0) by lia. cbn [bind]. change (nth c g 0) with (at_ g c).
  assert (Fu : forall e, In (c, e) (s_entries st) -> at_ g c = e) by (intros e Hi; destruct I as [D [done I]]; destruct (w_e _ (i_w _ _ _ I) c e Hi); apply Q; [exact Hc | lia | exact Hi]).
  destruct (Nat.eqb_spec (at_ g c) d) as [Eq | Ne].
  - cbn [bindE bind fst snd]. eexists _, true. split; [reflexivity | ]. change (s_deds st1) with (s_deds st). rewrite Nd. cbn [removelast].
    split; [destruct I1 as [D [done I1]]; exists D, done; destruct I1 as [iw ic ij iu ir ip il ia io]; constructor; try assumption; [constructor; apply iw | constructor; apply ic | constructor; apply ip] | ].
    split; [reflexivity | ]. split; [reflexivity | ]. split; [ | split; [discriminate | intros [e [Hi N]]; rewrite (Fu e Hi) in Eq; contradiction]].
    intros x. cbn [s_entries set_deds]. split; [auto | intros [Hi | ->]; [exact Hi | apply Q; [exact Hc | lia | exact Eq]]].
  - destruct (Nat.eqb_spec (at_ g c) 0) as [Z | Nz].
    + rewrite aset_ok by lia. cbn [bind bindE fst snd]. set (st2 := set_deds _ (s_deds st1 ++ _)). eexists _, true. split; [reflexivity | ].
      assert (No : forall d', ~ In (c, d') (s_entries st1)). { intros d' Hi. assert (X := Fu d' Hi). destruct I as [D [done I]]. destruct (w_e _ (i_w _ _ _ I) c d' Hi). lia. }
      assert (Ed : removelast (s_deds st2) = []) by (unfold st2; cbn [s_deds set_deds]; rewrite removelast_snoc; exact Nd). rewrite Ed.
      split; [ | split; [reflexivity | split; [reflexivity | split; [ | split; [discriminate | intros [e [Hi _]]; destruct (No e Hi)]]]]].
      * destruct I1 as [D [done I1]]. exists D, done. destruct I1 as [iw ic ij iu ir ip il ia io].
        assert (w2 := W_push st1 c d [] iw Hc Hd'). assert (c2 := C_push D st1 c d [] ic iw Hc No). set (st3 := set_deds st2 []).
        change (W st3) in w2. change (C D st3) in c2. assert (Ge : forall k, G st3 k = if k =? c then d else G st1 k) by (intros k; apply (G_lset st1 c d k iw Hc)).
        constructor; try assumption.
        -- intros k Hk. left. intros e Hi. change (s_entries st3) with (s_entries st1 ++ [(c, d)]) in Hi. rewrite Ge. apply in_app_iff in Hi. destruct Hi as [Hi | [X | []]].
           ++ destruct (Nat.eqb_spec k c) as [-> | _]; [destruct (No e Hi) | right]. change (at_ g k = e). destruct (w_e _ iw k e Hi). apply Q; [exact Hk | lia | exact Hi].
           ++ injection X as <- <-. rewrite Nat.eqb_refl. right. reflexivity.
        -- apply (PI_append done st1 _ ip); try reflexivity; [exists [(c, d)]; reflexivity | exists []; rewrite app_nil_r; reflexivity].
        -- change (s_entries st3) with (s_entries st1 ++ [(c, d)]). change (s_grid st3) with (lset (s_grid st1) c d). rewrite app_length. cbn [length].
           assert (X := zeros_lset (s_grid st1) c d ltac:(rewrite (w_lg _ iw); exact Hc) Z ltac:(lia)). lia.
      * intros x. cbn [s_entries set_deds st2 set_entries]. change (s_entries st1) with (s_entries st). rewrite in_app_iff. cbn [In]. split; [intros [A | [B | []]]; auto | intros [A | B]; auto].
    + cbn [bindE bind fst snd]. exists st1, false. split; [reflexivity | ]. split; [exact I1 | ]. split; [exact Nd | ]. split; [reflexivity | ]. split; [reflexivity | ]. split; [intros _ | reflexivity].
      exists (at_ g c). split; [apply Q; [exact Hc | lia | reflexivity] | exact Ne].
Qed.

(** Ignoring errors makes no difference if there are none. *)
Lemma apply_early naked : forall l st st', apply_elims naked true l st = Ok (st', true) -> apply_elims naked false l st = Ok (st', true).
Proof.
  unfold apply_elims. induction l as [ | c l IH]; intros st st'; cbn [for_ok]; [auto | ].
  destruct (digit_set (snd c)) as [im | | | ]; cbn [bind bindE]; try discriminate.
  destruct (remove_imp st (fst c) im naked) as [[st1 [ | ]] | | | ]; cbn [bind bindE fst snd]; try discriminate. apply IH.
Qed.
Lemma update_early naked st st' : update_cell_house naked true st = Ok (st', true) -> update_cell_house naked false st = Ok (st', true).
Proof.
  unfold update_cell_house. destruct (slice_from (s_elims st) (s_cle st)) as [l | | | ]; cbn [bind]; try discriminate.
  destruct (apply_elims naked true l st) as [[st1 [ | ]] | | | ] eqn:E; cbn [bindE bind fst snd]; try discriminate. rewrite (apply_early _ _ _ _ E). cbn [bindE bind fst snd]. auto.
Qed.

Lemma query_ok st : ready_for st -> small st -> (exists Ev s, fit Ev false s /\ SndE Ev s st) ->
  exists st', query st = Ok st' /\ ready_for st' /\ s_deds st' = s_deds st /\ s_elims st' = s_elims st /\ s_entries st' = s_entries st /\
    (forall c d, c < 81 -> 1 <= d -> (at_ (s_grid st') c = d <-> In (c, d) (s_entries st))) /\ exists D, UP D st'.
Proof.
  intros I Sm [Ev [s [So Ss]]]. destruct (grid_inv st I) as [g [E [I1 [L [Q R]]]]]. unfold query. rewrite E. cbn [bind]. destruct I1 as [D [done I1]].
  assert (X := update_inv false NakedSingles D done _ I1 (fun _ => eq_refl)).
  assert (Y := updateE Ev false D _ (i_w _ _ _ I1) (i_c _ _ _ I1) (i_disj _ _ _ I1) (i_upper _ _ _ I1) ltac:(pose proof (i_len _ _ _ I1); unfold bd; lia) ltac:(discriminate)).
  destruct (update_cell_house false true (set_grid st g)) as [[st' [ | ]] | | | ] eqn:Eu; cbn [hp] in X, Y; try contradiction.
  - clear Y. rewrite (update_early _ _ _ Eu). cbn [bind fst]. exists st'. split; [reflexivity | ]. destruct X as [_ [Gr [D' V]]]. destruct (grow_false _ _ Gr) as [E1 [E2 _]].
    split; [exists D', done; apply UI_inv; exact V | ]. split; [exact E2 | ]. split; [apply (g_elims _ _ _ Gr) | ]. split; [exact E1 | ]. split; [ | exists D'; apply (v_up _ _ _ V)].
    assert (w' := g_w _ _ _ Gr). assert (o' := g_core _ _ _ Gr). assert (Zq := proj2 (proj2 (grow_false _ _ Gr))). cbn [s_grid set_grid] in Zq. change (s_entries st' = s_entries st) in E1.
    assert (Sub : forall c, c < 81 -> at_ (s_grid st') c <> 0 -> at_ g c = at_ (s_grid st') c).
    { intros c Hc N. assert (Hi := o_grid _ o' c Hc N). rewrite E1 in Hi. apply Q; [exact Hc | unfold G; lia | exact Hi]. }
    assert (Eq : forall c, c < 81 -> at_ (s_grid st') c = at_ g c).
    { intros c Hc. destruct (Nat.eq_dec (at_ (s_grid st') c) 0) as [Z | N]; [ | symmetry; apply Sub; assumption]. rewrite Z. symmetry.
      apply (zeros_same (s_grid st') g); [rewrite L, (w_lg _ w'); reflexivity | | exact Zq | rewrite L; exact Hc | exact Z].
      intros k Hk Zk. rewrite L in Hk. destruct (Nat.eq_dec (at_ (s_grid st') k) 0) as [E0 | N]; [exact E0 | rewrite (Sub k Hk N) in Zk; contradiction]. }
    intros c d Hc Hd'. rewrite (Eq c Hc). apply (Q c d Hc Hd').
  - destruct Y as [_ [_ Y]]. destruct (Y (i_open _ _ _ I1 Sm) s So Ss).
Qed.

(** * The solvers before solving *)

Record started (st : strat) (pl el : facts) : Prop := {
  a_ready : ready_for st;
  a_small : length (s_elims st) <= 729;
  a_deds : s_deds st = [];
  a_pl : forall c d, In (c, d) (s_entries st) <-> pl c d;
  a_el : forall c d, In (c, d) (s_elims st) <-> el c d
}.

Lemma started_small st pl el : started st pl el -> small st.
Proof. intros A. pose proof (a_small _ _ _ A). unfold small, U16_MAX. lia. Qed.
Lemma started_snd st pl el s : started st pl el -> solved s -> (Snd s st <-> completion pl el s).
Proof.
  intros A So. split.
  - intros [S1 S2]. split; [exact So | ]. split; intros c d Hi; [apply S1, (a_pl _ _ _ A), Hi | apply S2, (a_el _ _ _ A), Hi].
  - intros [_ [S1 S2]]. split; intros c d Hi; [apply S1, (a_pl _ _ _ A), Hi | apply S2, (a_el _ _ _ A), Hi].
Qed.

Lemma sudoku_started p cl : wf_grid p -> exists st, strat_from_sudoku p = Ok st /\ started (set_clues st cl) (given p) nothing.
Proof.
  intros [L F]. destruct (entries_from_ok p 0 F ltac:(lia)) as [l [E [Ll Q]]]. unfold strat_from_sudoku. rewrite E. cbn [bind]. eexists. split; [reflexivity | ].
  assert (Q' : forall c d, In (c, d) l <-> given p c d).
  { intros c d. rewrite Q, Nat.sub_0_r. unfold given, at_. cbn [Nat.add]. rewrite L. split; intros [A B]; (split; [lia | exact B]). }
  constructor; [ | cbn; lia | reflexivity | exact Q' | intros c d; split; intros []].
  apply (fresh_inv l [] cl).
  - intros c d Hi. apply Q' in Hi. destruct Hi as [Hc [Nz X]]. split; [exact Hc | ]. rewrite Forall_forall in F. assert (Y : In (at_ p c) p) by (apply nth_In; lia). specialize (F _ Y). lia.
  - intros c d [].
  - intros c d d' A B. apply Q' in A, B. destruct A as [_ [_ A]], B as [_ [_ B]]. congruence.
  - intros c d d' _ [].
  - lia.
Qed.

Lemma states_started g : ok_states g -> exists st, strat_from_grid_state g = Ok st /\ started st (shown g) (struck g).
Proof.
  intros [L F]. destruct (from_states_ok g 0 [] [] F) as [en [el [E [L1 [L2 [Q1 Q2]]]]]]. unfold strat_from_grid_state. rewrite E. cbn [bind fst snd app]. eexists. split; [reflexivity | ].
  assert (Lt : forall c x, nth_error g c = Some x -> c < 81) by (intros c x X; rewrite <- L; apply nth_error_Some; congruence).
  assert (Qe : forall c d, In (c, d) en <-> shown g c d).
  { intros c d. rewrite Q1, Nat.sub_0_r. unfold shown. split; intros [A B]; (split; [ | exact B]); [apply (Lt _ _ B) | lia]. }
  assert (Ql : forall c d, In (c, d) el <-> struck g c d).
  { intros c d. rewrite Q2, Nat.sub_0_r. unfold struck. split; intros [A [R [m [B X]]]].
    - split; [apply (Lt _ _ B) | ]. split; [exact R | ]. exists m. split; [exact B | ]. unfold mem in X. destruct (N.testbit m (N.of_nat (d - 1))); [destruct X; reflexivity | reflexivity].
    - split; [lia | ]. split; [exact R | ]. exists m. split; [exact B | ]. unfold mem. rewrite X. discriminate. }
  constructor; [ | cbn [s_elims set_elims set_entries]; change (@length cand el <= 729); change (@length cand el <= 9 * length g) in L2; lia | reflexivity | exact Qe | exact Ql].
  apply (fresh_inv en el None).
  - intros c d Hi. apply Qe in Hi. destruct Hi as [Hc X]. split; [exact Hc | ]. apply nth_error_In in X. rewrite Forall_forall in F. apply (F _ X).
  - intros c d Hi. apply Ql in Hi. destruct Hi as [Hc [R _]]. auto.
  - intros c d d' A B. apply Qe in A, B. destruct A as [_ A], B as [_ B]. congruence.
  - intros c d d' A B. apply Qe in A. apply Ql in B. destruct A as [_ A], B as [_ [_ [m [B _]]]]. congruence.
  - change (@length cand en <= 81). change (@length cand en <= length g) in L1. lia.
Qed.

Lemma to_sudoku_ok st pl el : started st pl el -> exists st' g, to_sudoku st = Ok (st', g) /\ started st' pl el /\ length g = 81 /\
  (forall c d, c < 81 -> 1 <= d -> (at_ g c = d <-> pl c d)) /\ (forall c, c < 81 -> at_ g c <= 9).
Proof.
  intros A. destruct (grid_inv st (a_ready _ _ _ A)) as [g [E [I [L [Q R]]]]]. unfold to_sudoku. rewrite E. cbn [bind]. eexists _, _. split; [reflexivity | ].
  split; [constructor; [exact I | apply A | apply A | apply A | apply A] | ]. split; [exact L | ]. split; [ | exact R]. intros c d Hc Hd'. change (at_ g c = d <-> pl c d). rewrite (Q c d Hc Hd'). apply (a_pl _ _ _ A).
Qed.

Lemma insert_started st pl el c d : started st pl el -> c < 81 -> 1 <= d <= 9 -> exists st' b, insert_candidate st (c, d) = Ok (st', b) /\
  (b = false <-> exists e, pl c e /\ e <> d) /\ (if b then started st' (fun c' d' => pl c' d' \/ (c' = c /\ d' = d)) el else started st' pl el).
Proof.
  intros A Hc Hd'. destruct (insert_ok st c d (a_ready _ _ _ A) (a_deds _ _ _ A) Hc Hd') as [st' [b [E [I [Ed [El [Q B]]]]]]]. exists st', b. split; [exact E | ]. split.
  - rewrite B. split; intros [e [X N]]; exists e; (split; [apply (a_pl _ _ _ A), X | exact N]).
  - destruct b; (constructor; [exact I | rewrite El; apply A | exact Ed | | intros; rewrite El; apply A]); [ | intros; rewrite Q; apply A].
    intros k e. rewrite Q, (a_pl _ _ _ A). split; (intros [X | X]; [left; exact X | right]); [injection X as -> ->; auto | destruct X as [-> ->]; reflexivity].
Qed.

Lemma choose_list (R : nat -> nat -> Prop) : forall n, (forall c, c < n -> exists d, R c d) -> exists l, length l = n /\ forall c, c < n -> R c (nth c l 0).
Proof.
  induction n as [ | n IH]; intros H; [exists []; split; [reflexivity | lia] | ]. destruct IH as [l [L Q]]; [intros c Hc; apply H; lia | ]. destruct (H n ltac:(lia)) as [d Hd'].
  exists (l ++ [d]). split; [rewrite app_length; cbn; lia | ]. intros c Hc. destruct (Nat.eq_dec c n) as [-> | Nc].
  - rewrite app_nth2, L, Nat.sub_diag by lia. exact Hd'.
  - rewrite app_nth1 by lia. apply Q. lia.
Qed.

Lemma unblocked_fit st pl el : started st pl el -> unblocked pl el -> exists Ev s, fit Ev false s /\ SndE Ev s st.
Proof.
  intros A Ub. destruct (choose_list _ 81 Ub) as [s [L Q]]. change (forall c, c < 81 -> allowed pl el c (at_ s c) /\ forall d', pl c d' -> d' = at_ s c) in Q.
  assert (w : W st) by (apply inv_core, (a_ready _ _ _ A)).
  exists (fun c => exists d, pl c d), s. split; [split; [ | split; [ | discriminate]] | split; [split | ]].
  - intros c Hc. apply (Q c Hc).
  - intros c c' Hc Hc' Pe [d Hp] E. assert (X := proj2 (Q c' Hc') d Hp). destruct (proj1 (Q c Hc)) as [_ [_ No]]. apply (No c' Hc' Pe). rewrite E, <- X. exact Hp.
  - intros c d Hi. destruct (w_e _ w c d Hi) as [Hc _]. symmetry. apply (Q c Hc), (a_pl _ _ _ A), Hi.
  - intros c d Hi E. destruct (w_el _ w c d Hi) as [Hc _]. destruct (proj1 (Q c Hc)) as [_ [No _]]. apply No. rewrite E. apply (a_el _ _ _ A), Hi.
  - intros c d Hi. exists d. apply (a_pl _ _ _ A), Hi.
Qed.

Lemma api_started st pl el : api st pl el -> started st pl el.
Proof.
  induction 1 as [p st Wf E | p k st Wf E | g st Og E | st pl el c d st' _ IH Hc Hd' E | st pl el c d st' _ IH Hc Hd' E | st pl el st' g _ IH E | st pl el cell st' x _ IH Hc Ub E].
  - destruct (sudoku_started p None Wf) as [st0 [E0 A]]. rewrite E in E0. injection E0 as <-. unfold strat_from_sudoku in E. destruct (entries_from 0 p) as [l | | | ]; cbn [bind] in E; try discriminate. injection E as <-. exact A.
  - destruct (sudoku_started p (Some k) Wf) as [st0 [E0 A]]. unfold strat_from_clues in E. rewrite E0 in E. cbn [bind] in E. injection E as <-. exact A.
  - destruct (states_started g Og) as [st0 [E0 A]]. rewrite E in E0. injection E0 as <-. exact A.
  - destruct (insert_started st pl el c d IH Hc Hd') as [st1 [b [E1 [_ Q]]]]. rewrite E in E1. injection E1 as <- <-. exact Q.
  - destruct (insert_started st pl el c d IH Hc Hd') as [st1 [b [E1 [_ Q]]]]. rewrite E in E1. injection E1 as <- <-. exact Q.
  - destruct (to_sudoku_ok st pl el IH) as [st1 [g1 [E1 [A _]]]]. rewrite E in E1. injection E1 as <- _. exact A.
  - destruct (query_ok st (a_ready _ _ _ IH) (started_small _ _ _ IH) (unblocked_fit st pl el IH Ub)) as [st1 [E1 [I [Ed [El [Ee _]]]]]].
    assert (X : st' = st1).
    { unfold strat_cell_state in E. rewrite E1 in E. cbn [bind] in E. destruct (aget (s_grid st1) cell) as [d | | | ]; cbn [bind] in E; try discriminate. destruct (negb (d =? 0)).
      - destruct (digit_new d) as [d' | | | ]; cbn [bind] in E; try discriminate. congruence.
      - destruct (aget (s_cell st1) cell) as [m | | | ]; cbn [bind] in E; try discriminate. congruence. }
    subst st1. constructor; [exact I | rewrite El; apply IH | rewrite Ed; apply IH | intros; rewrite Ee; apply IH | intros; rewrite El; apply IH].
Qed.

(** * Solving *)

(** What a run of [solve] ends with *)
Record finished (l : list strategy) (st st' : strat) (ok : bool) (g : grid) (ds : deductions) : Prop := {
  f_trace : trace l st st';
  f_ok : ok = (s_n st' =? 81);
  f_ds : ds = mkDeds (s_deds st') (s_entries st') (s_elims st');
  f_len : length g = 81;
  f_grid : forall c d, c < 81 -> 1 <= d -> (at_ g c = d <-> In (c, d) (s_entries st'));
  f_range : forall c, c < 81 -> at_ g c <= 9;
  f_exit : s_n st' = 81 \/ no_solution st st' \/ match l with [] => st' = st | first :: rest => complete first rest st' end
}.

Lemma solve_run l st pl el : implemented l -> started st pl el -> exists ok g ds st', strat_solve l st = Ok (ok, g, ds) /\ finished l st st' ok g ds.
Proof.
  intros Im A. destruct (try_solve_spec l st Im (a_ready _ _ _ A)) as [st' [E [T Q]]].
  destruct (final_grid st' (t_w _ _ _ T) (t_core _ _ _ T)) as [g [Eg [Lg [Fg Rg]]]]. unfold strat_solve. rewrite E. cbn [bind]. rewrite Eg. cbn [bind].
  eexists _, _, _, st'. split; [reflexivity | ]. constructor; try reflexivity; assumption.
Qed.

Lemma solve_finished l st pl el ok g ds : implemented l -> started st pl el -> strat_solve l st = Ok (ok, g, ds) -> exists st', finished l st st' ok g ds.
Proof. intros Im A E. destruct (solve_run l st pl el Im A) as [ok' [g' [ds' [st' [E' F]]]]]. rewrite E in E'. injection E' as <- <- <-. exists st'. exact F. Qed.

Lemma solve_total l st pl el : implemented l -> api st pl el -> exists ok g ds, strat_solve l st = Ok (ok, g, ds).
Proof. intros Im A. destruct (solve_run l st pl el Im (api_started _ _ _ A)) as [ok [g [ds [st' [E _]]]]]. exists ok, g, ds. exact E. Qed.

(** * Soundness *)

Lemma solve_sound l st pl el ok g ds s : implemented l -> api st pl el -> strat_solve l st = Ok (ok, g, ds) -> completion pl el s ->
  (forall c d, In (c, d) (d_entries ds) -> at_ s c = d) /\ (forall c d, In (c, d) (d_elims ds) -> at_ s c <> d).
Proof.
  intros Im A E So. apply api_started in A. destruct (solve_finished _ _ _ _ _ _ _ Im A E) as [st' F]. assert (Ss := proj2 (started_snd st pl el s A (proj1 So)) So).
  rewrite (f_ds _ _ _ _ _ _ F). apply (t_snd _ _ _ (f_trace _ _ _ _ _ _ F) s (proj1 So) Ss).
Qed.

Lemma solve_grid l st pl el ok g ds : implemented l -> api st pl el -> strat_solve l st = Ok (ok, g, ds) ->
  wf_grid g /\ (forall c d, pl c d -> at_ g c = d) /\ (forall c, c < 81 -> at_ g c <> 0 -> forall s, completion pl el s -> at_ s c = at_ g c) /\
  (forall c d, c < 81 /\ 1 <= d /\ at_ g c = d <-> In (c, d) (d_entries ds)).
Proof.
  intros Im A' E. assert (A := api_started _ _ _ A'). destruct (solve_finished _ _ _ _ _ _ _ Im A E) as [st' F]. assert (T := f_trace _ _ _ _ _ _ F). assert (Fg := f_grid _ _ _ _ _ _ F). assert (Eds := f_ds _ _ _ _ _ _ F).
  split; [ | split; [ | split]].
  - split; [apply (f_len _ _ _ _ _ _ F) | ]. rewrite Forall_forall. intros d Hi. apply (In_nth _ _ 0) in Hi. destruct Hi as [c [Hc <-]]. apply (f_range _ _ _ _ _ _ F). rewrite (f_len _ _ _ _ _ _ F) in Hc. exact Hc.
  - intros c d Hp. apply (a_pl _ _ _ A) in Hp. assert (Hi : In (c, d) (s_entries st')) by (destruct (t_new _ _ _ T) as [en [el' [dd [-> _]]]]; apply in_app_iff; auto). destruct (w_e _ (t_w _ _ _ T) c d Hi). apply Fg; [assumption | lia | exact Hi].
  - intros c Hc N s So. apply (proj1 (solve_sound l st pl el ok g ds s Im A' E So)). rewrite Eds. cbn [d_entries]. apply Fg; [exact Hc | lia | reflexivity].
  - intros c d. rewrite Eds. cbn [d_entries]. split; [intros [X [B Y]]; apply Fg; assumption | ]. intros Hi. destruct (w_e _ (t_w _ _ _ T) c d Hi) as [X B]. split; [exact X | ]. split; [lia | apply Fg; [exact X | lia | exact Hi]].
Qed.

Lemma filter_all {A} (f : A -> bool) l : length (filter f l) = length l -> forall x, In x l -> f x = true.
Proof.
  induction l as [ | y l IH]; cbn [filter]; intros L x; [intros [] | ]. destruct (f y) eqn:E.
  - cbn [length] in L. intros [<- | Hi]; [exact E | apply IH; [lia | exact Hi]].
  - assert (X : length (filter f l) <= length l) by (clear; induction l as [ | z l IH]; cbn [filter]; [lia | ]; destruct (f z); cbn [length]; lia). cbn [length] in L. lia.
Qed.

Lemma solve_ok l st pl el g ds : implemented l -> api st pl el -> strat_solve l st = Ok (true, g, ds) ->
  solved g /\ (forall c d, pl c d -> at_ g c = d) /\ forall s, completion pl el s -> s = g.
Proof.
  intros Im A E. destruct (solve_finished _ _ _ _ _ _ _ Im (api_started _ _ _ A) E) as [st' F]. destruct (solve_grid _ _ _ _ _ _ _ Im A E) as [Wg [Ex [Ag _]]].
  assert (T := f_trace _ _ _ _ _ _ F). assert (N81 : s_n st' = 81) by (apply Nat.eqb_eq; symmetry; apply (f_ok _ _ _ _ _ _ F)).
  destruct (o_n _ (t_core _ _ _ T)) as [D [D1 [D2 D3]]]. rewrite N81 in D3.
  assert (Al : forall c, c < 81 -> D c <> 0).
  { intros c Hc. assert (X := filter_all (fun c => negb (D c =? 0)) (seq 0 81)). rewrite seq_length in X. specialize (X (eq_sym D3) c ltac:(apply in_seq; lia)). apply negb_true_iff, Nat.eqb_neq in X. exact X. }
  assert (Gd : forall c, c < 81 -> at_ g c = D c).
  { intros c Hc. assert (Hi := D1 c (Al c Hc)). destruct (w_e _ (t_w _ _ _ T) _ _ Hi) as [_ R]. apply (f_grid _ _ _ _ _ _ F); [exact Hc | lia | exact Hi]. }
  assert (Sg : solved g).
  { split; [apply Wg | ]. split.
    - intros c Hc. rewrite (Gd c Hc). apply (w_e _ (t_w _ _ _ T) c (D c) (D1 c (Al c Hc))).
    - intros c c' Hc Hc' Pe. rewrite (Gd c Hc), (Gd c' Hc'). apply (D2 c c' Hc Hc' Pe (Al c Hc)). }
  split; [exact Sg | ]. split; [exact Ex | ]. intros s So. apply grid_ext; [apply So | apply Wg | ]. intros c Hc. apply (Ag c Hc); [rewrite (Gd c Hc); apply (Al c Hc) | exact So].
Qed.

(** * The deductions *)

Lemma plain_strategy el x y S0 : with_slices el x = Ok y -> plain x -> ded_strategy y = Ok S0 ->
  S0 <> MutantSwordfish /\ S0 <> MutantJellyfish /\ (S0 = NakedSingles \/ S0 = HiddenSingles -> range_of x = None).
Proof.
  intros E Pl R. destruct x as [c | c h | d m p r | h p d r | d ln p r | d bs cv r | h hd p r | ln r]; cbn [with_slices] in E; try (destruct Pl; fail);
    [injection E as <-; injection R as <-; repeat split; discriminate | injection E as <-; injection R as <-; repeat split; discriminate | .. ];
    (destruct (slice el r) as [cs | | | ]; cbn [bind] in E; try discriminate); injection E as <-; cbn [ded_strategy] in R.
  - injection R as <-. repeat split; try discriminate. intros [X | X]; discriminate.
  - destruct (aget cs 0) as [c | | | ]; cbn [bind] in R; try discriminate. destruct (house_categorize h) as [t | | | ]; cbn [bind] in R; try discriminate.
    destruct (as_set EPosHouse _) as [x | | | ]; cbn [bind] in R; try discriminate. destruct (set_overlaps EPosHouse x p), (set_len p) as [ | [ | [ | [ | [ | ?]]]]]; try discriminate;
      injection R as <-; repeat split; try discriminate; intros [X | X]; discriminate.
  - destruct (set_len p) as [ | [ | [ | [ | [ | ?]]]]]; try discriminate; injection R as <-; repeat split; try discriminate; intros [X | X]; discriminate.
  - destruct (set_len hd) as [ | [ | [ | [ | ?]]]]; try discriminate; injection R as <-; repeat split; try discriminate; intros [X | X]; discriminate.
Qed.

Lemma reads_all l el ds : (forall y, In y ds -> exists S, In S l /\ reads S el y) ->
  exists r, rmap (with_slices el) ds = Ok r /\ length r = length ds /\ forall y, In y r -> exists S, In S l /\ ded_strategy y = Ok S /\ S <> MutantSwordfish /\ S <> MutantJellyfish.
Proof.
  intros H. destruct (rmap_spec (with_slices el) (fun x y => with_slices el x = Ok y /\ exists S, In S l /\ ded_strategy y = Ok S /\ S <> MutantSwordfish /\ S <> MutantJellyfish) ds) as [r [E F]].
  - intros x Hx. destruct (H x Hx) as [S [Hs [y [E [R Pl]]]]]. destruct (plain_strategy el x y S E Pl R) as [P1 [P2 _]]. exists y. split; [exact E | ]. split; [exact E | ]. exists S. auto.
  - exists r. split; [exact E | ]. split; [clear E H; induction F; cbn [length]; congruence | ]. intros y Hy. destruct (Forall2_in_r _ _ _ F y Hy) as [x [_ [_ Q]]]. exact Q.
Qed.

Lemma rmap_nth_err {A B} (f : A -> res B) : forall l r, rmap f l = Ok r -> forall i, match nth_error l i with None => nth_error r i = None | Some x => exists y, f x = Ok y /\ nth_error r i = Some y end.
Proof.
  induction l as [ | x l IH]; intros r; cbn [rmap].
  - intros [= <-] i. destruct i; reflexivity.
  - destruct (f x) as [y | | | ] eqn:E; cbn [bind]; try discriminate. destruct (rmap f l) as [t | | | ] eqn:E'; cbn [bind]; try discriminate. intros [= <-] i.
    destruct i as [ | i]; cbn [nth_error]; [exists y; auto | apply (IH t eq_refl)].
Qed.

Lemma solve_deds l st pl el ok g ds : implemented l -> api st pl el -> strat_solve l st = Ok (ok, g, ds) ->
  exists r, deds_iter ds = Ok r /\ (forall i, deds_get ds i = Ok (nth_error r i)) /\ deds_len ds = length r /\
    (forall y, In y r -> exists S, In S l /\ ded_strategy y = Ok S /\ S <> MutantSwordfish /\ S <> MutantJellyfish) /\
    (exists n, tiles n (d_deds ds) (length (d_elims ds)) /\ forall c d, In (c, d) (firstn n (d_elims ds)) <-> el c d) /\
    (forall c d, In (c, d) (d_entries ds) <-> pl c d \/ exists y, In y (d_deds ds) /\ single_of y (c, d)).
Proof.
  intros Im A' E. assert (A := api_started _ _ _ A'). destruct (solve_finished _ _ _ _ _ _ _ Im A E) as [st' F]. assert (T := f_trace _ _ _ _ _ _ F). rewrite (f_ds _ _ _ _ _ _ F). cbn [d_deds d_entries d_elims].
  destruct (t_new _ _ _ T) as [en [el' [dd [E1 [E2 [E3 [Ti [Re [_ [Si _]]]]]]]]]]. rewrite (a_deds _ _ _ A) in E3. cbn [app] in E3.
  destruct (reads_all l (s_elims st') dd Re) as [r [Er [Lr Rr]]]. exists r. unfold deds_iter, deds_get, deds_len. cbn [d_deds d_entries d_elims]. rewrite E3. split; [exact Er | ]. split; [ | split; [symmetry; exact Lr | split; [exact Rr | split]]].
  - intros i. assert (X := rmap_nth_err _ _ _ Er i). destruct (nth_error dd i) as [x | ]; [destruct X as [y [Ey ->]]; rewrite Ey; reflexivity | rewrite X; reflexivity].
  - exists (length (s_elims st)). split; [exact Ti | ]. intros c d. rewrite E2, firstn_app, firstn_all, Nat.sub_diag. cbn [firstn]. rewrite app_nil_r. apply (a_el _ _ _ A).
  - intros c d. rewrite E1, in_app_iff, (a_pl _ _ _ A), Si. reflexivity.
Qed.

(** Every deduction follows from what was known before it. *)
Lemma solve_explained l st pl el ok g ds : implemented l -> api st pl el -> strat_solve l st = Ok (ok, g, ds) ->
  exists r, deds_iter ds = Ok r /\ explained l pl el r /\
    (forall c d, In (c, d) (d_entries ds) <-> all_places pl r c d) /\ (forall c d, In (c, d) (d_elims ds) <-> all_removes el r c d).
Proof.
  intros Im A' E. assert (A := api_started _ _ _ A'). destruct (solve_finished _ _ _ _ _ _ _ Im A E) as [st' F]. assert (T := f_trace _ _ _ _ _ _ F). rewrite (f_ds _ _ _ _ _ _ F). cbn [d_deds d_entries d_elims].
  destruct (t_new _ _ _ T) as [en [el' [dd [E1 [E2 [E3 [Ti [Re [_ [_ Wy]]]]]]]]]]. rewrite (a_deds _ _ _ A) in E3. cbn [app] in E3.
  destruct Wy as [zs [Fz [X [Q1 Q2]]]]. exists zs. unfold deds_iter. cbn [d_deds d_elims]. rewrite E3.
  assert (S1 : same (listed (s_entries st)) pl) by (intros c d; apply (a_pl _ _ _ A)). assert (S2 : same (listed (s_elims st)) el) by (intros c d; apply (a_el _ _ _ A)).
  split; [clear -Fz; induction Fz as [ | y z ds zs Q F IH]; cbn [rmap]; [reflexivity | rewrite Q; cbn [bind]; rewrite IH; reflexivity] | ].
  split; [apply (explained_mono l zs _ _ _ _ S1 (same_below _ _ S2) X) | ]. split.
  - intros c d. rewrite <- (all_places_same _ _ zs S1 c d). apply (Q1 c d).
  - intros c d. rewrite <- (all_removes_same _ _ zs S2 c d). apply (Q2 c d).
Qed.

Lemma tiles_fun : forall ds a b c, tiles a ds b -> tiles a ds c -> b = c.
Proof. induction ds as [ | y ds IH]; intros a b c; cbn [tiles]; [congruence | ]. destruct (range_of y) as [r | ]; [ | apply IH]. intros [_ [_ Q]] [_ [_ Q']]. apply (IH _ _ _ Q Q'). Qed.

(** Singles eliminate nothing. *)
Lemma solve_singles l st pl el ok g ds : (forall S, In S l -> S = NakedSingles \/ S = HiddenSingles) -> api st pl el -> strat_solve l st = Ok (ok, g, ds) ->
  length (d_elims ds) <= 729 /\ forall c d, In (c, d) (d_elims ds) <-> el c d.
Proof.
  intros Hl A' E. assert (Im : implemented l) by (intros S Hs ->; destruct (Hl _ Hs); discriminate).
  assert (A := api_started _ _ _ A'). destruct (solve_finished _ _ _ _ _ _ _ Im A E) as [st' F]. assert (T := f_trace _ _ _ _ _ _ F). rewrite (f_ds _ _ _ _ _ _ F). cbn [d_elims].
  destruct (t_new _ _ _ T) as [en [el' [dd [E1 [E2 [E3 [Ti [Re _]]]]]]]].
  assert (X : length (s_elims st) = length (s_elims st')).
  { apply (tiles_fun dd (length (s_elims st))); [ | exact Ti]. apply tiles_none. intros y Hy. destruct (Re y Hy) as [S [Hs [z [Ez [Rz Pl]]]]]. apply (plain_strategy _ _ _ _ Ez Pl Rz), Hl, Hs. }
  rewrite E2, app_length in X. destruct el' as [ | z t]; [ | cbn [length] in X; lia]. rewrite E2, app_nil_r. split; [apply A | apply (a_el _ _ _ A)].
Qed.

(** The two mutant fish find nothing. *)
Lemma solve_mutant l st pl el ok g ds : (forall S, In S l -> S = MutantSwordfish \/ S = MutantJellyfish) -> api st pl el -> strat_solve l st = Ok (ok, g, ds) ->
  d_deds ds = [] /\ (forall c d, In (c, d) (d_elims ds) <-> el c d) /\ (forall c d, In (c, d) (d_entries ds) <-> pl c d).
Proof.
  intros Hl A E. assert (Im : implemented l) by (intros S Hs ->; destruct (Hl _ Hs); discriminate). destruct (solve_deds l st pl el ok g ds Im A E) as [r [Er [_ [Lr [Rr [[n [Ti Fi]] En]]]]]].
  assert (X : r = []). { destruct r as [ | y r]; [reflexivity | exfalso]. destruct (Rr y (or_introl eq_refl)) as [S [Hs [_ [N1 N2]]]]. destruct (Hl S Hs); contradiction. }
  unfold deds_len in Lr. rewrite X in Lr. destruct (d_deds ds) as [ | x t]; [ | discriminate]. split; [reflexivity | ]. cbn [tiles] in Ti. rewrite Ti, firstn_all in Fi. split; [exact Fi | ].
  intros c d. rewrite En. split; [intros [Q | [y [[] _]]]; exact Q | auto].
Qed.

(** * Completeness *)

Lemma solve_complete first rest st pl el g ds S0 : implemented (first :: rest) -> api st pl el -> strat_solve (first :: rest) st = Ok (false, g, ds) ->
  (exists s, completion pl el s) -> (N.of_nat (length (d_elims ds)) <= 65535)%N ->
  In S0 rest \/ (S0 = first /\ first <> NakedSingles /\ (rest <> [] \/ first = HiddenSingles)) ->
  ~ fires (alive (d_entries ds) (d_elims ds)) S0.
Proof.
  intros Im A E [s So] Sm Hs. apply api_started in A. destruct (solve_finished _ _ _ _ _ _ _ Im A E) as [st' F]. rewrite (f_ds _ _ _ _ _ _ F) in *. cbn [d_entries d_elims] in *.
  destruct (f_exit _ _ _ _ _ _ F) as [N81 | [No | [_ [C1 C2]]]].
  - assert (X := f_ok _ _ _ _ _ _ F). rewrite N81 in X. discriminate.
  - destruct (No Sm s (proj1 So) (proj2 (started_snd st pl el s A (proj1 So)) So)).
  - destruct Hs as [Hs | [-> [B1 B2]]]; [apply (C1 S0 Hs) | apply (C2 B1 B2)].
Qed.

Lemma solve_state l st ok g ds : strat_solve l st = Ok (ok, g, ds) -> exists st', try_solve l st = Ok st' /\ d_elims ds = s_elims st'.
Proof.
  unfold strat_solve. intros E. inv_bind E st'. inv_bind E st''. exists st'. split; [exact Hb | ]. unfold update_grid in Hb0. inv_bind Hb0 g'. injection Hb0 as <-. injection E as _ _ <-. reflexivity.
Qed.
(** * Complete input *)

Lemma filter_id {A} (f : A -> bool) l : (forall x, In x l -> f x = true) -> filter f l = l.
Proof. induction l as [ | x l IH]; intros H; cbn [filter]; [reflexivity | ]. rewrite (H x (or_introl eq_refl)), IH; [reflexivity | ]. intros y Hy. apply H. right. exact Hy. Qed.

Lemma solve_full first rest st pl el : implemented (first :: rest) -> api st pl el -> (forall c, c < 81 -> exists d, pl c d) -> (exists s, completion pl el s) ->
  exists g ds, strat_solve (first :: rest) st = Ok (true, g, ds).
Proof.
  intros Im A Fl [s So]. apply api_started in A. destruct (solve_run (first :: rest) st pl el Im A) as [ok [g [ds [st' [E F]]]]]. exists g, ds. rewrite E. assert (X := f_ok _ _ _ _ _ _ F).
  assert (N81 : s_n st' = 81); [ | rewrite N81 in X; cbn in X; rewrite X; reflexivity]. clear X E. assert (T := f_trace _ _ _ _ _ _ F).
  destruct (t_new _ _ _ T) as [en [el' [dd [E1 [E2 [_ [_ [_ [M _]]]]]]]]].
  assert (El : el' = []).
  { destruct el' as [ | [c d] t]; [reflexivity | exfalso]. assert (Hi : In (c, d) (s_elims st')) by (rewrite E2; apply in_app_iff; right; left; reflexivity). destruct (w_el _ (t_w _ _ _ T) c d Hi) as [Hc _].
    destruct (Fl c Hc) as [e He]. apply (proj2 (M (c, d) (or_introl eq_refl)) e). apply (a_pl _ _ _ A). exact He. }
  destruct (f_exit _ _ _ _ _ _ F) as [Q | [No | [[D [done [I Cn]]] _]]]; [exact Q | exfalso | ].
  - apply (No ltac:(unfold small; rewrite E2, El, app_nil_r; apply (started_small _ _ _ A)) s (proj1 So)). apply (started_snd st pl el s A (proj1 So)), So.
  - rewrite (c_n _ _ (i_c _ _ _ I)). replace (filter (fun c => negb (D c =? 0)) (seq 0 81)) with (seq 0 81); [apply seq_length | ].
    symmetry. apply filter_id. intros c Hc. apply in_seq in Hc. apply negb_true_iff, Nat.eqb_neq. destruct (Fl c ltac:(lia)) as [d Hd']. apply (a_pl _ _ _ A) in Hd'.
    assert (Hi : In (c, d) (s_entries st')) by (rewrite E1; apply in_app_iff; auto). destruct (w_e _ (t_w _ _ _ T) c d Hi). rewrite (c_ent _ _ (i_c _ _ _ I) c d); [lia | ]. rewrite Cn, firstn_all. exact Hi.
Qed.

(** * The candidates shown *)

Lemma show_ok st pl el : api st pl el -> unblocked pl el -> exists l, strat_grid_state st = Ok l /\ length l = 81 /\
  forall c, c < 81 -> (exists st', strat_cell_state st c = Ok (st', nth c l (CDigit 0)) /\ api st' pl el) /\
    (forall d, nth c l (CDigit 0) = CDigit d <-> pl c d) /\
    (forall m, nth c l (CDigit 0) = CCands m -> forall d, 1 <= d <= 9 -> (N.testbit m (N.of_nat (d - 1)) = true <-> allowed pl el c d)).
Proof.
  intros Ap Ub. assert (A := api_started _ _ _ Ap). destruct (query_ok st (a_ready _ _ _ A) (started_small _ _ _ A) (unblocked_fit st pl el A Ub)) as [st' [E [I [_ [El [Ee [Q [D U]]]]]]]].
  set (f := fun c => if at_ (s_grid st') c =? 0 then CCands (P st' c) else CDigit (at_ (s_grid st') c)).
  assert (w := u_w _ _ U). assert (Lg := w_lg _ w). assert (Lp := w_lp _ w).
  assert (Rd : forall c, c < 81 -> (d <- aget (s_grid st') c; if negb (d =? 0) then d <- digit_new d; Ok (CDigit d) else m <- aget (s_cell st') c; Ok (CCands m)) = Ok (f c)).
  { intros c Hc. rewrite (aget_ok (s_grid st') c 0) by lia. cbn [bind]. unfold f, at_. destruct (Nat.eqb_spec (nth c (s_grid st') 0) 0) as [Z | N]; cbn [negb].
    - rewrite (aget_ok (s_cell st') c 0%N) by lia. reflexivity.
    - assert (R := w_g _ w c Hc). unfold G, at_ in R. rewrite (proj1 (proj1 (digit_new_exact (nth c (s_grid st') 0)) ltac:(lia))). reflexivity. }
  exists (map f (seq 0 81)). assert (Nt : forall c, c < 81 -> nth c (map f (seq 0 81)) (CDigit 0) = f c).
  { intros c Hc. rewrite (nth_indep _ (CDigit 0) (f 0)) by (rewrite map_length, seq_length; exact Hc). rewrite map_nth, seq_nth by exact Hc. reflexivity. }
  split; [ | split; [rewrite map_length, seq_length; reflexivity | ]].
  - unfold strat_grid_state. rewrite E. cbn [bind]. assert (X : forall cs, (forall c, In c cs -> c < 81) -> rmap (fun cell => d <- aget (s_grid st') cell; if negb (d =? 0) then d <- digit_new d; Ok (CDigit d) else m <- aget (s_cell st') cell; Ok (CCands m)) cs = Ok (map f cs)).
    { induction cs as [ | c cs IH]; intros H; cbn [rmap map]; [reflexivity | ]. rewrite (Rd c (H c (or_introl eq_refl))). cbn [bind]. rewrite IH by (intros k Hk; apply H; right; exact Hk). reflexivity. }
    apply X. intros c Hc. apply in_seq in Hc. lia.
  - intros c Hc. rewrite (Nt c Hc). assert (Pl : forall d, 1 <= d -> (at_ (s_grid st') c = d <-> pl c d)) by (intros d Hd'; rewrite (Q c d Hc Hd'); apply (a_pl _ _ _ A)).
    assert (Cs : strat_cell_state st c = Ok (st', f c)).
    { unfold strat_cell_state. rewrite E. cbn [bind]. assert (X := Rd c Hc). destruct (aget (s_grid st') c) as [d | | | ]; cbn [bind] in *; try discriminate. destruct (negb (d =? 0)).
      - destruct (digit_new d) as [d' | | | ]; cbn [bind] in *; try discriminate. injection X as ->. reflexivity.
      - destruct (aget (s_cell st') c) as [m | | | ]; cbn [bind] in *; try discriminate. injection X as ->. reflexivity. }
    split; [exists st'; split; [exact Cs | apply (api_cell_state st pl el c st' (f c)); assumption] | ].
    unfold f. destruct (Nat.eqb_spec (at_ (s_grid st') c) 0) as [Z | N]; (split; [intros d | ]).
    + split; [discriminate | ]. intros Hp. assert (Hi := proj2 (a_pl _ _ _ A c d) Hp). rewrite <- Ee in Hi. destruct (w_e _ w c d Hi). apply (Pl d ltac:(lia)) in Hp. lia.
    + intros m [= <-] d Hd'. assert (X := alive_iff D st' U c d). change (mem (P st' c) (d - 1) <-> allowed pl el c d).
      assert (Ne : forall d', ~ In (c, d') (s_entries st')). { intros d' Hi. destruct (w_e _ w c d' Hi). rewrite Ee in Hi. apply (Q c d' Hc ltac:(lia)) in Hi. lia. }
      split.
      * intros M. destruct (proj2 X (conj Hc (conj Hd' M))) as [_ [_ [N1 N2]]]. split; [exact Hd' | ]. split; [intros Q'; apply N1; rewrite El; apply (a_el _ _ _ A), Q' | ].
        intros c' Hc' Pe Hp. apply (a_pl _ _ _ A) in Hp. rewrite <- Ee in Hp. destruct (N2 c' d Hp) as [_ N3]. apply N3. auto.
      * intros [_ [N1 N2]]. apply X. split; [exact Hc | ]. split; [exact Hd' | ]. split; [intros Q'; apply N1, (a_el _ _ _ A); rewrite <- El; exact Q' | ].
        intros c' d' Hi. split; [intros <-; apply (Ne d' Hi) | ]. intros [Pe <-]. apply (N2 c' (proj1 (w_e _ w c' d Hi)) Pe). apply (a_pl _ _ _ A). rewrite <- Ee. exact Hi.
    + destruct (Nat.eq_dec d 0) as [-> | Nd].
      * split; [intros [= X]; contradiction | ]. intros Hp. apply (a_pl _ _ _ A) in Hp. rewrite <- Ee in Hp. destruct (w_e _ w c 0 Hp). lia.
      * rewrite <- (Pl d ltac:(lia)). split; [intros [= X]; exact X | intros ->; reflexivity].
    + discriminate.
Qed.

(** * Puzzles *)

Lemma completion_given p s : wf_grid p -> (completion (given p) nothing s <-> solution_of p s).
Proof.
  intros _. split.
  - intros [So [H _]]. split; [exact So | ]. intros c Hc N. apply H. split; [exact Hc | auto].
  - intros [So Ex]. split; [exact So | ]. split; [ | intros c d []]. intros c d [Hc [N E]]. rewrite <- E. apply Ex; [exact Hc | congruence].
Qed.

Lemma solve_puzzle l p st g ds : wf_grid p -> implemented l -> strat_from_sudoku p = Ok st \/ (exists clues, strat_from_clues p clues = Ok st) ->
  strat_solve l st = Ok (true, g, ds) -> solution_of p g /\ (forall s, solution_of p s -> s = g) /\ uniquely_solvable p.
Proof.
  intros Wf Im Cr E. assert (A : api st (given p) nothing) by (destruct Cr as [Cr | [k Cr]]; [apply api_sudoku | apply (api_clues p k)]; assumption).
  destruct (solve_ok l st (given p) nothing g ds Im A E) as [Sg [Ex Un]].
  assert (So : solution_of p g) by (apply completion_given; [exact Wf | ]; split; [exact Sg | ]; split; [exact Ex | intros c d []]).
  assert (U : forall s, solution_of p s -> s = g) by (intros s Hs; apply Un, completion_given; assumption).
  split; [exact So | ]. split; [exact U | ]. exists g. split; [exact So | ]. exact U.
Qed.

(** After the search for singles in the right order no single is left. *)
Lemma solve_singles_complete st pl el g ds : api st pl el -> strat_solve [HiddenSingles; NakedSingles] st = Ok (false, g, ds) -> (exists s, completion pl el s) ->
  ~ naked_single (alive (d_entries ds) (d_elims ds)) /\ ~ hidden_single (alive (d_entries ds) (d_elims ds)).
Proof.
  intros A E Co. assert (Im : implemented [HiddenSingles; NakedSingles]) by (intros S [<- | [<- | []]]; discriminate).
  destruct (solve_singles [HiddenSingles; NakedSingles] st pl el false g ds ltac:(intros S [<- | [<- | []]]; auto) A E) as [L _].
  assert (Sm : (N.of_nat (length (d_elims ds)) <= 65535)%N) by lia. split.
  - apply (solve_complete _ _ st pl el g ds NakedSingles Im A E Co Sm). left. left. reflexivity.
  - apply (solve_complete _ _ st pl el g ds HiddenSingles Im A E Co Sm). right. split; [reflexivity | ]. split; [discriminate | auto].
Qed.
Lemma solve_hidden_complete st pl el g ds : api st pl el -> strat_solve [NakedSingles; HiddenSingles] st = Ok (false, g, ds) -> (exists s, completion pl el s) ->
  ~ hidden_single (alive (d_entries ds) (d_elims ds)).
Proof.
  intros A E Co. assert (Im : implemented [NakedSingles; HiddenSingles]) by (intros S [<- | [<- | []]]; discriminate).
  destruct (solve_singles [NakedSingles; HiddenSingles] st pl el false g ds ltac:(intros S [<- | [<- | []]]; auto) A E) as [L _].
  assert (Sm : (N.of_nat (length (d_elims ds)) <= 65535)%N) by lia. apply (solve_complete _ _ st pl el g ds HiddenSingles Im A E Co Sm). left. left. reflexivity.
Qed.

(** * Solved grids *)

Lemma solved_wf s : solved s -> wf_grid s.
Proof. intros [L [R _]]. split; [exact L | ]. rewrite Forall_forall. intros d Hi. apply (In_nth _ _ 0) in Hi. destruct Hi as [c [Hc <-]]. rewrite L in Hc. apply (R c Hc). Qed.

Lemma solve_solved first rest s st : implemented (first :: rest) -> solved s -> strat_from_sudoku s = Ok st -> exists ds, strat_solve (first :: rest) st = Ok (true, s, ds).
Proof.
  intros Im So Cr. assert (Wf := solved_wf s So). assert (A : api st (given s) nothing) by (apply api_sudoku; assumption). assert (Self : solution_of s s) by (split; [exact So | intros c _ _; reflexivity]).
  destruct (solve_full first rest st (given s) nothing Im A) as [g [ds E]].
  - intros c Hc. exists (at_ s c). split; [exact Hc | ]. split; [ | reflexivity]. destruct So as [_ [R _]]. specialize (R c Hc). lia.
  - exists s. apply completion_given; assumption.
  - exists ds. destruct (solve_puzzle _ _ _ _ _ Wf Im (or_introl Cr) E) as [_ [U _]]. rewrite (U s Self). exact E.
Qed.
Lemma fresh_unsolved s st : wf_grid s -> strat_from_sudoku s = Ok st -> strat_is_solved st = false /\ exists g ds, strat_solve [] st = Ok (false, g, ds) /\ g = s.
Proof.
  intros Wf Cr. assert (N0 : s_n st = 0) by (unfold strat_from_sudoku in Cr; destruct (entries_from 0 s) as [l | | | ]; cbn [bind] in Cr; try discriminate; injection Cr as <-; reflexivity).
  split; [unfold strat_is_solved; rewrite N0; reflexivity | ]. assert (A : api st (given s) nothing) by (apply api_sudoku; assumption).
  destruct (to_sudoku_ok st _ _ (api_started _ _ _ A)) as [st' [g [E [_ [L [Q R]]]]]]. unfold to_sudoku in E. unfold strat_solve. cbn [try_solve bind].
  destruct (update_grid st) as [st1 | | | ] eqn:U; cbn [bind] in *; try discriminate. injection E as <- <-. unfold strat_is_solved.
  assert (N1 : s_n st1 = 0) by (unfold update_grid in U; destruct (write_entries (s_entries st) (s_grid st)) as [g' | | | ]; cbn [bind] in U; try discriminate; injection U as <-; exact N0).
  rewrite N1. eexists _, _. split; [reflexivity | ]. apply grid_ext; [exact L | apply Wf | ]. intros c Hc. destruct (Nat.eq_dec (at_ s c) 0) as [Z | N].
  - rewrite Z. destruct (Nat.eq_dec (at_ (s_grid st1) c) 0) as [E0 | Ne]; [exact E0 | ]. destruct (proj1 (Q c _ Hc (proj1 (Nat.neq_0_lt_0 _) Ne)) eq_refl) as [_ [_ X]]. destruct Ne. exact (eq_trans (eq_sym X) Z).
  - apply Q; [exact Hc | lia | ]. split; [exact Hc | auto].
Qed.

(** * [AvoidableRectangles] *)

Lemma loop_avoidable f rest st : s_n st = 0 -> try_loop (S f) AvoidableRectangles rest st = Panic.
Proof. intros N0. cbn [try_loop]. unfold strat_is_solved. rewrite N0. reflexivity. Qed.
Lemma solve_avoidable rest s st : strat_from_sudoku s = Ok st -> strat_solve (AvoidableRectangles :: rest) st = Panic.
Proof.
  intros Cr. assert (N0 : s_n st = 0) by (unfold strat_from_sudoku in Cr; destruct (entries_from 0 s) as [l | | | ]; cbn [bind] in Cr; try discriminate; injection Cr as <-; reflexivity).
  unfold strat_solve, try_solve. assert (X : try_loop solve_fuel AvoidableRectangles rest st = Panic) by exact (loop_avoidable 999 rest st N0). rewrite X. reflexivity.
Qed.

(** * The grid *)

Lemma to_sudoku_exact st pl el : api st pl el -> exists st' g, to_sudoku st = Ok (st', g) /\ api st' pl el /\ wf_grid g /\ forall c d, c < 81 -> 1 <= d -> (at_ g c = d <-> pl c d).
Proof.
  intros A. destruct (to_sudoku_ok st pl el (api_started _ _ _ A)) as [st' [g [E [_ [L [Q R]]]]]]. exists st', g. split; [exact E | ]. split; [apply (api_to_sudoku st pl el st' g A E) | ].
  split; [split; [exact L | ] | exact Q]. rewrite Forall_forall. intros d Hi. apply (In_nth _ _ 0) in Hi. destruct Hi as [c [Hc <-]]. rewrite L in Hc. apply (R c Hc).
Qed.
Lemma to_sudoku_given st p : wf_grid p -> strat_from_sudoku p = Ok st -> exists st', to_sudoku st = Ok (st', p).
Proof.
  intros Wf Cr. destruct (to_sudoku_exact st (given p) nothing (api_sudoku p st Wf Cr)) as [st' [g [E [_ [Wg Q]]]]]. exists st'. rewrite E. do 2 f_equal. apply grid_ext; [apply Wg | apply Wf | ].
  intros c Hc. destruct (Nat.eq_dec (at_ p c) 0) as [Z | N].
  - rewrite Z. destruct (Nat.eq_dec (at_ g c) 0) as [E0 | Ne]; [exact E0 | ]. destruct (proj1 (Q c _ Hc (proj1 (Nat.neq_0_lt_0 _) Ne)) eq_refl) as [_ [_ X]]. destruct Ne. exact (eq_trans (eq_sym X) Z).
  - apply Q; [exact Hc | lia | ]. split; [exact Hc | auto].
Qed.
Lemma insert_exact st pl el c d : api st pl el -> c < 81 -> 1 <= d <= 9 -> exists st' b, insert_candidate st (c, d) = Ok (st', b) /\
  (b = false <-> exists e, pl c e /\ e <> d) /\ api st' (if b then fun c' d' => pl c' d' \/ (c' = c /\ d' = d) else pl) el.
Proof.
  intros A Hc Hd'. destruct (insert_started st pl el c d (api_started _ _ _ A) Hc Hd') as [st' [b [E [B _]]]]. exists st', b. split; [exact E | ]. split; [exact B | ].
  destruct b; [apply (api_insert st pl el c d st') | apply (api_reject st pl el c d st')]; assumption.
Qed.
Lemma created_ex p : wf_grid p -> exists st, strat_from_sudoku p = Ok st.
Proof. intros Wf. destruct (sudoku_started p None Wf) as [st [E _]]. exists st. exact E. Qed.
Lemma states_ex g : ok_states g -> exists st, strat_from_grid_state g = Ok st.
Proof. intros Og. destruct (states_started g Og) as [st [E _]]. exists st. exact E. Qed.
