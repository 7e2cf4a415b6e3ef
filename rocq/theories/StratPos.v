(** The strategy solver: invariant of the cache of possible positions. *)
From Coq Require Import List Arith NArith ZArith ZifyNat ZifyN ZifyBool Lia Bool.
From Verif Require Import Spec TableSpec GeomSpec Solver Bits Geom Gen BitLemmas GridProofs BitsProofs GeomProofs GenProofs Strat StratFind StratSolve StratInv.
Import ListNotations.
Ltac Zify.zify_post_hook ::= Z.to_euclidean_division_equations.

Definition pm (p : list (list N)) (h d : nat) : N := nth (d - 1) (nth h p []) 0%N.
(** Digit [d] may go to cell [c] of house [h]. *)
Definition V (p : list (list N)) (h d c : nat) : Prop := mem (pm p h d) (pos_in_house h c).

Record Pw (p : list (list N)) : Prop := {
  pw_l : length p = 27;
  pw_r : forall h, h < 27 -> length (nth h p []) = 9;
  pw_s : forall h d, h < 27 -> 1 <= d <= 9 -> is_set EPosHouse (pm p h d)
}.

Lemma pos_inj h c c' : h < 27 -> c < 81 -> c' < 81 -> in_house h c -> in_house h c' -> pos_in_house h c = pos_in_house h c' -> c = c'.
Proof.
  intros Hh Hc Hc' Hi Hi' E. destruct (house_cell_at_inv h c Hh Hc Hi) as [_ A]. destruct (house_cell_at_inv h c' Hh Hc' Hi') as [_ B].
  rewrite E in A. congruence.
Qed.

Lemma pos_get_ok p h d : Pw p -> h < 27 -> 1 <= d <= 9 -> pos_get p h d = Ok (pm p h d).
Proof.
  intros w Hh Hd'. unfold pos_get. rewrite (aget_ok _ _ []) by (rewrite (pw_l _ w); exact Hh). cbn [bind].
  rewrite (aget_ok _ _ 0%N) by (rewrite (pw_r _ w h Hh); lia). reflexivity.
Qed.

Lemma pos_set_ok p h d m : Pw p -> h < 27 -> 1 <= d <= 9 -> is_set EPosHouse m ->
  exists p', pos_set p h d m = Ok p' /\ Pw p' /\ forall h' d', h' < 27 -> 1 <= d' <= 9 -> pm p' h' d' = if (h' =? h) && (d' =? d) then m else pm p h' d'.
Proof.
  intros w Hh Hd' Sm. unfold pos_set. rewrite (aget_ok _ _ []) by (rewrite (pw_l _ w); exact Hh). cbn [bind].
  rewrite aset_ok by (rewrite (pw_r _ w h Hh); lia). cbn [bind]. rewrite aset_ok by (rewrite (pw_l _ w); exact Hh).
  eexists. split; [reflexivity | ]. match goal with |- Pw ?x /\ _ => set (p' := x) end.
  assert (R : forall h', nth h' p' [] = if h' =? h then lset (nth h p []) (d - 1) m else nth h' p []).
  { intros h'. unfold p'. rewrite nth_lset by (rewrite (pw_l _ w); exact Hh). reflexivity. }
  assert (E : forall h' d', h' < 27 -> 1 <= d' <= 9 -> pm p' h' d' = if (h' =? h) && (d' =? d) then m else pm p h' d').
  { intros h' d' Hh' Hdd. unfold pm. rewrite R. destruct (Nat.eqb_spec h' h) as [-> | Nh]; [ | reflexivity].
    rewrite nth_lset by (rewrite (pw_r _ w h Hh); lia). destruct (Nat.eqb_spec d' d), (Nat.eqb_spec (d' - 1) (d - 1)); try reflexivity; lia. }
  split; [ | exact E]. constructor.
  - unfold p'. rewrite lset_length. apply (pw_l _ w).
  - intros h' Hh'. rewrite R. destruct (h' =? h); [rewrite lset_length; apply (pw_r _ w h Hh) | apply (pw_r _ w h' Hh')].
  - intros h' d' Hh' Hdd. rewrite E by assumption. destruct ((h' =? h) && (d' =? d)); [exact Sm | apply (pw_s _ w h' d' Hh' Hdd)].
Qed.

Lemma pos_remove_ok p h d c : Pw p -> h < 27 -> 1 <= d <= 9 -> c < 81 -> in_house h c ->
  exists p', pos_remove p h d (pos_in_house h c) = Ok p' /\ Pw p' /\
    forall h' d' k, h' < 27 -> 1 <= d' <= 9 -> k < 81 -> in_house h' k -> (V p' h' d' k <-> V p h' d' k /\ ~ (h' = h /\ d' = d /\ k = c)).
Proof.
  intros w Hh Hd' Hc Hi. unfold pos_remove. rewrite (pos_get_ok p h d w Hh Hd'). cbn [bind].
  destruct (house_cell_at_inv h c Hh Hc Hi) as [Lp _]. destruct (as_set_total EPosHouse _ Lp) as [m Em]. rewrite Em. cbn [bind].
  assert (Sp := pw_s _ w h d Hh Hd').
  destruct (pos_set_ok p h d (set_without EPosHouse (pm p h d) m) w Hh Hd') as [p' [E [w' Q]]].
  { intros i Q. apply (mem_without EPosHouse) in Q; [ | exact Sp]. apply Sp, Q. }
  exists p'. split; [exact E | ]. split; [exact w' | ]. intros h' d' k Hh' Hdd Hk Hik. unfold V. rewrite Q by assumption.
  destruct (Nat.eqb_spec h' h) as [-> | Nh]; cbn [andb]; [ | tauto]. destruct (Nat.eqb_spec d' d) as [-> | Nd]; [ | tauto].
  rewrite (mem_without EPosHouse) by exact Sp. rewrite (mem_single _ _ _ _ Em). split.
  - intros [A B]. split; [exact A | ]. intros [_ [_ ->]]. apply B. reflexivity.
  - intros [A B]. split; [exact A | ]. intros X. apply B. split; [reflexivity | ]. split; [reflexivity | ]. apply (pos_inj h); assumption.
Qed.

Lemma pos_remove_cell_ok p c d : Pw p -> c < 81 -> 1 <= d <= 9 ->
  exists p', pos_remove_cell p c d = Ok p' /\ Pw p' /\
    forall h' d' k, h' < 27 -> 1 <= d' <= 9 -> k < 81 -> in_house h' k -> (V p' h' d' k <-> V p h' d' k /\ ~ (d' = d /\ k = c)).
Proof.
  intros w Hc Hd'. unfold pos_remove_cell. destruct (houses_eq c Hc) as [A1 [A2 [A3 [A4 [A5 [A6 [B1 [B2 B3]]]]]]]].
  rewrite A1. cbn [bind]. rewrite A2. cbn [bind]. rewrite A3. cbn [bind]. rewrite A4. cbn [bind]. rewrite A5. cbn [bind]. rewrite A6. cbn [bind].
  destruct (positions_exact c Hc) as [E1 [E2 E3]]. rewrite E1, E2, E3.
  assert (I1 : in_house (row_of c) c) by (apply (in_house_iff c _ Hc); auto).
  assert (I2 : in_house (9 + col_of c) c) by (apply (in_house_iff c _ Hc); auto).
  assert (I3 : in_house (18 + block_of c) c) by (apply (in_house_iff c _ Hc); auto).
  destruct (pos_remove_ok p _ d c w B1 Hd' Hc I1) as [p1 [F1 [w1 Q1]]]. rewrite F1. cbn [bind].
  destruct (pos_remove_ok p1 _ d c w1 B2 Hd' Hc I2) as [p2 [F2 [w2 Q2]]]. rewrite F2. cbn [bind].
  destruct (pos_remove_ok p2 _ d c w2 B3 Hd' Hc I3) as [p3 [F3 [w3 Q3]]]. exists p3. split; [exact F3 | ]. split; [exact w3 | ].
  intros h d' k Hh Hdd Hk Hik. rewrite Q3, Q2, Q1 by assumption. split; [ | tauto]. intros [[[X Y1] Y2] Y3]. split; [exact X | ]. intros [-> ->].
  destruct (proj1 (in_house_iff c h Hc) (conj Hh Hik)) as [Z | [Z | Z]]; [apply Y1 | apply Y2 | apply Y3]; auto.
Qed.

Lemma rfold_remove l : forall p, Pw p -> okst l ->
  exists p', rfold (fun c p => pos_remove_cell p (fst c) (snd c)) l p = Ok p' /\ Pw p' /\
    forall h d k, h < 27 -> 1 <= d <= 9 -> k < 81 -> in_house h k -> (V p' h d k <-> V p h d k /\ ~ In (k, d) l).
Proof.
  induction l as [ | [c d] l IH]; intros p w O; cbn [rfold].
  - exists p. split; [reflexivity | ]. split; [exact w | ]. cbn [In]. tauto.
  - apply okst_cons in O. destruct O as [[Hc Hd'] O]. cbn [fst snd]. destruct (pos_remove_cell_ok p c d w Hc Hd') as [p1 [E1 [w1 Q1]]]. rewrite E1. cbn [bind].
    destruct (IH p1 w1 O) as [p2 [E2 [w2 Q2]]]. exists p2. split; [exact E2 | ]. split; [exact w2 | ]. intros h d' k Hh Hdd Hk Hik.
    rewrite Q2, Q1 by assumption. cbn [In]. assert (X : (c, d) = (k, d') <-> d' = d /\ k = c) by (split; [intros [= -> ->]; auto | intros [-> ->]; reflexivity]).
    rewrite X. tauto.
Qed.

Lemma rfold_map {A B S} (g : A -> B) (f : B -> S -> res S) l : forall s, rfold (fun a s => f (g a) s) l s = rfold f (map g l) s.
Proof. induction l as [ | a l IH]; intros s; [reflexivity | ]. cbn [rfold map]. destruct (f (g a) s) as [s' | | | ]; cbn [bind]; [apply IH | reflexivity | reflexivity | reflexivity]. Qed.

Lemma pos_enter_ok p c d : Pw p -> c < 81 -> 1 <= d <= 9 ->
  exists p', pos_enter (c, d) p = Ok p' /\ Pw p' /\
    forall h d' k, h < 27 -> 1 <= d' <= 9 -> k < 81 -> in_house h k -> (V p' h d' k <-> V p h d' k /\ ~ (k = c \/ (peers k c /\ d' = d))).
Proof.
  intros w Hc Hd'. unfold pos_enter. destruct (neighbors_exact c Hc) as [nb [En [_ [_ Inb]]]]. rewrite En. cbn [bind].
  rewrite (rfold_map (fun n => (n, d)) (fun x p => pos_remove_cell p (fst x) (snd x))).
  destruct (rfold_remove (map (fun n => (n, d)) nb) p w) as [p1 [E1 [w1 Q1]]].
  { intros k e Hi. apply in_map_iff in Hi. destruct Hi as [n [[= <- <-] Hn]]. apply Inb in Hn. split; [apply Hn | exact Hd']. }
  rewrite E1. cbn [bind]. rewrite (rfold_map (fun d => (c, d)) (fun x p => pos_remove_cell p (fst x) (snd x))).
  destruct (rfold_remove (map (fun d => (c, d)) (seq 1 9)) p1 w1) as [p2 [E2 [w2 Q2]]].
  { intros k e Hi. apply in_map_iff in Hi. destruct Hi as [n [[= <- <-] Hn]]. apply in_seq in Hn. split; [exact Hc | lia]. }
  rewrite E2. cbn [bind].
  destruct (houses_eq c Hc) as [A1 [A2 [A3 [A4 [A5 [A6 [B1 [B2 B3]]]]]]]].
  rewrite A1. cbn [bind]. rewrite A2. cbn [bind]. rewrite A3. cbn [bind]. rewrite A4. cbn [bind]. rewrite A5. cbn [bind]. rewrite A6. cbn [bind].
  assert (S0 : is_set EPosHouse (set_none EPosHouse)) by (intros i Q; destruct (mem_none _ _ Q)).
  destruct (pos_set_ok p2 (row_of c) d _ w2 B1 Hd' S0) as [p3 [E3 [w3 Q3]]]. rewrite E3. cbn [bind].
  destruct (pos_set_ok p3 (9 + col_of c) d _ w3 B2 Hd' S0) as [p4 [E4 [w4 Q4]]]. rewrite E4. cbn [bind].
  destruct (pos_set_ok p4 (18 + block_of c) d _ w4 B3 Hd' S0) as [p5 [E5 [w5 Q5]]]. exists p5. split; [exact E5 | ]. split; [exact w5 | ].
  intros h d' k Hh Hdd Hk Hik. unfold V. rewrite Q5, Q4, Q3 by assumption.
  assert (X2 := Q2 h d' k Hh Hdd Hk Hik). assert (X1 := Q1 h d' k Hh Hdd Hk Hik). unfold V in X1, X2.
  assert (Y1 : In (k, d') (map (fun n => (n, d)) nb) <-> peers k c /\ d' = d).
  { rewrite in_map_iff. split.
    - intros [n [[= <- <-] Hn]]. apply Inb in Hn. split; [apply peers_sym, Hn | reflexivity].
    - intros [Pe ->]. exists k. split; [reflexivity | ]. apply Inb. split; [exact Hk | apply peers_sym; exact Pe]. }
  assert (Y2 : In (k, d') (map (fun d => (c, d)) (seq 1 9)) <-> k = c).
  { rewrite in_map_iff. split; [intros [n [[= <- <-] _]]; reflexivity | ]. intros ->. exists d'. split; [reflexivity | apply in_seq; lia]. }
  rewrite Y2 in X2. rewrite Y1 in X1.
  assert (Z : forall hx, h = hx -> in_house hx c -> d' = d -> ~ (mem (pm p2 h d') (pos_in_house h k))).
  { intros hx -> Hx -> M. apply X2 in M. destruct M as [M N]. apply X1 in M. destruct M as [_ N']. apply N'. split; [ | reflexivity]. apply (house_peers hx); auto. }
  assert (I1 : in_house (row_of c) c) by (apply (in_house_iff c _ Hc); auto).
  assert (I2 : in_house (9 + col_of c) c) by (apply (in_house_iff c _ Hc); auto).
  assert (I3 : in_house (18 + block_of c) c) by (apply (in_house_iff c _ Hc); auto).
  assert (F : forall hx, in_house hx c -> h = hx -> d' = d -> (mem (set_none EPosHouse) (pos_in_house h k) <-> mem (pm p2 h d') (pos_in_house h k))).
  { intros hx Hx Eh Ed. split; [intros Q; destruct (mem_none _ _ Q) | intros Q; destruct (Z hx Eh Hx Ed Q)]. }
  assert (Fin : mem (if (h =? 18 + block_of c) && (d' =? d) then set_none EPosHouse else if (h =? 9 + col_of c) && (d' =? d) then set_none EPosHouse
      else if (h =? row_of c) && (d' =? d) then set_none EPosHouse else pm p2 h d') (pos_in_house h k) <-> mem (pm p2 h d') (pos_in_house h k)).
  { destruct ((h =? 18 + block_of c) && (d' =? d)) eqn:T1.
    { apply andb_true_iff in T1. rewrite !Nat.eqb_eq in T1. destruct T1. apply (F _ I3); assumption. }
    destruct ((h =? 9 + col_of c) && (d' =? d)) eqn:T2.
    { apply andb_true_iff in T2. rewrite !Nat.eqb_eq in T2. destruct T2. apply (F _ I2); assumption. }
    destruct ((h =? row_of c) && (d' =? d)) eqn:T3; [ | reflexivity].
    apply andb_true_iff in T3. rewrite !Nat.eqb_eq in T3. destruct T3. apply (F _ I1); assumption. }
  rewrite Fin, X2, X1. tauto.
Qed.

Lemma rfold_enter l : forall p, Pw p -> okst l ->
  exists p', rfold pos_enter l p = Ok p' /\ Pw p' /\
    forall h d k, h < 27 -> 1 <= d <= 9 -> k < 81 -> in_house h k ->
      (V p' h d k <-> V p h d k /\ forall c' d', In (c', d') l -> k <> c' /\ ~ (peers k c' /\ d = d')).
Proof.
  induction l as [ | [c d] l IH]; intros p w O; cbn [rfold].
  - exists p. split; [reflexivity | ]. split; [exact w | ]. cbn [In]. intros. tauto.
  - apply okst_cons in O. destruct O as [[Hc Hd'] O]. destruct (pos_enter_ok p c d w Hc Hd') as [p1 [E1 [w1 Q1]]]. rewrite E1. cbn [bind].
    destruct (IH p1 w1 O) as [p2 [E2 [w2 Q2]]]. exists p2. split; [exact E2 | ]. split; [exact w2 | ]. intros h d' k Hh Hdd Hk Hik.
    rewrite Q2, Q1 by assumption. cbn [In]. split.
    + intros [[X Y] Z]. split; [exact X | ]. intros c' e [E | Hi]; [ | apply Z; exact Hi]. injection E as <- <-. split; [intros Q; apply Y; left; exact Q | intros Q; apply Y; right; exact Q].
    + intros [X Y]. destruct (Y c d (or_introl eq_refl)) as [Y1 Y2]. split; [split; [exact X | tauto] | ]. intros c' e Hi. apply Y. right. exact Hi.
Qed.

(** The positions are those left by the eliminations in [done] and the first [s_pnd] entries. *)
Record PI (done : list cand) (st : strat) : Prop := {
  p_w : Pw (s_pos st);
  p_pnd : s_pnd st <= length (s_entries st);
  p_ple : s_ple st <= length (s_elims st);
  p_incl : incl done (s_elims st);
  p_rest : forall x, In x (s_elims st) -> In x done \/ In x (skipn (s_ple st) (s_elims st));
  p_v : forall h d k, h < 27 -> 1 <= d <= 9 -> k < 81 -> in_house h k ->
    (V (s_pos st) h d k <-> ~ In (k, d) done /\ forall c' d', In (c', d') (firstn (s_pnd st) (s_entries st)) -> k <> c' /\ ~ (peers k c' /\ d = d'))
}.

Lemma as_u16_small n : n <= 300 -> as_u16 n = n.
Proof. intros L. unfold as_u16, U16_MAX. rewrite N.mod_small by lia. lia. Qed.

(** After an update every elimination and entry is accounted for. *)
Lemma update_pos_spec done st : PI done st -> okst (s_entries st) -> okst (s_elims st) -> length (s_entries st) <= 300 ->
  exists p' n', update_pos st = Ok (set_pos st (length (s_entries st)) n' p') /\
    PI (s_elims st) (set_pos st (length (s_entries st)) n' p').
Proof.
  intros I O1 O2 L. unfold update_pos, slice_from. rewrite (proj2 (Nat.leb_le _ _) (p_ple _ _ I)). cbn [bind].
  destruct (rfold_remove (skipn (s_ple st) (s_elims st)) (s_pos st) (p_w _ _ I)) as [p1 [E1 [w1 Q1]]].
  { intros c d Hi. apply O2. apply in_skipn in Hi. exact Hi. }
  rewrite E1. cbn [bind]. rewrite (proj2 (Nat.leb_le _ _) (p_pnd _ _ I)). cbn [bind].
  destruct (rfold_enter (skipn (s_pnd st) (s_entries st)) p1 w1) as [p2 [E2 [w2 Q2]]].
  { intros c d Hi. apply O1. apply in_skipn in Hi. exact Hi. }
  rewrite E2. cbn [bind]. rewrite (as_u16_small _ L). exists p2, (as_u16 (length (s_elims st))). split; [reflexivity | ].
  constructor; cbn [s_pos s_pnd s_ple s_entries s_elims set_pos].
  - exact w2.
  - lia.
  - apply as_u16_le.
  - apply incl_refl.
  - intros x Hx. left. exact Hx.
  - intros h d k Hh Hd' Hk Hik. rewrite Q2, Q1 by assumption. rewrite (p_v _ _ I h d k Hh Hd' Hk Hik). rewrite firstn_all. split.
    + intros [[[X Y] Z] T]. split.
      * intros Hi. destruct (p_rest _ _ I _ Hi); contradiction.
      * intros c' d' Hi. rewrite <- (firstn_skipn (s_pnd st) (s_entries st)) in Hi. apply in_app_iff in Hi. destruct Hi as [Hi | Hi]; auto.
    + intros [X Y]. split; [split; [split | ] | ].
      * intros Hi. apply X, (p_incl _ _ I), Hi.
      * intros c' d' Hi. apply Y. apply in_firstn in Hi. exact Hi.
      * intros Hi. apply X. apply in_skipn in Hi. exact Hi.
      * intros c' d' Hi. apply Y. apply in_skipn in Hi. exact Hi.
Qed.

(** Appending entries and eliminations keeps the positions. *)
Lemma PI_append done st st' : PI done st -> s_pos st' = s_pos st -> s_pnd st' = s_pnd st -> s_ple st' = s_ple st ->
  (exists a, s_entries st' = s_entries st ++ a) -> (exists b, s_elims st' = s_elims st ++ b) -> PI done st'.
Proof.
  intros I E1 E2 E3 [a Ea] [b Eb]. constructor; rewrite ?E1, ?E2, ?E3, ?Ea, ?Eb.
  - apply (p_w _ _ I).
  - rewrite app_length. pose proof (p_pnd _ _ I). lia.
  - rewrite app_length. pose proof (p_ple _ _ I). lia.
  - intros x Hx. apply in_app_iff. left. apply (p_incl _ _ I), Hx.
  - intros x Hx. rewrite skipn_app, in_app_iff. apply in_app_iff in Hx. destruct Hx as [Hx | Hx].
    + destruct (p_rest _ _ I x Hx); auto.
    + right. right. replace (s_ple st - length (s_elims st)) with 0 by (pose proof (p_ple _ _ I); lia). exact Hx.
  - intros h d k Hh Hd' Hk Hik. rewrite firstn_grow by apply (p_pnd _ _ I). apply (p_v _ _ I); assumption.
Qed.

(** A new solver *)
Lemma PI_new st : s_pos st = repeat (repeat (set_all EPosHouse) 9) 27 -> s_pnd st = 0 -> s_ple st = 0 -> PI [] st.
Proof.
  intros E1 E2 E3.
  assert (R : forall h, h < 27 -> nth h (s_pos st) [] = repeat (set_all EPosHouse) 9) by (intros h Hh; rewrite E1; apply nth_repeat_lt || (apply (repeat_spec 27); apply nth_In; rewrite repeat_length; exact Hh)).
  assert (M : forall h d, h < 27 -> 1 <= d <= 9 -> pm (s_pos st) h d = set_all EPosHouse).
  { intros h d Hh Hd'. unfold pm. rewrite (R h Hh). apply (repeat_spec 9). apply nth_In. rewrite repeat_length. lia. }
  constructor.
  - constructor.
    + rewrite E1. apply repeat_length.
    + intros h Hh. rewrite (R h Hh). apply repeat_length.
    + intros h d Hh Hd'. rewrite (M h d Hh Hd'). apply is_set_all.
  - lia.
  - lia.
  - intros x [].
  - intros x Hx. right. rewrite E3. exact Hx.
  - intros h d k Hh Hd' Hk Hik. unfold V. rewrite (M h d Hh Hd'), mem_all, E2. cbn [firstn]. split; [ | intros _; apply (house_cell_at_inv h k Hh Hk Hik)].
    intros _. split; [intros [] | intros c' d' []].
Qed.
