(** The strategy solver: more strategies find more, and the order of the strategies does not matter. *)
From Coq Require Import List Arith NArith ZArith ZifyNat ZifyN ZifyBool Lia Bool.
From Verif Require Import Spec TableSpec GeomSpec Solver Bits Geom Gen BitLemmas GridProofs GuessProofs BitsProofs GeomProofs GenProofs Strat StratFind StratSolve StratUse StratSpec StratWhy StratWhyLemmas
  StratInv StratFound StratWalk StratWing StratHist StratStuck StratMain StratApi StratCertify StratCount StratBound StratOrderSpec.
Import ListNotations.
Ltac Zify.zify_post_hook ::= Z.to_euclidean_division_equations.

(** * Counting *)

(** Of [n] things that go to [n] places some have gone to theirs.  The others have as many places left. *)
Lemma squeeze (X Y : list nat) (R : nat -> nat -> bool) (done : nat -> bool) (m : nat -> nat) : NoDup X -> NoDup Y -> length X = length Y ->
  (forall x, In x X -> In (m x) Y) -> (forall x x', In x X -> In x' X -> m x = m x' -> x = x') ->
  (forall x, In x X -> done x = false -> R x (m x) = true) ->
  (forall x x', In x X -> In x' X -> done x = false -> done x' = true -> R x (m x') = false) ->
  let X' := filter (fun x => negb (done x)) X in
  let Y' := filter (fun y => existsb (fun x => R x y) X') Y in
  length Y' = length X' /\ forall y, In y Y -> In y Y' \/ exists x, In x X /\ done x = true /\ y = m x.
Proof.
  intros NX NY L Im Inj Rm Rd X' Y'. set (Z := map m (filter done X)).
  assert (LX : length X' + length (filter done X) = length X).
  { unfold X'. clear. induction X as [ | x X IH]; [reflexivity | ]. cbn [filter]. destruct (done x); cbn [negb length]; lia. }
  assert (InX : forall x, In x X' <-> In x X /\ done x = false) by (intros x; unfold X'; rewrite filter_In, negb_true_iff; reflexivity).
  assert (InZ : forall y, In y Z <-> exists x, In x X /\ done x = true /\ y = m x).
  { intros y. unfold Z. rewrite in_map_iff. split; [intros [x [E Hx]]; apply filter_In in Hx; exists x; intuition | intros [x [A [B C]]]; exists x; rewrite filter_In; auto]. }
  assert (map_nodup : forall l, NoDup l -> incl l X -> NoDup (map m l)).
  { intros l. induction l as [ | a l IH]; intros Nl Il; [constructor | ]. inversion_clear Nl as [ | ? ? Na Nl']. cbn [map]. constructor.
    - intros Q. apply in_map_iff in Q. destruct Q as [b [E Hb]]. apply Na. rewrite <- (Inj b a); [exact Hb | apply Il; right; exact Hb | apply Il; left; reflexivity | exact E].
    - apply IH; [exact Nl' | intros x Hx; apply Il; right; exact Hx]. }
  assert (L1 : length X' <= length Y').
  { rewrite <- (map_length m X'). apply NoDup_incl_length.
    - apply map_nodup; [apply NoDup_filter, NX | intros x Hx; apply InX in Hx; apply Hx].
    - intros y Hy. apply in_map_iff in Hy. destruct Hy as [x [<- Hx]]. assert (Q := proj1 (InX x) Hx). destruct Q as [Hx' D]. unfold Y'. apply filter_In. split; [apply Im, Hx' | ].
      apply existsb_exists. exists x. split; [exact Hx | apply Rm; assumption]. }
  assert (NW : NoDup (Y' ++ Z)).
  { apply NoDup_app_disj; [apply NoDup_filter, NY | apply map_nodup; [apply NoDup_filter, NX | intros x Hx; apply filter_In in Hx; apply Hx] | ].
    intros y Hy Hz. apply InZ in Hz. destruct Hz as [x' [Hx' [D' ->]]]. unfold Y' in Hy. apply filter_In in Hy. destruct Hy as [_ Hy]. apply existsb_exists in Hy. destruct Hy as [x [Hx E]].
    apply InX in Hx. rewrite (Rd x x') in E; [discriminate | apply Hx | exact Hx' | apply Hx | exact D']. }
  assert (IW : incl (Y' ++ Z) Y).
  { intros y Hy. apply in_app_iff in Hy. destruct Hy as [Hy | Hy]; [unfold Y' in Hy; apply filter_In in Hy; apply Hy | ]. apply InZ in Hy. destruct Hy as [x [Hx [_ ->]]]. apply Im, Hx. }
  assert (LW := NoDup_incl_length NW IW). rewrite app_length in LW. unfold Z in LW at 1. rewrite map_length in LW. split; [lia | ].
  intros y Hy. assert (Hw : In y (Y' ++ Z)).
  { refine (NoDup_length_incl NW (l' := Y) _ IW y Hy). rewrite app_length. unfold Z at 1. rewrite map_length. lia. }
  apply in_app_iff in Hw. destruct Hw as [Hw | Hw]; [left; exact Hw | right; apply InZ, Hw].
Qed.

(** * Cells *)

Definition place (s : grid) (h d : nat) : nat := hd 81 (filter (fun c => in_houseb h c && (at_ s c =? d)) (seq 0 81)).
Lemma place_ok s h d : solved s -> h < 27 -> 1 <= d <= 9 -> place s h d < 81 /\ in_house h (place s h d) /\ at_ s (place s h d) = d.
Proof.
  intros So Hh Hd. destruct (any_house_has_digit s h d So Hh Hd) as [c [Hc [Ic E]]]. unfold place.
  assert (I : In c (filter (fun c => in_houseb h c && (at_ s c =? d)) (seq 0 81))) by (apply filter_In; rewrite andb_true_iff, in_houseb_iff, Nat.eqb_eq, in_seq; auto with arith).
  assert (F : forall k, In k (filter (fun c => in_houseb h c && (at_ s c =? d)) (seq 0 81)) -> k < 81 /\ in_house h k /\ at_ s k = d).
  { intros k Hk. apply filter_In in Hk. rewrite andb_true_iff, in_houseb_iff, Nat.eqb_eq, in_seq in Hk. destruct Hk as [[_ A] [B C]]. auto. }
  destruct (filter (fun c => in_houseb h c && (at_ s c =? d)) (seq 0 81)) as [ | k l]; [destruct I | ]. cbn [hd]. apply F. left. reflexivity.
Qed.

(** The cells at the positions of a house *)
Definition cells_at (h : nat) (ps : N) : list nat := map (cell_at h) (below_list 9 ps).
Lemma cells_at_in h ps c : h < 27 -> (In c (cells_at h ps) <-> c < 81 /\ in_house h c /\ mem ps (pos_in_house h c)).
Proof.
  intros Hh. unfold cells_at. rewrite in_map_iff. split.
  - intros [p [<- Hp]]. apply below_in in Hp. destruct Hp as [L M]. destruct (cell_at_ok h p Hh L) as [_ [A [B E]]]. rewrite E. auto.
  - intros [A [B M]]. destruct (cell_at_inv h c Hh A B) as [L E]. exists (pos_in_house h c). split; [exact E | apply below_in; auto].
Qed.
Lemma cells_at_nodup h ps : h < 27 -> NoDup (cells_at h ps).
Proof.
  intros Hh. unfold cells_at. assert (H : forall l, NoDup l -> (forall p, In p l -> p < 9) -> NoDup (map (cell_at h) l)).
  { induction l as [ | p l IH]; intros Nl Il; [constructor | ]. inversion_clear Nl as [ | ? ? Np Nl']. cbn [map]. constructor; [ | apply IH; [exact Nl' | intros q Hq; apply Il; right; exact Hq]].
    intros Q. apply in_map_iff in Q. destruct Q as [q [E Hq]]. apply Np. destruct (cell_at_ok h p Hh (Il p (or_introl eq_refl))) as [_ [_ [_ E1]]]. destruct (cell_at_ok h q Hh (Il q (or_intror Hq))) as [_ [_ [_ E2]]].
    rewrite <- E1, <- E, E2. exact Hq. }
  apply H; [apply below_nodup | intros p Hp; apply below_in in Hp; apply Hp].
Qed.
Lemma cells_at_length h ps : length (cells_at h ps) = count 9 ps.
Proof. unfold cells_at. rewrite map_length. reflexivity. Qed.

(** The digits of a set *)
Definition digits_in (ds : N) : list nat := map S (below_list 9 ds).
Lemma digits_in_in ds d : In d (digits_in ds) <-> 1 <= d <= 9 /\ mem ds (d - 1).
Proof.
  unfold digits_in. rewrite in_map_iff. split.
  - intros [i [<- Hi]]. apply below_in in Hi. replace (S i - 1) with i by lia. split; [lia | apply Hi].
  - intros [R M]. exists (d - 1). split; [lia | apply below_in; split; [lia | exact M]].
Qed.
Lemma digits_in_nodup ds : NoDup (digits_in ds).
Proof. apply FinFun.Injective_map_NoDup; [intros a b E; lia | apply below_nodup]. Qed.
Lemma digits_in_length ds : length (digits_in ds) = count 9 ds.
Proof. unfold digits_in. rewrite map_length. reflexivity. Qed.

(** Three cells that see each other share a house. *)
Lemma common_house a b c : a < 81 -> b < 81 -> c < 81 -> peers a b -> peers a c -> peers b c -> exists h, h < 27 /\ in_house h a /\ in_house h b /\ in_house h c.
Proof.
  intros Ha Hb Hc [Nab Sab] [Nac Sac] [Nbc Sbc].
  assert (X : (row_of a = row_of b /\ row_of a = row_of c) \/ (col_of a = col_of b /\ col_of a = col_of c) \/ (block_of a = block_of b /\ block_of a = block_of c)).
  { assert (B' : forall x y, row_of x / 3 = row_of y / 3 -> col_of x / 3 = col_of y / 3 -> block_of x = block_of y) by (intros x y E E'; unfold block_of; congruence).
    assert (Be : forall x y, block_of x = block_of y -> row_of x / 3 = row_of y / 3 /\ col_of x / 3 = col_of y / 3) by (clear; intros x y; unfold block_of, row_of, col_of; lia).
    assert (F : forall x y, x <> y -> row_of x = row_of y -> col_of x = col_of y -> False) by (intros x y N E E'; apply N; clear - E E'; unfold row_of, col_of in *; lia).
    destruct Sab as [Q1 | [Q1 | Q1]]; destruct Sac as [Q2 | [Q2 | Q2]]; destruct Sbc as [Q3 | [Q3 | Q3]];
      try (left; split; congruence); try (right; left; split; congruence); try (right; right; split; congruence);
      try (exfalso; (apply (F a b Nab) || apply (F a c Nac) || apply (F b c Nbc)); congruence);
      right; right; repeat match goal with H : block_of _ = block_of _ |- _ => apply Be in H; destruct H end; split; apply B'; congruence. }
  assert (R : row_of a < 9 /\ col_of a < 9 /\ block_of a < 9) by (unfold block_of, row_of, col_of; lia). destruct R as [R1 [R2 R3]].
  unfold in_house. destruct X as [[X Y] | [[X Y] | [X Y]]].
  - exists (row_of a). replace (row_of a <? 9) with true by (symmetry; apply Nat.ltb_lt; exact R1). repeat split; [lia | congruence..].
  - exists (9 + col_of a). replace (9 + col_of a <? 9) with false by (symmetry; apply Nat.ltb_ge; lia). replace (9 + col_of a <? 18) with true by (symmetry; apply Nat.ltb_lt; lia).
    replace (9 + col_of a - 9) with (col_of a) by lia. repeat split; [lia | congruence..].
  - exists (18 + block_of a). replace (18 + block_of a <? 9) with false by (symmetry; apply Nat.ltb_ge; lia). replace (18 + block_of a <? 18) with false by (symmetry; apply Nat.ltb_ge; lia).
    replace (18 + block_of a - 18) with (block_of a) by lia. repeat split; [lia | congruence..].
Qed.

(** * One deduction *)

Section Later.
(** What is known at the end of the second run: [en] and [el2] *)
Variables (en el2 : list (nat * nat)) (s : grid).
Hypothesis Cs2 : completion (listed en) (listed el2) s.
Notation A2 := (alive en el2).
Definition settled (c : nat) : bool := if in_dec cand_dec (c, at_ s c) en then true else false.

Lemma settled_in c : settled c = true <-> In (c, at_ s c) en.
Proof. unfold settled. destruct (in_dec cand_dec (c, at_ s c) en); split; (auto || discriminate || contradiction). Qed.
Definition aliveb (c d : nat) : bool := possibleb en el2 (c, d).
Lemma aliveb_iff c d : aliveb c d = true <-> A2 c d.
Proof. apply possibleb_iff. Qed.
Lemma alive_dec c d : {A2 c d} + {~ A2 c d}.
Proof. destruct (aliveb c d) eqn:E; [left; apply aliveb_iff, E | right; intros Q; apply aliveb_iff in Q; congruence]. Qed.
Lemma open_alive c : c < 81 -> settled c = false -> A2 c (at_ s c).
Proof. intros Hc N. apply (digit_possible _ _ _ Cs2 c Hc). intros Q. apply settled_in in Q. congruence. Qed.
Lemma settled_dead c d : settled c = true -> ~ A2 c d.
Proof. intros Q A. apply settled_in in Q. destruct A as [_ [_ [_ V]]]. destruct (V c _ Q) as [N _]. apply N. reflexivity. Qed.
Lemma settled_sees c k : settled c = true -> peers k c -> ~ A2 k (at_ s c).
Proof. intros Q Pe A. apply settled_in in Q. destruct A as [_ [_ [_ V]]]. destruct (V c _ Q) as [_ N]. apply N. auto. Qed.
Lemma alive_open c d : A2 c d -> settled c = false.
Proof. intros A. destruct (settled c) eqn:E; [destruct (settled_dead c d E A) | reflexivity]. Qed.
Lemma range_any c : c < 81 -> 1 <= at_ s c <= 9.
Proof. apply (range_s _ _ _ Cs2). Qed.
Lemma differ_any c c' : c < 81 -> c' < 81 -> peers c c' -> at_ s c <> at_ s c'.
Proof. apply (differ _ _ _ Cs2). Qed.
Lemma one_any h c c' : h < 27 -> c < 81 -> c' < 81 -> in_house h c -> in_house h c' -> at_ s c = at_ s c' -> c = c'.
Proof. apply (one_place _ _ _ Cs2). Qed.

(** No cell is left with a single candidate. *)
Lemma forced c d : ~ fires A2 NakedSingles -> c < 81 -> (forall d', A2 c d' -> d' = d) -> settled c = true.
Proof.
  intros NF Hc H. destruct (settled c) eqn:E; [reflexivity | exfalso]. apply NF. exists c, (at_ s c). assert (A := open_alive c Hc E). split; [exact A | ].
  intros d' Q. rewrite (H d' Q), (H _ A). reflexivity.
Qed.
(** Two candidates stay both. *)
Lemma both c x y : ~ fires A2 NakedSingles -> c < 81 -> settled c = false -> x <> y -> (forall d, A2 c d -> d = x \/ d = y) -> has A2 c [x; y].
Proof.
  intros NF Hc N Nxy H. assert (X : A2 c x).
  { destruct (alive_dec c x) as [ | Q]; [assumption | exfalso]. rewrite (forced c y NF Hc) in N; [discriminate | ]. intros d' A. destruct (H d' A) as [-> | ->]; [contradiction | reflexivity]. }
  assert (Y : A2 c y).
  { destruct (alive_dec c y) as [ | Q]; [assumption | exfalso]. rewrite (forced c x NF Hc) in N; [discriminate | ]. intros d' A. destruct (H d' A) as [-> | ->]; [reflexivity | contradiction]. }
  intros d. cbn [In]. split; [intros A; destruct (H d A) as [-> | ->]; auto | intros [<- | [<- | []]]; assumption].
Qed.

Section Step.
(** What is known in the first run before a deduction *)
Variables (pl el : facts).
Hypothesis Cs : completion pl el s.
Hypothesis Sub : forall c d, pl c d -> In (c, d) en.
Hypothesis Dead : forall c d, el c d -> ~ A2 c d.
Notation A1 := (possible pl el).

Lemma later c d : A2 c d -> A1 c d.
Proof. intros A. assert (A' := A). destruct A' as [Hc [Hd [_ V]]]. split; [exact Hc | ]. split; [exact Hd | ]. split; [intros Q; apply (Dead c d Q A) | ]. intros c' d' Q. apply V, Sub, Q. Qed.

Lemma step_naked c d S : why pl el S (DNaked (c, d)) -> ~ fires A2 NakedSingles -> In (c, d) en.
Proof.
  intros [_ [Hc [Hd [V H]]]] NF. assert (E : at_ s c = d) by (apply H, (vacant_possible pl el s Cs c Hc V)). rewrite <- E. apply settled_in.
  apply (forced c d NF Hc). intros d' A. apply H, later, A.
Qed.

Lemma step_hidden c d t S : why pl el S (DHidden (c, d) t) -> ~ fires A2 HiddenSingles -> In (c, d) en.
Proof.
  intros [_ [Hc [Hd [Hh [Ic [V [Ab H]]]]]]] NF. destruct (absent_possible pl el s Cs _ d Hh Hd Ab) as [k [Hk [Ik [E A]]]]. rewrite (H k Ik A) in *. rewrite <- E. apply settled_in.
  destruct (settled c) eqn:Q; [reflexivity | exfalso]. apply NF. exists (house_number t), c, d. split; [exact Hh | ]. split; [exact Ic | ]. split; [rewrite <- E; apply open_alive; assumption | ].
  intros c' Ic' A'. apply H; [exact Ic' | apply later, A'].
Qed.

Lemma step_locked d m ptg cs c e S : why pl el S (DLocked d m ptg cs) -> In (c, e) cs -> ~ fires A2 LockedCandidates -> ~ A2 c e.
Proof.
  intros [_ [Hm [Hd [_ [Ab [H R]]]]]] Hi NF A. destruct (R c e Hi) as [Hc [-> [Ic Nm]]].
  assert (L : miniline_line m < 18 /\ 18 <= miniline_block m < 27).
  { unfold miniline_line, miniline_block. destruct (Nat.ltb_spec m 27); lia. }
  destruct L as [Ll Lb]. set (h1 := if ptg then miniline_block m else miniline_line m) in *. set (h2 := if ptg then miniline_line m else miniline_block m) in *.
  assert (L1 : h1 < 27) by (unfold h1; destruct ptg; lia). assert (L2 : h2 < 27) by (unfold h2; destruct ptg; lia).
  assert (M : forall k, in_miniline m k <-> in_house h1 k /\ in_house h2 k) by (intros k; unfold in_miniline, h1, h2; destruct ptg; tauto).
  assert (Q : locked_in A2 h1 h2).
  { exists d. split; [ | split].
    - destruct (absent_possible pl el s Cs h1 d L1 Hd Ab) as [k [Hk [Ik [E A']]]]. exists k. split; [exact Ik | ]. destruct (settled k) eqn:Sk; [exfalso | rewrite <- E; apply open_alive; assumption].
      assert (Mk := H k Ik A'). assert (Nk : c <> k) by (intros ->; contradiction). apply M in Mk. rewrite <- E in A. apply (settled_sees k c Sk); [ | exact A]. apply (house_peers h2); [exact Ic | apply Mk | exact Nk].
    - intros k Ik A'. apply M, H; [exact Ik | apply later, A'].
    - exists c. split; [exact Ic | ]. split; [ | exact A]. intros Ic1. apply Nm, M. auto. }
  apply NF. exists (miniline_line m), (miniline_block m). split; [exact Ll | ]. split; [exact Lb | ]. unfold h1, h2 in Q. destruct ptg; auto.
Qed.

(** The pattern of [n] naked cells, for all [n] *)
Lemma naked_shrinks h ps ds c d : h < 27 -> count 9 ps = count 9 ds ->
  (forall c, c < 81 -> in_house h c -> mem ps (pos_in_house h c) -> vacant pl c) ->
  (forall c d, in_house h c -> mem ps (pos_in_house h c) -> A1 c d -> mem ds (d - 1)) ->
  c < 81 -> in_house h c -> ~ mem ps (pos_in_house h c) -> 1 <= d <= 9 -> mem ds (d - 1) -> A2 c d ->
  exists k, 1 <= k <= count 9 ps /\ (k = 1 -> naked_single A2) /\ naked_subset A2 k.
Proof.
  intros Hh Ct V H Hc Ic Np Hd Md A.
  set (X := cells_at h ps). set (Y := digits_in ds).
  assert (InX : forall k, In k X -> k < 81 /\ in_house h k /\ mem ps (pos_in_house h k)) by (intros k; apply cells_at_in; exact Hh).
  assert (Rng : forall k, In k X -> In (at_ s k) Y).
  { intros k Hk. destruct (InX k Hk) as [Lk [Ik Mk]]. apply digits_in_in. split; [apply range_any, Lk | ]. apply (H k _ Ik Mk), (vacant_possible pl el s Cs k Lk), V; assumption. }
  destruct (squeeze X Y aliveb settled (at_ s)) as [L Cov].
  - apply cells_at_nodup, Hh.
  - apply digits_in_nodup.
  - unfold X, Y. rewrite cells_at_length, digits_in_length. exact Ct.
  - exact Rng.
  - intros x x' Hx Hx'. destruct (InX x Hx) as [Lx [Ix _]]. destruct (InX x' Hx') as [Lx' [Ix' _]]. apply (one_any h); assumption.
  - intros x Hx N. apply aliveb_iff, open_alive; [apply InX, Hx | exact N].
  - intros x x' Hx Hx' N Dn. destruct (aliveb x (at_ s x')) eqn:E; [exfalso | reflexivity]. apply aliveb_iff in E. apply (settled_sees x' x Dn); [ | exact E].
    apply (house_peers h); [apply InX, Hx | apply InX, Hx' | ]. intros ->. congruence.
  - set (X' := filter (fun x => negb (settled x)) X) in *. set (Y' := filter (fun y => existsb (fun x => aliveb x y) X') Y) in *.
    assert (InX' : forall x, In x X' <-> In x X /\ settled x = false) by (intros x; unfold X'; rewrite filter_In, negb_true_iff; reflexivity).
    assert (InY' : forall y, In y Y' <-> exists x, In x X' /\ A2 x y).
    { intros y. unfold Y'. rewrite filter_In, existsb_exists. split; [intros [_ [x [Hx E]]]; exists x; rewrite <- aliveb_iff; auto | ].
      intros [x [Hx E]]. split; [ | exists x; rewrite aliveb_iff; auto]. apply InX' in Hx. destruct (InX x (proj1 Hx)) as [Lx [Ix Mx]]. apply digits_in_in. split; [apply E | ].
      apply (H x y Ix Mx), later, E. }
    assert (Dy : In d Y').
    { destruct (Cov d) as [Q | [x [Hx [Dn E]]]]; [apply digits_in_in; auto | exact Q | exfalso]. subst d. destruct (InX x Hx) as [Lx [Ix Mx]].
      apply (settled_sees x c Dn); [ | exact A]. apply (house_peers h); [exact Ic | exact Ix | intros ->; contradiction]. }
    assert (NX' : NoDup X') by (apply NoDup_filter, cells_at_nodup, Hh). assert (NY' : NoDup Y') by (apply NoDup_filter, digits_in_nodup).
    exists (length X'). split; [ | split].
    + split; [rewrite <- L; destruct Y'; [destruct Dy | cbn [length]; lia] | ]. rewrite <- (cells_at_length h ps). apply NoDup_incl_length; [exact NX' | ]. intros x Hx. apply InX' in Hx. apply Hx.
    + intros E1. destruct X' as [ | x [ | ? ?]]; try discriminate. rewrite E1 in L. destruct Y' as [ | y [ | ? ?]]; try discriminate.
      destruct (proj1 (InY' y) (or_introl eq_refl)) as [x' [[-> | []] Ax]]. exists x', y. split; [exact Ax | ].
      intros d' A'. assert (Q : In d' [y]) by (apply InY'; exists x'; split; [left; reflexivity | exact A']). destruct Q as [Q | []]. auto.
    + exists h, X', Y'. split; [exact Hh | ]. split; [exact NX' | ]. split; [reflexivity | ]. split; [exact NY' | ]. split; [exact L | ]. split; [ | split; [exact InY' | ]].
      * intros x Hx. apply InX' in Hx. destruct Hx as [Hx N]. destruct (InX x Hx) as [Lx [Ix _]]. split; [exact Ix | ]. exists (at_ s x). apply open_alive; assumption.
      * exists c, d. split; [exact Ic | ]. split; [ | split; [exact Dy | exact A]]. intros Q. apply InX' in Q. destruct (InX c (proj1 Q)) as [_ [_ Mc]]. contradiction.
Qed.

(** The pattern of [n] hidden digits *)
Lemma hidden_shrinks h ps ds c d : h < 27 -> count 9 ps = count 9 ds ->
  (forall d, 1 <= d <= 9 -> mem ds (d - 1) -> absent pl h d) ->
  (forall c d, in_house h c -> mem ds (d - 1) -> A1 c d -> mem ps (pos_in_house h c)) ->
  c < 81 -> in_house h c -> mem ps (pos_in_house h c) -> ~ mem ds (d - 1) -> A2 c d ->
  exists k, 1 <= k <= count 9 ps /\ (k = 1 -> hidden_single A2) /\ hidden_subset A2 k.
Proof.
  intros Hh Ct V H Hc Ic Mp Nd A. assert (So := proj1 Cs).
  set (X := digits_in ds). set (Y := cells_at h ps). set (m := place s h). set (done := fun e => settled (m e)).
  assert (InX : forall e, In e X -> 1 <= e <= 9 /\ mem ds (e - 1)) by (intros e; apply digits_in_in).
  assert (InY : forall k, In k Y <-> k < 81 /\ in_house h k /\ mem ps (pos_in_house h k)) by (intros k; apply cells_at_in; exact Hh).
  assert (Pm : forall e, In e X -> m e < 81 /\ in_house h (m e) /\ at_ s (m e) = e) by (intros e He; apply place_ok; [exact So | exact Hh | apply InX, He]).
  set (R := fun e k => aliveb k e).
  destruct (squeeze X Y R done m) as [L Cov].
  - apply digits_in_nodup.
  - apply cells_at_nodup, Hh.
  - unfold X, Y. rewrite cells_at_length, digits_in_length. auto.
  - intros e He. destruct (InX e He) as [Re Me]. destruct (Pm e He) as [Lk [Ik Ek]]. apply InY. split; [exact Lk | ]. split; [exact Ik | ]. apply (H (m e) e Ik Me). rewrite <- Ek at 2.
    apply (digit_possible pl el s Cs (m e) Lk). rewrite Ek. apply (V e Re Me), Ik.
  - intros e e' He He' E. destruct (Pm e He) as [_ [_ <-]]. destruct (Pm e' He') as [_ [_ <-]]. rewrite E. reflexivity.
  - intros e He N. destruct (Pm e He) as [Lk [Ik Ek]]. unfold R. apply aliveb_iff. rewrite <- Ek at 2. apply open_alive; assumption.
  - intros e e' He He' N Dn. unfold R. destruct (aliveb (m e') e) eqn:E; [exfalso | reflexivity]. apply aliveb_iff in E. apply (settled_dead (m e') e Dn E).
  - set (X' := filter (fun x => negb (done x)) X) in *. set (Y' := filter (fun y => existsb (fun x => R x y) X') Y) in *.
    assert (InX' : forall e, In e X' <-> In e X /\ done e = false) by (intros e; unfold X'; rewrite filter_In, negb_true_iff; reflexivity).
    assert (InY' : forall k, In k Y' <-> in_house h k /\ exists e, In e X' /\ A2 k e).
    { intros k. unfold Y'. rewrite filter_In, existsb_exists, InY. unfold R. split; [intros [[_ [Ik _]] [e [He E]]]; split; [exact Ik | ]; exists e; rewrite <- aliveb_iff; auto | ].
      intros [Ik [e [He E]]]. split; [ | exists e; rewrite aliveb_iff; auto]. apply InX' in He. destruct (InX e (proj1 He)) as [Re Me]. split; [apply E | ]. split; [exact Ik | ].
      apply (H k e Ik Me), later, E. }
    assert (Cy : In c Y').
    { destruct (Cov c) as [Q | [e [He [Dn E]]]]; [apply InY; auto | exact Q | exfalso]. subst c. apply (settled_dead (m e) d Dn A). }
    assert (NX' : NoDup X') by (apply NoDup_filter, digits_in_nodup). assert (NY' : NoDup Y') by (apply NoDup_filter, cells_at_nodup, Hh).
    assert (Has : forall e, In e X' -> in_house h (m e) /\ A2 (m e) e).
    { intros e He. apply InX' in He. destruct He as [He N]. destruct (Pm e He) as [Lk [Ik Ek]]. split; [exact Ik | ]. rewrite <- Ek at 2. apply open_alive; assumption. }
    exists (length X'). split; [ | split].
    + split; [rewrite <- L; destruct Y'; [destruct Cy | cbn [length]; lia] | ]. rewrite Ct, <- digits_in_length. apply NoDup_incl_length; [exact NX' | ]. intros x Hx. apply InX' in Hx. apply Hx.
    + intros E1. destruct X' as [ | e [ | ? ?]]; try discriminate. rewrite E1 in L. destruct Y' as [ | k [ | ? ?]]; try discriminate.
      destruct (proj1 (InY' k) (or_introl eq_refl)) as [Ik [e' [[-> | []] Ak]]]. exists h, k, e'. split; [exact Hh | ]. split; [exact Ik | ]. split; [exact Ak | ].
      intros k' Ik' A'. assert (Q : In k' [k]) by (apply InY'; split; [exact Ik' | ]; exists e'; split; [left; reflexivity | exact A']). destruct Q as [Q | []]. auto.
    + exists h, Y', X'. split; [exact Hh | ]. split; [exact NY' | ]. split; [exact L | ]. split; [exact NX' | ]. split; [reflexivity | ]. split; [ | split; [exact InY' | ]].
      * intros e He. exists (m e). apply Has, He.
      * exists c, d. split; [exact Cy | ]. split; [ | exact A]. intros Q. apply InX' in Q. destruct (InX d (proj1 Q)) as [_ Md]. contradiction.
Qed.

(** The pattern of a fish with [n] lines *)
Lemma fish_shrinks d ls ps (rows : bool) c l0 : 1 <= d <= 9 -> count 18 ls = count 9 ps ->
  (forall l, mem ls l -> (if rows then l < 9 else 9 <= l < 18) /\ absent pl l d) ->
  (forall l c, mem ls l -> in_house l c -> A1 c d -> mem ps (pos_in_house l c)) ->
  c < 81 -> (if rows then l0 < 9 else 9 <= l0 < 18) -> ~ mem ls l0 -> in_house l0 c -> mem ps (pos_in_house l0 c) -> A2 c d ->
  hidden_single A2 \/ exists k, 2 <= k <= count 9 ps /\ fish A2 k.
Proof.
  intros Hd Ct V H Hc P0 N0 I0 M0 A. assert (So := proj1 Cs).
  assert (L18 : forall l, (if rows then l < 9 else 9 <= l < 18) -> l < 18) by (intros l; destruct rows; lia).
  set (X := below_list 18 ls). set (Y := below_list 9 ps). set (m := fun l => pos_in_house l (place s l d)). set (done := fun l => settled (place s l d)).
  set (R := fun l p => aliveb (cell_at l p) d).
  assert (InX : forall l, In l X -> mem ls l /\ (if rows then l < 9 else 9 <= l < 18) /\ l < 27 /\ absent pl l d).
  { intros l Hl. apply below_in in Hl. destruct Hl as [Ll Ml]. destruct (V l Ml) as [Pl Ab]. split; [exact Ml | ]. split; [exact Pl | ]. split; [lia | exact Ab]. }
  assert (Pm : forall l, In l X -> place s l d < 81 /\ in_house l (place s l d) /\ at_ s (place s l d) = d /\ m l < 9 /\ cell_at l (m l) = place s l d).
  { intros l Hl. destruct (InX l Hl) as [_ [_ [Ll _]]]. destruct (place_ok s l d So Ll Hd) as [Lk [Ik Ek]]. destruct (cell_at_inv l _ Ll Lk Ik) as [Lm Em]. auto. }
  assert (InY : forall p, In p Y <-> p < 9 /\ mem ps p) by (intros p; apply below_in).
  destruct (squeeze X Y R done m) as [L Cov].
  - apply below_nodup.
  - apply below_nodup.
  - exact Ct.
  - intros l Hl. destruct (InX l Hl) as [Ml [_ [_ Ab]]]. destruct (Pm l Hl) as [Lk [Ik [Ek [Lm _]]]]. apply InY. split; [exact Lm | ]. apply (H l _ Ml Ik). rewrite <- Ek at 2.
    apply (digit_possible pl el s Cs _ Lk). rewrite Ek. apply Ab, Ik.
  - intros l l' Hl Hl' E. destruct (Nat.eq_dec l l') as [ | N]; [assumption | exfalso]. destruct (InX l Hl) as [_ [Pl _]]. destruct (InX l' Hl') as [_ [Pl' _]].
    destruct (Pm l Hl) as [Lk [Ik [Ek [Lm Cm]]]]. destruct (Pm l' Hl') as [Lk' [Ik' [Ek' [Lm' Cm']]]]. apply (differ_any (place s l d) (place s l' d) Lk Lk'); [ | congruence].
    rewrite <- Cm, <- Cm', <- E. apply (parallel_peers rows); assumption.
  - intros l Hl N. destruct (Pm l Hl) as [Lk [Ik [Ek [Lm Cm]]]]. unfold R. apply aliveb_iff. rewrite Cm. rewrite <- Ek at 2. apply open_alive; assumption.
  - intros l l' Hl Hl' N Dn. unfold R. destruct (aliveb (cell_at l (m l')) d) eqn:E; [exfalso | reflexivity]. apply aliveb_iff in E.
    destruct (InX l Hl) as [_ [Pl _]]. destruct (InX l' Hl') as [_ [Pl' _]]. destruct (Pm l' Hl') as [Lk' [Ik' [Ek' [Lm' Cm']]]].
    assert (Nl : l <> l') by (intros ->; congruence). revert E; rewrite <- Ek'; apply (settled_sees _ _ Dn). rewrite <- Cm'. apply (parallel_peers rows); assumption.
  - set (X' := filter (fun x => negb (done x)) X) in *. set (Y' := filter (fun y => existsb (fun x => R x y) X') Y) in *.
    assert (InX' : forall l, In l X' <-> In l X /\ done l = false) by (intros l; unfold X'; rewrite filter_In, negb_true_iff; reflexivity).
    assert (Cell : forall l k, In l X -> k < 81 -> in_house l k -> cell_at l (pos_in_house l k) = k /\ pos_in_house l k < 9).
    { intros l k Hl Hk Ik. destruct (InX l Hl) as [_ [_ [Ll _]]]. destruct (cell_at_inv l k Ll Hk Ik). auto. }
    assert (InY' : forall p, In p Y' <-> exists l k, In l X' /\ in_house l k /\ pos_in_house l k = p /\ A2 k d).
    { intros p. unfold Y'. rewrite filter_In, existsb_exists, InY. unfold R. split.
      - intros [[Lp _] [l [Hl E]]]. apply aliveb_iff in E. exists l, (cell_at l p). assert (Hx := proj1 (InX' l) Hl). destruct (InX l (proj1 Hx)) as [_ [_ [Ll _]]].
        destruct (cell_at_ok l p Ll Lp) as [_ [_ [Ik Pk]]]. auto.
      - intros [l [k [Hl [Ik [<- E]]]]]. assert (Hx := proj1 (proj1 (InX' l) Hl)). destruct (Cell l k Hx ltac:(apply E) Ik) as [Ck Lp]. split.
        + split; [exact Lp | ]. apply (H l k); [apply InX, Hx | exact Ik | apply later, E].
        + exists l. split; [exact Hl | ]. rewrite Ck. apply aliveb_iff, E. }
    assert (L0 : l0 < 27) by (specialize (L18 l0 P0); lia). destruct (cell_at_inv l0 c L0 Hc I0) as [Lp0 Cc].
    assert (Cy : In (pos_in_house l0 c) Y').
    { destruct (Cov (pos_in_house l0 c)) as [Q | [l [Hl [Dn E]]]]; [apply InY; auto | exact Q | exfalso]. destruct (InX l Hl) as [Ml [Pl _]]. destruct (Pm l Hl) as [Lk [Ik [Ek [Lm Cm]]]].
      assert (A' := A). rewrite <- Ek in A'. apply (settled_sees _ c Dn) in A'; [exact A' | ]. rewrite <- Cm, <- Cc, E. apply (parallel_peers rows); [exact P0 | exact Pl | intros ->; contradiction | exact Lm]. }
    assert (NX' : NoDup X') by (apply NoDup_filter, below_nodup). assert (NY' : NoDup Y') by (apply NoDup_filter, below_nodup).
    assert (Has : forall l, In l X' -> in_house l (place s l d) /\ A2 (place s l d) d).
    { intros l Hl. apply InX' in Hl. destruct Hl as [Hl N]. destruct (Pm l Hl) as [Lk [Ik [Ek _]]]. split; [exact Ik | ]. rewrite <- Ek at 2. apply open_alive; assumption. }
    set (two := fun l => existsb (fun p => negb (p =? m l) && aliveb (cell_at l p) d) (seq 0 9)).
    destruct (forallb two X') eqn:Tw.
    + right. exists (length X'). assert (Le : length X' <= count 9 ps).
      { rewrite <- Ct. apply NoDup_incl_length; [exact NX' | ]. intros x Hx. apply InX' in Hx. apply Hx. }
      assert (Two : forall l, In l X' -> exists k k', k <> k' /\ in_house l k /\ in_house l k' /\ A2 k d /\ A2 k' d).
      { intros l Hl. rewrite forallb_forall in Tw. specialize (Tw l Hl). unfold two in Tw. apply existsb_exists in Tw. destruct Tw as [p [Hp E]]. apply in_seq in Hp. apply andb_true_iff in E.
        destruct E as [E1 E2]. apply negb_true_iff, Nat.eqb_neq in E1. apply aliveb_iff in E2. destruct (Has l Hl) as [I1 A1']. assert (Hx := proj1 (proj1 (InX' l) Hl)). destruct (InX l Hx) as [_ [_ [Ll _]]].
        destruct (cell_at_ok l p Ll ltac:(lia)) as [_ [_ [Ik Pk]]]. exists (place s l d), (cell_at l p). split; [ | auto]. intros Q. apply E1. unfold m. rewrite Q. auto. }
      assert (Cross : forall l k, (if rows then l < 9 else 9 <= l < 18) -> pos_in_house l k = if rows then col_of k else row_of k).
      { intros l k Pl. unfold pos_in_house. destruct rows; [replace (l <? 9) with true by (symmetry; apply Nat.ltb_lt; exact Pl); reflexivity | ].
        replace (l <? 9) with false by (symmetry; apply Nat.ltb_ge; lia). replace (l <? 18) with true by (symmetry; apply Nat.ltb_lt; lia). reflexivity. }
      set (cov := fun p => if rows then 9 + p else p).
      assert (InC : forall p k, p < 9 -> (in_house (cov p) k <-> p = if rows then col_of k else row_of k)).
      { intros p k Lp. unfold in_house, cov. destruct rows.
        - replace (9 + p <? 9) with false by (symmetry; apply Nat.ltb_ge; lia). replace (9 + p <? 18) with true by (symmetry; apply Nat.ltb_lt; lia). replace (9 + p - 9) with p by lia. split; auto.
        - replace (p <? 9) with true by (symmetry; apply Nat.ltb_lt; exact Lp). split; auto. }
      split.
      * split; [ | exact Le]. rewrite <- L. destruct X' as [ | l X'']; [cbn [length] in L; destruct Y'; [destruct Cy | discriminate] | ]. destruct (Two l (or_introl eq_refl)) as [k [k' [Nk [Ik [Ik' [Ak Ak']]]]]].
        assert (Hx := proj1 (proj1 (InX' l) (or_introl eq_refl))). destruct (Cell l k Hx ltac:(apply Ak) Ik) as [Ck _]. destruct (Cell l k' Hx ltac:(apply Ak') Ik') as [Ck' _].
        assert (I1 : In (pos_in_house l k) Y') by (apply InY'; exists l, k; split; [left; reflexivity | auto]). assert (I2 : In (pos_in_house l k') Y') by (apply InY'; exists l, k'; split; [left; reflexivity | auto]).
        destruct Y' as [ | y [ | y' Y'']]; [destruct I1 | | cbn [length]; lia]. destruct I1 as [I1 | []], I2 as [I2 | []]. exfalso. apply Nk. congruence.
      * exists d, rows, X', (map cov Y'). split; [exact NX' | ]. split; [reflexivity | ].
        split; [apply FinFun.Injective_map_NoDup; [intros x y E; unfold cov in E; destruct rows; lia | exact NY'] | ]. split; [rewrite map_length; exact L | ].
        assert (LY : forall p, In p Y' -> p < 9) by (intros p Hp; unfold Y' in Hp; apply filter_In in Hp; apply InY, Hp).
        split; [intros l Hl; apply InX' in Hl; apply InX, Hl | ]. split; [exact Two | ]. split.
        -- intros k. rewrite in_map_iff. split.
           ++ intros [p [<- Hp]]. assert (Lp := LY p Hp). split; [unfold cov; destruct rows; lia | ]. apply InY' in Hp. destruct Hp as [l [q [Hl [Iq [Pq Aq]]]]]. exists l, q. split; [exact Hl | ]. split; [exact Iq | ].
              split; [ | exact Aq]. apply InC; [exact Lp | ]. rewrite <- Pq. apply Cross. apply InX' in Hl. apply InX, Hl.
           ++ intros [Rk [l [q [Hl [Iq [Kq Aq]]]]]]. exists (if rows then k - 9 else k). split; [unfold cov; destruct rows; lia | ]. apply InY'. exists l, q. split; [exact Hl | ]. split; [exact Iq | ]. split; [ | exact Aq].
              assert (Pl : if rows then l < 9 else 9 <= l < 18) by (apply InX' in Hl; apply InX, Hl). rewrite (Cross l q Pl). symmetry. apply InC; [destruct rows; lia | ].
              unfold cov. destruct rows; [replace (9 + (k - 9)) with k by lia; exact Kq | exact Kq].
        -- exists (cov (pos_in_house l0 c)), c. split; [apply in_map; exact Cy | ]. split; [apply InC; [exact Lp0 | apply Cross, P0] | ]. split; [ | exact A].
           intros l Hl Il. apply InX' in Hl. destruct (InX l (proj1 Hl)) as [Ml [Pl _]]. apply N0. replace l0 with l; [exact Ml | ]. clear - Pl P0 Il I0. unfold in_house in *. destruct rows.
           ++ replace (l <? 9) with true in Il by (symmetry; apply Nat.ltb_lt; exact Pl). replace (l0 <? 9) with true in I0 by (symmetry; apply Nat.ltb_lt; exact P0). congruence.
           ++ replace (l <? 9) with false in Il by (symmetry; apply Nat.ltb_ge; lia). replace (l0 <? 9) with false in I0 by (symmetry; apply Nat.ltb_ge; lia).
              replace (l <? 18) with true in Il by (symmetry; apply Nat.ltb_lt; lia). replace (l0 <? 18) with true in I0 by (symmetry; apply Nat.ltb_lt; lia). lia.
    + left. assert (F : exists l, In l X' /\ two l = false).
      { clear - Tw. induction X' as [ | l X' IH]; [discriminate | ]. cbn [forallb] in Tw. apply andb_false_iff in Tw. destruct Tw as [T | T]; [exists l; split; [left; reflexivity | exact T] | ].
        destruct (IH T) as [k [Hk E]]. exists k. split; [right; exact Hk | exact E]. }
      destruct F as [l [Hl F]]. destruct (Has l Hl) as [Ik Ak]. assert (Hx := proj1 (proj1 (InX' l) Hl)). exists l, (place s l d), d. split; [apply InX, Hx | ]. split; [exact Ik | ]. split; [exact Ak | ].
      intros k' Ik' Ak'. destruct (Cell l k' Hx ltac:(apply Ak') Ik') as [Ck' Lp]. destruct (Pm l Hx) as [_ [_ [_ [_ Cm]]]]. destruct (Nat.eq_dec (pos_in_house l k') (m l)) as [E | E]; [rewrite <- Ck', <- Cm, E; reflexivity | exfalso].
      assert (T : two l = true); [ | congruence]. unfold two. apply existsb_exists. exists (pos_in_house l k'). split; [apply in_seq; lia | ]. rewrite Ck'. apply andb_true_iff. split; [apply negb_true_iff, Nat.eqb_neq; exact E | apply aliveb_iff, Ak'].
Qed.

(** Two cells with the same two candidates, seen by a third cell *)
Lemma pair_fires a b k y z : ~ fires A2 NakedPairs -> a < 81 -> b < 81 -> k < 81 -> peers a b -> peers a k -> peers b k -> y <> z -> has A2 a [y; z] -> has A2 b [y; z] -> ~ A2 k z.
Proof.
  intros NF Ha Hb Hk Pab Pak Pbk Nyz Fa Fb A. destruct (common_house a b k Ha Hb Hk Pab Pak Pbk) as [h [Hh [Ia [Ib Ik]]]]. apply NF.
  exists h, [a; b], [y; z]. split; [exact Hh | ]. split; [constructor; [intros [Q | []]; apply (proj1 Pab); auto | constructor; [intros [] | constructor]] | ]. split; [reflexivity | ].
  split; [constructor; [intros [Q | []]; auto | constructor; [intros [] | constructor]] | ]. split; [reflexivity | ]. split; [ | split].
  - intros c [<- | [<- | []]]; (split; [assumption | ]); exists z; [apply Fa | apply Fb]; right; left; reflexivity.
  - intros d. split; [intros Q; exists a; split; [left; reflexivity | apply Fa, Q] | ]. intros [c [[<- | [<- | []]] Q]]; [apply Fa, Q | apply Fb, Q].
  - exists k, z. split; [exact Ik | ]. split; [ | split; [right; left; reflexivity | exact A]]. intros [Q | [Q | []]]; [apply (proj1 Pak) | apply (proj1 Pbk)]; exact Q.
Qed.

Lemma peers_sym a b : peers a b -> peers b a.
Proof. intros [N Q]. split; [auto | ]. destruct Q as [Q | [Q | Q]]; auto. Qed.

Lemma step_wing hi hdg pin cs k e S : why pl el S (DWing hi hdg pin cs) -> In (k, e) cs -> (forall S', In S' (turns_into S) -> ~ fires A2 S') -> ~ A2 k e.
Proof.
  intros [Hh [_ [SS [c1 [c2 [x [y [z Q]]]]]]]] Hi NF. destruct Q as [ND [Rg [H1 [H2 [N12 [G1 [G2 [Np [Mp [Mh [Vh [V1 [V2 [Ah [A1' [A2' R]]]]]]]]]]]]]]]].
  destruct (R k e Hi) as [Hk [-> [K1 [K2 K3]]]]. intros A.
  assert (Ns : ~ fires A2 NakedSingles) by (apply NF; destruct S; try contradiction; left; reflexivity).
  assert (Nw : ~ fires A2 XyWing) by (apply NF; destruct S; try contradiction; cbn [turns_into In]; auto).
  assert (ND' := ND). apply NoDup_cons_iff in ND'. destruct ND' as [Nx ND']. apply NoDup_cons_iff in ND'. destruct ND' as [Ny _]. cbn [In] in Nx, Ny.
  assert (Nxy : x <> y) by (intros ->; apply Nx; auto). assert (Nxz : x <> z) by (intros ->; apply Nx; auto). assert (Nyz : y <> z) by (intros ->; apply Ny; auto). clear Nx Ny.
  (* what is left in the three cells *)
  assert (B1 : forall d, A2 c1 d -> d = x \/ d = z) by (intros d Q; apply A1', later, Q). assert (B2 : forall d, A2 c2 d -> d = y \/ d = z) by (intros d Q; apply A2', later, Q).
  assert (Bh : forall d, A2 hi d -> d = x \/ d = y \/ (S = XyzWing /\ d = z)).
  { intros d Q. assert (Q' := Ah d (later _ _ Q)). apply Mh in Q'. destruct Q as [_ [Rd _]]. replace (d - 1 + 1) with d in Q' by lia. exact Q'. }
  assert (E1 := A1' _ (vacant_possible pl el s Cs c1 H1 V1)). assert (E2 := A2' _ (vacant_possible pl el s Cs c2 H2 V2)). assert (Eh := Ah _ (vacant_possible pl el s Cs hi Hh Vh)). apply Mh in Eh.
  assert (Rh := range_any hi Hh). replace (at_ s hi - 1 + 1) with (at_ s hi) in Eh by lia.
  assert (D1 := differ_any hi c1 Hh H1 G1). assert (D2 := differ_any hi c2 Hh H2 G2).
  (* a pincer with z *)
  assert (Z1 : settled c1 = true -> at_ s c1 <> z) by (intros St E; apply (settled_sees c1 k St (peers_sym _ _ K1)); rewrite E; exact A).
  assert (Z2 : settled c2 = true -> at_ s c2 <> z) by (intros St E; apply (settled_sees c2 k St (peers_sym _ _ K2)); rewrite E; exact A).
  (* a pincer without its other digit is settled *)
  assert (F1 : ~ A2 c1 x -> False).
  { intros N. assert (St : settled c1 = true) by (apply (forced c1 z Ns H1); intros d Q; destruct (B1 d Q) as [-> | ->]; [contradiction | reflexivity]).
    destruct E1 as [E1 | E1]; [ | apply (Z1 St E1)]. rewrite E1 in D1.
    (* then the other pincer gets z, or the hinge does *)
    destruct (settled c2) eqn:S2.
    - destruct E2 as [E2 | E2]; [ | apply (Z2 eq_refl E2)]. destruct Eh as [Eh | [Eh | [Es Eh]]]; [congruence | congruence | ].
      assert (Sh : settled hi = true). { apply (forced hi z Ns Hh). intros d Q. destruct (Bh d Q) as [-> | [-> | [_ ->]]]; [ | | reflexivity]; exfalso; [rewrite <- E1 in Q; apply (settled_sees c1 hi St G1 Q) | rewrite <- E2 in Q; apply (settled_sees c2 hi S2 G2 Q)]. }
      apply (settled_sees hi k Sh (peers_sym _ _ (K3 Es))). rewrite Eh. exact A.
    - assert (Bh' : forall d, A2 hi d -> d = y \/ (S = XyzWing /\ d = z)) by (intros d Q; destruct (Bh d Q) as [-> | Q']; [exfalso; rewrite <- E1 in Q; apply (settled_sees c1 hi St G1 Q) | exact Q']).
      destruct (settled hi) eqn:Sh.
      + destruct Eh as [Eh | [Eh | [Es Eh]]]; [congruence | | apply (settled_sees hi k Sh (peers_sym _ _ (K3 Es))); rewrite Eh; exact A].
        assert (S2' : settled c2 = true); [ | congruence]. apply (forced c2 z Ns H2). intros d Q. destruct (B2 d Q) as [-> | ->]; [exfalso | reflexivity]. rewrite <- Eh in Q. apply (settled_sees hi c2 Sh (peers_sym _ _ G2) Q).
      + assert (Fh : S = XyzWing). { destruct S; try contradiction; [exfalso | reflexivity]. rewrite (forced hi y Ns Hh) in Sh; [discriminate | ]. intros d Q. destruct (Bh' d Q) as [-> | [Q' _]]; [reflexivity | discriminate]. }
        assert (Np' : ~ fires A2 NakedPairs) by (apply NF; rewrite Fh; cbn [turns_into In]; auto).
        apply (pair_fires hi c2 k y z Np' Hh H2 Hk G2 (K3 Fh) K2 Nyz); [ | | exact A]; apply both; try assumption. intros d Q. destruct (Bh' d Q) as [-> | [_ ->]]; auto. }
  assert (F2 : ~ A2 c2 y -> False).
  { intros N. assert (St : settled c2 = true) by (apply (forced c2 z Ns H2); intros d Q; destruct (B2 d Q) as [-> | ->]; [contradiction | reflexivity]).
    destruct E2 as [E2 | E2]; [ | apply (Z2 St E2)]. rewrite E2 in D2.
    destruct (alive_dec c1 x) as [Ax | Ax]; [ | apply (F1 Ax)]. assert (S1 := alive_open c1 x Ax).
    assert (Bh' : forall d, A2 hi d -> d = x \/ (S = XyzWing /\ d = z)).
    { intros d Q. destruct (Bh d Q) as [-> | [-> | Q']]; [left; reflexivity | exfalso; rewrite <- E2 in Q; apply (settled_sees c2 hi St G2 Q) | right; exact Q']. }
    destruct (settled hi) eqn:Sh.
    - destruct Eh as [Eh | [Eh | [Es Eh]]]; [ | congruence | apply (settled_sees hi k Sh (peers_sym _ _ (K3 Es))); rewrite Eh; exact A].
      apply F1. intros Q. rewrite <- Eh in Q. apply (settled_sees hi c1 Sh (peers_sym _ _ G1) Q).
    - assert (Fh : S = XyzWing). { destruct S; try contradiction; [exfalso | reflexivity]. rewrite (forced hi x Ns Hh) in Sh; [discriminate | ]. intros d Q. destruct (Bh' d Q) as [-> | [Q' _]]; [reflexivity | discriminate]. }
      assert (Np' : ~ fires A2 NakedPairs) by (apply NF; rewrite Fh; cbn [turns_into In]; auto).
      apply (pair_fires hi c1 k x z Np' Hh H1 Hk G1 (K3 Fh) K1 Nxz); [ | | exact A]; apply both; try assumption. intros d Q. destruct (Bh' d Q) as [-> | [_ ->]]; auto. }
  destruct (alive_dec c1 x) as [Ax | Ax]; [ | apply (F1 Ax)]. destruct (alive_dec c2 y) as [Ay | Ay]; [ | apply (F2 Ay)].
  assert (P1 : has A2 c1 [x; z]) by (apply both; try assumption; apply (alive_open c1 x Ax)). assert (P2 : has A2 c2 [y; z]) by (apply both; try assumption; apply (alive_open c2 y Ay)).
  assert (Sh : settled hi = false).
  { destruct (settled hi) eqn:Sh; [exfalso | reflexivity]. destruct Eh as [Eh | [Eh | [Es Eh]]].
    - rewrite <- Eh in Ax. apply (settled_sees hi c1 Sh (peers_sym _ _ G1) Ax).
    - rewrite <- Eh in Ay. apply (settled_sees hi c2 Sh (peers_sym _ _ G2) Ay).
    - apply (settled_sees hi k Sh (peers_sym _ _ (K3 Es))). rewrite Eh. exact A. }
  assert (Wxy : has A2 hi [x; y] -> False).
  { intros Ph. apply Nw. exists hi, c1, c2, x, y, z. repeat (split; [assumption | ]). exists k. auto. }
  destruct (alive_dec hi z) as [Az | Az].
  - assert (Es : S = XyzWing). { destruct (Bh z Az) as [Q | [Q | [Q _]]]; [congruence | congruence | exact Q]. }
    assert (Np' : ~ fires A2 NakedPairs) by (apply NF; rewrite Es; cbn [turns_into In]; auto).
    destruct (alive_dec hi x) as [Hx | Hx].
    + destruct (alive_dec hi y) as [Hy | Hy].
      * assert (Nz : ~ fires A2 XyzWing) by (apply NF; rewrite Es; cbn [turns_into In]; auto). apply Nz. exists hi, c1, c2, x, y, z. split; [exact ND | ]. split.
        { intros d. cbn [In]. split; [intros Q; destruct (Bh d Q) as [-> | [-> | [_ ->]]]; auto | intros [<- | [<- | [<- | []]]]; assumption]. }
        repeat (split; [assumption | ]). exists k. auto.
      * apply (pair_fires hi c1 k x z Np' Hh H1 Hk G1 (K3 Es) K1 Nxz); [ | exact P1 | exact A]. apply both; try assumption. intros d Q. destruct (Bh d Q) as [-> | [-> | [_ ->]]]; auto; contradiction.
    + apply (pair_fires hi c2 k y z Np' Hh H2 Hk G2 (K3 Es) K2 Nyz); [ | exact P2 | exact A]. apply both; try assumption. intros d Q. destruct (Bh d Q) as [-> | [-> | [_ ->]]]; auto; contradiction.
  - apply Wxy, both; try assumption. intros d Q. destruct (Bh d Q) as [-> | [-> | [_ ->]]]; auto; contradiction.
Qed.

Lemma step_order S z : why pl el S z -> (forall S', In S' (turns_into S) -> ~ fires A2 S') ->
  (forall c d, places z c d -> In (c, d) en) /\ (forall c d, In (c, d) (removes z) -> ~ A2 c d).
Proof.
  intros Wy NF. destruct z as [[c d] | [c d] t | x m ptg cs | h ps ds cs | x ls ps cs | x b cv cs | hi hdg pin cs | ln cs].
  - split; [ | intros c' d' []]. intros c' d' [[= <- <-] | [t Q]]; [ | discriminate]. apply (step_naked c d S Wy). apply NF. destruct Wy as [-> _]. left. reflexivity.
  - split; [ | intros c' d' []]. intros c' d' [Q | [t' [= <- <- <-]]]; [discriminate | ]. apply (step_hidden c d t S Wy). apply NF. destruct Wy as [-> _]. left. reflexivity.
  - split; [intros c d [Q | [t Q]]; discriminate | ]. intros c d Hi. apply (step_locked x m ptg cs c d S Wy Hi). apply NF. destruct Wy as [-> _]. left. reflexivity.
  - split; [intros c d [Q | [t Q]]; discriminate | ]. intros c d Hi A. cbn [removes] in Hi. destruct Wy as [Hh [_ [Cp [Cd Wy]]]]. assert (Ct : count 9 ps = count 9 ds) by congruence.
    assert (Nk : match S with NakedPairs | NakedTriples | NakedQuads => True | _ => False end -> False).
    { intros Q. assert (W : exists k, 1 <= k <= count 9 ps /\ (k = 1 -> naked_single A2) /\ naked_subset A2 k).
      { destruct S; try contradiction; destruct Wy as [V [H R]]; destruct (R c d Hi) as [Hc [Hd [Ic [Np Md]]]]; apply (naked_shrinks h ps ds c d); assumption. }
      destruct W as [k [Rk [K1 K2]]]. rewrite Cp in Rk.
      assert (C : k = 1 \/ (k = 2 /\ 2 <= pattern_size S) \/ (k = 3 /\ 3 <= pattern_size S) \/ (k = 4 /\ 4 <= pattern_size S)) by (destruct S; try contradiction; cbn [pattern_size] in *; lia).
      destruct C as [C | [[C L] | [[C L] | [C L]]]]; subst k;
        [apply (NF NakedSingles); [ | apply K1; reflexivity] | apply (NF NakedPairs); [ | exact K2] | apply (NF NakedTriples); [ | exact K2] | apply (NF NakedQuads); [ | exact K2]];
        destruct S; try contradiction; cbn [pattern_size] in *; try lia; cbn [turns_into In]; auto 6. }
    assert (Hk : match S with HiddenPairs | HiddenTriples | HiddenQuads => True | _ => False end -> False).
    { intros Q. assert (W : exists k, 1 <= k <= count 9 ps /\ (k = 1 -> hidden_single A2) /\ hidden_subset A2 k).
      { destruct S; try contradiction; destruct Wy as [V [H R]]; destruct (R c d Hi) as [Hc [Hd [Ic [Np Md]]]]; apply (hidden_shrinks h ps ds c d); assumption. }
      destruct W as [k [Rk [K1 K2]]]. rewrite Cp in Rk.
      assert (C : k = 1 \/ (k = 2 /\ 2 <= pattern_size S) \/ (k = 3 /\ 3 <= pattern_size S) \/ (k = 4 /\ 4 <= pattern_size S)) by (destruct S; try contradiction; cbn [pattern_size] in *; lia).
      destruct C as [C | [[C L] | [[C L] | [C L]]]]; subst k;
        [apply (NF HiddenSingles); [ | apply K1; reflexivity] | apply (NF HiddenPairs); [ | exact K2] | apply (NF HiddenTriples); [ | exact K2] | apply (NF HiddenQuads); [ | exact K2]];
        destruct S; try contradiction; cbn [pattern_size] in *; try lia; cbn [turns_into In]; auto 6. }
    destruct S; try contradiction; (apply Nk; exact I) || (apply Hk; exact I).
  - split; [intros c d [Q | [t Q]]; discriminate | ]. intros c d Hi A. cbn [removes] in Hi. destruct Wy as [Hd [_ [Cl [Cp [HS [rows [V [H R]]]]]]]]. assert (Ct : count 18 ls = count 9 ps) by congruence.
    destruct (R c d Hi) as [Hc [-> [l0 [P0 [N0 [I0 M0]]]]]].
    destruct (fish_shrinks x ls ps rows c l0 Hd Ct V H Hc P0 N0 I0 M0 A) as [Hs | [k [Rk K]]].
    + apply (NF HiddenSingles); [ | exact Hs]. destruct S; try contradiction; left; reflexivity.
    + rewrite Cp in Rk.
      assert (C : (k = 2 /\ 2 <= pattern_size S) \/ (k = 3 /\ 3 <= pattern_size S) \/ (k = 4 /\ 4 <= pattern_size S)) by (destruct S; try contradiction; cbn [pattern_size] in *; lia).
      destruct C as [[C L] | [[C L] | [C L]]]; subst k; [apply (NF XWing); [ | exact K] | apply (NF Swordfish); [ | exact K] | apply (NF Jellyfish); [ | exact K]];
        destruct S; try contradiction; cbn [pattern_size] in *; try lia; cbn [turns_into In]; auto 6.
  - destruct Wy.
  - split; [intros c d [Q | [t Q]]; discriminate | ]. intros c d Hi. apply (step_wing hi hdg pin cs c d S Wy Hi NF).
  - destruct Wy.
Qed.
End Step.

(** * All deductions *)

Lemma run_order l : (forall S S', In S l -> In S' (turns_into S) -> ~ fires A2 S') -> forall r pl el, completion pl el s -> explained l pl el r ->
  (forall c d, pl c d -> In (c, d) en) -> (forall c d, el c d -> ~ A2 c d) ->
  (forall c d, all_places pl r c d -> In (c, d) en) /\ (forall c d, all_removes el r c d -> ~ A2 c d).
Proof.
  intros NF. induction r as [ | z r IH]; intros pl el Cs Ex Sub Dead.
  - split; intros c d Q; [apply Sub, (proj1 (all_places_nil pl c d) Q) | apply Dead, (proj1 (all_removes_nil el c d) Q)].
  - destruct Ex as [[S [Hs [_ Wy]]] Ex]. destruct (step_order pl el Cs Sub Dead S z Wy (fun S' => NF S S' Hs)) as [X Y].
    destruct (IH (and_places pl z) (and_removes el z) (why_sound pl el s Cs S z Wy) Ex) as [P Q].
    + intros c d [H | H]; [apply Sub, H | apply X, H].
    + intros c d [H | H]; [apply Dead, H | apply Y, H].
    + split; intros c d H; [apply P, (proj2 (all_places_cons pl z r c d)), H | apply Q, (proj2 (all_removes_cons el z r c d)), H].
Qed.
End Later.

(** * Runs *)

(** If a solver gives up on a solvable grid, the grid is not full. *)
Lemma gives_up_unfinished first rest st pl el g ds : implemented (first :: rest) -> api st pl el -> (exists s, completion pl el s) ->
  strat_solve (first :: rest) st = Ok (false, g, ds) -> exists c, c < 81 /\ at_ g c = 0.
Proof.
  intros Im A' Co E. assert (Bd := solve_bounded _ _ _ _ _ _ _ Im A' Co E). destruct Co as [s So]. assert (A := api_started _ _ _ A'). destruct (solve_finished _ _ _ _ _ _ _ Im A E) as [st' F].
  assert (X := f_ok _ _ _ _ _ _ F). symmetry in X. apply Nat.eqb_neq in X. rewrite (f_ds _ _ _ _ _ _ F) in Bd. cbn [d_elims] in Bd.
  destruct (forallb (fun c => negb (at_ g c =? 0)) (seq 0 81)) eqn:Fl.
  - exfalso. apply X. rewrite forallb_forall in Fl. assert (T := f_trace _ _ _ _ _ _ F).
    destruct (f_exit _ _ _ _ _ _ F) as [Q | [No | [[D [done [I Cn]]] _]]]; [exact Q | exfalso | ].
    + apply (No ltac:(unfold small, U16_MAX; lia) s (proj1 So)). apply (started_snd st pl el s A (proj1 So)), So.
    + rewrite (c_n _ _ (i_c _ _ _ I)). replace (filter (fun c => negb (D c =? 0)) (seq 0 81)) with (seq 0 81); [apply seq_length | ].
      symmetry. apply filter_id. intros c Hc. assert (Hc' := Fl c Hc). apply in_seq in Hc. apply negb_true_iff, Nat.eqb_neq in Hc'. apply negb_true_iff, Nat.eqb_neq.
      assert (Hi : In (c, at_ g c) (s_entries st')) by (apply (f_grid _ _ _ _ _ _ F); [lia | lia | reflexivity]). rewrite (c_ent _ _ (i_c _ _ _ I) c (at_ g c)); [exact Hc' | ]. rewrite Cn, firstn_all. exact Hi.
  - assert (Y : exists c, In c (seq 0 81) /\ at_ g c = 0).
    { clear - Fl. induction (seq 0 81) as [ | c l IH]; [discriminate | ]. cbn [forallb] in Fl. apply andb_false_iff in Fl. destruct Fl as [Q | Q].
      - apply negb_false_iff, Nat.eqb_eq in Q. exists c. split; [left; reflexivity | exact Q].
      - destruct (IH Q) as [k [Hk Ek]]. exists k. split; [right; exact Hk | exact Ek]. }
    destruct Y as [c [Hc Ec]]. exists c. apply in_seq in Hc. split; [lia | exact Ec].
Qed.

Lemma more_deduced l1 l2 st1 st2 pl1 pl2 el1 el2 ok1 ok2 g1 g2 ds1 ds2 : implemented l1 -> implemented l2 -> api st1 pl1 el1 -> api st2 pl2 el2 ->
  (forall c d, pl1 c d -> pl2 c d) -> (forall c d, el1 c d -> el2 c d) -> (exists s, completion pl2 el2 s) -> covers l2 l1 -> l2 <> [] ->
  strat_solve l1 st1 = Ok (ok1, g1, ds1) -> strat_solve l2 st2 = Ok (ok2, g2, ds2) ->
  (ok1 = true -> ok2 = true) /\ (forall c, c < 81 -> at_ g1 c <> 0 -> at_ g2 c = at_ g1 c) /\
  (forall c d, alive (d_entries ds2) (d_elims ds2) c d -> alive (d_entries ds1) (d_elims ds1) c d).
Proof.
  intros I1 I2 A1 A2 Pl El Co Cv Ne R1 R2. destruct l2 as [ | first rest]; [contradiction | ]. assert (Co' := Co). destruct Co' as [s Cs].
  destruct (solve_explained _ _ _ _ _ _ _ I1 A1 R1) as [r1 [_ [X1 [P1 Q1]]]]. destruct (solve_explained _ _ _ _ _ _ _ I2 A2 R2) as [r2 [_ [X2 [P2 Q2]]]].
  assert (Cs1 : completion pl1 el1 s). { destruct Cs as [So [H H']]. split; [exact So | ]. split; intros c d Q; [apply H, Pl, Q | apply H', El, Q]. }
  assert (Cs2 : completion (listed (d_entries ds2)) (listed (d_elims ds2)) s).
  { apply (completion_same (all_places pl2 r2) _ (all_removes el2 r2) _ s); [intros c d; symmetry; apply P2 | intros c d; symmetry; apply Q2 | ]. apply (explained_sound _ _ _ _ _ X2 Cs). }
  destruct (solve_grid _ _ _ _ _ _ _ I1 A1 R1) as [W1 [_ [S1 G1]]]. destruct (solve_grid _ _ _ _ _ _ _ I2 A2 R2) as [W2 [_ [S2 G2]]].
  assert (Main : (forall c d, In (c, d) (d_entries ds1) -> In (c, d) (d_entries ds2)) /\ (forall c d, In (c, d) (d_elims ds1) -> ~ alive (d_entries ds2) (d_elims ds2) c d)).
  { destruct ok2.
    - destruct (solve_ok _ _ _ _ _ _ I2 A2 R2) as [Sg [_ U]]. assert (Es := U s Cs). assert (Full : forall c, c < 81 -> In (c, at_ s c) (d_entries ds2)).
      { intros c Hc. apply G2. split; [exact Hc | ]. rewrite Es. destruct (proj1 (proj2 Sg) c Hc). auto. }
      split.
      + intros c d Hi. apply G1 in Hi. destruct Hi as [Hc [Hd Ed]]. assert (Q := S1 c Hc ltac:(lia) s Cs1). rewrite <- Ed, <- Q. apply Full, Hc.
      + intros c d _ [Hc [_ [_ V]]]. destruct (V c _ (Full c Hc)) as [N _]. apply N. reflexivity.
    - assert (NF : forall S S', In S l1 -> In S' (turns_into S) -> ~ fires (alive (d_entries ds2) (d_elims ds2)) S').
      { intros S S' Hs Hs'. apply (solve_gives_up first rest st2 pl2 el2 g2 ds2 S' I2 A2 R2 Co). exact (Cv S S' Hs Hs'). }
      destruct (run_order (d_entries ds2) (d_elims ds2) s Cs2 l1 NF r1 pl1 el1 Cs1 X1) as [X Y].
      + intros c d Q. apply P2. left. apply Pl, Q.
      + intros c d Q [_ [_ [N _]]]. apply N, Q2. left. apply El, Q.
      + split; intros c d Q; [apply X, P1, Q | apply Y, Q1, Q]. }
  destruct Main as [Me Md].
  assert (Gr : forall c, c < 81 -> at_ g1 c <> 0 -> at_ g2 c = at_ g1 c).
  { intros c Hc N. assert (Hi : In (c, at_ g1 c) (d_entries ds1)) by (apply G1; split; [exact Hc | split; [lia | reflexivity]]). apply Me, G2 in Hi. apply Hi. }
  split; [ | split; [exact Gr | ]].
  - intros ->. destruct ok2; [reflexivity | exfalso]. destruct (solve_ok _ _ _ _ _ _ I1 A1 R1) as [Sg _]. destruct (gives_up_unfinished first rest st2 pl2 el2 g2 ds2 I2 A2 Co R2) as [c [Hc Z]].
    destruct (proj1 (proj2 Sg) c Hc) as [Lo _]. assert (Q := Gr c Hc ltac:(lia)). lia.
  - intros c d A. assert (A' := A). destruct A' as [Hc [Hd [_ V]]]. split; [exact Hc | ]. split; [exact Hd | ]. split; [intros Q; apply (Md c d Q A) | ]. intros c' d' Q. apply V, Me, Q.
Qed.

(** The order does not matter. *)
Lemma grid_eq g1 g2 : wf_grid g1 -> wf_grid g2 -> (forall c, c < 81 -> at_ g1 c = at_ g2 c) -> g1 = g2.
Proof. intros [L1 _] [L2 _] H. apply (nth_ext _ _ 0 0); [congruence | ]. intros c Hc. rewrite L1 in Hc. apply (H c Hc). Qed.

Lemma order_irrelevant l1 l2 st1 st2 pl el ok1 ok2 g1 g2 ds1 ds2 : implemented l1 -> implemented l2 -> api st1 pl el -> api st2 pl el ->
  (exists s, completion pl el s) -> l1 <> [] -> l2 <> [] -> covers l1 l2 -> covers l2 l1 ->
  strat_solve l1 st1 = Ok (ok1, g1, ds1) -> strat_solve l2 st2 = Ok (ok2, g2, ds2) ->
  ok1 = ok2 /\ g1 = g2 /\ forall c d, alive (d_entries ds1) (d_elims ds1) c d <-> alive (d_entries ds2) (d_elims ds2) c d.
Proof.
  intros I1 I2 A1 A2 Co N1 N2 C1 C2 R1 R2.
  destruct (more_deduced l1 l2 st1 st2 pl pl el el ok1 ok2 g1 g2 ds1 ds2 I1 I2 A1 A2 (fun _ _ H => H) (fun _ _ H => H) Co C2 N2 R1 R2) as [X1 [Y1 Z1]].
  destruct (more_deduced l2 l1 st2 st1 pl pl el el ok2 ok1 g2 g1 ds2 ds1 I2 I1 A2 A1 (fun _ _ H => H) (fun _ _ H => H) Co C1 N1 R2 R1) as [X2 [Y2 Z2]].
  split; [destruct ok1, ok2; auto; try (specialize (X1 eq_refl); congruence); specialize (X2 eq_refl); congruence | ]. split; [ | intros c d; split; auto].
  apply grid_eq; [apply (solve_grid _ _ _ _ _ _ _ I1 A1 R1) | apply (solve_grid _ _ _ _ _ _ _ I2 A2 R2) | ].
  intros c Hc. destruct (Nat.eq_dec (at_ g1 c) 0) as [E | E]; [ | symmetry; apply Y1; assumption]. destruct (Nat.eq_dec (at_ g2 c) 0) as [E' | E']; [congruence | apply Y2; assumption].
Qed.
