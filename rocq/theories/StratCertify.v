(** Lists of deductions are proofs: what they tell holds in every completion of the puzzle. *)
From Coq Require Import List Arith NArith ZArith ZifyNat ZifyN ZifyBool Lia Bool.
From Verif Require Import Spec TableSpec GeomSpec Solver Bits Geom Gen BitLemmas GridProofs BitsProofs GeomProofs GenProofs Strat StratFind StratSolve StratUse StratWhy StratWhyLemmas StratFound StratWalk StratWing.
Import ListNotations.
Ltac Zify.zify_post_hook ::= Z.to_euclidean_division_equations.

Lemma related_le {A B} (R : A -> B -> Prop) (l1 : list A) (l2 : list B) : NoDup l1 -> (forall a, In a l1 -> exists b, In b l2 /\ R a b) ->
  (forall a a' b, In a l1 -> In a' l1 -> R a b -> R a' b -> a = a') -> length l1 <= length l2.
Proof.
  intros ND H Inj. assert (X : exists bs, Forall2 R l1 bs /\ incl bs l2).
  { clear ND Inj. induction l1 as [ | a l1 IH]; [exists []; split; [constructor | intros x []] | ]. destruct IH as [bs [F Ib]]; [intros x Hx; apply H; right; exact Hx | ].
    destruct (H a (or_introl eq_refl)) as [b [Hb Rb]]. exists (b :: bs). split; [constructor; assumption | ]. intros x [<- | Hx]; [exact Hb | apply Ib, Hx]. }
  destruct X as [bs [F Ib]]. assert (L : length l1 = length bs) by (clear -F; induction F; cbn [length]; congruence). rewrite L. apply NoDup_incl_length; [ | exact Ib].
  clear -F ND Inj. induction F as [ | a b l1 bs Rb F IH]; [constructor | ]. inversion_clear ND as [ | ? ? Na ND']. constructor.
  - intros Hb. destruct (Forall2_in_r _ _ _ F b Hb) as [a' [Ha' Rb']]. apply Na. rewrite (Inj a a' b); [exact Ha' | left; reflexivity | right; exact Ha' | exact Rb | exact Rb'].
  - apply IH; [exact ND' | ]. intros x y z Hx Hy. apply Inj; right; assumption.
Qed.

Definition below_list (n : nat) (s : N) : list nat := filter (fun i => N.testbit s (N.of_nat i)) (seq 0 n).
Lemma below_in n s i : In i (below_list n s) <-> i < n /\ mem s i.
Proof. unfold below_list. rewrite filter_In, in_seq. unfold mem. split; [intros [A B]; split; [lia | exact B] | intros [A B]; split; [lia | exact B]]. Qed.
Lemma below_nodup n s : NoDup (below_list n s).
Proof. apply NoDup_filter, seq_NoDup. Qed.

Section Step.
Variables (pl el : facts) (s : grid).
Hypothesis Cs : completion pl el s.

Lemma range_s c : c < 81 -> 1 <= at_ s c <= 9.
Proof. intros Hc. destruct Cs as [[_ [R _]] _]. apply R, Hc. Qed.
Lemma differ c c' : c < 81 -> c' < 81 -> peers c c' -> at_ s c <> at_ s c'.
Proof. destruct Cs as [[_ [_ H]] _]. intros A B Q. apply H; assumption. Qed.
Lemma one_place h c c' : h < 27 -> c < 81 -> c' < 81 -> in_house h c -> in_house h c' -> at_ s c = at_ s c' -> c = c'.
Proof. intros Hh Hc Hc' A B E. destruct (Nat.eq_dec c c') as [ | N]; [assumption | exfalso]. apply (differ c c' Hc Hc'); [apply (house_peers h); assumption | exact E]. Qed.

(** The digit of the completion is possible in every cell that has no digit. *)
Lemma digit_possible c : c < 81 -> ~ pl c (at_ s c) -> possible pl el c (at_ s c).
Proof.
  intros Hc N. destruct Cs as [So [Cp Ce]]. split; [exact Hc | ]. split; [apply range_s, Hc | ]. split; [intros Q; apply (Ce c _ Q); reflexivity | ].
  intros c' d' Q. assert (E := Cp c' d' Q). split; [intros <-; apply N; rewrite E; exact Q | ]. intros [Pe Ed]. assert (R := range_s c Hc).
  destruct (Nat.lt_ge_cases c' 81) as [L | G]; [apply (differ c c' Hc L Pe); congruence | ].
  unfold at_ in E. rewrite nth_overflow in E; [lia | ]. destruct So as [-> _]. exact G.
Qed.
Lemma vacant_possible c : c < 81 -> vacant pl c -> possible pl el c (at_ s c).
Proof. intros Hc V. apply digit_possible; [exact Hc | apply V]. Qed.
(** If a house does not have a digit, it is possible at its place in the completion. *)
Lemma absent_possible h d : h < 27 -> 1 <= d <= 9 -> absent pl h d -> exists k, k < 81 /\ in_house h k /\ at_ s k = d /\ possible pl el k d.
Proof.
  intros Hh Hd V. destruct (any_house_has_digit s h d (proj1 Cs) Hh Hd) as [k [Hk [Ik E]]]. exists k. split; [exact Hk | ]. split; [exact Ik | ]. split; [exact E | ].
  assert (X := digit_possible k Hk). rewrite E in X. apply X. apply V, Ik.
Qed.

Lemma parallel_peers (rows : bool) l l' p : (if rows then l < 9 else 9 <= l < 18) -> (if rows then l' < 9 else 9 <= l' < 18) -> l <> l' -> p < 9 -> peers (cell_at l p) (cell_at l' p).
Proof.
  intros A B N Hp. destruct rows.
  - apply (cross LINE_ALL_ROWS l l' p); [left; reflexivity | apply rows_mem, A | apply rows_mem, B | exact N | exact Hp].
  - apply (cross LINE_ALL_COLS l l' p); [right; reflexivity | apply cols_mem, A | apply cols_mem, B | exact N | exact Hp].
Qed.

Lemma why_placed S z c d : why pl el S z -> places z c d -> at_ s c = d.
Proof.
  intros Wy [-> | [t ->]]; cbn [why] in Wy.
  - destruct Wy as [_ [Hc [Hd [V Q]]]]. apply Q, vacant_possible; assumption.
  - destruct Wy as [_ [Hc [Hd [Hh [Ic [V [Ab Q]]]]]]]. destruct (absent_possible _ d Hh Hd Ab) as [k [Hk [Ik [E A]]]]. rewrite <- (Q k Ik A). exact E.
Qed.

Lemma why_removed S z c d : why pl el S z -> In (c, d) (removes z) -> at_ s c <> d.
Proof.
  intros Wy Hi Ed. destruct z as [[k e] | [k e] t | x m ptg cs | h ps ds cs | x ls ps cs | x b cv cs | hi hd pin cs | ln cs]; cbn [removes] in Hi; cbn [why] in Wy; try contradiction.
  - destruct Wy as [_ [Hm [Hx [_ [Ab [Q R]]]]]]. destruct (R c d Hi) as [Hc [-> [Ic Nm]]]. destruct (mini_houses m Hm) as [H1 [H2 _]].
    destruct (absent_possible (if ptg then miniline_block m else miniline_line m) x ltac:(destruct ptg; assumption) Hx Ab) as [k [Hk [Ik [E A]]]].
    assert (Mk := Q k Ik A). apply Nm. assert (X : c = k); [ | rewrite X; exact Mk]. destruct Mk as [L B].
    apply (one_place (if ptg then miniline_line m else miniline_block m)); try assumption; [destruct ptg; assumption | destruct ptg; assumption | congruence].
  - destruct Wy as [Hh [_ [Lp [Ld Q]]]]. assert (NQ : count 9 ps = count 9 ds) by congruence. clear Lp Ld.
    assert (Nk : ((forall c, c < 81 -> in_house h c -> mem ps (pos_in_house h c) -> vacant pl c) /\
          (forall c d, in_house h c -> mem ps (pos_in_house h c) -> possible pl el c d -> mem ds (d - 1)) /\
          forall c d, In (c, d) cs -> c < 81 /\ 1 <= d <= 9 /\ in_house h c /\ ~ mem ps (pos_in_house h c) /\ mem ds (d - 1)) -> False).
    { intros [V [In_ R]]. destruct (R c d Hi) as [Hc [Hd [Ic [Np Md]]]]. destruct (cell_at_inv h c Hh Hc Ic) as [Lp Cc].
      assert (X : length (pos_in_house h c :: below_list 9 ps) <= length (below_list 9 ds)).
      { apply (related_le (fun p x => x = at_ s (cell_at h p) - 1)).
        - constructor; [ | apply below_nodup]. intros Q'. apply below_in in Q'. apply Np, Q'.
        - intros p [<- | Hp].
          + exists (d - 1). rewrite Cc, Ed. split; [apply below_in; split; [lia | exact Md] | reflexivity].
          + apply below_in in Hp. destruct Hp as [L9 Mp]. destruct (cell_at_ok h p Hh L9) as [_ [Lk [Ik Pk]]]. eexists. split; [ | reflexivity]. assert (Rk := range_s _ Lk). apply below_in. split; [lia | ].
            apply (In_ (cell_at h p)); [exact Ik | rewrite Pk; exact Mp | ]. apply vacant_possible; [exact Lk | ]. apply V; [exact Lk | exact Ik | rewrite Pk; exact Mp].
        - assert (L9 : forall p, In p (pos_in_house h c :: below_list 9 ps) -> p < 9) by (intros p [<- | Hp]; [exact Lp | apply below_in in Hp; apply Hp]).
          intros p p' x Hp Hp' E E'. destruct (cell_at_ok h p Hh (L9 p Hp)) as [_ [Lk [Ik Pk]]]. destruct (cell_at_ok h p' Hh (L9 p' Hp')) as [_ [Lk' [Ik' Pk']]].
          rewrite <- Pk, <- Pk'. f_equal. apply (one_place h); try assumption. assert (R1 := range_s _ Lk). assert (R2 := range_s _ Lk'). lia. }
      cbn [length] in X. unfold count in NQ. fold (below_list 9 ps) (below_list 9 ds) in NQ. lia. }
    assert (Hd' : ((forall d, 1 <= d <= 9 -> mem ds (d - 1) -> absent pl h d) /\
          (forall c d, in_house h c -> mem ds (d - 1) -> possible pl el c d -> mem ps (pos_in_house h c)) /\
          forall c d, In (c, d) cs -> c < 81 /\ 1 <= d <= 9 /\ in_house h c /\ mem ps (pos_in_house h c) /\ ~ mem ds (d - 1)) -> False).
    { intros [V [In_ R]]. destruct (R c d Hi) as [Hc [Hd [Ic [Mp Nd]]]]. destruct (cell_at_inv h c Hh Hc Ic) as [Lp Cc].
      assert (X : length ((d - 1) :: below_list 9 ds) <= length (below_list 9 ps)).
      { apply (related_le (fun x p => x = at_ s (cell_at h p) - 1 /\ 1 <= at_ s (cell_at h p))).
        - constructor; [ | apply below_nodup]. intros Q'. apply below_in in Q'. apply Nd, Q'.
        - intros x [<- | Hx].
          + exists (pos_in_house h c). rewrite Cc, Ed. split; [apply below_in; split; assumption | lia].
          + apply below_in in Hx. destruct Hx as [L9 Mx]. assert (Mx' : mem ds (x + 1 - 1)) by (replace (x + 1 - 1) with x by lia; exact Mx).
            destruct (absent_possible h (x + 1) Hh ltac:(lia) (V (x + 1) ltac:(lia) Mx')) as [k [Hk [Ik [E A]]]]. destruct (cell_at_inv h k Hh Hk Ik) as [Lk Ck].
            exists (pos_in_house h k). rewrite Ck, E. split; [ | lia]. apply below_in. split; [exact Lk | ]. apply (In_ k (x + 1)); assumption.
        - intros x x' p _ _ E E'. lia. }
      cbn [length] in X. unfold count in NQ. fold (below_list 9 ps) (below_list 9 ds) in NQ. lia. }
    destruct S; try contradiction; auto.
  - destruct Wy as [Hx [_ [Ll [Lp [_ [rows [V [In_ R]]]]]]]]. assert (NQ : count 18 ls = count 9 ps) by congruence. clear Ll Lp.
    destruct (R c d Hi) as [Hc [-> [l0 [Pl [Nl [Il Mp]]]]]]. assert (L27 : forall l, (if rows then l < 9 else 9 <= l < 18) -> l < 18) by (intros l; destruct rows; lia).
    destruct (cell_at_inv l0 c ltac:(specialize (L27 l0 Pl); lia) Hc Il) as [Lp0 Cc].
    assert (X : length (l0 :: below_list 18 ls) <= length (below_list 9 ps)).
    { apply (related_le (fun l p => p < 9 /\ at_ s (cell_at l p) = x)).
      - constructor; [ | apply below_nodup]. intros Q'. apply below_in in Q'. apply Nl, Q'.
      - intros l [<- | Hl].
        + exists (pos_in_house l0 c). rewrite Cc. split; [apply below_in; split; assumption | split; assumption].
        + apply below_in in Hl. destruct Hl as [L18 Ml]. destruct (V l Ml) as [Pl' Ab]. destruct (absent_possible l x ltac:(lia) Hx Ab) as [k [Hk [Ik [E A]]]].
          destruct (cell_at_inv l k ltac:(lia) Hk Ik) as [Lk Ck]. exists (pos_in_house l k). rewrite Ck. split; [ | auto]. apply below_in. split; [exact Lk | ]. apply (In_ l k); assumption.
      - assert (Par : forall l, In l (l0 :: below_list 18 ls) -> if rows then l < 9 else 9 <= l < 18) by (intros l [<- | Hl]; [exact Pl | apply below_in in Hl; apply V, Hl]).
        intros l l' p Hl Hl' [L9 E] [_ E']. destruct (Nat.eq_dec l l') as [ | N]; [assumption | exfalso]. assert (Pl1 := Par l Hl). assert (Pl2 := Par l' Hl').
        destruct (cell_at_ok l p ltac:(specialize (L27 l Pl1); lia) L9) as [_ [Lk _]]. destruct (cell_at_ok l' p ltac:(specialize (L27 l' Pl2); lia) L9) as [_ [Lk' _]].
        apply (differ _ _ Lk Lk' (parallel_peers rows l l' p Pl1 Pl2 N L9)). congruence. }
    cbn [length] in X. unfold count in NQ. fold (below_list 18 ls) (below_list 9 ps) in NQ. lia.
  - destruct Wy as [Hh [_ [_ [c1 [c2 [x [y [z Q]]]]]]]]. destruct Q as [ND [Rg [H1 [H2 [N12 [G1 [G2 [_ [Mp [Mh [Vh [V1 [V2 [Ah [A1 [A2 R]]]]]]]]]]]]]]]].
    destruct (R c d Hi) as [Hc [-> [K1 [K2 K3]]]]. assert (D1 := differ c1 c H1 Hc K1). assert (D2 := differ c2 c H2 Hc K2). assert (D3 := differ hi c1 Hh H1 G1). assert (D4 := differ hi c2 Hh H2 G2).
    assert (P1 := A1 _ (vacant_possible c1 H1 V1)). assert (P2 := A2 _ (vacant_possible c2 H2 V2)). assert (Ph := Ah _ (vacant_possible hi Hh Vh)). apply Mh in Ph. assert (Rh := range_s hi Hh).
    destruct Ph as [Ph | [Ph | [Es Ph]]]; [lia | lia | ]. specialize (K3 Es). assert (D5 := differ hi c Hh Hc K3). lia.
Qed.

Lemma why_sound S z : why pl el S z -> completion (and_places pl z) (and_removes el z) s.
Proof.
  intros Wy. destruct Cs as [So [Cp Ce]]. split; [exact So | ]. split; intros c d [Q | Q]; [apply Cp, Q | apply (why_placed S z c d Wy Q) | apply Ce, Q | apply (why_removed S z c d Wy Q)].
Qed.
End Step.

Lemma completion_same pl pl' el el' s : same pl pl' -> same el el' -> completion pl el s -> completion pl' el' s.
Proof. intros A B [So [Cp Ce]]. split; [exact So | ]. split; intros c d Q; [apply Cp, A, Q | apply Ce, B, Q]. Qed.

Lemma explained_sound l : forall r pl el s, explained l pl el r -> completion pl el s -> completion (all_places pl r) (all_removes el r) s.
Proof.
  induction r as [ | z r IH]; intros pl el s; cbn [explained].
  - intros _. apply completion_same; apply same_sym; [apply all_places_nil | apply all_removes_nil].
  - intros [[S [_ [_ Wy]]] E] Cs. apply (completion_same _ _ _ _ s (all_places_cons pl z r) (all_removes_cons el z r)). apply (IH _ _ _ E), (why_sound pl el s Cs S z Wy).
Qed.

(** A list of deductions that places a digit in every cell proves that there is at most one completion. *)
Lemma explained_unique l r pl el s s' : explained l pl el r -> (forall c, c < 81 -> exists d, all_places pl r c d) -> completion pl el s -> completion pl el s' -> s' = s.
Proof.
  intros E F C1 C2. apply (explained_sound l r _ _ _ E) in C1. apply (explained_sound l r _ _ _ E) in C2. destruct C1 as [[L1 _] [P1 _]], C2 as [[L2 _] [P2 _]].
  apply (nth_ext _ _ 0 0); [congruence | ]. intros c Hc. rewrite L2 in Hc. destruct (F c Hc) as [d Q]. transitivity d; [apply (P2 c d Q) | symmetry; apply (P1 c d Q)].
Qed.
