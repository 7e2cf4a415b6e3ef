(** The links between candidates that are found, exactly; what they say about solutions. *)
From Coq Require Import List Arith NArith ZArith ZifyNat ZifyN ZifyBool Lia Bool.
From Verif Require Import Spec TableSpec GeomSpec BitLemmas Solver Bits BitsProofs GridProofs Geom GeomProofs Gen GenProofs Strat StratFound StratWalk Wip WipSpec.
Import ListNotations.

(** * Maps *)

Lemma cand_eqb_iff x y : cand_eqb x y = true <-> x = y.
Proof.
  unfold cand_eqb. destruct x as [a b], y as [c d]. cbn [fst snd]. rewrite andb_true_iff, !Nat.eqb_eq. split; [intros [-> ->]; reflexivity | intros E; injection E as -> ->; auto].
Qed.
Lemma cand_dec (x y : cand) : {x = y} + {x <> y}.
Proof. decide equality; apply Nat.eq_dec. Defined.
Lemma links_push t x y z : links_of (link_push t x y) z = links_of t z ++ (if cand_eqb x z then [y] else []).
Proof.
  induction t as [ | [k l] r IH]; cbn [link_push links_of]; [reflexivity | ]. destruct (cand_eqb k x) eqn:E; cbn [links_of].
  - apply cand_eqb_iff in E. subst k. destruct (cand_eqb x z); [reflexivity | rewrite app_nil_r; reflexivity].
  - destruct (cand_eqb k z) eqn:E'; [ | exact IH]. apply cand_eqb_iff in E'. subst k. destruct (cand_eqb x z) eqn:E2; [ | rewrite app_nil_r; reflexivity].
    apply cand_eqb_iff in E2. subst x. rewrite (proj2 (cand_eqb_iff z z) eq_refl) in E. discriminate.
Qed.

Definition add (t : link_map) (l : list (cand * cand)) : link_map := fold_left (fun t p => link_push t (fst p) (snd p)) l t.
Lemma add_app t l l' : add t (l ++ l') = add (add t l) l'.
Proof. apply fold_left_app. Qed.
Lemma links_add l : forall t x y, In y (links_of (add t l) x) <-> In y (links_of t x) \/ In (x, y) l.
Proof.
  induction l as [ | [a b] l IH]; intros t x y; cbn [add fold_left In]; [tauto | ]. change (fold_left _ l ?t) with (add t l). rewrite IH. cbn [fst snd]. rewrite links_push, in_app_iff.
  destruct (cand_eqb a x) eqn:E.
  - apply cand_eqb_iff in E. subst a. cbn [In]. split; [intros [[H | [-> | []]] | H]; auto | ]. intros [H | [H | H]]; [auto | injection H as ->; auto | auto].
  - cbn [In]. split; [intros [[H | []] | H]; auto | ]. intros [H | [H | H]]; [auto | | auto]. exfalso. injection H as -> ->. rewrite (proj2 (cand_eqb_iff x x) eq_refl) in E. discriminate.
Qed.

(** A step that adds certain links, whatever the maps are *)
Definition adds (f : links -> res links) (W Q : cand * cand -> Prop) : Prop :=
  exists lw ls, (forall t, f t = Ok (add (fst t) lw, add (snd t) ls)) /\ (forall z, In z lw <-> W z) /\ (forall z, In z ls <-> Q z).
Lemma adds_ext f g W Q W' Q' : adds f W Q -> (forall t, g t = f t) -> (forall z, W z <-> W' z) -> (forall z, Q z <-> Q' z) -> adds g W' Q'.
Proof. intros [lw [ls [E [A B]]]] G X Y. exists lw, ls. split; [intros t; rewrite G; apply E | ]. split; intros z; [rewrite A; apply X | rewrite B; apply Y]. Qed.
Lemma adds_seq f g W Q W' Q' : adds f W Q -> adds g W' Q' -> adds (fun t => t <- f t; g t) (fun z => W z \/ W' z) (fun z => Q z \/ Q' z).
Proof.
  intros [lw [ls [E [A B]]]] [lw' [ls' [E' [A' B']]]]. exists (lw ++ lw'), (ls ++ ls'). split; [intros t; rewrite E; cbn [bind]; rewrite E'; cbn [fst snd]; rewrite !add_app; reflexivity | ].
  split; intros z; rewrite in_app_iff; [rewrite A, A' | rewrite B, B']; reflexivity.
Qed.
Lemma adds_fold {A} (f : A -> links -> res links) (W Q : A -> cand * cand -> Prop) l : (forall a, In a l -> adds (f a) (W a) (Q a)) ->
  adds (rfold f l) (fun z => exists a, In a l /\ W a z) (fun z => exists a, In a l /\ Q a z).
Proof.
  induction l as [ | a l IH]; intros H.
  - exists [], []. split; [intros [w s]; reflexivity | ]. split; intros z; (split; [intros [] | intros [a [[] _]]]).
  - apply (adds_ext _ (rfold f (a :: l)) _ _ _ _ (adds_seq _ _ _ _ _ _ (H a (or_introl eq_refl)) (IH (fun x Hx => H x (or_intror Hx))))).
    + intros t. reflexivity.
    + intros z. split; [intros [X | [b [Hb X]]]; [exists a; split; [left; reflexivity | exact X] | exists b; split; [right; exact Hb | exact X]] | ]. intros [b [[-> | Hb] X]]; [left; exact X | right; exists b; auto].
    + intros z. split; [intros [X | [b [Hb X]]]; [exists a; split; [left; reflexivity | exact X] | exists b; split; [right; exact Hb | exact X]] | ]. intros [b [[-> | Hb] X]]; [left; exact X | right; exists b; auto].
Qed.

Section Links.
Variable poss : list N.
Variable pos : list (list N).
Hypothesis Wp : digit_sets poss.
Hypothesis Pl : places (marks poss) pos.
Notation P c := (nth c poss 0%N).
Notation M := (marks poss).

Lemma cell_digits c : is_set EDigit (P c).
Proof.
  destruct Wp as [L F]. rewrite Forall_forall in F. intros i Hi. destruct (le_lt_dec (length poss) c) as [G | G]; [rewrite nth_overflow in Hi by exact G; destruct (mem_none EDigit i Hi) | ].
  apply (F _ (nth_In poss 0%N G) i Hi).
Qed.
Lemma marks_range c d : M c d -> 1 <= d <= 9.
Proof. intros [H1 H2]. apply cell_digits in H2. cbn [esize] in H2. lia. Qed.

(** * One house *)

Lemma house_adds x h m : fst x < 81 -> h < 27 -> in_house h (fst x) -> M (fst x) (snd x) ->
  (forall i, mem m i <-> exists c, in_unit M h x (c, snd x) /\ pos_in_house h c = i) ->
  adds (house_links x (h, m)) (fun z => fst z = x /\ in_unit M h x (snd z) /\ ~ house_pair M h x (snd z)) (fun z => fst z = x /\ house_pair M h x (snd z)).
Proof.
  intros Hx Hh Ix Mx Hm.
  assert (Sm : is_set EPosHouse m). { intros i Hi. apply Hm in Hi. destruct Hi as [c [[_ [_ [_ [Hc [_ [_ [Ic _]]]]]]] <-]]. cbn [fst esize] in *. apply (house_cell_at_inv h c Hh Hc Ic). }
  assert (Un : forall y, in_unit M h x y <-> exists p, mem m p /\ y = (cell_at h p, snd x)).
  { intros [c d]. split.
    - intros U. assert (U' := U). destruct U as [Ed [_ [_ [Hc [_ [_ [Ic _]]]]]]]. cbn [fst snd] in *. subst d. exists (pos_in_house h c). split; [apply Hm; exists c; auto | ].
      unfold cell_at. rewrite (proj2 (house_cell_at_inv h c Hh Hc Ic)). reflexivity.
    - intros [p [Mp E]]. apply Hm in Mp. destruct Mp as [c' [U <-]]. assert (U' := U). destruct U' as [_ [_ [_ [Hc [_ [_ [Ic _]]]]]]]. cbn [fst] in *.
      unfold cell_at in E. rewrite (proj2 (house_cell_at_inv h c' Hh Hc Ic)) in E. rewrite E. exact U. }
  destruct (unique_cases EPosHouse m Sm) as [[Eu No] | [[p [Eu One]] | [Eu [i [j [Mi [Mj Nij]]]]]]].
  - destruct (iter_meaning EPosHouse m Sm) as [l [El [_ [_ Il]]]]. assert (l = []) as ->. { destruct l as [ | a l]; [reflexivity | ]. exfalso. apply (No a), Il. left. reflexivity. }
    exists [], []. split.
    + intros [w s]. unfold house_links, unique_or_none. rewrite Eu. cbn [bind]. rewrite El. reflexivity.
    + split; intros z; (split; [intros [] | ]).
      * intros [_ [U _]]. apply Un in U. destruct U as [q [Mq _]]. destruct (No q Mq).
      * intros [_ [U _]]. apply Un in U. destruct U as [q [Mq _]]. destruct (No q Mq).
  - assert (Mp : mem m p) by (apply One; reflexivity). destruct (cell_at_ok h p Hh (Sm p Mp)) as [Ec [Hc [Ic Pc]]].
    assert (Hp : house_pair M h x (cell_at h p, snd x)).
    { split; [apply Un; exists p; auto | ]. intros c Hc' Ic' Mc. cbn [fst]. destruct (Nat.eq_dec c (fst x)) as [E | E]; [left; exact E | right].
      assert (U : in_unit M h x (c, snd x)) by (repeat split; cbn [fst snd]; auto; apply Mx || apply Mc). apply Un in U. destruct U as [q [Mq E']]. apply One in Mq. subst q. injection E' as ->. reflexivity. }
    exists [], [(x, (cell_at h p, snd x))]. split.
    + intros [w s]. unfold house_links, unique_or_none. rewrite Eu. cbn [bind]. rewrite Ec. reflexivity.
    + split; intros z; split.
      * intros [].
      * intros [E [U N]]. exfalso. apply N. apply Un in U. destruct U as [q [Mq ->]]. apply One in Mq. subst q. exact Hp.
      * intros [<- | []]. cbn [fst snd]. auto.
      * intros [E [U _]]. apply Un in U. destruct U as [q [Mq E']]. apply One in Mq. subst q. left. destruct z as [z1 z2]. cbn [fst snd] in *. subst. reflexivity.
  - destruct (iter_meaning EPosHouse m Sm) as [l [El [_ [_ Il]]]].
    exists (map (fun p => (x, (cell_at h p, snd x))) l), []. split.
    + intros [w s]. unfold house_links, unique_or_none. rewrite Eu. cbn [bind]. rewrite El. cbn [bind fst snd].
      assert (Hl : forall p, In p l -> p < 9) by (intros p Hp; apply Il in Hp; exact (Sm p Hp)). clear El Il.
      assert (F : forall w, rfold (fun p weak => c <- house_cell_at h p; Ok (link_push weak x (c, snd x))) l w = Ok (add w (map (fun p => (x, (cell_at h p, snd x))) l))).
      { clear w. induction l as [ | p l IH]; intros w; cbn [rfold map]; [reflexivity | ]. destruct (cell_at_ok h p Hh (Hl p (or_introl eq_refl))) as [Ec _]. rewrite Ec. cbn [bind]. rewrite IH by (intros q Hq; apply Hl; right; exact Hq). reflexivity. }
      rewrite F. reflexivity.
    + assert (Two : forall y, ~ house_pair M h x y).
      { intros y [_ A]. apply Hm in Mi. apply Hm in Mj. destruct Mi as [ci [Ui Pi]]. destruct Mj as [cj [Uj Pj]].
        destruct Ui as [_ [Ni [_ [Hi [_ [_ [Ii [_ Mi]]]]]]]]. destruct Uj as [_ [Nj [_ [Hj [_ [_ [Ij [_ Mj]]]]]]]]. cbn [fst snd] in *.
        destruct (A ci Hi Ii Mi) as [E | E]; [congruence | ]. destruct (A cj Hj Ij Mj) as [E' | E']; [congruence | ]. congruence. }
      split; intros z; split.
      * intros Hz. apply in_map_iff in Hz. destruct Hz as [p [<- Hp]]. apply Il in Hp. cbn [fst snd]. split; [reflexivity | ]. split; [apply Un; exists p; auto | apply Two].
      * intros [E [U _]]. apply Un in U. destruct U as [p [Mp E']]. apply in_map_iff. exists p. split; [ | apply Il, Mp]. destruct z as [z1 z2]. cbn [fst snd] in *. subst. reflexivity.
      * intros [].
      * intros [_ U]. destruct (Two _ U).
Qed.

(** * One candidate *)

Lemma conflicting_ok x : fst x < 81 -> M (fst x) (snd x) -> exists l, conflicting_positions pos x = Ok l /\
  (forall h, (exists m, In (h, m) l) <-> h < 27 /\ in_house h (fst x)) /\
  forall h m, In (h, m) l -> forall i, mem m i <-> exists c, in_unit M h x (c, snd x) /\ pos_in_house h c = i.
Proof.
  intros Hx Mx. destruct x as [c d]. cbn [fst snd] in *. assert (Rd := marks_range c d Mx).
  destruct (cell_conversions c Hx) as [_ [_ [_ [_ [_ [_ Eh]]]]]]. destruct (positions_exact c Hx) as [E1 [E2 E3]].
  unfold conflicting_positions. rewrite Eh. cbn [bind combine]. rewrite E1, E2, E3.
  assert (One : forall h, h < 27 -> in_house h c -> exists m, (row <- aget pos h; m <- aget row (digit_as_index d); p <- as_set EPosHouse (pos_in_house h c); Ok (h, set_xor m p)) = Ok (h, m) /\
    forall i, mem m i <-> exists c', in_unit M h (c, d) (c', d) /\ pos_in_house h c' = i).
  { intros h Hh Ih. destruct Pl as [L Q]. destruct (Q h Hh) as [L9 T]. rewrite (aget_ok pos h []) by lia. cbn [bind]. unfold digit_as_index. rewrite (aget_ok _ (d - 1) 0%N) by lia. cbn [bind].
    destruct (house_cell_at_inv h c Hh Hx Ih) as [Lp Ec]. destruct (as_set_total EPosHouse (pos_in_house h c) Lp) as [b Eb]. rewrite Eb. cbn [bind]. eexists. split; [reflexivity | ].
    intros i. rewrite mem_xor, (mem_single EPosHouse _ _ _ Eb), (T d i Rd).
    assert (Inj : forall c', c' < 81 -> in_house h c' -> pos_in_house h c' = pos_in_house h c -> c' = c).
    { intros c' Hc' Ic' E. destruct (house_cell_at_inv h c' Hh Hc' Ic') as [_ E']. rewrite E in E'. congruence. }
    split.
    - intros [[[c' [Hc' [Ic' [Pc' Mc']]]] Ni] | [N Ei]].
      + exists c'. split; [ | exact Pc']. assert (Ne : c <> c') by (intros <-; apply Ni; symmetry; exact Pc'). repeat split; cbn [fst snd]; auto; apply Mx || apply Mc'.
      + exfalso. apply N. exists c. auto.
    - intros [c' [[_ [Ne [_ [Hc' [_ [_ [Ic' [_ Mc']]]]]]]] Pc']]. cbn [fst snd] in *. left. split; [exists c'; auto | ]. intros Ei. apply Ne. symmetry. apply Inj; [exact Hc' | exact Ic' | congruence]. }
  assert (Hou := fun h => in_house_iff c h Hx).
  destruct (One (row_of c)) as [m1 [F1 G1]]; [apply Hou; auto | apply Hou; auto | ].
  destruct (One (9 + col_of c)) as [m2 [F2 G2]]; [apply Hou; auto | apply Hou; auto | ].
  destruct (One (18 + block_of c)) as [m3 [F3 G3]]; [apply Hou; auto | apply Hou; auto | ].
  cbn [rmap fst snd]. rewrite F1. cbn [bind]. rewrite F2. cbn [bind]. rewrite F3. cbn [bind].
  eexists. split; [reflexivity | ]. split.
  - intros h. rewrite Hou. cbn [In]. split.
    + intros [m [E | [E | [E | []]]]]; injection E as <- <-; auto.
    + intros [-> | [-> | ->]]; eexists; auto.
  - intros h m [E | [E | [E | []]]]; injection E as <- <-; assumption.
Qed.

Lemma candidate_adds x : fst x < 81 -> M (fst x) (snd x) ->
  adds (candidate_links pos (P (fst x)) x)
    (fun z => fst z = x /\ ~ paired M x /\ (in_cell M x (snd z) \/ exists h, in_unit M h x (snd z) /\ ~ house_pair M h x (snd z)))
    (fun z => fst z = x /\ (cell_pair M x (snd z) \/ (~ paired M x /\ exists h, house_pair M h x (snd z)))).
Proof.
  intros Hx Mx. assert (Rd := marks_range _ _ Mx). assert (Sp := cell_digits (fst x)).
  destruct (as_set_total EDigit (digit_as_index (snd x))) as [b Eb]; [unfold digit_as_index; cbn [esize]; lia | ].
  set (o := set_xor (P (fst x)) b).
  assert (Mo : forall i, mem o i <-> mem (P (fst x)) i /\ i <> snd x - 1).
  { intros i. unfold o. rewrite mem_xor, (mem_single EDigit _ _ _ Eb). unfold digit_as_index. split; [intros [X | [X ->]]; [exact X | destruct (X (proj2 Mx))] | auto]. }
  assert (So : is_set EDigit o) by (intros i Hi; apply Mo in Hi; apply Sp, Hi).
  assert (Inc : forall y, in_cell M x y <-> exists i, mem o i /\ y = (fst x, S i)).
  { intros [c d]. unfold in_cell, marks. cbn [fst snd]. split.
    - intros [Ec [Nd [_ [_ [H1 H2]]]]]. subst c. exists (d - 1). split; [apply Mo; split; [exact H2 | lia] | ]. f_equal. lia.
    - intros [i [Hi E]]. injection E as -> ->. apply Mo in Hi. destruct Hi as [Hi Ni]. repeat split; try apply Mx; try lia. replace (S i - 1) with i by lia. exact Hi. }
  unfold candidate_links. destruct (unique_cases EDigit o So) as [[Eu No] | [[p [Eu One]] | [Eu [i [j [Mi [Mj Nij]]]]]]].
  2:{ assert (Mp : mem o p) by (apply One; reflexivity). assert (Cp : cell_pair M x (fst x, S p)).
      { split; [apply Inc; exists p; auto | ]. intros d [H1 H2]. cbn [snd]. destruct (Nat.eq_dec d (snd x)) as [E | E]; [left; exact E | right]. assert (d - 1 = p) by (apply One, Mo; split; [exact H2 | lia]). lia. }
      assert (Pp : paired M x) by (exists (fst x, S p); exact Cp).
      exists [], [(x, (fst x, S p))]. split.
      - intros [w s]. rewrite Eb. cbn [bind]. fold o. unfold unique_or_none. rewrite Eu. cbn [bind]. rewrite (from_index_ok p) by exact (So p Mp). reflexivity.
      - split; intros z; split.
        + intros [].
        + intros [_ [N _]]. contradiction.
        + intros [<- | []]. cbn [fst snd]. auto.
        + intros [E [[U _] | [N _]]]; [ | contradiction]. apply Inc in U. destruct U as [q [Mq E']]. apply One in Mq. subst q. left. destruct z as [z1 z2]. cbn [fst snd] in *. subst. reflexivity. }
  (* no strong link in the cell *)
  1,2: assert (Np : ~ paired M x) by (intros [y [U A]]; apply Inc in U; destruct U as [q [Mq ->]]; cbn [snd] in A;
      first [ exact (No q Mq) |
        apply Mo in Mi; apply Mo in Mj; destruct Mi as [Mi Ni], Mj as [Mj Nj];
        assert (Qi : M (fst x) (S i)) by (split; [lia | ]; replace (S i - 1) with i by lia; exact Mi); assert (Qj : M (fst x) (S j)) by (split; [lia | ]; replace (S j - 1) with j by lia; exact Mj);
        apply A in Qi; apply A in Qj; lia ]).
  1,2: destruct (digits_of_ok o So) as [l [El [_ Il]]]; destruct (conflicting_ok x Hx Mx) as [hs [Eh [Ih Jh]]];
    assert (AF : adds (rfold (house_links x) hs) (fun z => exists a, In a hs /\ fst z = x /\ in_unit M (fst a) x (snd z) /\ ~ house_pair M (fst a) x (snd z)) (fun z => exists a, In a hs /\ fst z = x /\ house_pair M (fst a) x (snd z)))
      by (apply adds_fold; intros [h m] Ha; destruct (proj1 (Ih h) (ex_intro _ m Ha)) as [Hh Ihc]; apply house_adds; [exact Hx | exact Hh | exact Ihc | exact Mx | apply Jh, Ha]);
    assert (AC : adds (fun t => Ok (fold_left (fun weak d => link_push weak x (fst x, d)) l (fst t), snd t)) (fun z => fst z = x /\ in_cell M x (snd z)) (fun _ => False))
      by (exists (map (fun d => (x, (fst x, d))) l), []; split; [intros [w s]; cbn [fst snd]; f_equal; f_equal; unfold add; clear; revert w; induction l as [ | d l IH]; intros w; cbn [fold_left map]; [reflexivity | apply IH] | ];
          split; intros z; [ | split; [intros [] | intros []]]; rewrite in_map_iff, Inc; split;
            [intros [d [<- Hd]]; apply Il in Hd; cbn [fst snd]; split; [reflexivity | ]; exists (d - 1); split; [apply Hd | f_equal; lia] |
             intros [E [q [Mq E']]]; exists (S q); split; [destruct z as [z1 z2]; cbn [fst snd] in *; subst; reflexivity | ]; apply Il; split; [assert (Lq := So q Mq); cbn [esize] in Lq; lia | replace (S q - 1) with q by lia; exact Mq]]);
    apply (adds_ext _ _ _ _ _ _ (adds_seq _ _ _ _ _ _ AC AF));
    [ intros [w s]; rewrite Eb; cbn [bind]; fold o; unfold unique_or_none; rewrite Eu; cbn [bind]; rewrite El; cbn [bind]; rewrite Eh; reflexivity
    | intros z; split;
      [ intros [[E U] | [a [Ha [E [U N]]]]]; (split; [exact E | ]); (split; [exact Np | ]); [left; exact U | right; exists (fst a); auto]
      | intros [E [_ [U | [h [U N]]]]]; [left; auto | right]; assert (U' := U); destruct U' as [_ [_ [_ [_ [Hh [Ihx _]]]]]]; destruct (proj2 (Ih h) (conj Hh Ihx)) as [m Hm]; exists (h, m); auto ]
    | intros z; split;
      [ intros [[] | [a [Ha [E U]]]]; split; [exact E | ]; right; split; [exact Np | exists (fst a); exact U]
      | intros [E [U | [_ [h U]]]]; [exfalso; apply Np; exists (snd z); exact U | right]; assert (U' := U); destruct U' as [[_ [_ [_ [_ [Hh [Ihx _]]]]]] _]; destruct (proj2 (Ih h) (conj Hh Ihx)) as [m Hm]; exists (h, m); auto ] ].
Qed.

Theorem links_exact : exists weak strong, find_direct_links poss pos = Ok (weak, strong) /\ forall x y,
  (In y (links_of strong x) <-> cell_pair M x y \/ (~ paired M x /\ exists h, house_pair M h x y)) /\
  (In y (links_of weak x) <-> ~ paired M x /\ (in_cell M x y \/ exists h, in_unit M h x y /\ ~ house_pair M h x y)).
Proof.
  assert (A : adds (rfold (fun cell t => digits <- aget poss cell; l <- digits_of digits; rfold (fun d t => candidate_links pos digits (cell, d) t) l t) (seq 0 81))
    (fun z => exists c, In c (seq 0 81) /\ exists d, M c d /\ fst z = (c, d) /\ ~ paired M (c, d) /\ (in_cell M (c, d) (snd z) \/ exists h, in_unit M h (c, d) (snd z) /\ ~ house_pair M h (c, d) (snd z)))
    (fun z => exists c, In c (seq 0 81) /\ exists d, M c d /\ fst z = (c, d) /\ (cell_pair M (c, d) (snd z) \/ (~ paired M (c, d) /\ exists h, house_pair M h (c, d) (snd z))))).
  { apply adds_fold. intros c Hc. apply in_seq in Hc. destruct (digits_of_ok (P c) (cell_digits c)) as [l [El [_ Il]]].
    assert (Ml : forall d, In d l <-> M c d) by (intros d; rewrite Il; split; [intros [X Y]; split; [lia | exact Y] | intros X; split; [exact (marks_range c d X) | apply X]]).
    eapply adds_ext; [apply (adds_fold (fun d t => candidate_links pos (P c) (c, d) t) (fun d z => fst z = (c, d) /\ ~ paired M (c, d) /\ (in_cell M (c, d) (snd z) \/ exists h, in_unit M h (c, d) (snd z) /\ ~ house_pair M h (c, d) (snd z))) (fun d z => fst z = (c, d) /\ (cell_pair M (c, d) (snd z) \/ (~ paired M (c, d) /\ exists h, house_pair M h (c, d) (snd z)))) l); intros d Hd; apply (candidate_adds (c, d)); [cbn [fst]; lia | cbn [fst snd]; apply Ml, Hd] | | | ].
    - intros t. rewrite (aget_ok poss c 0%N) by (destruct Wp; lia). cbn [bind]. rewrite El. reflexivity.
    - intros z. cbv beta. split; [intros [d [Hd X]]; apply Ml in Hd; exists d; auto | intros [d [Hd X]]; apply Ml in Hd; exists d; auto].
    - intros z. cbv beta. split; [intros [d [Hd X]]; apply Ml in Hd; exists d; auto | intros [d [Hd X]]; apply Ml in Hd; exists d; auto]. }
  destruct A as [lw [ls [E [W Q]]]]. exists (add [] lw), (add [] ls). split; [unfold find_direct_links; rewrite E; reflexivity | ]. intros [c d] y. rewrite !links_add, W, Q. cbn [links_of In fst snd]. split; split.
  - intros [[] | [c' [_ [d' [_ [E' X]]]]]]. injection E' as <- <-. exact X.
  - intros X. right. exists c. assert (Z : c < 81 /\ M c d) by (destruct X as [[[_ [_ [X1 [X2 _]]]] _] | [_ [h [[_ [_ [X1 [_ [_ [_ [_ [X2 _]]]]]]]] _]]]]; auto).
    split; [apply in_seq; lia | ]. exists d. split; [apply Z | ]. auto.
  - intros [[] | [c' [_ [d' [_ [E' X]]]]]]. injection E' as <- <-. exact X.
  - intros X. right. exists c. assert (Z : c < 81 /\ M c d) by (destruct X as [_ [[_ [_ [X1 [X2 _]]]] | [h [[_ [_ [X1 [_ [_ [_ [_ [X2 _]]]]]]]] _]]]]; auto).
    split; [apply in_seq; lia | ]. exists d. split; [apply Z | ]. auto.
Qed.
End Links.

(** * What links say about solutions *)

Lemma weak_exclusive cand x y s : weak_link cand x y -> solved s -> ~ (at_ s (fst x) = snd x /\ at_ s (fst y) = snd y).
Proof.
  intros [[E [N _]] | [h [E [N [Hx [Hy [Hh [Ix [Iy _]]]]]]]]] So [A B]; [congruence | ]. destruct So as [_ [_ Di]].
  apply (Di (fst x) (fst y) Hx Hy); [apply (house_peers h); assumption | congruence].
Qed.
Lemma strong_alternative poss x y s : digit_sets poss -> strong_link (marks poss) x y -> fits (marks poss) s -> at_ s (fst x) = snd x \/ at_ s (fst y) = snd y.
Proof.
  intros Wp [[[E [_ [Hx _]]] A] | [h [[E [_ [Hx [Hy [Hh [Ix [Iy [Mx _]]]]]]]] A]]] [So F].
  - destruct (A _ (F (fst x) Hx)) as [Q | Q]; [left; exact Q | right; congruence].
  - destruct (any_house_has_digit s h (snd x) So Hh (marks_range poss Wp _ _ Mx)) as [c [Hc [Ic Ec]]]. assert (Fc := F c Hc). rewrite Ec in Fc. destruct (A c Hc Ic Fc) as [-> | ->]; [left; exact Ec | right; congruence].
Qed.
Lemma strong_is_weak cand x y : strong_link cand x y -> weak_link cand x y.
Proof. intros [[A _] | [h [A _]]]; [left; exact A | right; exists h; exact A]. Qed.

Lemma links_sound poss pos : digit_sets poss -> places (marks poss) pos -> exists weak strong, find_direct_links poss pos = Ok (weak, strong) /\
  (forall x y, In y (links_of strong x) -> strong_link (marks poss) x y) /\ (forall x y, In y (links_of weak x) -> weak_link (marks poss) x y) /\
  forall s x y, fits (marks poss) s ->
    (In y (links_of strong x) -> (at_ s (fst x) = snd x <-> at_ s (fst y) <> snd y)) /\
    (In y (links_of weak x) -> ~ (at_ s (fst x) = snd x /\ at_ s (fst y) = snd y)).
Proof.
  intros Wp Pl. destruct (links_exact poss pos Wp Pl) as [w [s [E H]]]. exists w, s. split; [exact E | ].
  assert (A : forall x y, In y (links_of s x) -> strong_link (marks poss) x y) by (intros x y Hy; apply H in Hy; destruct Hy as [Q | [_ Q]]; [left | right]; exact Q).
  assert (B : forall x y, In y (links_of w x) -> weak_link (marks poss) x y) by (intros x y Hy; apply H in Hy; destruct Hy as [_ [Q | [h [Q _]]]]; [left; exact Q | right; exists h; exact Q]).
  split; [exact A | ]. split; [exact B | ]. intros g x y F. split; intros Hy.
  - apply A in Hy. assert (N := weak_exclusive _ x y g (strong_is_weak _ x y Hy) (proj1 F)). destruct (strong_alternative poss x y g Wp Hy F) as [Q | Q]; split; intros R; tauto.
  - apply (weak_exclusive _ x y g (B x y Hy) (proj1 F)).
Qed.

(** Nothing is missed for a candidate that is not one of the only two of its cell. *)
Lemma links_complete poss pos : digit_sets poss -> places (marks poss) pos -> exists weak strong, find_direct_links poss pos = Ok (weak, strong) /\
  forall x y, ~ paired (marks poss) x -> (strong_link (marks poss) x y -> In y (links_of strong x)) /\ (weak_link (marks poss) x y -> In y (links_of strong x) \/ In y (links_of weak x)).
Proof.
  intros Wp Pl. destruct (links_exact poss pos Wp Pl) as [w [s [E H]]]. exists w, s. split; [exact E | ]. intros x y N.
  assert (A : strong_link (marks poss) x y -> In y (links_of s x)) by (intros [Q | Q]; apply H; [left; exact Q | right; auto]). split; [exact A | ].
  intros [Q | [h Q]]; [right; apply H; auto | ]. destruct (in_dec cand_dec y (links_of s x)) as [D | D]; [left; exact D | right]. apply H. split; [exact N | ]. right. exists h. split; [exact Q | ].
  intros P. apply D, A. right. exists h. exact P.
Qed.
