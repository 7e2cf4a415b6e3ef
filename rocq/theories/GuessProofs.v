(** The search enumerates exactly the solved grids made of candidates, each once, up to the limit. *)
From Coq Require Import List Arith NArith ZArith ZifyNat Lia Bool.
From Verif Require Import Spec Tables Solver BitLemmas GridProofs TableProofs ProcessProofs StateProofs OpProofs
  SolverInv LoopProofs.
Import ListNotations.
Ltac Zify.zify_post_hook ::= Z.to_euclidean_division_equations.

(** ** Collecting solutions *)
Definition push1 (s : solutions) (g : grid) : solutions :=
  match s with
  | Count n => Count (S n)
  | Vector l => Vector (l ++ [g])
  | Buffer buf n => Buffer (if n <? length buf then lset buf n g else buf) (S n)
  end.
Definition push (s : solutions) (l : list grid) : solutions := fold_left push1 l s.

Lemma push_app s l l' : push s (l ++ l') = push (push s l) l'.
Proof. apply fold_left_app. Qed.

Lemma push_len l : forall s, sols_len (push s l) = sols_len s + length l.
Proof.
  induction l as [ | g t IH]; intros s; cbn [push fold_left length]; [unfold push; simpl; lia | ].
  change (fold_left push1 t (push1 s g)) with (push (push1 s g) t). rewrite IH.
  destruct s; cbn [push1 sols_len]; rewrite ?app_length; cbn [length]; lia.
Qed.

Lemma push_firstn s (l l' : list grid) limit : sols_len s <= limit ->
  let s' := push s (firstn (limit - sols_len s) l) in
  sols_len s' <= limit /\
  push s' (firstn (limit - sols_len s') l') = push s (firstn (limit - sols_len s) (l ++ l')).
Proof.
  intros H s'. assert (E : sols_len s' = sols_len s + Nat.min (limit - sols_len s) (length l)).
  { unfold s'. rewrite push_len, firstn_length. reflexivity. }
  split; [lia | ]. rewrite firstn_app, push_app. fold s'. f_equal. f_equal. lia.
Qed.

(** ** Reading off the solution *)
Lemma combine_seq {A} (d : A) l : forall k, combine (seq k (length l)) l = map (fun i => (i, nth (i - k) l d)) (seq k (length l)).
Proof.
  induction l as [ | x t IH]; intros k; [reflexivity | ]. cbn [length seq combine map].
  rewrite Nat.sub_diag. f_equal. rewrite IH. apply map_ext_in. intros i Hi. apply in_seq in Hi.
  replace (i - k) with (S (i - S k)) by lia. reflexivity.
Qed.

Lemma extract_inner b v l : b < 3 -> (forall i, In i l -> i < 27) -> forall g, length g = 81 ->
  exists g', for_each (map (fun i => 2 ^ N.of_nat i)%N l) (fun m g => aset g (bit_pos m + b * 27) v) g = Ok g' /\
    length g' = 81 /\ forall c, c < 81 -> at_ g' c = if (c / 27 =? b) && existsb (Nat.eqb (c mod 27)) l then v else at_ g c.
Proof.
  intros Hb. induction l as [ | i t IH]; intros Hl g Hg.
  - exists g. split; [reflexivity | ]. split; [exact Hg | ]. intros c Hc. cbn [existsb]. rewrite andb_false_r. reflexivity.
  - assert (Hi : i < 27) by (apply Hl; left; reflexivity).
    cbn [map for_each]. rewrite bit_pos_pow2.
    rewrite aset_ok by (rewrite Hg; lia). cbn [bind].
    destruct (IH (fun x Hx => Hl x (or_intror Hx)) (lset g (i + b * 27) v)) as [g' [E [Hlen Hg']]].
    { rewrite lset_length. exact Hg. }
    exists g'. split; [exact E | ]. split; [exact Hlen | ]. intros c Hc. rewrite Hg' by exact Hc.
    unfold at_ at 1. rewrite nth_lset by (rewrite Hg; lia). cbn [existsb].
    destruct (Nat.eqb_spec (c / 27) b) as [Eb | Eb]; cbn [andb].
    + destruct (Nat.eqb_spec c (i + b * 27)) as [-> | Hne].
      * replace ((i + b * 27) mod 27) with i by lia. rewrite Nat.eqb_refl. cbn [orb].
        destruct (existsb (Nat.eqb i) t); reflexivity.
      * destruct (Nat.eqb_spec (c mod 27) i) as [E1 | E1]; [exfalso; lia | ]. reflexivity.
    + destruct (Nat.eqb_spec c (i + b * 27)) as [-> | Hne]; [exfalso; lia | reflexivity].
Qed.

Definition ext_body (sm : nat * N) (g : list nat) : res (list nat) :=
  let '(sb, mask) := sm in
  ms <- mask_iter mask;
  for_each ms (fun m g => aset g (bit_pos m + sb mod 3 * 27) (sb / 3 + 1)) g.

Lemma extract_unfold st : extract_solution st = for_each (combine (seq 0 27) (poss st)) ext_body (repeat 0 81).
Proof. reflexivity. Qed.

Lemma for_each_cons {A S} (a : A) t (f : A -> S -> res S) s : for_each (a :: t) f s = bind (f a s) (for_each t f).
Proof. reflexivity. Qed.

Lemma ext_body_ok sb m g : m27 m -> ext_body (sb, m) g =
  for_each (map (fun i => 2 ^ N.of_nat i)%N (bits m)) (fun m g => aset g (bit_pos m + sb mod 3 * 27) (sb / 3 + 1)) g.
Proof. intros H. unfold ext_body. rewrite mask_iter_spec by exact H. reflexivity. Qed.

Lemma extract_gen st g : wf st ->
  (forall d c, d < 9 -> c < 81 -> (cand st d c <-> at_ g c = d + 1)) ->
  forall l, (forall sb, In sb l -> sb < 27) -> forall g0, length g0 = 81 ->
     exists g1, for_each (map (fun i => (i, pm st i)) l) ext_body g0 = Ok g1 /\
       length g1 = 81 /\
       forall c, c < 81 -> at_ g1 c = at_ g c \/
         (at_ g1 c = at_ g0 c /\ forall sb, In sb l -> sb mod 3 = c / 27 -> ~ cand st (sb / 3) c).
Proof.
  intros W H. induction l as [ | sb t IH]; intros Hl g0 Hg0.
  - exists g0. split; [reflexivity | ]. split; [exact Hg0 | ]. intros c Hc. right. split; [reflexivity | ]. intros sb [].
  - assert (Hsb : sb < 27) by (apply Hl; left; reflexivity). cbn [map].
    rewrite for_each_cons, ext_body_ok by apply (wf_poss st W).
    assert (Hb : sb mod 3 < 3) by (clear; lia).
    assert (Hbits : forall i, In i (bits (pm st sb)) -> i < 27).
    { intros i Hi. apply in_bits in Hi; [ | apply (wf_poss st W)].
      destruct (Nat.lt_ge_cases i 27); [assumption | ].
      rewrite tb_high27 in Hi by (assumption || apply (wf_poss st W)). discriminate. }
    destruct (extract_inner (sb mod 3) (sb / 3 + 1) (bits (pm st sb)) Hb Hbits g0 Hg0) as [g1 [E1 [L1 H1]]].
    rewrite E1. cbn [bind].
    destruct (IH (fun x Hx => Hl x (or_intror Hx)) g1 L1) as [g2 [E2 [L2 H2]]].
    exists g2. split; [exact E2 | ]. split; [exact L2 | ]. intros c Hc.
    destruct (H2 c Hc) as [K | [K1 K2]]; [left; exact K | ].
    rewrite H1 in K1 by exact Hc.
    destruct (Nat.eqb_spec (c / 27) (sb mod 3)) as [Eb | Eb].
    + rewrite andb_true_l in K1. assert (Esb : 3 * (sb / 3) + c / 27 = sb) by (clear - Eb; lia).
      destruct (existsb (Nat.eqb (c mod 27)) (bits (pm st sb))) eqn:Ex.
      * left. rewrite K1. symmetry. apply H; [clear - Hsb; lia | exact Hc | ].
        apply existsb_nat_eq in Ex. apply in_bits in Ex; [ | apply (wf_poss st W)].
        unfold cand. rewrite Esb. exact Ex.
      * right. split; [exact K1 | ]. intros x [<- | Hx] E; [ | auto].
        intros Hcand. apply not_true_iff_false in Ex. apply Ex. apply existsb_nat_eq. apply in_bits; [apply (wf_poss st W) | ].
        unfold cand in Hcand. rewrite Esb in Hcand. exact Hcand.
    + rewrite andb_false_l in K1. right. split; [exact K1 | ]. intros x [<- | Hx] E; [congruence | auto].
Qed.

Lemma extract_spec st g : wf st -> solved g ->
  (forall d c, d < 9 -> c < 81 -> (cand st d c <-> at_ g c = d + 1)) ->
  extract_solution st = Ok g.
Proof.
  intros W Hs H. rewrite extract_unfold.
  assert (Ec : combine (seq 0 27) (poss st) = map (fun i => (i, pm st i)) (seq 0 27)).
  { rewrite <- (wf_poss_len st W). rewrite (combine_seq 0%N). apply map_ext. intros i.
    rewrite Nat.sub_0_r. reflexivity. }
  rewrite Ec.
  assert (Hseq : forall sb, In sb (seq 0 27) -> sb < 27) by (intros sb Hsb; apply in_seq in Hsb; lia).
  destruct (extract_gen st g W H (seq 0 27) Hseq (repeat 0 81) (repeat_length _ _)) as [g1 [E1 [L1 H1]]].
  rewrite E1. f_equal. apply grid_ext; [exact L1 | apply Hs | ]. intros c Hc.
  destruct (H1 c Hc) as [K | [_ K]]; [exact K | ]. exfalso.
  pose proof (solved_digit g c Hs Hc) as Hd.
  apply (K (3 * (at_ g c - 1) + c / 27)); [apply in_seq; lia | lia | ].
  replace ((3 * (at_ g c - 1) + c / 27) / 3) with (at_ g c - 1) by lia.
  apply H; [exact Hd | exact Hc | ]. destruct Hs as [_ [Hr _]]. specialize (Hr c Hc). lia.
Qed.

(** ** The search *)
(** [rec] enumerates the solutions of every propagated state with fewer than [n] candidates. *)
Definition enumerates (run : nat -> solutions -> res solutions) (P : grid -> Prop) : Prop :=
  exists L, NoDup L /\ (forall g, In g L <-> P g) /\
    forall limit sols, sols_len sols <= limit ->
      run limit sols = Ok (push sols (firstn (limit - sols_len sols) L)).
Definition enumerates_lt (run : nat -> solutions -> res solutions) (P : grid -> Prop) : Prop :=
  exists L, NoDup L /\ (forall g, In g L <-> P g) /\
    forall limit sols, sols_len sols < limit ->
      run limit sols = Ok (push sols (firstn (limit - sols_len sols) L)).

Definition good (rec : nat -> state -> solutions -> res solutions) (n : nat) : Prop :=
  forall st, INVx st -> Fix st -> (is_solved st = true \/ ready st) -> pop st < n ->
    enumerates_lt (fun limit => rec limit st) (fun g => solved g /\ contained st g).

(** Insertion into an unsolved cell of a propagated state removes a candidate. *)
Lemma insert_strict st st' d c : INVx st -> Fix st -> d < 9 -> c < 81 -> cand st d c -> uns st c -> sub st' st ->
  ((forall d' c', d' < 9 -> c' < 81 -> cand st d' c' -> cand st' d' c') -> lone_cell (cand st d) (c / 27) c) ->
  pop st' < pop st.
Proof.
  intros HI F Hd Hc Hcand Hu S1 L1.
  pose proof (pop_mono _ _ S1) as P2.
  destruct (Nat.eq_dec (pop st') (pop st)) as [E | E]; [ | lia]. exfalso.
  pose proof (L1 (pop_same _ _ S1 E)) as Lone.
  destruct HI as [W [a I]].
  destruct (j_lone _ _ I d (c / 27) c Hd ltac:(lia) Hc) as [K _]; auto.
  { intros Z. unfold cand in Hcand. rewrite (F (3 * d + c / 27)) in Hcand by lia.
    rewrite Z, tb_0 in Hcand. discriminate. }
  apply (lone_cell_ext (cand st d)); auto.
  intros c1 H1 H2. symmetry. apply Fix_pcand; auto.
Qed.

Lemma solve_spec st limit sols : INVx st -> sols_len sols < limit ->
  (solve_ st limit sols = Unsolv /\ forall s, solved s -> ~ contained st s) \/
  exists st', solve_ st limit sols = Ok st' /\ step_ok st st' /\ Fix st' /\ (is_solved st' = true \/ ready st').
Proof.
  intros HI H. unfold solve_.
  replace (sols_len sols <=? limit) with true by (symmetry; apply Nat.leb_le; lia). cbn [negb].
  replace (sols_len sols =? limit) with false by (symmetry; apply Nat.eqb_neq; lia).
  apply solve_loop_spec; [exact HI | ]. pose proof (pop_le st). unfold solve_fuel. lia.
Qed.

Lemma solve_indep st limit sols limit' sols' : sols_len sols < limit -> sols_len sols' < limit' ->
  solve_ st limit sols = solve_ st limit' sols'.
Proof.
  intros H H'. unfold solve_.
  replace (sols_len sols <=? limit) with true by (symmetry; apply Nat.leb_le; lia).
  replace (sols_len sols =? limit) with false by (symmetry; apply Nat.eqb_neq; lia).
  replace (sols_len sols' <=? limit') with true by (symmetry; apply Nat.leb_le; lia).
  replace (sols_len sols' =? limit') with false by (symmetry; apply Nat.eqb_neq; lia). reflexivity.
Qed.

Lemma solve_full st limit sols : sols_len sols = limit -> solve_ st limit sols = Unsolv.
Proof.
  intros <-. unfold solve_. rewrite Nat.leb_refl, Nat.eqb_refl. reflexivity.
Qed.

(** Propagate and search: the solutions of any state. *)
Lemma solve_rec rec n st : good rec n -> INVx st -> pop st < n ->
  enumerates (fun limit sols => match solve_ st limit sols with
                                | Ok st2 => rec limit st2 sols
                                | Unsolv => Ok sols
                                | Panic => Panic
                                | NoFuel => NoFuel
                                end) (fun g => solved g /\ contained st g).
Proof.
  intros G HI Hp. 
  destruct (solve_spec st 1 (Count 0) HI ltac:(cbn; lia)) as [[E H] | [st2 [E [S2 [F2 R2]]]]].
  - exists []. split; [constructor | ]. split; [intros g; split; [intros [] | intros [Hs Hc]; apply (H g Hs Hc)] | ].
    intros limit sols Hl. rewrite firstn_nil. unfold push. cbn [fold_left].
    destruct (Nat.eq_dec (sols_len sols) limit) as [El | El].
    + rewrite solve_full by exact El. reflexivity.
    + rewrite (solve_indep st limit sols 1 (Count 0)) by (cbn; lia). rewrite E. reflexivity.
  - pose proof (pop_mono _ _ (s_sub _ _ S2)).
    destruct (G st2 (s_inv _ _ S2) F2 R2 ltac:(lia)) as [L [Hnd [Hin HL]]].
    exists L. split; [exact Hnd | ]. split.
    + intros g. rewrite Hin. split; intros [Hs Hc]; (split; [exact Hs | ]).
      * eapply sub_contained; [exact Hs | apply (s_sub _ _ S2) | exact Hc].
      * apply (s_sol _ _ S2); assumption.
    + intros limit sols Hl. destruct (Nat.eq_dec (sols_len sols) limit) as [El | El].
      * rewrite solve_full by exact El. rewrite El, Nat.sub_diag. reflexivity.
      * rewrite (solve_indep st limit sols 1 (Count 0)) by (cbn; lia). rewrite E. apply HL. lia.
Qed.

Lemma try_spec rec n st d c : good rec n -> INVx st -> d < 9 -> c < 81 -> cand st d c -> uns st c ->
  pop st < n \/ (pop st <= n /\ Fix st) ->
  enumerates (fun limit sols => try_candidate (rec limit) st limit (3 * d + c / 27) (2 ^ N.of_nat (c mod 27)) sols)
    (fun g => solved g /\ contained st g /\ at_ g c = d + 1).
Proof.
  intros G HI Hd Hc Hcand Hu Hp.
  destruct (insert_by_mask_step st d c HI Hd Hc Hcand) as [st1 [E1 [I1 [S1 [U1 [V1 [W1 [C1 L1]]]]]]]].
  assert (Hp1 : pop st1 < n).
  { destruct Hp as [Hp | [Hp F]].
    - pose proof (pop_mono _ _ S1). lia.
    - pose proof (insert_strict st st1 d c HI F Hd Hc Hcand Hu S1 L1). lia. }
  destruct (solve_rec rec n st1 G I1 Hp1) as [L [Hnd [Hin HL]]].
  exists L. split; [exact Hnd | ]. split.
  - intros g. rewrite Hin. split.
    + intros [Hs Hcon]. split; [exact Hs | ]. apply C1; assumption.
    + intros [Hs Hcon]. split; [exact Hs | ]. apply C1; assumption.
  - intros limit sols Hl. unfold try_candidate. rewrite E1. cbn [bind]. apply HL. exact Hl.
Qed.

Lemma NoDup_app_disj {A} (l l' : list A) : NoDup l -> NoDup l' -> (forall x, In x l -> ~ In x l') -> NoDup (l ++ l').
Proof.
  induction l as [ | a t IH]; intros H H' Hd; [exact H' | ]. inversion H; subst. cbn [app]. constructor.
  - rewrite in_app_iff. intros [K | K]; [contradiction | ]. apply (Hd a); [left; reflexivity | exact K].
  - apply IH; auto. intros x Hx. apply Hd. right. exact Hx.
Qed.

(** Two enumerations one after the other. *)
Lemma enumerates_app r1 r2 (P1 P2 P : grid -> Prop) : enumerates r1 P1 -> enumerates r2 P2 ->
  (forall g, P g <-> P1 g \/ P2 g) -> (forall g, P1 g -> P2 g -> False) ->
  enumerates (fun limit sols => s <- r1 limit sols; r2 limit s) P.
Proof.
  intros [L1 [N1 [I1 H1]]] [L2 [N2 [I2 H2]]] HP Hd. exists (L1 ++ L2). split; [ | split].
  - apply NoDup_app_disj; auto. intros g G1 G2. apply (Hd g); [apply I1 | apply I2]; assumption.
  - intros g. rewrite in_app_iff, I1, I2, HP. reflexivity.
  - intros limit sols Hl. rewrite H1 by exact Hl. cbn [bind].
    destruct (push_firstn sols L1 L2 limit Hl) as [K1 K2]. rewrite H2 by exact K1. f_equal. exact K2.
Qed.

Lemma enumerates_ext r1 r2 (P Q : grid -> Prop) : enumerates r1 P -> (forall g, P g <-> Q g) ->
  (forall limit sols, sols_len sols <= limit -> r2 limit sols = r1 limit sols) -> enumerates r2 Q.
Proof.
  intros [L1 [N1 [I1 H1]]] HP Hr. exists L1. split; [exact N1 | ]. split; [intros g; rewrite I1; apply HP | ].
  intros limit sols Hl. rewrite Hr by exact Hl. apply H1. exact Hl.
Qed.

(** ** Guessing an arbitrary unsolved cell *)
Lemma some_cell_spec rec n c : good rec n -> c < 81 -> forall ds, NoDup ds -> (forall d, In d ds -> d < 9) ->
  forall st, INVx st -> uns st c -> pop st < n \/ (pop st <= n /\ Fix st) ->
  enumerates (fun limit sols => some_cell_loop (rec limit) st limit (2 ^ N.of_nat (c mod 27)) sols
                                  (map (fun d => 3 * d + c / 27) ds))
    (fun g => solved g /\ contained st g /\ exists d, In d ds /\ at_ g c = d + 1).
Proof.
  intros G Hc. induction ds as [ | d t IH]; intros Hnd Hds st HI Hu Hp.
  - exists []. split; [constructor | ]. split; [intros g; split; [intros [] | intros [_ [_ [d [[] _]]]]] | ].
    intros limit sols Hl. rewrite firstn_nil. reflexivity.
  - assert (Hd : d < 9) by (apply Hds; left; reflexivity).
    inversion Hnd as [ | ? ? Hnin Hnd']; subst.
    assert (W : wf st) by apply HI.
    assert (Ez : (N.land (nth (3 * d + c / 27) (poss st) 0%N) (2 ^ N.of_nat (c mod 27)) =? 0)%N = negb (candb st d c))
      by apply land_pow2_zero.
    destruct (candb st d c) eqn:Ec.
    + apply candb_true in Ec.
      destruct (remove_step st d c HI Hd Hc Ec Hu) as [l [E1 [I1 [C1 D1]]]].
      assert (Hp1 : pop (set_poss st l) < pop st).
      { apply (pop_strict st (set_poss st l) d c); auto.
        - intros d' c' Hd' Hc' K. apply C1 in K; tauto.
        - intros K. apply C1 in K; tauto. }
      pose proof (try_spec rec n st d c G HI Hd Hc Ec Hu Hp) as T.
      pose proof (IH Hnd' (fun x Hx => Hds x (or_intror Hx)) (set_poss st l) I1 Hu ltac:(left; lia)) as T2.
      eapply enumerates_ext; [apply (enumerates_app _ _ _ _ (fun g => solved g /\ contained st g /\ exists x, In x (d :: t) /\ at_ g c = x + 1) T T2) | | ].
      * intros g. split.
        -- intros [Hs [Hcon [x [[<- | Hx] E]]]]; [left; auto | ].
           right. split; [exact Hs | ]. split; [ | exists x; auto]. apply D1; [exact Hs | ]. split; [exact Hcon | ].
           rewrite E. intros K. assert (x = d) by lia. subst. contradiction.
        -- intros [[Hs [Hcon E]] | [Hs [Hcon [x [Hx E]]]]].
           ++ split; [exact Hs | ]. split; [exact Hcon | ]. exists d. split; [left; reflexivity | exact E].
           ++ split; [exact Hs | ]. split; [apply D1 in Hcon; tauto | ]. exists x. split; [right; exact Hx | exact E].
      * intros g [Hs [_ E]] [_ [Hcon _]]. apply D1 in Hcon; tauto.
      * intros g. reflexivity.
      * intros limit sols Hl. cbn [map some_cell_loop].
        rewrite (aget_ok _ _ 0%N) by (rewrite (wf_poss_len st W); lia). cbn [bind]. rewrite Ez. cbn [negb].
        destruct T as [L [_ [_ HL]]]. rewrite HL by exact Hl. cbn [bind].
        destruct (push_firstn sols L [] limit Hl) as [K1 _].
        destruct (Nat.eqb_spec (sols_len (push sols (firstn (limit - sols_len sols) L))) limit) as [Ef | Ef].
        -- destruct T2 as [L2 [_ [_ HL2]]]. rewrite HL2 by lia. rewrite Ef, Nat.sub_diag. reflexivity.
        -- rewrite E1. cbn [bind]. reflexivity.
    + pose proof (IH Hnd' (fun x Hx => Hds x (or_intror Hx)) st HI Hu Hp) as T2.
      eapply enumerates_ext; [exact T2 | | ].
      * intros g. split.
        -- intros [Hs [Hcon [x [Hx E]]]]. split; [exact Hs | ]. split; [exact Hcon | ]. exists x. split; [right; exact Hx | exact E].
        -- intros [Hs [Hcon [x [[<- | Hx] E]]]].
           ++ exfalso. specialize (Hcon c Hc). rewrite E in Hcon. replace (d + 1 - 1) with d in Hcon by lia.
              apply candb_true in Hcon. congruence.
           ++ split; [exact Hs | ]. split; [exact Hcon | ]. exists x. auto.
      * intros limit sols Hl. cbn [map some_cell_loop].
        rewrite (aget_ok _ _ 0%N) by (rewrite (wf_poss_len st W); lia). cbn [bind]. rewrite Ez. cbn [negb]. reflexivity.
Qed.

(** The cell chosen by [best_guess] is unsolved. *)
Lemma n_candidates_ok st b mask : wf st -> b < 3 -> exists n, n_candidates st b mask = Ok n.
Proof.
  intros W Hb. unfold n_candidates.
  assert (H : forall l n, (forall sb, In sb l -> sb < 27) -> exists n', for_each l
     (fun sb n => p <- aget (poss st) sb; Ok (if negb (N.land p mask =? 0)%N then S n else n)) n = Ok n').
  { induction l as [ | sb t IH]; intros n Hl; [exists n; reflexivity | ]. cbn [for_each].
    rewrite (aget_ok _ _ 0%N) by (rewrite (wf_poss_len st W); apply Hl; left; reflexivity). cbn [bind].
    apply IH. intros x Hx. apply Hl. right. exact Hx. }
  apply H. intros sb Hsb. apply (band_subbands_lt b); assumption.
Qed.

Definition unsolved_guess (st : state) (o : option (nat * nat * N)) : Prop :=
  match o with
  | None => True
  | Some (_, b, m) => exists c, c < 81 /\ b = c / 27 /\ m = (2 ^ N.of_nat (c mod 27))%N /\ uns st c
  end.

Lemma best_guess_spec st : wf st -> is_solved st = false ->
  exists n c, c < 81 /\ uns st c /\ best_guess st = Ok (Some (n, c / 27, (2 ^ N.of_nat (c mod 27))%N)).
Proof.
  intros W Hs. unfold best_guess.
  set (body := fun band best => _).
  assert (Hstep : forall b o, b < 3 -> unsolved_guess st o ->
            exists o', body b o = Ok o' /\ unsolved_guess st o' /\ (o <> None \/ um st b <> 0%N -> o' <> None)).
  { intros b o Hb Ho. unfold body. rewrite (aget_ok _ _ 0%N) by (rewrite (wf_uns_len st W); exact Hb). cbn [bind].
    fold (um st b). pose proof (mask_first_spec (um st b) (wf_uns st W b)) as Hm.
    destruct (mask_first (um st b)) as [m | ].
    - destruct Hm as [i [Hi [Hbit ->]]]. destruct (n_candidates_ok st b (2 ^ N.of_nat i) W Hb) as [n En].
      rewrite En. cbn [bind]. 
      assert (Hnew : exists c, c < 81 /\ b = c / 27 /\ (2 ^ N.of_nat i = 2 ^ N.of_nat (c mod 27))%N /\ uns st c).
      { exists (27 * b + i). unfold uns. replace ((27 * b + i) / 27) with b by lia.
        replace ((27 * b + i) mod 27) with i by lia. repeat split; [lia | exact Hbit]. }
      destruct o as [[[n' b'] m'] | ].
      + destruct (n <? n'); eexists; (split; [reflexivity | ]; split; [assumption | intros _; discriminate]).
      + eexists. split; [reflexivity | ]. split; [assumption | intros _; discriminate].
    - exists o. split; [reflexivity | ]. split; [exact Ho | ]. intros [K | K]; [exact K | contradiction]. }
  cbn [for_each].
  destruct (Hstep 0 None ltac:(lia) I) as [o0 [E0 [U0 N0]]]. rewrite E0. cbn [bind].
  destruct (Hstep 1 o0 ltac:(lia) U0) as [o1 [E1 [U1 N1]]]. rewrite E1. cbn [bind].
  destruct (Hstep 2 o1 ltac:(lia) U1) as [o2 [E2 [U2 N2]]]. rewrite E2. cbn [bind].
  assert (Ho : o2 <> None).
  { destruct (N.eq_dec (um st 0) 0) as [Z0 | Z0]; [ | apply N2; left; apply N1; left; apply N0; right; exact Z0].
    destruct (N.eq_dec (um st 1) 0) as [Z1 | Z1]; [ | apply N2; left; apply N1; right; exact Z1].
    destruct (N.eq_dec (um st 2) 0) as [Z2 | Z2]; [ | apply N2; right; exact Z2].
    exfalso. apply not_true_iff_false in Hs. apply Hs. apply is_solved_iff; [exact W | ].
    intros c Hc. unfold uns. assert (Hb : c / 27 = 0 \/ c / 27 = 1 \/ c / 27 = 2) by lia.
    rewrite not_true_iff_false. destruct Hb as [-> | [-> | ->]]; rewrite ?Z0, ?Z1, ?Z2, tb_0; reflexivity. }
  destruct o2 as [[[n b] m] | ]; [ | congruence]. destruct U2 as [c [Hc [-> [-> Hu]]]].
  exists n, c. auto.
Qed.

(** ** Guessing a cell with two candidates *)
Lemma bivalue_second rec st limit mask b d2 sols : wf st -> b < 3 -> d2 < 9 ->
  (N.land (nth (3 * d2 + b) (poss st) 0%N) mask =? 0)%N = false ->
  forall k fuel, d2 - k < fuel -> k <= d2 ->
  (forall d, k <= d < d2 -> (N.land (nth (3 * d + b) (poss st) 0%N) mask =? 0)%N = true) ->
  bivalue_loop rec fuel st limit (3 * k + b) mask false sols = try_candidate rec st limit (3 * d2 + b) mask sols.
Proof.
  intros W Hb Hd2 Hm k fuel. revert k. induction fuel as [ | f IH]; intros k Hf Hk Hno; [lia | ].
  cbn [bivalue_loop]. rewrite (aget_ok _ _ 0%N) by (rewrite (wf_poss_len st W); lia). cbn [bind].
  destruct (Nat.eq_dec k d2) as [-> | Hne].
  - rewrite Hm. reflexivity.
  - rewrite Hno by lia. cbn [negb]. replace (3 * k + b + 3) with (3 * (k + 1) + b) by lia.
    apply IH; [lia | lia | ]. intros d Hd. apply Hno. lia.
Qed.

Lemma bivalue_first rec st limit mask b d1 sols : wf st -> b < 3 -> d1 < 9 ->
  (N.land (nth (3 * d1 + b) (poss st) 0%N) mask =? 0)%N = false ->
  forall k fuel, d1 - k < fuel -> k <= d1 ->
  (forall d, k <= d < d1 -> (N.land (nth (3 * d + b) (poss st) 0%N) mask =? 0)%N = true) ->
  bivalue_loop rec fuel st limit (3 * k + b) mask true sols =
    (sols' <- try_candidate rec st limit (3 * d1 + b) mask sols;
     l <- amod (poss st) (3 * d1 + b) (fun x => N.lxor x mask);
     bivalue_loop rec (fuel - S (d1 - k)) (set_poss st l) limit (3 * (d1 + 1) + b) mask false sols').
Proof.
  intros W Hb Hd1 Hm k fuel. revert k. induction fuel as [ | f IH]; intros k Hf Hk Hno; [lia | ].
  cbn [bivalue_loop]. rewrite (aget_ok _ _ 0%N) by (rewrite (wf_poss_len st W); lia). cbn [bind].
  destruct (Nat.eq_dec k d1) as [-> | Hne].
  - rewrite Hm. cbn [negb]. replace (3 * d1 + b + 3) with (3 * (d1 + 1) + b) by lia.
    replace (S f - S (d1 - d1)) with f by lia. reflexivity.
  - rewrite Hno by lia. cbn [negb]. replace (3 * k + b + 3) with (3 * (k + 1) + b) by lia.
    rewrite IH; [ | lia | lia | intros d Hd; apply Hno; lia].
    replace (S f - S (d1 - k)) with (f - S (d1 - (k + 1))) by lia. reflexivity.
Qed.

Lemma two_cands st c : length (cands st c) = 2 ->
  exists d1 d2, d1 < d2 /\ d2 < 9 /\ cand st d1 c /\ cand st d2 c /\ forall d, d < 9 -> cand st d c -> d = d1 \/ d = d2.
Proof.
  intros H. pose proof (cands_NoDup st c) as Hnd. pose proof (in_cands st c) as Hin.
  destruct (cands st c) as [ | x [ | y [ | ]]]; cbn [length] in H; try lia.
  assert (Hx : x < 9 /\ cand st x c) by (apply Hin; left; reflexivity).
  assert (Hy : y < 9 /\ cand st y c) by (apply Hin; right; left; reflexivity).
  assert (Hne : x <> y) by (inversion Hnd; subst; intros ->; apply H2; left; reflexivity).
  assert (Hall : forall d, d < 9 -> cand st d c -> d = x \/ d = y).
  { intros d Hd Hc. assert (In d [x; y]) as [ | [ | []]] by (apply Hin; auto); auto. }
  destruct (Nat.lt_ge_cases x y).
  - exists x, y. repeat split; try tauto.
  - exists y, x. repeat split; try tauto; try lia; intros d Hd Hc; destruct (Hall d Hd Hc); auto.
Qed.

Lemma bivalue_spec rec n st c : good rec n -> INVx st -> Fix st -> c < 81 -> length (cands st c) = 2 -> pop st <= n ->
  enumerates (fun limit sols => bivalue_loop (rec limit) 10 st limit (c / 27) (2 ^ N.of_nat (c mod 27)) true sols)
    (fun g => solved g /\ contained st g).
Proof.
  intros G HI F Hc H2 Hp. assert (W : wf st) by apply HI.
  destruct (two_cands st c H2) as [d1 [d2 [H12 [Hd2 [C1 [C2 Call]]]]]].
  assert (Hd1 : d1 < 9) by lia.
  assert (Hu : uns st c).
  { destruct (uns_dec st c) as [ | U]; [assumption | ]. exfalso. destruct HI as [_ [a I]].
    pose proof (i_cell _ _ I c d1 Hc Hd1 U C1). pose proof (i_cell _ _ I c d2 Hc Hd2 U C2). lia. }
  destruct (remove_step st d1 c HI Hd1 Hc C1 Hu) as [l [E1 [I1 [R1 D1]]]].
  assert (Hp1 : pop (set_poss st l) < pop st).
  { apply (pop_strict st (set_poss st l) d1 c); auto.
    - intros d' c' Hd' Hc' K. apply R1 in K; tauto.
    - intros K. apply R1 in K; tauto. }
  assert (C2' : cand (set_poss st l) d2 c) by (apply R1; auto; split; [exact C2 | lia]).
  pose proof (try_spec rec n st d1 c G HI Hd1 Hc C1 Hu ltac:(right; auto)) as T1.
  pose proof (try_spec rec n (set_poss st l) d2 c G I1 Hd2 Hc C2' Hu ltac:(left; lia)) as T2.
  assert (Hz : forall s d, (N.land (nth (3 * d + c / 27) (poss s) 0%N) (2 ^ N.of_nat (c mod 27)) =? 0)%N = negb (candb s d c))
    by (intros; apply land_pow2_zero).
  assert (Hzf : forall s d, cand s d c -> (N.land (nth (3 * d + c / 27) (poss s) 0%N) (2 ^ N.of_nat (c mod 27)) =? 0)%N = false).
  { intros s d K. rewrite Hz. apply negb_false_iff. exact K. }
  assert (Hzt : forall s d, ~ cand s d c -> (N.land (nth (3 * d + c / 27) (poss s) 0%N) (2 ^ N.of_nat (c mod 27)) =? 0)%N = true).
  { intros s d K. rewrite Hz. apply negb_true_iff. apply candb_false. exact K. }
  eapply enumerates_ext; [apply (enumerates_app _ _ _ _ (fun g => solved g /\ contained st g) T1 T2) | | ].
  - intros g. split.
    + intros [Hs Hcon]. pose proof (Hcon c Hc) as K. pose proof (solved_digit g c Hs Hc) as Kd.
      assert (Hr : 1 <= at_ g c) by (destruct Hs as [_ [Hr _]]; specialize (Hr c Hc); lia).
      destruct (Call _ Kd K) as [E | E].
      * left. split; [exact Hs | ]. split; [exact Hcon | lia].
      * right. split; [exact Hs | ]. split; [ | lia]. apply D1; [exact Hs | ]. split; [exact Hcon | lia].
    + intros [[Hs [Hcon _]] | [Hs [Hcon _]]]; (split; [exact Hs | ]); [exact Hcon | apply D1 in Hcon; tauto].
  - intros g [Hs [_ E]] [_ [_ E']]. lia.
  - intros g. reflexivity.
  - intros limit sols Hl. cbv beta.
    replace (c / 27) with (3 * 0 + c / 27) at 1 by lia.
    rewrite (bivalue_first (rec limit) st limit _ (c / 27) d1 sols W ltac:(lia) Hd1 (Hzf _ _ C1) 0 10 ltac:(lia) ltac:(lia)).
    + destruct (try_candidate (rec limit) st limit (3 * d1 + c / 27) (2 ^ N.of_nat (c mod 27)) sols); cbn [bind]; try reflexivity.
      rewrite E1. cbn [bind].
      apply bivalue_second; auto; try lia.
      * apply I1.
      * intros d Hd. apply Hzt. intros K. apply R1 in K; try lia. destruct K as [K _].
        destruct (Call d ltac:(lia) K); lia.
    + intros d Hd. apply Hzt. intros K. destruct (Call d ltac:(lia) K); lia.
Qed.

(** ** [guess] *)
Lemma guess_spec fuel : good (guess fuel) fuel.
Proof.
  induction fuel as [ | f IH]; intros st HI F HR Hp; [lia | ].
  assert (W : wf st) by apply HI.
  destruct (is_solved st) eqn:Es.
  - destruct (finished st HI F Es) as [g [Hg Hcand]].
    exists [g]. split; [constructor; [intros [] | constructor] | ]. split.
    + intros g'. cbn [In]. split.
      * intros [<- | []]. split; [exact Hg | ]. intros c Hc. pose proof (solved_digit g c Hg Hc).
        apply Hcand; auto. destruct Hg as [_ [Hr _]]. specialize (Hr c Hc). lia.
      * intros [Hs Hcon]. left. apply grid_ext; [apply Hg | apply Hs | ]. intros c Hc.
        pose proof (solved_digit g' c Hs Hc) as Hd. pose proof (Hcon c Hc) as K. apply Hcand in K; auto.
        destruct Hs as [_ [Hr _]]. specialize (Hr c Hc). lia.
    + intros limit sols Hl. cbn [guess]. rewrite Es.
      replace (limit - sols_len sols) with (S (limit - sols_len sols - 1)) by lia. cbn [firstn]. rewrite firstn_nil.
      unfold push. cbn [fold_left]. unfold record. apply Nat.ltb_lt in Hl. rewrite Hl. cbn [negb].
      rewrite (extract_spec st g W Hg Hcand).
      destruct sols as [n | l | buf n]; [reflexivity | reflexivity | ].
      cbn [push1]. destruct (n <? length buf); reflexivity.
  - destruct HR as [HR | HR]; [discriminate | ].
    (* the bands in order: first cell with two candidates *)
    assert (Hbi : forall bands, (forall b, In b bands -> b < 3) ->
      (forall limit sols, guess_bivalue (guess f limit) st limit sols bands = Ok None) \/
      exists c, c < 81 /\ length (cands st c) = 2 /\ forall limit sols, 
        guess_bivalue (guess f limit) st limit sols bands =
        (s <- bivalue_loop (guess f limit) 10 st limit (c / 27) (2 ^ N.of_nat (c mod 27)) true sols; Ok (Some s))).
    { induction bands as [ | b t IHb]; intros Hb; [left; reflexivity | ].
      assert (Hb3 : b < 3) by (apply Hb; left; reflexivity).
      pose proof (mask_first_spec (prm st b) (wf_pairs st W b)) as Hm.
      assert (Eg : aget (pairs st) b = Ok (prm st b)) by (apply aget_ok; rewrite (wf_pairs_len st W); exact Hb3).
      cbn [guess_bivalue]. rewrite Eg. cbn [bind].
      destruct (mask_first (prm st b)) as [m | ].
      - right. destruct Hm as [i [Hi [Hbit ->]]]. exists (27 * b + i).
        replace ((27 * b + i) / 27) with b by lia. replace ((27 * b + i) mod 27) with i by lia.
        split; [lia | ]. split; [ | reflexivity].
        rewrite (HR b Hb3 i Hi) in Hbit. apply Nat.eqb_eq in Hbit. exact Hbit.
      - apply IHb. intros x Hx. apply Hb. right. exact Hx. }
    destruct (Hbi [0; 1; 2] ltac:(cbn [In]; lia)) as [Hnone | [c [Hc [H2 Hsome]]]].
    + destruct (best_guess_spec st W Es) as [n [c [Hc [Hu Eb]]]].
      destruct (some_cell_spec (guess f) f c IH Hc (seq 0 9) (seq_NoDup _ _)
        ltac:(intros d Hd; apply in_seq in Hd; lia) st HI Hu ltac:(right; split; [lia | exact F])) as [L [Hnd [Hin HL]]].
      exists L. split; [exact Hnd | ]. split.
      * intros g. rewrite Hin. split; [tauto | ]. intros [Hs Hcon]. split; [exact Hs | ]. split; [exact Hcon | ].
        exists (at_ g c - 1). pose proof (solved_digit g c Hs Hc). split; [apply in_seq; lia | ].
        destruct Hs as [_ [Hr _]]. specialize (Hr c Hc). lia.
      * intros limit sols Hl. cbn [guess]. rewrite Es, Hnone. cbn [bind].
        unfold guess_some_cell. rewrite Eb. cbn [bind]. apply HL. lia.
    + destruct (bivalue_spec (guess f) f st c IH HI F Hc H2 ltac:(lia)) as [L [Hnd [Hin HL]]].
      exists L. split; [exact Hnd | ]. split; [exact Hin | ].
      intros limit sols Hl. cbn [guess]. rewrite Es, Hsome. rewrite HL by lia. reflexivity.
Qed.

(** ** Reading the clues *)
Lemma nth_repeat_in {A} (x d : A) n : forall j, j < n -> nth j (repeat x n) d = x.
Proof. induction n as [ | n IH]; intros [ | j] H; simpl; try lia; auto. apply IH. lia. Qed.

Lemma init_wf : wf init_state.
Proof.
  constructor; try reflexivity; apply nth_m27; unfold init_state; cbn [poss prev unsolved pairs];
    intros j Hj; rewrite repeat_length in Hj; rewrite nth_repeat_in by exact Hj; first [apply m27_ALL | apply m27_0].
Qed.

Lemma init_cand d c : d < 9 -> c < 81 -> cand init_state d c.
Proof.
  intros Hd Hc. unfold cand, pm, init_state. cbn [poss]. rewrite nth_repeat_in by lia. rewrite tb_ALL.
  apply Nat.ltb_lt. lia.
Qed.

Lemma init_uns c : c < 81 -> uns init_state c.
Proof.
  intros Hc. unfold uns, um, init_state. cbn [unsolved]. rewrite nth_repeat_in by lia. rewrite tb_ALL.
  apply Nat.ltb_lt. lia.
Qed.

Lemma init_prev sb : qm init_state sb = 0%N.
Proof.
  unfold qm, init_state. cbn [prev]. destruct (Nat.lt_ge_cases sb 27).
  - apply nth_repeat_in. exact H.
  - apply nth_overflow. rewrite repeat_length. exact H.
Qed.

Lemma init_INVx : INVx init_state.
Proof.
  split; [apply init_wf | ]. exists (fun _ => 0).
  assert (Hq : forall (Q : Prop) sb, qm init_state sb <> 0%N -> Q) by (intros Q sb H; rewrite init_prev in H; congruence).
  constructor; try (intros; exfalso; match goal with H : ~ uns _ _ |- _ => apply H; apply init_uns; assumption end).
  - intros d r _ _ H. exact (Hq _ _ H).
  - intros d r _ _ H. exact (Hq _ _ H).
  - intros d b c _ _ _ H. exact (Hq _ _ H).
  - intros d b c _ _ _ H. exact (Hq _ _ H).
  - intros d c _ _ H. exact (Hq _ _ H).
Qed.

Lemma insert_contained st st' d c s : insert_post st st' d c -> d < 9 -> c < 81 -> solved s ->
  (contained st' s <-> contained st s /\ at_ s c = d + 1).
Proof.
  intros P Hd Hc Hs. pose proof Hs as [_ [Hr Hpeers]]. split.
  - intros H. split.
    + intros x Hx. specialize (H x Hx). apply (ip_cand _ _ _ _ P) in H; [tauto | apply solved_digit; auto | exact Hx].
    + specialize (H c Hc). apply (ip_cand _ _ _ _ P) in H; [ | apply solved_digit; auto | exact Hc].
      destruct H as [_ [_ H]]. specialize (Hr c Hc). lia.
  - intros [H E] x Hx. apply (ip_cand _ _ _ _ P); [apply solved_digit; auto | exact Hx | ].
    split; [auto | ]. pose proof (Hr x Hx) as Hrx. split.
    + intros [E1 Hp]. apply (Hpeers c x Hc Hx Hp). lia.
    + intros [E1 ->]. lia.
Qed.

(** Clues among the cells of [l]. *)
Definition extends_on (l : list nat) (p s : grid) : Prop := forall c, In c l -> at_ p c <> 0 -> at_ s c = at_ p c.

Lemma from_sudoku_spec g : wf_grid g ->
  (from_sudoku g = Unsolv /\ forall s, ~ solution_of g s) \/
  exists st, from_sudoku g = Ok st /\ INVx st /\ forall s, solved s -> (contained st s <-> extends g s).
Proof.
  intros Hwf. unfold from_sudoku.
  replace (combine (seq 0 81) g) with (map (fun i => (i, at_ g i)) (seq 0 81)).
  2: { destruct Hwf as [Hl _]. rewrite <- Hl. rewrite (combine_seq 0). apply map_ext. intros i.
       rewrite Nat.sub_0_r. reflexivity. }
  assert (Hgen : forall l, (forall c, In c l -> c < 81) -> forall st, INVx st -> (forall sb, qm st sb = 0%N) ->
    (for_each (map (fun i => (i, at_ g i)) l)
       (fun cn st => if snd cn =? 0 then Ok st else insert_candidate st (fst cn) (snd cn)) st = Unsolv /\
     forall s, solved s -> contained st s -> ~ extends_on l g s) \/
    exists st', for_each (map (fun i => (i, at_ g i)) l)
       (fun cn st => if snd cn =? 0 then Ok st else insert_candidate st (fst cn) (snd cn)) st = Ok st' /\
     INVx st' /\ forall s, solved s -> (contained st' s <-> contained st s /\ extends_on l g s)).
  { induction l as [ | c t IH]; intros Hl st HI Hq.
    - right. exists st. split; [reflexivity | ]. split; [exact HI | ]. intros s Hs. split; [ | tauto].
      intros H. split; [exact H | ]. intros c [].
    - assert (Hc : c < 81) by (apply Hl; left; reflexivity).
      assert (Ht : forall x, In x t -> x < 81) by (intros x Hx; apply Hl; right; exact Hx).
      cbn [map for_each fst snd]. destruct (Nat.eqb_spec (at_ g c) 0) as [E | E].
      + cbn [bind].
        assert (Hext : forall s, extends_on (c :: t) g s <-> extends_on t g s).
        { intros s. split.
          - intros H x Hx. apply H. right. exact Hx.
          - intros H x [<- | Hx]; [congruence | apply H; exact Hx]. }
        destruct (IH Ht st HI Hq) as [[E1 H1] | [st' [E1 [I1 H1]]]].
        * left. split; [exact E1 | ]. intros s Hs Hcon. rewrite Hext. auto.
        * right. exists st'. split; [exact E1 | ]. split; [exact I1 | ]. intros s Hs. rewrite Hext. auto.
      + pose proof (wf_at g c Hwf) as H9. assert (Ed : at_ g c = (at_ g c - 1) + 1) by lia.
        rewrite Ed. set (d := at_ g c - 1) in *. assert (Hd : d < 9) by lia.
        assert (W : wf st) by apply HI.
        assert (Hext : forall s, extends_on (c :: t) g s <-> at_ s c = d + 1 /\ extends_on t g s).
        { intros s. split.
          - intros H. split; [rewrite <- Ed; apply H; [left; reflexivity | lia] | intros x Hx; apply H; right; exact Hx].
          - intros [H0 H] x [<- | Hx]; [intros _; congruence | apply H; exact Hx]. }
        destruct (insert_candidate_spec st c d W Hd Hc) as [[E1 H1] | [st1 [E1 [Hcand P1]]]]; rewrite E1; cbn [bind].
        * left. split; [reflexivity | ]. intros s Hs Hcon Hx. apply Hext in Hx. destruct Hx as [Hx _].
          apply H1. specialize (Hcon c Hc). rewrite Hx in Hcon. replace (d + 1 - 1) with d in Hcon by lia. exact Hcon.
        * assert (I1 : INVx st1).
          { destruct HI as [_ [a I]]. split; [apply (ip_wf _ _ _ _ P1) | ]. eexists.
            apply (insert_INV st st1 d c a); auto. }
          assert (Hq1 : forall sb, qm st1 sb = 0%N) by (intros sb; unfold qm; rewrite (ip_prev _ _ _ _ P1); apply Hq).
          pose proof (fun s => insert_contained st st1 d c s P1 Hd Hc) as HC.
          destruct (IH Ht st1 I1 Hq1) as [[E2 H2] | [st' [E2 [I2 H2]]]].
          -- left. split; [exact E2 | ]. intros s Hs Hcon Hx. apply Hext in Hx. destruct Hx as [Hx1 Hx2].
             apply (H2 s Hs); [apply HC; auto | exact Hx2].
          -- right. exists st'. split; [exact E2 | ]. split; [exact I2 | ]. intros s Hs.
             rewrite H2, HC, Hext by exact Hs. tauto. }
  assert (Hext : forall s, extends_on (seq 0 81) g s <-> extends g s).
  { intros s. unfold extends_on, extends. split; intros H c Hc; apply H; [apply in_seq; lia | apply in_seq in Hc; lia]. }
  assert (Hinit : forall s, solved s -> contained init_state s).
  { intros s Hs c Hc. apply init_cand; [apply solved_digit; auto | exact Hc]. }
  destruct (Hgen (seq 0 81) ltac:(intros c Hc; apply in_seq in Hc; lia) init_state init_INVx init_prev)
    as [[E H] | [st [E [I H]]]]; rewrite E.
  - left. split; [reflexivity | ]. intros s [Hs Hx]. apply (H s Hs (Hinit s Hs)). apply Hext. exact Hx.
  - right. exists st. split; [reflexivity | ]. split; [exact I | ]. intros s Hs. rewrite H, Hext by exact Hs.
    specialize (Hinit s Hs). tauto.
Qed.

(** ** The whole solver *)
Lemma solutions_up_to_spec st : INVx st ->
  enumerates (fun limit sols => solutions_up_to_ st limit sols) (fun g => solved g /\ contained st g).
Proof.
  intros HI. unfold solutions_up_to_.
  destruct (naked_singles_spec st HI) as [[E H] | [st1 [app [E [S1 _]]]]]; rewrite E.
  - exists []. split; [constructor | ]. split; [intros g; split; [intros [] | intros [Hs Hc]; apply (H g Hs Hc)] | ].
    intros limit sols Hl. rewrite firstn_nil. reflexivity.
  - eapply enumerates_ext; [apply (solve_rec (guess guess_fuel) guess_fuel st1 (guess_spec guess_fuel) (s_inv _ _ S1)) | | ].
    + pose proof (pop_le st1). unfold guess_fuel. lia.
    + intros g. split; intros [Hs Hc]; (split; [exact Hs | ]).
      * eapply sub_contained; [exact Hs | apply (s_sub _ _ S1) | exact Hc].
      * apply (s_sol _ _ S1); assumption.
    + intros limit sols Hl. reflexivity.
Qed.

(** All solver entry points work on one list of solutions per puzzle. *)
Definition run_sudoku (g : grid) (limit : nat) (sols : solutions) : res solutions :=
  match from_sudoku g with
  | Unsolv => Ok sols
  | Panic => Panic
  | NoFuel => NoFuel
  | Ok st => solutions_up_to_ st limit sols
  end.

Theorem run_sudoku_spec g : wf_grid g -> enumerates (run_sudoku g) (solution_of g).
Proof.
  intros Hwf. unfold run_sudoku. destruct (from_sudoku_spec g Hwf) as [[E H] | [st [E [I H]]]]; rewrite E.
  - exists []. split; [constructor | ]. split; [intros s; split; [intros [] | intros Hs; apply (H s Hs)] | ].
    intros limit sols Hl. rewrite firstn_nil. reflexivity.
  - eapply enumerates_ext; [apply (solutions_up_to_spec st I) | | reflexivity].
    intros s. unfold solution_of. split; intros [Hs Hc]; (split; [exact Hs | apply H; assumption]).
Qed.
