(** The strategy solver: what the strategies do with the patterns that they find. *)
From Coq Require Import List Arith NArith ZArith ZifyNat ZifyN ZifyBool Lia Bool.
From Verif Require Import Spec TableSpec GeomSpec Solver Bits Geom Gen BitLemmas GridProofs BitsProofs GeomProofs GenProofs Strat StratFind StratSolve StratUse StratWhy StratWhyLemmas StratInv StratPos StratFound StratWalk StratWing StratMutant.
Import ListNotations.
Ltac Zify.zify_post_hook ::= Z.to_euclidean_division_equations.

(** * Candidates and positions *)

Lemma entry_iff D st c d : UP D st -> d <> 0 -> (In (c, d) (s_entries st) <-> D c = d).
Proof. intros U N. split; [apply (u_entry D st c d U) | intros <-; apply (u_entry' D st c U N)]. Qed.

(** The candidates are what the history leaves. *)
Lemma cand_iff D st k d : UP D st -> k < 81 -> 1 <= d <= 9 ->
  (mem (P st k) (d - 1) <-> ~ In (k, d) (s_elims st) /\ forall c' d', In (c', d') (s_entries st) -> k <> c' /\ ~ (peers k c' /\ d = d')).
Proof.
  intros U Hk Hd'. assert (w := u_w _ _ U). split.
  - intros M. destruct (u_open D st k _ U Hk M) as [Z _]. split; [intros Q; apply (u_dead _ _ U k d Q M) | ]. intros c' d' Hi. destruct (w_e _ w c' d' Hi) as [Lc Ld].
    assert (E := u_entry D st c' d' U Hi). split; [intros ->; lia | ]. intros [Pe ->].
    destruct (peers_house k c' Hk Lc Pe) as [h [Hh [I1 I2]]]. apply (u_disj _ _ U k (d' - 1) h Hk Hh I1 M). apply (c_house _ _ (u_c _ _ U) h _ Hh).
    exists c'. split; [exact Lc | ]. split; [exact I2 | lia].
  - intros [A B]. assert (Z : D k = 0).
    { destruct (Nat.eq_dec (D k) 0) as [ | N]; [assumption | ]. exfalso. apply (proj1 (B k (D k) (u_entry' D st k U N))). reflexivity. }
    destruct (N.testbit (P st k) (N.of_nat (d - 1))) eqn:T; [exact T | ]. exfalso.
    destruct (c_lower _ _ (u_c _ _ U) k (d - 1) Hk Z ltac:(lia)) as [Q | [c' [Lc [Pe E]]]].
    + unfold mem. rewrite T. discriminate.
    + replace (S (d - 1)) with d in Q by lia. contradiction.
    + apply (B c' (S (d - 1))); [apply (entry_iff D st c' _ U); [discriminate | exact E] | ]. split; [exact Pe | lia].
Qed.

Lemma pos_ok_of D st : UP D st -> PI (s_elims st) st -> s_pnd st = length (s_entries st) -> pos_ok st.
Proof.
  intros U I E. split; [apply (p_w _ _ I) | ]. intros h x p Hh Hx. split.
  - intros M. assert (Lp : p < 9) by (apply (pw_s _ (p_w _ _ I) h (S x) Hh ltac:(lia)) in M; exact M). split; [exact Lp | ].
    destruct (cell_at_ok h p Hh Lp) as [_ [Lc [Ic Pc]]]. replace x with (S x - 1) by lia. apply (cand_iff D st _ (S x) U Lc); [lia | ].
    rewrite <- (firstn_all (s_entries st)), <- E. apply (p_v _ _ I h (S x) (cell_at h p) Hh ltac:(lia) Lc Ic). unfold V. rewrite Pc. exact M.
  - intros [Lp M]. destruct (cell_at_ok h p Hh Lp) as [_ [Lc [Ic Pc]]]. replace x with (S x - 1) in M by lia. apply (cand_iff D st _ (S x) U Lc) in M; [ | lia].
    rewrite <- (firstn_all (s_entries st)), <- E in M. apply (p_v _ _ I h (S x) (cell_at h p) Hh ltac:(lia) Lc Ic) in M. unfold V in M. rewrite Pc in M. exact M.
Qed.

(** * The callbacks *)

Lemma found_len S0 st0 st : found S0 st0 st -> length (s_elims st0) <= length (s_elims st).
Proof. intros [el [ds [-> _]]]. cbn [s_elims set_elims set_deds]. rewrite app_length. lia. Qed.

Lemma enter_elims st conflicts mk : s_elims (fst (enter_conflicts st conflicts mk)) = s_elims st ++ conflicts.
Proof. unfold enter_conflicts. destruct (0 <? _); reflexivity. Qed.

Lemma callback_of S0 st0 (r : strat -> res (strat * bool)) (conf : Prop) conflicts mk : (forall st, r st = Ok (enter_conflicts st conflicts mk)) ->
  (forall x, In x conflicts -> good st0 x) -> (forall r, range_of (mk r) = Some r) ->
  (forall el r, conflicts <> [] -> slice el r = Ok conflicts -> shows st0 S0 el (mk r)) -> (conf <-> exists x, In x conflicts) -> callback S0 st0 r conf.
Proof.
  intros Er Gc Mk Rc Cf st F. rewrite Er. assert (El := enter_elims st conflicts mk). destruct (enter_conflicts st conflicts mk) as [st' b] eqn:E. cbn [fst] in El.
  exists st', b. split; [reflexivity | ]. destruct (enter_found S0 st0 st conflicts mk b st' F Gc Mk Rc E) as [F' [B N]]. split; [exact F' | ].
  assert (Ne : conf <-> conflicts <> []).
  { rewrite Cf. destruct conflicts as [ | x t]; [split; [intros [x []] | intros []; reflexivity] | split; [discriminate | intros _; exists x; left; reflexivity]]. }
  split.
  - intros Hb. apply B in Hb. split; [ | apply Ne, Hb]. unfold grown. rewrite El, app_length. pose proof (found_len _ _ _ F). destruct conflicts; [destruct Hb; reflexivity | cbn [length]; lia].
  - intros Hb. assert (Z : conflicts = []) by (destruct conflicts; [reflexivity | ]; exfalso; assert (X : b = true) by (apply B; discriminate); congruence).
    split; [apply N, Z | ]. rewrite Ne. intros Q. apply Q, Z.
Qed.

Definition naked_strat (n : nat) : strategy := match n with 2 => NakedPairs | 3 => NakedTriples | _ => NakedQuads end.
Definition hidden_strat (n : nat) : strategy := match n with 2 => HiddenPairs | 3 => HiddenTriples | _ => HiddenQuads end.
Definition fish_strat (n : nat) : strategy := match n with 2 => XWing | 3 => Swordfish | _ => Jellyfish end.

(** The strategy told by a deduction of subsets: the first elimination is in the cells of the subset or not. *)
Lemma subset_strategy S0 house positions digits conflicts c x p (hid : bool) : nth_error conflicts 0 = Some (c, x) -> house < 27 -> c < 81 ->
  in_house house c -> pos_in_house house c = p -> (if hid then mem positions p else ~ mem positions p) -> 2 <= set_len positions <= 4 ->
  S0 = (if hid then hidden_strat (set_len positions) else naked_strat (set_len positions)) -> ded_strategy (DSubsets house positions digits conflicts) = Ok S0.
Proof.
  intros N0 Hh Hc Ic Pc M L ->. cbn [ded_strategy].
  destruct conflicts as [ | y t]; [discriminate | ]. injection N0 as ->. cbn [aget nth_error bind].
  assert (Q : exists t, house_categorize house = Ok t /\ match t with HRow _ => row_pos c | HCol _ => col_pos c | HBlock _ => block_pos c end = p).
  { destruct (positions_exact c Hc) as [E1 [E2 E3]]. destruct (proj1 (in_house_iff c house Hc) (conj Hh Ic)) as [-> | [-> | ->]]; unfold house_categorize.
    - assert (Lq := row_lt c Hc). rewrite (proj2 (Nat.ltb_lt _ _) Hh), (proj2 (Nat.leb_le _ _)) by lia. rewrite chk_ok by exact Lq. cbn [bind]. eexists. split; [reflexivity | ]. cbn iota. congruence.
    - assert (Lq := col_lt c). rewrite (proj2 (Nat.ltb_lt _ _) Hh). replace (9 + col_of c <=? 8) with false by (symmetry; apply Nat.leb_gt; lia). rewrite (proj2 (Nat.leb_le _ 17)) by lia. unfold COL_OFFSET.
      rewrite chk_ok by lia. cbn [bind]. eexists. split; [reflexivity | ]. cbn iota. congruence.
    - assert (Lq := block_lt c Hc). rewrite (proj2 (Nat.ltb_lt _ _) Hh). replace (18 + block_of c <=? 8) with false by (symmetry; apply Nat.leb_gt; lia). replace (18 + block_of c <=? 17) with false by (symmetry; apply Nat.leb_gt; lia).
      unfold BLOCK_OFFSET. rewrite chk_ok by lia. cbn [bind]. eexists. split; [reflexivity | ]. cbn iota. congruence. }
  destruct Q as [ty [Et Ep]]. rewrite Et. cbn [bind fst]. rewrite Ep. assert (Lp : p < 9) by (rewrite <- Pc; apply (cell_at_inv house c Hh Hc Ic)).
  destruct (as_set_total EPosHouse p Lp) as [ps Eps]. rewrite Eps. cbn [bind].
  assert (Ov : set_overlaps EPosHouse ps positions = hid).
  { destruct hid.
    - apply (overlaps_iff EPosHouse). exists p. split; [apply (mem_single _ _ _ _ Eps); reflexivity | exact M].
    - destruct (set_overlaps EPosHouse ps positions) eqn:O; [ | reflexivity]. exfalso. apply (overlaps_iff EPosHouse) in O. destruct O as [i [A B]].
      apply (mem_single _ _ _ _ Eps) in A. subst i. contradiction. }
  rewrite Ov. destruct (set_len positions) as [ | [ | [ | [ | [ | n]]]]]; try lia; destruct hid; reflexivity.
Qed.

Section Callbacks.
Variables (D : nat -> nat) (st0 : strat).
Hypothesis U : UP D st0.

(** ** What the candidates of the state say about the history *)

Lemma poss_mem c d : possible (listed (s_entries st0)) (listed (s_elims st0)) c d -> c < 81 /\ 1 <= d <= 9 /\ mem (P st0 c) (d - 1).
Proof. intros [Hc [Hd' Q]]. split; [exact Hc | ]. split; [exact Hd' | ]. apply (cand_iff D st0 c d U Hc Hd'). exact Q. Qed.
Lemma mem_vacant c x : c < 81 -> mem (P st0 c) x -> vacant (listed (s_entries st0)) c.
Proof. intros Hc M d Q. destruct (u_open D st0 c x U Hc M) as [Z _]. assert (E := u_entry D st0 c d U Q). destruct (w_e _ (u_w _ _ U) c d Q). lia. Qed.
Lemma mem_absent h c x : h < 27 -> c < 81 -> in_house h c -> mem (P st0 c) x -> absent (listed (s_entries st0)) h (S x).
Proof.
  intros Hh Hc Ic M k Ik Q. apply (u_disj _ _ U c x h Hc Hh Ic M). apply (c_house _ _ (u_c _ _ U) h x Hh). destruct (w_e _ (u_w _ _ U) k _ Q) as [Lk _].
  exists k. split; [exact Lk | ]. split; [exact Ik | ]. apply (u_entry D st0 k _ U Q).
Qed.
Lemma len_mem c : c < 81 -> set_len (P st0 c) <> 0 -> exists x, mem (P st0 c) x.
Proof. intros Hc N. apply nonzero_mem. intros Z. apply N. rewrite Z. reflexivity. Qed.
Lemma size_naked size : 2 <= size <= 4 -> pattern_size (naked_strat size) = size.
Proof. intros Sz. destruct size as [ | [ | [ | [ | [ | n]]]]]; try lia; reflexivity. Qed.
Lemma size_hidden size : 2 <= size <= 4 -> pattern_size (hidden_strat size) = size.
Proof. intros Sz. destruct size as [ | [ | [ | [ | [ | n]]]]]; try lia; reflexivity. Qed.
Lemma size_fish size : 2 <= size <= 4 -> pattern_size (fish_strat size) = size.
Proof. intros Sz. destruct size as [ | [ | [ | [ | [ | n]]]]]; try lia; reflexivity. Qed.

Lemma naked_callback size h F T : h < 27 -> 2 <= size <= 4 -> naked_pat st0 size h F T ->
  callback (naked_strat size) st0 (on_naked_sub (s_cell st0) h F T) (naked_conf st0 h F T).
Proof.
  intros Hh Sz Pt. assert (w := u_w _ _ U). assert (Pt' := Pt). destruct Pt' as [SF [LF [Op [To LT]]]].
  assert (ST : is_set EDigit T) by (intros y Hy; apply To in Hy; destruct Hy as [q [Hq Hy]]; destruct (cell_at_ok h q Hh (SF q Hq)) as [_ [Lq _]]; apply (w_p _ w _ Lq y Hy)).
  assert (Sn : is_set EPosHouse (set_not EPosHouse F)) by (intros i Hi; apply (mem_not EPosHouse) in Hi; [apply Hi | exact SF]).
  destruct (rflat_spec (fun pos => cell <- house_cell_at h pos; m <- aget (s_cell st0) cell; cands_of cell (set_and m T))
    (fun p (x : cand) => fst x = cell_at h p /\ 1 <= snd x <= 9 /\ mem (P st0 (cell_at h p)) (snd x - 1) /\ mem T (snd x - 1)) (members EPosHouse (set_not EPosHouse F))) as [cs [Ec Ic]].
  { intros p Hp. apply (members_in EPosHouse _ p Sn) in Hp. assert (Lp := Sn p Hp). destruct (cell_at_ok h p Hh Lp) as [Ep [Lc _]]. rewrite Ep. cbn [bind].
    rewrite (aget_ok _ _ 0%N) by (rewrite (w_lp _ w); exact Lc). cbn [bind]. fold (P st0 (cell_at h p)).
    destruct (cands_of_ok (cell_at h p) (set_and (P st0 (cell_at h p)) T)) as [l [El Il]]; [intros y Q; apply mem_and in Q; apply ST, Q | ]. exists l. split; [exact El | ].
    intros x. rewrite Il, mem_and. reflexivity. }
  assert (Ic' : forall x, In x cs <-> exists p, p < 9 /\ ~ mem F p /\ fst x = cell_at h p /\ 1 <= snd x <= 9 /\ mem (P st0 (cell_at h p)) (snd x - 1) /\ mem T (snd x - 1)).
  { intros x. rewrite Ic. split; intros [p Q]; exists p.
    - destruct Q as [Q1 Q2]. apply (members_in EPosHouse _ p Sn) in Q1. apply (mem_not EPosHouse) in Q1; [ | exact SF]. tauto.
    - destruct Q as [Q1 [Q2 Q3]]. split; [ | exact Q3]. apply (members_in EPosHouse _ p Sn). apply (mem_not EPosHouse); [exact SF | auto]. }
  apply (callback_of _ _ _ _ cs (DSubsets h F T)).
  - intros st. unfold on_naked_sub. rewrite (iter_exact EPosHouse _ Sn). cbn [bind]. rewrite Ec. reflexivity.
  - intros [c d] Hx. apply Ic' in Hx. cbn [fst snd] in Hx. destruct Hx as [p [Lp [Np [-> [Ld [M1 M2]]]]]]. replace d with (S (d - 1)) by lia.
    apply (naked_good st0 size D h F T p (d - 1) U Hh Pt Lp Np M1 M2).
  - reflexivity.
  - intros el r Ne Sl. destruct cs as [ | [c d] t]; [destruct Ne; reflexivity | ]. destruct (proj1 (Ic' (c, d)) (or_introl eq_refl)) as [p [Lp [Np [E _]]]]. cbn [fst] in E.
    destruct (cell_at_ok h p Hh Lp) as [_ [Lc [Icc Pc]]]. rewrite <- E in *.
    eexists. split; [cbn [with_slices]; rewrite Sl; reflexivity | ]. split; [apply (subset_strategy _ h F T ((c, d) :: t) c d p false eq_refl Hh Lc Icc Pc Np); rewrite LF; [lia | reflexivity] | ]. split; [exact I | ].
    cbn [why]. split; [exact Hh | ]. split; [discriminate | ]. rewrite (size_naked size Sz).
    split; [rewrite <- LF; symmetry; apply (len_members EPosHouse F SF) | ]. split; [rewrite <- LT; symmetry; apply (len_members EDigit T ST) | ].
    match goal with |- match _ with NakedPairs => ?X | _ => _ end => cut X end.
    { destruct size as [ | [ | [ | [ | [ | n]]]]]; try lia; exact (fun q => q). }
    split; [ | split].
    + intros k Hk Ik Mk. destruct (cell_at_inv h k Hh Hk Ik) as [_ Ck]. destruct (nonzero_mem _ (Op _ Mk)) as [y My]. rewrite Ck in My. apply (mem_vacant k y Hk My).
    + intros k e Ik Mk A. apply poss_mem in A. destruct A as [Hk [_ A]]. apply To. exists (pos_in_house h k). split; [exact Mk | ]. destruct (cell_at_inv h k Hh Hk Ik) as [_ ->]. exact A.
    + intros k e Hi. apply Ic' in Hi. cbn [fst snd] in Hi. destruct Hi as [q [Lq [Nq [-> [Le [_ Me]]]]]]. destruct (cell_at_ok h q Hh Lq) as [_ [Lk [Ik Pk]]]. rewrite Pk. auto 10.
  - split.
    + intros [p [x [Lp [Np [M1 M2]]]]]. destruct (cell_at_ok h p Hh Lp) as [_ [Lc _]]. assert (Lx := w_p _ w _ Lc x M1). cbn in Lx. exists (cell_at h p, S x). apply Ic'. exists p. cbn [fst snd]. replace (S x - 1) with x by lia. repeat split; try assumption; lia.
    + intros [[c d] Hx]. apply Ic' in Hx. cbn [fst snd] in Hx. destruct Hx as [p [Lp [Np [-> [Ld [M1 M2]]]]]]. exists p, (d - 1). auto.
Qed.

Lemma hidden_callback size h F T : pos_ok st0 -> h < 27 -> 2 <= size <= 4 -> hidden_pat st0 size h F T ->
  callback (hidden_strat size) st0 (fun st => on_hidden_sub (s_pos st0) h F T st) (hidden_conf st0 h F T).
Proof.
  intros [pw Pm] Hh Sz Pt. assert (w := u_w _ _ U). assert (Pt' := Pt). destruct Pt' as [SF [LF [Op [To LT]]]].
  assert (ST : is_set EPosHouse T) by (intros y Hy; apply To in Hy; apply Hy).
  assert (Sn : is_set EDigit (set_not EDigit F)) by (intros i Hi; apply (mem_not EDigit) in Hi; [apply Hi | exact SF]).
  destruct (digits_of_ok _ Sn) as [dl [Edl [_ Idl]]].
  destruct (rflat_spec (fun digit =>
    m <- aget (nth h (s_pos st0) []) (digit_as_index digit);
    ps <- set_iter EPosHouse (set_and m T);
    rmap (fun p => cell <- house_cell_at h p; Ok (cell, digit)) ps)
    (fun d (x : cand) => snd x = d /\ exists p, mem T p /\ p < 9 /\ mem (P st0 (cell_at h p)) (d - 1) /\ fst x = cell_at h p) dl) as [cs [Ec Ic]].
  { intros d Hd'. apply Idl in Hd'. destruct Hd' as [Ld Md]. unfold digit_as_index. rewrite (aget_ok _ _ 0%N) by (rewrite (pw_r _ pw h Hh); lia). cbn [bind]. fold (pm (s_pos st0) h d).
    assert (Sa : is_set EPosHouse (set_and (pm (s_pos st0) h d) T)) by (intros y Q; apply mem_and in Q; apply ST, Q). rewrite (iter_exact EPosHouse _ Sa). cbn [bind].
    destruct (rmap_spec (fun p => cell <- house_cell_at h p; Ok (cell, d)) (fun p y => y = ((cell_at h p, d) : cand)) (members EPosHouse (set_and (pm (s_pos st0) h d) T))) as [r [Er Fr]].
    { intros p Hp. apply (members_in EPosHouse _ p Sa) in Hp. destruct (cell_at_ok h p Hh (Sa p Hp)) as [Ep _]. rewrite Ep. cbn [bind]. eexists. split; reflexivity. }
    exists r. split; [exact Er | ]. 
    assert (Pd : forall p, mem (set_and (pm (s_pos st0) h d) T) p <-> mem T p /\ p < 9 /\ mem (P st0 (cell_at h p)) (d - 1)).
    { intros p. rewrite mem_and. assert (X := Pm h (d - 1) p Hh ltac:(lia)). replace (S (d - 1)) with d in X by lia. rewrite X. tauto. }
    intros [c e]. cbn [fst snd]. split.
    - intros Hi. destruct (Forall2_in_r _ _ _ Fr _ Hi) as [p [Hp Q]]. injection Q as -> ->. split; [reflexivity | ]. apply (members_in EPosHouse _ p Sa), Pd in Hp. exists p. tauto.
    - intros [-> [p [A [B [M ->]]]]]. destruct (Forall2_in_l _ _ _ Fr p) as [y [Hy ->]]; [apply (members_in EPosHouse _ p Sa), Pd; auto | exact Hy]. }
  assert (Ic' : forall x, In x cs <-> 1 <= snd x <= 9 /\ ~ mem F (snd x - 1) /\ exists p, mem T p /\ p < 9 /\ mem (P st0 (cell_at h p)) (snd x - 1) /\ fst x = cell_at h p).
  { intros x. rewrite Ic. split.
    - intros [d [Q1 [<- Q2]]]. apply Idl in Q1. destruct Q1 as [A B]. apply (mem_not EDigit) in B; [ | exact SF]. tauto.
    - intros [A [B Q]]. exists (snd x). split; [ | auto]. apply Idl. split; [exact A | ]. apply (mem_not EDigit); [exact SF | ]. split; [cbn; lia | exact B]. }
  apply (callback_of _ _ _ _ cs (DSubsets h T F)).
  - intros st. unfold on_hidden_sub. rewrite (aget_ok _ _ []) by (rewrite (pw_l _ pw); exact Hh). cbn [bind]. rewrite Edl. cbn [bind]. rewrite Ec. reflexivity.
  - intros [c d] Hx. apply Ic' in Hx. cbn [fst snd] in Hx. destruct Hx as [Ld [Nd [p [A [B [M ->]]]]]]. replace d with (S (d - 1)) by lia.
    apply (hidden_good st0 size D h F T p (d - 1) U Hh Pt A Nd M).
  - reflexivity.
  - intros el r Ne Sl. destruct cs as [ | [c d] t]; [destruct Ne; reflexivity | ]. destruct (proj1 (Ic' (c, d)) (or_introl eq_refl)) as [_ [_ [p [Tp [Lp [_ E]]]]]]. cbn [fst] in E.
    destruct (cell_at_ok h p Hh Lp) as [_ [Lc [Icc Pc]]]. rewrite <- E in *.
    eexists. split; [cbn [with_slices]; rewrite Sl; reflexivity | ]. split; [apply (subset_strategy _ h T F ((c, d) :: t) c d p true eq_refl Hh Lc Icc Pc Tp); rewrite LT; [lia | reflexivity] | ]. split; [exact I | ].
    cbn [why]. split; [exact Hh | ]. split; [discriminate | ]. rewrite (size_hidden size Sz).
    split; [rewrite <- LT; symmetry; apply (len_members EPosHouse T ST) | ]. split; [rewrite <- LF; symmetry; apply (len_members EDigit F SF) | ].
    match goal with |- match _ with NakedPairs => _ | HiddenPairs => ?X | _ => _ end => cut X end.
    { destruct size as [ | [ | [ | [ | [ | n]]]]]; try lia; exact (fun q => q). }
    split; [ | split].
    + intros e Le Me. destruct (Op _ Me) as [q [Lq Mq]]. destruct (cell_at_ok h q Hh Lq) as [_ [Lk [Ik _]]]. replace e with (S (e - 1)) by lia. apply (mem_absent h _ _ Hh Lk Ik Mq).
    + intros k e Ik Me A. apply poss_mem in A. destruct A as [Hk [_ A]]. apply To. destruct (cell_at_inv h k Hh Hk Ik) as [Lp' Ck]. split; [exact Lp' | ]. exists (e - 1). rewrite Ck. auto.
    + intros k e Hi. apply Ic' in Hi. cbn [fst snd] in Hi. destruct Hi as [Le [Nne [q [Mq [Lq [_ ->]]]]]]. destruct (cell_at_ok h q Hh Lq) as [_ [Lk [Ik Pk]]]. rewrite Pk. auto 10.
  - split.
    + intros [p [x [Mp [Nx M]]]]. assert (Lp := ST p Mp). cbn in Lp. destruct (cell_at_ok h p Hh Lp) as [_ [Lc _]]. assert (Lx := w_p _ w _ Lc x M). cbn in Lx.
      exists (cell_at h p, S x). apply Ic'. cbn [fst snd]. replace (S x - 1) with x by lia. split; [lia | ]. split; [exact Nx | ]. exists p. auto.
    + intros [[c d] Hx]. apply Ic' in Hx. cbn [fst snd] in Hx. destruct Hx as [Ld [Nd [p [A [B [M ->]]]]]]. exists p, (d - 1). auto.
Qed.

Lemma direction_rows all : direction all -> exists rows : bool, forall l, mem all l <-> if rows then l < 9 else 9 <= l < 18.
Proof.
  intros [-> | ->]; [exists true | exists false]; intros l.
  - rewrite rows_mem. lia.
  - rewrite cols_mem. lia.
Qed.

Lemma fish_callback size all d F T : 2 <= size <= 4 -> direction all -> 1 <= d <= 9 -> fish_pat st0 size all d F T ->
  callback (fish_strat size) st0 (on_fish (s_cell st0) all d F T) (fish_conf st0 all d F T).
Proof.
  intros Sz Da Hd' Pt. assert (w := u_w _ _ U). assert (Pt' := Pt). destruct Pt' as [AF [LF [OF [UF LU]]]].
  assert (ST : is_set EPosLine T) by (intros y Hy; apply UF in Hy; apply Hy).
  assert (SA : is_set ELine all) by (intros l Hl; apply (direction_lt all l Da Hl)).
  assert (Sn : is_set ELine (set_without ELine all F)) by (intros l Hl; apply (mem_without ELine) in Hl; [apply SA, Hl | exact SA]).
  destruct (rflat_spec (fun line => ps <- set_iter EPosLine T; rmap (line_cell_at line) ps)
    (fun l c => exists p, mem T p /\ c = cell_at l p) (members ELine (set_without ELine all F))) as [cells [Ec Ic]].
  { intros l Hl. apply (members_in ELine _ l Sn) in Hl. assert (Ll := Sn l Hl). cbn in Ll. rewrite (iter_exact EPosLine _ ST). cbn [bind].
    destruct (rmap_spec (line_cell_at l) (fun p y => y = cell_at l p) (members EPosLine T)) as [r [Er Fr]].
    { intros p Hp. apply (members_in EPosLine _ p ST) in Hp. assert (Lp := ST p Hp). cbn in Lp. rewrite (line_house_cell_at l p Ll). destruct (cell_at_ok l p ltac:(lia) Lp) as [Ep _]. exists (cell_at l p). auto. }
    exists r. split; [exact Er | ]. intros c. split.
    - intros Hi. destruct (Forall2_in_r _ _ _ Fr _ Hi) as [p [Hp ->]]. apply (members_in EPosLine _ p ST) in Hp. exists p. auto.
    - intros [p [Mp ->]]. destruct (Forall2_in_l _ _ _ Fr p) as [y [Hy ->]]; [apply (members_in EPosLine _ p ST), Mp | exact Hy]. }
  assert (Ic2 : forall c, In c cells <-> exists l p, mem all l /\ ~ mem F l /\ mem T p /\ c = cell_at l p).
  { intros c. rewrite Ic. split.
    - intros [l [Hl [p [Mp E]]]]. apply (members_in ELine _ l Sn), (mem_without ELine) in Hl; [ | exact SA]. exists l, p. tauto.
    - intros [l [p [A [B [Mp E]]]]]. exists l. split; [apply (members_in ELine _ l Sn), (mem_without ELine); auto | exists p; auto]. }
  assert (Lcell : forall c, In c cells -> c < 81).
  { intros c Hc. apply Ic2 in Hc. destruct Hc as [l [p [A [_ [Mp ->]]]]]. pose proof (direction_lt _ _ Da A). apply (cell_at_ok l p); [lia | apply (ST p Mp)]. }
  destruct (with_digit_ok (s_cell st0) d cells (w_lp _ w) Hd' Lcell) as [cs [Ecs Ics]].
  apply (callback_of _ _ _ _ cs (DBasicFish d F T)).
  - intros st. unfold on_fish. rewrite (iter_exact ELine _ Sn). cbn [bind]. rewrite Ec. cbn [bind]. rewrite Ecs. reflexivity.
  - intros [c e] Hx. apply Ics in Hx. cbn [fst snd] in Hx. destruct Hx as [Hc [-> M]]. apply Ic2 in Hc. destruct Hc as [l [p [A [B [Mp ->]]]]].
    apply (fish_good st0 size D all d F T l p U Da Hd' Pt A B Mp M).
  - reflexivity.
  - intros el r Ne Sl. eexists. split; [cbn [with_slices]; rewrite Sl; reflexivity | ]. split; [ | split; [exact I | ]].
    { cbn [ded_strategy]. rewrite LU. destruct size as [ | [ | [ | [ | [ | n]]]]]; try lia; reflexivity. }
    cbn [why]. split; [exact Hd' | ]. split; [exact Ne | ]. rewrite (size_fish size Sz).
    split; [rewrite <- LF; symmetry; apply (len_members ELine F); intros l Hl; apply SA, AF, Hl | ]. split; [rewrite <- LU; symmetry; apply (len_members EPosLine T ST) | ].
    split; [destruct size as [ | [ | [ | [ | [ | n]]]]]; try lia; exact I | ].
    destruct (direction_rows all Da) as [rows Dr]. exists rows. split; [ | split].
    + intros l Hl. split; [apply Dr, AF, Hl | ]. destruct (OF l Hl) as [p [_ [_ [Lp [_ [Mp _]]]]]]. assert (Ll := SA l (AF l Hl)). cbn in Ll. destruct (cell_at_ok l p ltac:(lia) Lp) as [_ [Lc [Icc _]]].
      replace d with (S (d - 1)) by lia. apply (mem_absent l _ _ ltac:(lia) Lc Icc Mp).
    + intros l c Hl Ic0 A. apply poss_mem in A. destruct A as [Hc [_ A]]. assert (Ll := SA l (AF l Hl)). cbn in Ll. destruct (cell_at_inv l c ltac:(lia) Hc Ic0) as [Lp Cc]. apply UF. split; [exact Lp | ].
      exists l. rewrite Cc. auto.
    + intros c e Hi. apply Ics in Hi. cbn [fst snd] in Hi. destruct Hi as [Hc [-> _]]. split; [apply Lcell, Hc | ]. split; [reflexivity | ]. apply Ic2 in Hc. destruct Hc as [l [p [A [B [Mp ->]]]]].
      assert (Ll := SA l A). cbn in Ll. assert (Lp := ST p Mp). cbn in Lp. destruct (cell_at_ok l p ltac:(lia) Lp) as [_ [_ [Icc Pc]]]. exists l. rewrite Pc. split; [apply Dr, A | auto].
  - split.
    + intros [l [p [A [B [Mp M]]]]]. exists (cell_at l p, d). apply Ics. cbn [fst snd]. split; [apply Ic2; exists l, p; auto | ]. split; [reflexivity | exact M].
    + intros [[c e] Hx]. apply Ics in Hx. cbn [fst snd] in Hx. destruct Hx as [Hc [-> M]]. apply Ic2 in Hc. destruct Hc as [l [p [A [B [Mp ->]]]]]. exists l, p. auto.
Qed.

Lemma locked_callback m x nbs ptg : locked_pat st0 m x ptg -> (forall m', In m' nbs <-> if ptg then same_line m m' else same_block m m') ->
  callback LockedCandidates st0 (on_locked (s_cell st0) m (S x) nbs ptg) (locked_conf st0 m x ptg).
Proof.
  intros Pt In_. assert (w := u_w _ _ U). assert (Hx : x < 9) by apply Pt.
  assert (L54 : forall m', In m' nbs -> m' < 54) by (intros m' Hm; apply In_ in Hm; destruct ptg; apply Hm).
  destruct (rflat_spec (fun nb =>
    cm <- cells_of_miniline nb;
    cells <- set_iter ECell cm;
    rflat (fun cell => m <- aget (s_cell st0) cell; d <- digit_set (S x); cands_of cell (set_and m d)) cells)
    (fun m' (y : cand) => fst y < 81 /\ in_miniline m' (fst y) /\ snd y = S x /\ mem (P st0 (fst y)) x) nbs) as [cs [Ec Ic]].
  { intros m' Hm. destruct (miniline_cells_exact m' (L54 m' Hm)) as [cm [E [Sc M]]]. rewrite E. cbn [bind]. rewrite (iter_exact ECell cm Sc). cbn [bind].
    destruct (rflat_spec (fun cell => m <- aget (s_cell st0) cell; d <- digit_set (S x); cands_of cell (set_and m d))
      (fun c (y : cand) => fst y = c /\ snd y = S x /\ mem (P st0 c) x) (members ECell cm)) as [r [Er Ir]].
    { intros c Hc. apply (members_in ECell cm c Sc) in Hc. assert (Lc := Sc c Hc). cbn in Lc. rewrite (aget_ok _ _ 0%N) by (rewrite (w_lp _ w); exact Lc). cbn [bind]. fold (P st0 c).
      destruct (digit_set_ok (S x) ltac:(lia)) as [ds [Eds [_ Mds]]]. rewrite Eds. cbn [bind].
      destruct (cands_of_ok c (set_and (P st0 c) ds)) as [l [El Il]]; [intros y Q; apply mem_and in Q; apply (w_p _ w c Lc), Q | ]. exists l. split; [exact El | ].
      intros [k e]. rewrite Il, mem_and, Mds. cbn [fst snd]. split.
      - intros [-> [Le [A B]]]. replace (S x - 1) with x in B by lia. split; [reflexivity | ]. split; [lia | ]. replace (e - 1) with x in A by lia. exact A.
      - intros [-> [-> A]]. split; [reflexivity | ]. replace (S x - 1) with x by lia. split; [lia | auto]. }
    exists r. split; [exact Er | ]. intros y. rewrite Ir. split.
    - intros [c [Hc [<- Q]]]. apply (members_in ECell cm _ Sc), M in Hc. tauto.
    - intros [A [B Q]]. exists (fst y). split; [apply (members_in ECell cm _ Sc), M; auto | auto]. }
  apply (callback_of _ _ _ _ cs (DLocked (S x) m ptg)).
  - intros st. unfold on_locked. rewrite Ec. reflexivity.
  - intros [c e] Hi. apply Ic in Hi. cbn [fst snd] in Hi. destruct Hi as [m' [Hm [Lc [Ii [-> M]]]]]. apply (locked_good st0 D m x ptg m' c U Pt); [apply In_; exact Hm | exact Lc | exact Ii | exact M].
  - reflexivity.
  - intros el r Ne Sl. eexists. split; [cbn [with_slices]; rewrite Sl; reflexivity | split; [reflexivity | split; [exact I | ]]].
    cbn [why]. destruct Pt as [Hm [_ [[c0 [Lc0 [Ic0 Mc0]]] Only]]]. split; [reflexivity | ]. split; [exact Hm | ]. split; [lia | ]. split; [exact Ne | ].
    destruct (mini_houses m Hm) as [U1 [U2 [U3 U4]]]. split; [ | split].
    + destruct Ic0 as [A B]. destruct ptg; [apply (mem_absent _ c0 x U2 Lc0 B Mc0) | apply (mem_absent _ c0 x U1 Lc0 A Mc0)].
    + intros c Ik A. apply poss_mem in A. destruct A as [Hc [_ A]]. replace (S x - 1) with x in A by lia.
      destruct (mini_of m c Hm Hc) as [L2 [T2 I2]]. destruct (Nat.eq_dec (mini_at m c) m) as [E | N]; [rewrite E in I2; exact I2 | ].
      exfalso. apply (Only (mini_at m c)); [ | exists c; auto]. destruct I2 as [A' B']. destruct (mini_houses _ L2) as [V1 [V2 [V3 V4]]]. destruct ptg.
      * split; [exact L2 | ]. split; [exact N | ]. split; [exact T2 | ]. apply (house_uniq _ _ c V2 U2); [congruence | exact B' | exact Ik].
      * split; [exact L2 | ]. split; [exact N | ]. split; [exact T2 | ]. apply (house_uniq _ _ c V1 U1); [congruence | exact A' | exact Ik].
    + intros c e Hi. apply Ic in Hi. cbn [fst snd] in Hi. destruct Hi as [m' [Hm' [Lc [[A B] [-> _]]]]]. split; [exact Lc | ]. split; [reflexivity | ]. apply In_ in Hm'.
      assert (Nm : m' <> m /\ m' < 54 /\ m' / 27 = m / 27) by (destruct ptg; destruct Hm' as [A1 [B1 [B1' _]]]; auto). destruct Nm as [Nm [Lm' Ty]].
      split; [destruct ptg; destruct Hm' as [_ [_ [_ Q]]]; rewrite <- Q; assumption | ]. intros [A' B']. destruct (mini_houses m' Lm') as [V1 [V2 [V3 V4]]].
      apply Nm, mini_inj; try assumption; [apply (house_uniq _ _ c V1 U1) | apply (house_uniq _ _ c V2 U2)]; try assumption; congruence.
  - split.
    + intros [m' [Hm [c [Lc [Ii M]]]]]. exists (c, S x). apply Ic. exists m'. split; [apply In_; exact Hm | ]. cbn [fst snd]. auto.
    + intros [[c e] Hi]. apply Ic in Hi. cbn [fst snd] in Hi. destruct Hi as [m' [Hm [Lc [Ii [-> M]]]]]. exists m'. split; [apply In_; exact Hm | ]. exists c. auto.
Qed.

(** The digits of a wing *)
Lemma wing_digits (xyz : bool) n common h c1 c2 x : (xyz = true -> n = 3 /\ common = 2) -> (xyz = false -> n = 2 /\ common = 1) ->
  h < 81 -> c1 < 81 -> c2 < 81 -> wing_pat st0 n common h c1 c2 -> (forall y, mem (P st0 c1) y /\ mem (P st0 c2) y <-> y = x) ->
  exists a b, a <> b /\ a <> x /\ b <> x /\ (a < 9 /\ x < 9) /\ b < 9 /\
    (forall i, mem (P st0 h) i <-> i = a \/ i = b \/ (xyz = true /\ i = x)) /\
    (forall i, mem (P st0 c1) i <-> i = a \/ i = x) /\ (forall i, mem (P st0 c2) i <-> i = b \/ i = x).
Proof.
  intros Hn Hn' Hh H1 H2 [Ln [[L1 L1'] [[L2 L2'] [L12 L3]]]] Mu. assert (w := u_w _ _ U). assert (S1 := w_p _ w c1 H1). assert (S2 := w_p _ w c2 H2). assert (Sh := w_p _ w h Hh).
  destruct (proj2 (Mu x) eq_refl) as [X1 X2].
  assert (Pair : forall c, c < 81 -> set_len (P st0 c) = 2 -> mem (P st0 c) x -> exists a, a <> x /\ a < 9 /\ forall i, mem (P st0 c) i <-> i = a \/ i = x).
  { intros c Hc Lc Mx. assert (Sc := w_p _ w c Hc). destruct (len_two EDigit _ Sc) as [p [q [Npq [Mp Mq]]]]; [lia | ].
    assert (Ea : exists a, a <> x /\ mem (P st0 c) a) by (destruct (Nat.eq_dec p x) as [-> | N]; [exists q; auto | exists p; auto]). destruct Ea as [a [Na Ma]]. exists a. split; [exact Na | ].
    split; [apply (Sc a Ma) | ]. intros i. split; [ | intros [-> | ->]; assumption]. intros Mi.
    assert (X : In i [a; x]); [ | destruct X as [X | [X | []]]; auto].
    apply (member_of EDigit (P st0 c) [a; x] i Sc); [constructor; [intros [Q | []]; auto | constructor; [intros [] | constructor]] | intros y [<- | [<- | []]]; assumption | exact Lc | exact Mi]. }
  destruct (Pair c1 H1 L1 X1) as [a [Nax [La D1]]]. destruct (Pair c2 H2 L2 X2) as [b [Nbx [Lb D2]]].
  assert (Nab : a <> b) by (intros Q; apply Nax, Mu; split; [apply D1; auto | apply D2; auto]).
  set (U3 := set_or (set_or (P st0 c1) (P st0 c2)) (P st0 h)) in *.
  assert (SU : is_set EDigit U3) by (intros y Q; unfold U3 in Q; rewrite !mem_or in Q; destruct Q as [[Q | Q] | Q]; [apply S1, Q | apply S2, Q | apply Sh, Q]).
  assert (ND : NoDup [x; a; b]) by (constructor; [intros [Q | [Q | []]]; auto | constructor; [intros [Q | []]; auto | constructor; [intros [] | constructor]]]).
  assert (All : forall y, mem (P st0 h) y -> In y [x; a; b]).
  { intros y My. apply (member_of EDigit U3 [x; a; b] y SU); [exact ND | | exact L3 | unfold U3; rewrite !mem_or; auto].
    intros z [<- | [<- | [<- | []]]]; unfold U3; rewrite !mem_or; [left; left; exact X1 | left; left; apply D1; auto | left; right; apply D2; auto]. }
  exists a, b. split; [exact Nab | ]. split; [exact Nax | ]. split; [exact Nbx | ]. split; [split; [exact La | apply (S1 x X1)] | ]. split; [exact Lb | ]. split; [ | split; [exact D1 | exact D2]].
  assert (NDh : NoDup (members EDigit (P st0 h))) by (apply NoDup_filter, seq_NoDup). assert (Lh := len_members EDigit _ Sh). rewrite Ln in Lh.
  assert (Im : forall i, In i (members EDigit (P st0 h)) <-> mem (P st0 h) i) by (intros i; apply members_in; exact Sh).
  destruct xyz.
  - destruct (Hn eq_refl) as [-> ->]. 
    assert (Q : incl [x; a; b] (members EDigit (P st0 h))).
    { apply NoDup_length_incl; [exact NDh | rewrite <- Lh; apply le_n | ]. intros y Hy. apply All, Im, Hy. }
    intros i. split.
    + intros Mi. destruct (All i Mi) as [E | [E | [E | []]]]; auto.
    + intros E. apply Im, Q. destruct E as [-> | [-> | [_ ->]]]; [right; left; reflexivity | right; right; left; reflexivity | left; reflexivity].
  - destruct (Hn' eq_refl) as [-> ->].
    assert (No : forall c v, is_set EDigit (P st0 c) -> mem (P st0 c) x -> set_len (set_and (P st0 h) (P st0 c)) = 1 -> mem (P st0 h) x -> mem (P st0 c) v -> v <> x -> ~ mem (P st0 h) v).
    { intros c v Sc Mc Lc Mh Mv Nv Q. assert (X : In v [x]); [ | destruct X as [X | []]; auto].
      apply (member_of EDigit (set_and (P st0 h) (P st0 c)) [x] v); [intros y Y; apply mem_and in Y; apply Sc, Y | constructor; [intros [] | constructor] | intros z [<- | []]; apply mem_and; auto | exact Lc | ].
      apply mem_and. auto. }
    assert (Nx : ~ mem (P st0 h) x).
    { intros Mx. destruct (len_two EDigit (P st0 h) Sh) as [p [q [Npq [Mp Mq]]]]; [lia | ].
      assert (Only : forall y, mem (P st0 h) y -> y = x).
      { intros y My. destruct (All y My) as [Q | [Q | [Q | []]]]; [auto | exfalso; subst y | exfalso; subst y].
        - apply (No c1 a S1 X1 L1' Mx ltac:(apply D1; auto) Nax My).
        - apply (No c2 b S2 X2 L2' Mx ltac:(apply D2; auto) Nbx My). }
      apply Npq. rewrite (Only p Mp), (Only q Mq). reflexivity. }
    assert (Q : incl [a; b] (members EDigit (P st0 h))).
    { apply NoDup_length_incl; [exact NDh | rewrite <- Lh; apply le_n | ]. intros y Hy. apply Im in Hy. destruct (All y Hy) as [E | [E | [E | []]]]; [subst y; contradiction | left; exact E | right; left; exact E]. }
    intros i. split.
    + intros Mi. destruct (All i Mi) as [E | [E | [E | []]]]; auto. subst i. contradiction.
    + intros E. apply Im, Q. destruct E as [-> | [-> | [E _]]]; [left; reflexivity | right; left; reflexivity | discriminate].
Qed.

Lemma geo_apart lines h c1 c2 : wing_geo lines h c1 c2 -> ~ peers c1 c2.
Proof.
  assert (B : forall a b, block_of a = block_of b -> row_of a / 3 = row_of b / 3 /\ col_of a / 3 = col_of b / 3) by (intros a b; unfold block_of; pose proof (col_lt a); pose proof (col_lt b); lia).
  assert (B' : forall a b, row_of a / 3 = row_of b / 3 -> col_of a / 3 = col_of b / 3 -> block_of a = block_of b) by (intros a b E E'; unfold block_of; congruence).
  intros G [_ Q]. destruct G as [[G1 [G2 [G3 G4]]] | [[G1 [G2 [G3 G4]]] | [_ [G1 [G2 [G3 G4]]]]]].
  - destruct (B _ _ G1) as [B1 B2]. destruct Q as [Q | [Q | Q]]; [congruence | | congruence]. apply G4, B'; congruence.
  - destruct (B _ _ G1) as [B1 B2]. destruct Q as [Q | [Q | Q]]; [ | congruence | congruence]. apply G4, B'; congruence.
  - destruct Q as [Q | [Q | Q]].
    + apply G4, B'; congruence.
    + apply G2, B'; congruence.
    + destruct (B _ _ Q) as [B1 B2]. apply G4, B'; congruence.
Qed.

Lemma wing_callback (xyz : bool) n common h c1 c2 : (xyz = true -> n = 3 /\ common = 2) -> (xyz = false -> n = 2 /\ common = 1) ->
  h < 81 -> c1 < 81 -> c2 < 81 -> wing_geo (negb xyz) h c1 c2 -> wing_pat st0 n common h c1 c2 ->
  callback (if xyz then XyzWing else XyWing) st0 (on_wing xyz (s_cell st0) h (P st0 h) c1 (P st0 c1) c2 (P st0 c2)) (wing_conf st0 xyz h c1 c2).
Proof.
  intros Hn Hn' Hh H1 H2 Geo Pt. assert (w := u_w _ _ U). assert (Pt' := Pt). destruct Pt' as [Ln [[L1 L1'] [[L2 L2'] [L12 L3]]]].
  assert (S12 : is_set EDigit (set_and (P st0 c1) (P st0 c2))) by (intros y Q; apply mem_and in Q; apply (w_p _ w c1 H1), Q).
  assert (Ux : exists x, x < 9 /\ set_unique EDigit (set_and (P st0 c1) (P st0 c2)) = Ok (UOk (Some x)) /\ forall y, mem (P st0 c1) y /\ mem (P st0 c2) y <-> y = x).
  { assert (Mu : forall y, mem (set_and (P st0 c1) (P st0 c2)) y <-> mem (P st0 c1) y /\ mem (P st0 c2) y) by (intros y; apply mem_and).
    destruct (unique_cases EDigit _ S12) as [[_ Q] | [[x [E Q]] | [_ [i [j [Q1 [Q2 Q3]]]]]]].
    - exfalso. destruct (N.eq_dec (set_and (P st0 c1) (P st0 c2)) 0) as [Z | Z]; [rewrite Z in L12; discriminate | ]. destruct (nonzero_mem _ Z) as [i Hi]. apply (Q i Hi).
    - exists x. split; [apply (S12 x), Q; reflexivity | ]. split; [exact E | ]. intros y. rewrite <- Mu. apply Q.
    - exfalso. pose proof (two_len EDigit _ i j S12 Q3 Q1 Q2). lia. }
  destruct Ux as [x [Hx [Eu Mu]]].
  destruct (neighbors_set_exact h Hh) as [n0 [E0 [Sn0 M0]]]. destruct (neighbors_set_exact c1 H1) as [n1 [E1 [Sn1 M1]]]. destruct (neighbors_set_exact c2 H2) as [n2 [E2 [Sn2 M2]]].
  set (common_set := if xyz then set_and (set_and n0 n1) n2 else set_and n1 n2).
  assert (Mc : forall k, mem common_set k <-> k < 81 /\ peers c1 k /\ peers c2 k /\ (xyz = true -> peers h k)).
  { intros k. unfold common_set. destruct xyz; rewrite !mem_and, M1, M2, ?M0; split.
    - intros [[[A A1] [_ B1]] [_ B2]]. auto.
    - intros [A [B1 [B2 Q]]]. specialize (Q eq_refl). auto.
    - intros [[A B1] [_ B2]]. split; [exact A | ]. split; [exact B1 | ]. split; [exact B2 | discriminate].
    - intros [A [B1 [B2 _]]]. auto. }
  assert (Sc : is_set ECell common_set) by (intros k Q; apply Mc in Q; apply Q).
  assert (Two : xyz && negb (set_len common_set =? 2) = false).
  { destruct xyz; [ | reflexivity]. cbn [andb]. rewrite negb_false_iff, Nat.eqb_eq. rewrite <- (xyz_common h c1 c2 Hh H1 H2 Geo).
    apply (len_meaning ECell); [exact Sc | apply NoDup_filter, seq_NoDup | ]. intros k. rewrite filter_In, in_seq, !andb_true_iff, !peersb_iff, Mc. split.
    - intros [A [[B B'] B'']]. cbn [Nat.add] in A. split; [apply A | auto].
    - intros [A [B [B' B'']]]. split; [split; [apply Nat.le_0_l | exact A] | auto]. }
  assert (Lcell : forall c, In c (members ECell common_set) -> c < 81) by (intros c Hc; apply (members_in ECell _ c Sc) in Hc; apply Sc in Hc; exact Hc).
  destruct (with_digit_ok (s_cell st0) (S x) (members ECell common_set) (w_lp _ w) ltac:(lia) Lcell) as [cs [Ecs Ics]].
  destruct (as_set_total ECell c1 H1) as [s1 Es1]. destruct (as_set_total ECell c2 H2) as [s2 Es2].
  apply (callback_of _ _ _ _ cs (DWing h (P st0 h) (set_or s1 s2))).
  - intros st. unfold on_wing. rewrite Eu. cbn [bind]. rewrite from_index_ok by exact Hx. cbn [bind]. rewrite E0, E1, E2. cbn [bind]. fold common_set. rewrite Two.
    rewrite (iter_exact ECell _ Sc). cbn [bind]. rewrite Ecs. cbn [bind]. rewrite Es1, Es2. reflexivity.
  - intros [k e] Hi. apply Ics in Hi. cbn [fst snd] in Hi. destruct Hi as [Hk [-> M]]. apply (members_in ECell _ k Sc), Mc in Hk. destruct Hk as [Lk [K1 [K2 K3]]].
    replace (S x - 1) with x in M by lia. destruct (proj2 (Mu x) eq_refl) as [X1 X2]. destruct (geo_peers _ _ _ _ Geo) as [G1 G2].
    apply (wing_good st0 D xyz n common h c1 c2 k x U); try assumption. intros Q. apply Hn, Q.
  - reflexivity.
  - intros el r Ne Sl. eexists. split; [cbn [with_slices]; rewrite Sl; reflexivity | ]. split; [ | split; [exact I | ]].
    { cbn [ded_strategy]. rewrite Ln. destruct xyz; [destruct (Hn eq_refl) as [-> _] | destruct (Hn' eq_refl) as [-> _]]; reflexivity. }
    destruct (wing_digits xyz n common h c1 c2 x Hn Hn' Hh H1 H2 Pt Mu) as [a [b [Nab [Nax [Nbx [La [Lb [Dh [D1 D2]]]]]]]]]. destruct (geo_peers _ _ _ _ Geo) as [G1 G2].
    cbn [why]. split; [exact Hh | ]. split; [exact Ne | ]. split; [destruct xyz; exact I | ]. exists c1, c2, (S a), (S b), (S x).
    split; [repeat constructor; cbn [In]; lia | ]. split; [lia | ]. split; [exact H1 | ]. split; [exact H2 | ].
    split; [intros Q; apply Nab; assert (X : mem (P st0 c2) a) by (rewrite <- Q; apply D1; auto); apply D2 in X; destruct X as [X | X]; [exact X | contradiction] | ].
    split; [exact G1 | ]. split; [exact G2 | ]. split; [exact (geo_apart _ _ _ _ Geo) | ].
    split; [intros k; rewrite mem_or, (mem_single _ _ _ _ Es1), (mem_single _ _ _ _ Es2); reflexivity | ].
    split; [intros i; rewrite Dh; destruct xyz; split; intros [Q | [Q | [Q1 Q]]]; try discriminate; try (left; lia); try (right; left; lia); right; right; (split; [reflexivity | lia]) | ].
    split; [apply (mem_vacant h a Hh); apply Dh; auto | ]. split; [apply (mem_vacant c1 a H1); apply D1; auto | ]. split; [apply (mem_vacant c2 b H2); apply D2; auto | ].
    split; [intros e A; apply poss_mem in A; apply A | ].
    split; [intros e A; apply poss_mem in A; destruct A as [_ [Le A]]; apply D1 in A; lia | ]. split; [intros e A; apply poss_mem in A; destruct A as [_ [Le A]]; apply D2 in A; lia | ].
    intros k e Hi. apply Ics in Hi. cbn [fst snd] in Hi. destruct Hi as [Hk [-> _]]. apply (members_in ECell _ k Sc), Mc in Hk. destruct Hk as [Lk [K1 [K2 K3]]].
    split; [exact Lk | ]. split; [reflexivity | ]. split; [exact K1 | ]. split; [exact K2 | ]. destruct xyz; [intros _; apply K3; reflexivity | discriminate].
  - split.
    + intros [k [y [Lk [X1 [X2 [K1 [K2 [K3 M]]]]]]]]. assert (y = x) by (apply Mu; auto). subst y. exists (k, S x). apply Ics. cbn [fst snd]. replace (S x - 1) with x by lia.
      split; [apply (members_in ECell _ k Sc), Mc; auto | auto].
    + intros [[k e] Hi]. apply Ics in Hi. cbn [fst snd] in Hi. destruct Hi as [Hk [-> M]]. apply (members_in ECell _ k Sc), Mc in Hk. destruct Hk as [Lk [K1 [K2 K3]]].
      replace (S x - 1) with x in M by lia. destruct (proj2 (Mu x) eq_refl) as [X1 X2]. exists k, x. auto 10.
Qed.
End Callbacks.
