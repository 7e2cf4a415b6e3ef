(** The strategy solver: locked candidates and wings.  The searches visit every instance, and what they eliminate is right. *)
From Coq Require Import List Arith NArith ZArith ZifyNat ZifyN ZifyBool Lia Bool.
From Verif Require Import Spec TableSpec GeomSpec Solver Bits Geom Gen BitLemmas GridProofs BitsProofs GeomProofs GenProofs Strat StratFind StratSolve StratUse StratInv StratPos StratFound StratWalk.
Import ListNotations.
Ltac Zify.zify_post_hook ::= Z.to_euclidean_division_equations.

(** The miniline of a cell, of the same kind as [m] *)
Definition mini_at (m k : nat) : nat := if m <? 27 then 3 * row_of k + col_of k / 3 else 27 + 3 * col_of k + row_of k / 3.
Lemma mini_of m k : m < 54 -> k < 81 -> mini_at m k < 54 /\ mini_at m k / 27 = m / 27 /\ in_miniline (mini_at m k) k.
Proof.
  intros Hm Hk. assert (B : forallb (fun m => forallb (fun k => (mini_at m k <? 54) && (mini_at m k / 27 =? m / 27) && in_minilineb (mini_at m k) k) (seq 0 81)) (seq 0 54) = true) by (vm_compute; reflexivity).
  pose proof (sweep2 54 81 _ B m k Hm Hk) as X. cbv beta in X. rewrite !andb_true_iff, Nat.ltb_lt, Nat.eqb_eq, in_minilineb_iff in X. tauto.
Qed.

Lemma house_uniq h h' c : h < 27 -> h' < 27 -> h / 9 = h' / 9 -> in_house h c -> in_house h' c -> h = h'.
Proof.
  intros H H' E A B. unfold in_house in *. destruct (Nat.ltb_spec h 9), (Nat.ltb_spec h' 9), (Nat.ltb_spec h 18), (Nat.ltb_spec h' 18); try (clear A B; lia); try (rewrite <- A, <- B; reflexivity); generalize dependent (col_of c); generalize dependent (block_of c); intros; clear E; lia.
Qed.
Lemma mini_houses m : m < 54 -> miniline_line m < 27 /\ miniline_block m < 27 /\ miniline_line m / 9 = m / 27 /\ miniline_block m / 9 = 2.
Proof.
  intros Hm. assert (B : forallb (fun m => (miniline_line m <? 27) && (miniline_block m <? 27) && (miniline_line m / 9 =? m / 27) && (miniline_block m / 9 =? 2)) (seq 0 54) = true) by (vm_compute; reflexivity).
  pose proof (sweep1 54 _ B m Hm) as X. cbv beta in X. rewrite !andb_true_iff, !Nat.ltb_lt, !Nat.eqb_eq in X. tauto.
Qed.
Lemma mini_inj m m' : m < 54 -> m' < 54 -> m / 27 = m' / 27 -> miniline_line m = miniline_line m' -> miniline_block m = miniline_block m' -> m = m'.
Proof.
  intros Hm Hm' E L B. assert (X : forallb (fun m => forallb (fun m' => negb ((m / 27 =? m' / 27) && (miniline_line m =? miniline_line m') && (miniline_block m =? miniline_block m')) || (m =? m')) (seq 0 54)) (seq 0 54) = true) by (vm_compute; reflexivity).
  pose proof (sweep2 54 54 _ X m m' Hm Hm') as Y. cbv beta in Y. rewrite E, L, B, !Nat.eqb_refl in Y. cbn in Y. apply Nat.eqb_eq. exact Y.
Qed.

Section Wing.
Variables (S0 : strategy) (st0 : strat) (stop : bool).
Notation Iv := (Iv S0 st0).
Notation Qv := (Qv S0 st0).
Notation callback := (callback S0 st0).

Lemma loop_rule {A} (f : A -> strat -> res (strat * ctl)) (fact : A -> Prop) : forall (l : list A) (R : Prop) st,
  (forall x R' st, In x l -> Iv R' st -> okc (f x st) (Iv (R' /\ fact x)) Qv (fun _ => False)) -> Iv R st ->
  okc (for_ctl l f st) (Iv (R /\ forall x, In x l -> fact x)) Qv (fun _ => False).
Proof.
  induction l as [ | x l IH]; intros R st H Hs; cbn [for_ctl].
  - cbn. eapply Iv_impl; [ | exact Hs]. intros HR. split; [exact HR | intros x []].
  - assert (X := H x R st (or_introl eq_refl) Hs). destruct (f x st) as [[s' [ | | ]] | | | ]; cbn [okc] in X; try contradiction; cbn [bind fst snd]; [ | exact X].
    eapply okc_impl; [apply (IH _ s' (fun y R' st' Hy => H y R' st' (or_intror Hy)) X) | | auto | auto].
    intros st' Q. eapply Iv_impl; [ | exact Q]. intros [[HR F] Fl]. split; [exact HR | ]. intros y [<- | Hy]; auto.
Qed.

Lemma step_rule (r : strat -> res (strat * bool)) conf (R : Prop) st (b : bool -> bool) : callback r conf -> (forall c, b c = true -> c = true) -> Iv R st ->
  okc (x <- r st; Ok (fst x, stop_if (b (snd x)))) (Iv (R /\ ~ conf)) Qv (fun _ => False).
Proof.
  intros Cb Hb Hs. destruct (Iv_callback _ _ _ _ _ _ Cb Hs) as [st1 [c [E1 [B1 B2]]]]. rewrite E1. cbn [bind fst snd]. destruct c.
  - destruct (b true); cbn [stop_if okc]; [apply B1; reflexivity | apply Iv_grown, B1; reflexivity].
  - destruct (b false) eqn:Q; [apply Hb in Q; discriminate | ]. cbn [stop_if okc]. apply B2. reflexivity.
Qed.

(** ** Locked candidates *)

Definition Mi (m x : nat) : Prop := exists c, c < 81 /\ in_miniline m c /\ mem (P st0 c) x.
Definition same_line (m m' : nat) : Prop := m' < 54 /\ m' <> m /\ m' / 27 = m / 27 /\ miniline_line m' = miniline_line m.
Definition same_block (m m' : nat) : Prop := m' < 54 /\ m' <> m /\ m' / 27 = m / 27 /\ miniline_block m' = miniline_block m.
(** The digit is in no other miniline of the block ([ptg]) or of the line. *)
Definition locked_pat (m x : nat) (ptg : bool) : Prop := m < 54 /\ x < 9 /\ Mi m x /\ forall m', (if ptg then same_block m m' else same_line m m') -> ~ Mi m' x.
(** It is in another miniline of the line or of the block. *)
Definition locked_conf (m x : nat) (ptg : bool) : Prop := exists m', (if ptg then same_line m m' else same_block m m') /\ Mi m' x.

Lemma same_line_iff m m' : m < 54 -> (same_line m m' <-> m' <> m /\ m' / 3 = m / 3).
Proof.
  intros Hm. unfold same_line, miniline_line. split.
  - intros [L [N [T E]]]. split; [exact N | ]. destruct (Nat.ltb_spec m' 27), (Nat.ltb_spec m 27); lia.
  - intros [N E]. assert (m' < 54) by lia. split; [assumption | ]. split; [exact N | ]. split; [lia | ]. destruct (Nat.ltb_spec m' 27), (Nat.ltb_spec m 27); lia.
Qed.
Lemma same_block_iff m m' : m < 54 -> (same_block m m' <-> m' <> m /\ m' / 9 = m / 9 /\ m' mod 3 = m mod 3).
Proof.
  intros Hm. unfold same_block, miniline_block. split.
  - intros [L [N [T E]]]. split; [exact N | ]. destruct (Nat.ltb_spec m' 27), (Nat.ltb_spec m 27); lia.
  - intros [N [E E']]. assert (m' < 54) by lia. split; [assumption | ]. split; [exact N | ]. split; [lia | ]. destruct (Nat.ltb_spec m' 27), (Nat.ltb_spec m 27); lia.
Qed.

Lemma rfold_or (l : list nat) (poss : list N) : length poss = 81 -> (forall c, In c l -> c < 81) -> forall acc, 
  exists m, rfold (fun cell acc => m <- aget poss cell; Ok (set_or acc m)) l acc = Ok m /\ forall x, mem m x <-> mem acc x \/ exists c, In c l /\ mem (nth c poss 0%N) x.
Proof.
  intros L. induction l as [ | c l IH]; intros H acc; cbn [rfold].
  - exists acc. split; [reflexivity | ]. intros x. split; [auto | intros [Q | [c [[] _]]]; exact Q].
  - rewrite (aget_ok _ _ 0%N) by (rewrite L; apply H; left; reflexivity). cbn [bind].
    destruct (IH (fun k Hk => H k (or_intror Hk)) (set_or acc (nth c poss 0%N))) as [m [E M]]. exists m. split; [exact E | ]. intros x. rewrite M, mem_or. split.
    + intros [[Q | Q] | [k [Hk Q]]]; [auto | right; exists c; split; [left; reflexivity | exact Q] | right; exists k; split; [right; exact Hk | exact Q]].
    + intros [Q | [k [[<- | Hk] Q]]]; [auto | auto | right; exists k; auto].
Qed.

Lemma miniline_digits_ok m : W st0 -> m < 54 -> exists D, miniline_digits (s_cell st0) m = Ok D /\ is_set EDigit D /\ forall x, mem D x <-> Mi m x.
Proof.
  intros w Hm. unfold miniline_digits. destruct (miniline_cells_exact m Hm) as [cm [E [Sc M]]]. rewrite E. cbn [bind]. rewrite (iter_exact ECell cm Sc). cbn [bind].
  destruct (rfold_or (members ECell cm) (s_cell st0) (w_lp _ w)) with (acc := set_none EDigit) as [D [ED MD]].
  { intros c Hc. apply (members_in ECell cm c Sc) in Hc. apply Sc in Hc. exact Hc. }
  exists D. split; [exact ED | ]. assert (X : forall x, mem D x <-> Mi m x).
  { intros x. rewrite MD. split.
    - intros [Q | [c [Hc Q]]]; [destruct (mem_none _ _ Q) | ]. apply (members_in ECell cm c Sc) in Hc. apply M in Hc. exists c. destruct Hc. auto.
    - intros [c [Lc [Ic Q]]]. right. exists c. split; [apply (members_in ECell cm c Sc), M; auto | exact Q]. }
  split; [ | exact X]. intros x Q. apply X in Q. destruct Q as [c [Lc [_ Q]]]. apply (w_p _ w c Lc x Q).
Qed.

Lemma find_unique_mem a b c x : is_set EDigit a -> is_set EDigit b -> is_set EDigit c ->
  (mem (find_unique [a; b; c] (set_none EDigit) (set_none EDigit)) x <->
   (mem a x /\ ~ mem b x /\ ~ mem c x) \/ (~ mem a x /\ mem b x /\ ~ mem c x) \/ (~ mem a x /\ ~ mem b x /\ mem c x)).
Proof.
  intros Sa Sb Sc. cbn [find_unique]. rewrite (mem_without EDigit).
  - rewrite !mem_or, !mem_and, !mem_or. assert (N : forall y, ~ mem (set_none EDigit) y) by (intros y Q; destruct (mem_none _ _ Q)). specialize (N x).
    destruct (N.testbit a (N.of_nat x)) eqn:Ta, (N.testbit b (N.of_nat x)) eqn:Tb, (N.testbit c (N.of_nat x)) eqn:Tc; unfold mem in *; rewrite Ta, Tb, Tc; intuition congruence.
  - intros y Q. rewrite !mem_or in Q. destruct Q as [[[Q | Q] | Q] | Q]; [destruct (mem_none _ _ Q) | apply Sa, Q | apply Sb, Q | apply Sc, Q].
Qed.

Lemma rmap_nth {A B} (f : A -> res B) (R : A -> B -> Prop) (l : list A) da db : (forall x, In x l -> exists y, f x = Ok y /\ R x y) ->
  exists r, rmap f l = Ok r /\ length r = length l /\ forall i, i < length l -> R (nth i l da) (nth i r db).
Proof.
  intros H. destruct (rmap_spec f R l H) as [r [E F]]. exists r. split; [exact E | ]. clear E H. induction F as [ | a b l r Hab F [IL IH]]; [split; [reflexivity | cbn; lia] | ].
  split; [cbn [length]; lia | ]. intros [ | i] Hi; [exact Hab | ]. cbn [length] in Hi. apply IH. lia.
Qed.

Lemma find_locked_rule on : W st0 -> (forall m x nbs ptg, locked_pat m x ptg -> (forall m', In m' nbs <-> if ptg then same_line m m' else same_block m m') ->
    callback (on m (S x) nbs ptg) (locked_conf m x ptg)) ->
  hp (find_locked (s_cell st0) stop on st0)
    (fun st => found S0 st0 st /\ (grown st0 st \/ (st = st0 /\ forall m x ptg, locked_pat m x ptg -> ~ locked_conf m x ptg)))
    (fun _ => False).
Proof.
  intros w Cb. unfold find_locked.
  set (fact := fun k => forall i, In i (seq 0 9) -> forall x ptg, locked_pat (k * 9 + i) x ptg -> ~ locked_conf (k * 9 + i) x ptg).
  eapply hp_impl; [apply (finish_rule _ (Iv (True /\ forall k, In k (seq 0 6) -> fact k)) Qv (fun _ => False)) | | auto].
  - apply loop_rule; [ | split; [apply found_refl | auto]].
    intros k R st Hk Hs. apply in_seq in Hk.
    destruct (rmap_nth (miniline_digits (s_cell st0)) (fun m D => is_set EDigit D /\ forall x, mem D x <-> Mi m x) (chute_minilines k) 0 0%N) as [mpd [E [Lm Hm]]].
    { intros m Hm. unfold chute_minilines in Hm. apply in_map_iff in Hm. destruct Hm as [i [<- Hi]]. apply in_seq in Hi. apply (miniline_digits_ok _ w). lia. }
    rewrite E. cbn [bind]. assert (Lc : length (chute_minilines k) = 9) by reflexivity. rewrite Lc in *.
    assert (Nc : forall i, i < 9 -> nth i (chute_minilines k) 0 = k * 9 + i).
    { intros i Hi. unfold chute_minilines. change (fun i => k * 9 + i) with ((fun i => k * 9 + i)). rewrite (nth_indep _ _ (k * 9 + 0)) by (rewrite map_length, seq_length; exact Hi).
      rewrite (map_nth (fun i => k * 9 + i) (seq 0 9) 0 i). rewrite seq_nth by exact Hi. reflexivity. }
    assert (Hm' : forall i, i < 9 -> is_set EDigit (nth i mpd 0%N) /\ forall x, mem (nth i mpd 0%N) x <-> Mi (k * 9 + i) x) by (intros i Hi; rewrite <- (Nc i Hi); apply (Hm i Hi)).
    clear Hm.
    destruct (rmap_nth (fun l => a <- aget mpd (l * 3 + 0); b <- aget mpd (l * 3 + 1); c <- aget mpd (l * 3 + 2);
                           Ok (find_unique [a; b; c] (set_none EDigit) (set_none EDigit))) (fun l D => forall x, mem D x <-> exists j, j < 3 /\ Mi (k * 9 + l * 3 + j) x /\ forall j', j' < 3 -> j' <> j -> ~ Mi (k * 9 + l * 3 + j') x) (seq 0 3) 0 0%N) as [lu [Elu [Llu Hlu]]].
    { intros l Hl. apply in_seq in Hl. rewrite !(aget_ok mpd _ 0%N) by lia. cbn [bind]. eexists. split; [reflexivity | ]. intros x.
      destruct (Hm' (l * 3 + 0) ltac:(lia)) as [S1 M1]. destruct (Hm' (l * 3 + 1) ltac:(lia)) as [S2 M2]. destruct (Hm' (l * 3 + 2) ltac:(lia)) as [S3 M3].
      rewrite find_unique_mem by assumption. rewrite M1, M2, M3, !Nat.add_assoc. split.
      - intros [[A [B D]] | [[A [B D]] | [A [B D]]]]; [exists 0 | exists 1 | exists 2]; (split; [lia | ]); (split; [assumption | ]); intros j' Hj N; destruct j' as [ | [ | [ | j']]]; try lia; assumption.
      - intros [j [Hj [A B]]]. destruct j as [ | [ | [ | j]]]; [left | right; left | right; right | lia]; repeat split; try exact A; apply B; lia. }
    rewrite Elu. cbn [bind].
    destruct (rmap_nth (fun l => a <- aget mpd (0 * 3 + l); b <- aget mpd (1 * 3 + l); c <- aget mpd (2 * 3 + l);
                           Ok (find_unique [a; b; c] (set_none EDigit) (set_none EDigit))) (fun l D => forall x, mem D x <-> exists j, j < 3 /\ Mi (k * 9 + (j * 3 + l)) x /\ forall j', j' < 3 -> j' <> j -> ~ Mi (k * 9 + (j' * 3 + l)) x) (seq 0 3) 0 0%N) as [bu [Ebu [Lbu Hbu]]].
    { intros l Hl. apply in_seq in Hl. rewrite !(aget_ok mpd _ 0%N) by lia. cbn [bind]. eexists. split; [reflexivity | ]. intros x.
      destruct (Hm' (0 * 3 + l) ltac:(lia)) as [S1 M1]. destruct (Hm' (1 * 3 + l) ltac:(lia)) as [S2 M2]. destruct (Hm' (2 * 3 + l) ltac:(lia)) as [S3 M3].
      rewrite find_unique_mem by assumption. rewrite M1, M2, M3. split.
      - intros [[A [B D]] | [[A [B D]] | [A [B D]]]]; [exists 0 | exists 1 | exists 2]; (split; [lia | ]); (split; [assumption | ]); intros j' Hj N; destruct j' as [ | [ | [ | j']]]; try lia; assumption.
      - intros [j [Hj [A B]]]. destruct j as [ | [ | [ | j]]]; [left | right; left | right; right | lia]; repeat split; try exact A; apply B; lia. }
    rewrite Ebu. cbn [bind].
    assert (Pl : forall i x, i < 9 -> (locked_pat (k * 9 + i) x false <-> mem (set_and (nth i mpd 0%N) (nth (i / 3) lu 0%N)) x)).
    { intros i x Hi. destruct (Hm' i Hi) as [Sm Mm]. assert (Hl := Hlu (i / 3)). rewrite seq_nth in Hl by (cbn; lia). rewrite mem_and, Mm, Hl by (cbn; lia). clear Hl.
      unfold locked_pat. split.
      - intros [Lm' [Lx [A B]]]. split; [exact A | ]. exists (i mod 3). split; [lia | ]. split; [replace (k * 9 + (0 + i / 3) * 3 + i mod 3) with (k * 9 + i) by lia; exact A | ].
        intros j' Hj N. apply B. apply same_line_iff; lia.
      - intros [A [j [Hj [B D]]]]. split; [lia | ]. split; [apply Mm in A; apply Sm in A; exact A | ]. split; [exact A | ]. intros m' Q. apply same_line_iff in Q; [ | lia].
        assert (j = i mod 3). { destruct (Nat.eq_dec j (i mod 3)) as [ | N]; [assumption | ]. destruct (D (i mod 3) ltac:(lia) ltac:(lia)). replace (k * 9 + (0 + i / 3) * 3 + i mod 3) with (k * 9 + i) by lia. exact A. }
        subst j. replace m' with (k * 9 + (0 + i / 3) * 3 + m' mod 3) by lia. apply D; lia. }
    assert (Pb : forall i x, i < 9 -> (locked_pat (k * 9 + i) x true <-> mem (set_and (nth i mpd 0%N) (nth (i mod 3) bu 0%N)) x)).
    { intros i x Hi. destruct (Hm' i Hi) as [Sm Mm]. assert (Hl := Hbu (i mod 3)). rewrite seq_nth in Hl by (cbn; lia). rewrite mem_and, Mm, Hl by (cbn; lia). clear Hl.
      unfold locked_pat. split.
      - intros [Lm' [Lx [A B]]]. split; [exact A | ]. exists (i / 3). split; [lia | ]. split; [replace (k * 9 + (i / 3 * 3 + (0 + i mod 3))) with (k * 9 + i) by lia; exact A | ].
        intros j' Hj N. apply B. apply same_block_iff; [lia | ]. lia.
      - intros [A [j [Hj [B D]]]]. split; [lia | ]. split; [apply Mm in A; apply Sm in A; exact A | ]. split; [exact A | ]. intros m' Q. apply same_block_iff in Q; [ | lia].
        assert (j = i / 3). { destruct (Nat.eq_dec j (i / 3)) as [ | N]; [assumption | ]. destruct (D (i / 3) ltac:(lia) ltac:(lia)). replace (k * 9 + (i / 3 * 3 + (0 + i mod 3))) with (k * 9 + i) by lia. exact A. }
        subst j. replace m' with (k * 9 + ((m' mod 9) / 3 * 3 + (0 + i mod 3))) by lia. apply D; lia. }
    clear Hlu Hbu.
    apply loop_rule; [ | exact Hs]. clear st Hs R. intros i R st Hi Hs. apply in_seq in Hi. cbn [Nat.add] in Hi.
    rewrite (aget_ok _ _ 0) by (rewrite Lc; lia). rewrite Nc by lia. cbn [bind]. rewrite !(aget_ok mpd _ 0%N) by lia. cbn [bind].
    rewrite (aget_ok lu _ 0%N) by (rewrite Llu, seq_length; lia). rewrite (aget_ok bu _ 0%N) by (rewrite Lbu, seq_length; lia). cbn [bind].
    destruct (miniline_neighbors_exact (k * 9 + i) ltac:(lia)) as [ln [bn [En [_ [_ [Il Ib]]]]]]. rewrite En. cbn [bind].
    set (ul := set_and (nth i mpd 0%N) (nth (i / 3) lu 0%N)) in *. set (ub := set_and (nth i mpd 0%N) (nth (i mod 3) bu 0%N)) in *.
    assert (Sul : is_set EDigit ul) by (intros x Q; unfold ul in Q; apply mem_and in Q; apply (proj1 (Hm' i ltac:(lia))), Q).
    assert (Sub : is_set EDigit ub) by (intros x Q; unfold ub in Q; apply mem_and in Q; apply (proj1 (Hm' i ltac:(lia))), Q).
    eapply okc_impl; [apply (loop_rule _ (fun t : N * list nat * bool => forall x, locked_pat (k * 9 + i) x (snd t) -> ~ locked_conf (k * 9 + i) x (snd t))); [ | exact Hs] | | auto | auto].
    + clear st Hs R. intros [[u nbs] ptg] R st Ht Hs. cbn [fst snd].
      assert (Hu : is_set EDigit u /\ (forall x, locked_pat (k * 9 + i) x ptg <-> mem u x) /\ forall m', In m' nbs <-> if ptg then same_line (k * 9 + i) m' else same_block (k * 9 + i) m').
      { destruct Ht as [Q | [Q | []]]; injection Q as <- <- <-; (split; [assumption | ]).
        - split; [intros x; apply Pl; lia | exact Ib].
        - split; [intros x; apply Pb; lia | exact Il]. }
      destruct Hu as [Su [Pu Iu]]. destruct (set_is_empty u) eqn:Eu.
      * cbn [okc]. eapply Iv_impl; [ | exact Hs]. intros HR. split; [exact HR | ]. intros x Q. apply Pu in Q. apply (empty_iff EDigit u Su) in Eu. subst u. destruct (mem0 _ Q).
      * destruct (digits_of_ok u Su) as [dl [Edl [_ Idl]]]. rewrite Edl. cbn [bind].
        eapply okc_impl; [apply (loop_rule _ (fun d => ~ locked_conf (k * 9 + i) (d - 1) ptg)); [ | exact Hs] | | auto | auto].
        -- clear st Hs R. intros d R st Hd' Hs. apply Idl in Hd'. destruct Hd' as [Ld Md]. apply (step_rule (on (k * 9 + i) d nbs ptg) _ R st (fun c => stop && c)); [ | intros c Q; apply andb_true_iff in Q; apply Q | exact Hs].
           replace d with (S (d - 1)) at 1 by lia. apply Cb; [apply Pu; exact Md | exact Iu].
        -- intros st' Q. eapply Iv_impl; [ | exact Q]. intros [HR X]. split; [exact HR | ]. intros x Hx. apply Pu in Hx. specialize (X (S x)). replace (S x - 1) with x in X by lia. apply X.
           apply Idl. replace (S x - 1) with x by lia. split; [apply Su in Hx; cbn in Hx; lia | exact Hx].
    + intros st' Q. eapply Iv_impl; [ | exact Q]. intros [HR X]. split; [exact HR | ]. intros x ptg. destruct ptg.
      * apply (X (ub, ln, true)). right. left. reflexivity.
      * apply (X (ul, bn, false)). left. reflexivity.
  - intros st [[F [Q | [E [_ X]]]] | [F Q]]; (split; [exact F | ]); [left; exact Q | right | left; exact Q]. split; [exact E | ].
    intros m x ptg Pt. assert (Hm : m < 54) by apply Pt. replace m with (m / 9 * 9 + m mod 9) in Pt |- * by lia. apply (X (m / 9) ltac:(apply in_seq; lia) (m mod 9) ltac:(apply in_seq; lia) x ptg Pt).
Qed.

(** What locked candidates eliminate *)
Lemma locked_good D m x ptg m' c : UP D st0 -> locked_pat m x ptg -> (if ptg then same_line m m' else same_block m m') -> c < 81 -> in_miniline m' c -> mem (P st0 c) x ->
  good st0 (c, S x).
Proof.
  intros U [Hm [Hx [[c0 [Lc0 [Ic0 Mc0]]] Only]]] Sm Hc Ic M. split; [exact Hc | ]. cbn [fst snd]. split; [lia | ]. replace (S x - 1) with x by lia. split; [exact M | ].
  intros s So Ss E.
  (* the house that has the digit only in [m], and the house where it is eliminated *)
  set (h1 := if ptg then miniline_block m else miniline_line m). set (h2 := if ptg then miniline_line m else miniline_block m).
  assert (H1 : h1 < 27) by (unfold h1, miniline_block, miniline_line; destruct ptg; destruct (Nat.ltb_spec m 27); lia).
  assert (H2 : h2 < 27) by (unfold h2, miniline_block, miniline_line; destruct ptg; destruct (Nat.ltb_spec m 27); lia).
  assert (I1 : in_house h1 c0) by (unfold h1; destruct Ic0; destruct ptg; assumption).
  destruct (u_house D st0 s h1 c0 x U So Ss H1 Lc0 I1 Mc0) as [k [Hk [Ik [Ek [Mk _]]]]].
  assert (Nm : m' <> m /\ m' < 54 /\ m' / 27 = m / 27) by (destruct ptg; destruct Sm as [A [B [B' _]]]; auto). destruct Nm as [Nm [Lm' Ty]].
  assert (Kin : in_miniline m k).
  { assert (Ex : exists m2, m2 < 54 /\ m2 / 27 = m / 27 /\ in_miniline m2 k).
    { exists (mini_at m k).
      apply (mini_of m k Hm Hk). }
    destruct Ex as [m2 [L2 [T2 I2]]]. destruct (Nat.eq_dec m2 m) as [-> | N]; [exact I2 | ]. exfalso. apply (Only m2); [ | exists k; auto].
    unfold h1 in Ik. destruct I2 as [A B]. destruct (mini_houses m Hm) as [U1 [U2 [U3 U4]]]. destruct (mini_houses m2 L2) as [V1 [V2 [V3 V4]]]. destruct ptg.
    - split; [exact L2 | ]. split; [exact N | ]. split; [exact T2 | ]. apply (house_uniq _ _ k V2 U2); [congruence | exact B | exact Ik].
    - split; [exact L2 | ]. split; [exact N | ]. split; [exact T2 | ]. apply (house_uniq _ _ k V1 U1); [congruence | exact A | exact Ik]. }
  assert (K2 : in_house h2 k) by (unfold h2; destruct Kin; destruct ptg; assumption).
  assert (C2 : in_house h2 c).
  { unfold h2. destruct Ic as [A B]. destruct ptg; destruct Sm as [_ [_ [_ Q]]]; rewrite <- Q; assumption. }
  assert (Nck : c <> k).
  { intros ->. destruct Ic as [A B]. destruct Kin as [A' B']. destruct (mini_houses m Hm) as [U1 [U2 [U3 U4]]]. destruct (mini_houses m' Lm') as [V1 [V2 [V3 V4]]].
    apply Nm, mini_inj; try assumption; [apply (house_uniq _ _ k V1 U1) | apply (house_uniq _ _ k V2 U2)]; try assumption; congruence. }
  destruct So as [_ [_ V]]. apply (V c k Hc Hk); [apply (house_peers h2); assumption | congruence].
Qed.

(** ** Wings *)

(** The three cells have the digits of a wing. *)
Definition wing_pat (n common h c1 c2 : nat) : Prop :=
  set_len (P st0 h) = n /\ (set_len (P st0 c1) = 2 /\ set_len (set_and (P st0 h) (P st0 c1)) = common) /\
  (set_len (P st0 c2) = 2 /\ set_len (set_and (P st0 h) (P st0 c2)) = common) /\
  set_len (set_and (P st0 c1) (P st0 c2)) = 1 /\ set_len (set_or (set_or (P st0 c1) (P st0 c2)) (P st0 h)) = 3.
(** Where the search looks for the pincers *)
Definition wing_geo (lines : bool) (h c1 c2 : nat) : Prop :=
  (block_of c1 = block_of h /\ row_of c1 <> row_of h /\ row_of c2 = row_of h /\ block_of c2 <> block_of h) \/
  (block_of c1 = block_of h /\ col_of c1 <> col_of h /\ col_of c2 = col_of h /\ block_of c2 <> block_of h) \/
  (lines = true /\ row_of c1 = row_of h /\ block_of c1 <> block_of h /\ col_of c2 = col_of h /\ block_of c2 <> block_of h).
(** The common digit of the pincers is a candidate of a cell that sees them. *)
Definition wing_conf (xyz : bool) (h c1 c2 : nat) : Prop := exists k x, k < 81 /\ mem (P st0 c1) x /\ mem (P st0 c2) x /\
  peers c1 k /\ peers c2 k /\ (xyz = true -> peers h k) /\ mem (P st0 k) x.

Lemma bivalue_ok hd common cells : W st0 -> is_set ECell cells ->
  exists l, bivalue_cells (s_cell st0) hd common cells = Ok l /\ forall c m, In (c, m) l <-> mem cells c /\ m = P st0 c /\ set_len m = 2 /\ set_len (set_and hd m) = common.
Proof.
  intros w Sc. unfold bivalue_cells. rewrite (iter_exact ECell cells Sc). cbn [bind].
  destruct (rmap_spec (fun cell => m <- aget (s_cell st0) cell; Ok (cell, m)) (fun c y => y = (c, P st0 c)) (members ECell cells)) as [r [E F]].
  { intros c Hc. apply (members_in ECell cells c Sc) in Hc. apply Sc in Hc. rewrite (aget_ok _ _ 0%N) by (rewrite (w_lp _ w); exact Hc). cbn [bind]. eexists. split; reflexivity. }
  rewrite E. cbn [bind]. eexists. split; [reflexivity | ]. intros c m. rewrite filter_In. cbn [snd]. rewrite andb_true_iff, !Nat.eqb_eq. split.
  - intros [Hi [A B]]. destruct (Forall2_in_r _ _ _ F _ Hi) as [c' [Hc' Q]]. injection Q as -> ->. apply (members_in ECell cells c' Sc) in Hc'. auto.
  - intros [Mc [-> [A B]]]. split; [ | auto]. destruct (Forall2_in_l _ _ _ F c) as [y [Hy ->]]; [apply (members_in ECell cells c Sc); exact Mc | exact Hy].
Qed.

Lemma find_wing_rule n common lines xyz on : W st0 ->
  (forall h c1 c2, h < 81 -> c1 < 81 -> c2 < 81 -> wing_geo lines h c1 c2 -> wing_pat n common h c1 c2 ->
    callback (on h (P st0 h) c1 (P st0 c1) c2 (P st0 c2)) (wing_conf xyz h c1 c2)) ->
  hp (find_wing n common lines (s_cell st0) stop on st0)
    (fun st => found S0 st0 st /\ (grown st0 st \/ (st = st0 /\
       forall h c1 c2, h < 81 -> c1 < 81 -> c2 < 81 -> wing_geo lines h c1 c2 -> wing_pat n common h c1 c2 -> ~ wing_conf xyz h c1 c2)))
    (fun _ => False).
Proof.
  intros w Cb. unfold find_wing.
  set (fact := fun h => forall c1 c2, c1 < 81 -> c2 < 81 -> wing_geo lines h c1 c2 -> wing_pat n common h c1 c2 -> ~ wing_conf xyz h c1 c2).
  eapply hp_impl; [apply (finish_rule _ (Iv (True /\ forall k, In k (seq 0 81) -> fact k)) Qv (fun _ => False)) | | auto].
  - apply loop_rule; [ | split; [apply found_refl | auto]].
    intros h R st Hh Hs. apply in_seq in Hh. cbn [Nat.add] in Hh. rewrite (aget_ok _ _ 0%N) by (rewrite (w_lp _ w); lia). cbn [bind]. fold (P st0 h).
    destruct (Nat.eqb_spec (set_len (P st0 h)) n) as [En | Nn]; cbn [negb].
    2:{ cbn [okc]. eapply Iv_impl; [ | exact Hs]. intros HR. split; [exact HR | ]. intros c1 c2 _ _ _ [Q _]. contradiction. }
    destruct (cell_conversions h ltac:(lia)) as [Er [Ek [Eb _]]]. rewrite Er, Ek, Eb. cbn [bind].
    destruct (rcb_cells_exact (row_of h) ltac:(apply row_lt; lia)) as [[SR MR] _].
    destruct (rcb_cells_exact (col_of h) ltac:(apply col_lt; lia)) as [_ [[SC MC] _]].
    destruct (rcb_cells_exact (block_of h) ltac:(apply block_lt; lia)) as [_ [_ [SB MB]]].
    set (rc := cells_of_row (row_of h)) in *. set (cc := cells_of_col (col_of h)) in *. set (bc := cells_of_block (block_of h)) in *.
    assert (Wo : forall a b, is_set ECell a -> is_set ECell (set_without ECell a b)) by (intros a b Sa x Q; apply (mem_without ECell) in Q; [apply Sa, Q | exact Sa]).
    eapply okc_impl; [apply (loop_rule _ (fun t : N * N => forall c1 c2, mem (fst t) c1 -> mem (snd t) c2 -> wing_pat n common h c1 c2 -> ~ wing_conf xyz h c1 c2)); [ | exact Hs] | | auto | auto].
    + clear st Hs R. intros [A B] R st Ht Hs. cbn [fst snd].
      assert (Hg : is_set ECell A /\ is_set ECell B /\ forall c1 c2, mem A c1 -> mem B c2 -> c1 < 81 /\ c2 < 81 /\ wing_geo lines h c1 c2).
      { apply in_app_iff in Ht. cbn [In] in Ht. destruct Ht as [[Q | [Q | []]] | Q].
        - injection Q as <- <-. split; [auto | ]. split; [auto | ]. intros c1 c2 M1 M2. rewrite (mem_without ECell), MB, MR in M1 by exact SB. rewrite (mem_without ECell), MB, MR in M2 by exact SR.
          split; [tauto | ]. split; [tauto | ]. left. tauto.
        - injection Q as <- <-. split; [auto | ]. split; [auto | ]. intros c1 c2 M1 M2. rewrite (mem_without ECell), MB, MC in M1 by exact SB. rewrite (mem_without ECell), MB, MC in M2 by exact SC.
          split; [tauto | ]. split; [tauto | ]. right. left. tauto.
        - destruct lines eqn:Li; [ | destruct Q]. destruct Q as [Q | []]. injection Q as <- <-. split; [auto | ]. split; [auto | ]. intros c1 c2 M1 M2.
          rewrite (mem_without ECell), MB, MR in M1 by exact SR. rewrite (mem_without ECell), MB, MC in M2 by exact SC.
          split; [tauto | ]. split; [tauto | ]. right. right. tauto. }
      clear Ht. destruct Hg as [SA [SB' Hg]].
      destruct (bivalue_ok (P st0 h) common A w SA) as [l1 [E1 I1]]. destruct (bivalue_ok (P st0 h) common B w SB') as [l2 [E2 I2]]. rewrite E1. cbn [bind]. rewrite E2. cbn [bind].
      eapply okc_impl; [apply (loop_rule _ (fun p1 : nat * N => forall p2, In p2 l2 -> wing_pat n common h (fst p1) (fst p2) -> ~ wing_conf xyz h (fst p1) (fst p2))); [ | exact Hs] | | auto | auto].
      * clear st Hs R. intros [c1 m1] R st H1 Hs. cbn [fst snd]. apply I1 in H1. destruct H1 as [M1 [-> [L1 L1']]].
        apply (loop_rule _ (fun p2 : nat * N => wing_pat n common h c1 (fst p2) -> ~ wing_conf xyz h c1 (fst p2))); [ | exact Hs].
        clear st Hs R. intros [c2 m2] R st H2 Hs. cbn [fst snd]. apply I2 in H2. destruct H2 as [M2 [-> [L2 L2']]]. destruct (Hg c1 c2 M1 M2) as [Hc1 [Hc2 Geo]].
        destruct (negb (set_len (set_and (P st0 c1) (P st0 c2)) =? 1) || negb (set_len (set_or (set_or (P st0 c1) (P st0 c2)) (P st0 h)) =? 3)) eqn:Te.
        -- cbn [okc]. eapply Iv_impl; [ | exact Hs]. intros HR. split; [exact HR | ]. intros [_ [_ [_ [Q1 Q2]]]]. rewrite Q1, Q2 in Te. discriminate.
        -- apply orb_false_iff in Te. rewrite !negb_false_iff, !Nat.eqb_eq in Te. destruct Te as [T1 T2].
           assert (Pt : wing_pat n common h c1 c2) by (unfold wing_pat; auto).
           eapply okc_impl; [apply (step_rule (on h (P st0 h) c1 (P st0 c1) c2 (P st0 c2)) (wing_conf xyz h c1 c2) R st (fun c => c && stop)); [apply Cb; try assumption; lia | intros c Q; apply andb_true_iff in Q; apply Q | exact Hs] | | auto | auto].
           intros st' Q. eapply Iv_impl; [ | exact Q]. intros [HR X]. auto.
      * intros st' Q. eapply Iv_impl; [ | exact Q]. intros [HR X]. split; [exact HR | ]. intros c1 c2 M1 M2 Pt. apply (X (c1, P st0 c1)) with (p2 := (c2, P st0 c2)); [ | | exact Pt]; destruct Pt as [_ [[A1 A2] [[A3 A4] _]]].
        -- apply I1. auto.
        -- apply I2. auto.
    + intros st' Q. eapply Iv_impl; [ | exact Q]. intros [HR X]. split; [exact HR | ]. intros c1 c2 H1 H2 Geo. destruct Geo as [Geo | [Geo | [Li Geo]]].
      * apply (X (set_without ECell bc rc, set_without ECell rc bc)); [left; reflexivity | cbn [fst] | cbn [snd]]; rewrite (mem_without ECell), MB, MR by assumption; tauto.
      * apply (X (set_without ECell bc cc, set_without ECell cc bc)); [right; left; reflexivity | cbn [fst] | cbn [snd]]; rewrite (mem_without ECell), MB, MC by assumption; tauto.
      * apply (X (set_without ECell rc bc, set_without ECell cc bc)); [rewrite Li; right; right; left; reflexivity | cbn [fst] | cbn [snd]]; rewrite (mem_without ECell), MB by assumption; [rewrite MR | rewrite MC]; tauto.
  - intros st [[F [Q | [E [_ X]]]] | [F Q]]; (split; [exact F | ]); [left; exact Q | right | left; exact Q]. split; [exact E | ].
    intros h c1 c2 Hh. apply (X h ltac:(apply in_seq; lia)).
Qed.

Lemma geo_peers lines h c1 c2 : wing_geo lines h c1 c2 -> peers h c1 /\ peers h c2.
Proof.
  intros G. unfold wing_geo in G. unfold peers.
  assert (N : c1 <> h /\ c2 <> h) by (split; intros ->; tauto). destruct N as [N1 N2].
  destruct G as [[A [B [C E]]] | [[A [B [C E]]] | [_ [A [B [C E]]]]]]; repeat split; auto.
Qed.

Lemma member_of e U l v : is_set e U -> NoDup l -> (forall a, In a l -> mem U a) -> set_len U = length l -> mem U v -> In v l.
Proof.
  intros SU ND M L Mv. destruct (in_dec Nat.eq_dec v l) as [ | N]; [assumption | ]. exfalso.
  assert (X : length (v :: l) <= set_len U).
  { apply (pigeon e U (v :: l) (fun a => a) SU); [constructor; assumption | intros a [<- | Ha]; auto | auto]. }
  cbn [length] in X. lia.
Qed.

(** What a wing eliminates *)
Lemma wing_good D xyz n common h c1 c2 k x : UP D st0 -> (xyz = true -> n = 3) -> (xyz = false -> n = 2 /\ common = 1) ->
  h < 81 -> c1 < 81 -> c2 < 81 -> peers h c1 -> peers h c2 -> wing_pat n common h c1 c2 ->
  k < 81 -> mem (P st0 c1) x -> mem (P st0 c2) x -> peers c1 k -> peers c2 k -> (xyz = true -> peers h k) -> mem (P st0 k) x -> good st0 (k, S x).
Proof.
  intros U Hn Hn' Hh H1 H2 P1 P2 [Ln [[L1 L1'] [[L2 L2'] [L12 L3]]]] Hk M1 M2 K1 K2 K3 Mk.
  destruct (u_open D st0 k x U Hk Mk) as [_ Hx]. split; [exact Hk | ]. cbn [fst snd]. split; [lia | ]. replace (S x - 1) with x by lia. split; [exact Mk | ].
  intros s So Ss E. assert (w := u_w _ _ U). assert (S1 := w_p _ w c1 H1). assert (S2 := w_p _ w c2 H2). assert (Sh := w_p _ w h Hh).
  assert (Op : forall c, c < 81 -> set_len (P st0 c) <> 0 -> mem (P st0 c) (at_ s c - 1) /\ 1 <= at_ s c).
  { intros c Hc N. assert (R := proj1 (proj2 So) c Hc). destruct (u_digit D st0 s c U So Ss Hc) as [Q | [_ Q]]; [ | split; [exact Q | lia]].
    exfalso. apply N. destruct (c_done _ _ (u_c _ _ U) c) as [_ [_ Z]]; [lia | ]. rewrite Z. reflexivity. }
  assert (Nn : n <> 0) by (destruct xyz; [rewrite Hn by reflexivity; lia | destruct Hn' as [-> _]; [reflexivity | lia]]).
  destruct (Op h Hh ltac:(rewrite Ln; exact Nn)) as [Vh Rh]. destruct (Op c1 H1 ltac:(rewrite L1; discriminate)) as [V1 R1]. destruct (Op c2 H2 ltac:(rewrite L2; discriminate)) as [V2 R2].
  set (v0 := at_ s h - 1) in *. set (v1 := at_ s c1 - 1) in *. set (v2 := at_ s c2 - 1) in *.
  destruct So as [_ [_ V]].
  assert (N1 : v1 <> x) by (intros Q; apply (V c1 k H1 Hk K1); unfold v1 in Q; lia).
  assert (N2 : v2 <> x) by (intros Q; apply (V c2 k H2 Hk K2); unfold v2 in Q; lia).
  assert (N01 : v0 <> v1) by (intros Q; apply (V h c1 Hh H1 P1); unfold v0, v1 in Q; lia).
  assert (N02 : v0 <> v2) by (intros Q; apply (V h c2 Hh H2 P2); unfold v0, v2 in Q; lia).
  assert (S12 : is_set EDigit (set_and (P st0 c1) (P st0 c2))) by (intros y Q; apply mem_and in Q; apply S1, Q).
  assert (N12 : v1 <> v2).
  { intros Q. assert (X : In v1 [x]); [ | destruct X as [X | []]; auto].
    apply (member_of EDigit (set_and (P st0 c1) (P st0 c2)) [x] v1 S12); [constructor; [intros [] | constructor] | intros a [<- | []]; apply mem_and; auto | exact L12 | ].
    apply mem_and. split; [exact V1 | rewrite Q; exact V2]. }
  set (U3 := set_or (set_or (P st0 c1) (P st0 c2)) (P st0 h)) in *.
  assert (SU : is_set EDigit U3) by (intros y Q; unfold U3 in Q; rewrite !mem_or in Q; destruct Q as [[Q | Q] | Q]; [apply S1, Q | apply S2, Q | apply Sh, Q]).
  assert (All : forall y, mem (P st0 h) y -> In y [x; v1; v2]).
  { intros y My. apply (member_of EDigit U3 [x; v1; v2] y SU).
    - constructor; [intros [Q | [Q | []]]; auto | constructor; [intros [Q | []]; auto | constructor; [intros [] | constructor]]].
    - intros a [<- | [<- | [<- | []]]]; unfold U3; rewrite !mem_or; auto.
    - exact L3.
    - unfold U3. rewrite !mem_or. auto. }
  assert (X0 : v0 = x) by (destruct (All v0 Vh) as [Q | [Q | [Q | []]]]; [auto | exfalso; auto | exfalso; auto]).
  destruct xyz.
  - apply (V h k Hh Hk (K3 eq_refl)). unfold v0 in X0. lia.
  - destruct (Hn' eq_refl) as [En Ec]. rewrite En in Ln. rewrite Ec in L1', L2'.
    (* the hinge has the digit, so its other digit is not in the pincers *)
    assert (Mx : mem (P st0 h) x) by (rewrite <- X0; exact Vh).
    assert (No : forall c v, is_set EDigit (P st0 c) -> mem (P st0 c) x -> set_len (set_and (P st0 h) (P st0 c)) = 1 -> mem (P st0 c) v -> v <> x -> ~ mem (P st0 h) v).
    { intros c v Sc Mc Lc Mv Nv Q. assert (X : In v [x]); [ | destruct X as [X | []]; auto].
      apply (member_of EDigit (set_and (P st0 h) (P st0 c)) [x] v); [intros y Y; apply mem_and in Y; apply Sc, Y | constructor; [intros [] | constructor] | intros a [<- | []]; apply mem_and; auto | exact Lc | ].
      apply mem_and. auto. }
    destruct (len_two EDigit (P st0 h) Sh) as [a [b [Nab [Ma Mb]]]]; [lia | ].
    assert (Only : forall y, mem (P st0 h) y -> y = x).
    { intros y My. destruct (All y My) as [Q | [Q | [Q | []]]]; [auto | exfalso; subst y | exfalso; subst y].
      - apply (No c1 v1 S1 M1 L1' V1 N1 My).
      - apply (No c2 v2 S2 M2 L2' V2 N2 My). }
    apply Nab. rewrite (Only a Ma), (Only b Mb). reflexivity.
Qed.

(** A XYZ-wing has two cells that see all its cells. *)
Definition geob (h c1 c2 : nat) : bool :=
  ((block_of c1 =? block_of h) && negb (row_of c1 =? row_of h) && (row_of c2 =? row_of h) && negb (block_of c2 =? block_of h)) ||
  ((block_of c1 =? block_of h) && negb (col_of c1 =? col_of h) && (col_of c2 =? col_of h) && negb (block_of c2 =? block_of h)).
Lemma geob_iff h c1 c2 : wing_geo false h c1 c2 -> geob h c1 c2 = true.
Proof.
  intros G. unfold geob. rewrite orb_true_iff, !andb_true_iff, !negb_true_iff, !Nat.eqb_eq, !Nat.eqb_neq.
  destruct G as [[G1 [G2 [G3 G4]]] | [[G1 [G2 [G3 G4]]] | [G _]]]; [left; repeat split; assumption | right; repeat split; assumption | discriminate].
Qed.
Definition xyz_check (h c1 : nat) : bool := if block_of c1 =? block_of h then
  forallb (fun c2 => if geob h c1 c2 then length (filter (fun k => peersb h k && peersb c1 k && peersb c2 k) (seq 0 81)) =? 2 else true) (seq 0 81) else true.
Lemma xyz_checked : forallb (fun h => forallb (xyz_check h) (seq 0 81)) (seq 0 81) = true.
Proof. vm_compute. reflexivity. Qed.
Lemma xyz_common h c1 c2 : h < 81 -> c1 < 81 -> c2 < 81 -> wing_geo false h c1 c2 ->
  length (filter (fun k => peersb h k && peersb c1 k && peersb c2 k) (seq 0 81)) = 2.
Proof.
  intros Hh H1 H2 G.
  pose proof (sweep2 81 81 xyz_check xyz_checked h c1 Hh H1) as X. unfold xyz_check in X. apply geob_iff in G.
  assert (Qb : (block_of c1 =? block_of h) = true).
  { unfold geob in G. destruct (block_of c1 =? block_of h); [reflexivity | discriminate G]. }
  rewrite Qb in X. pose proof (sweep1 81 _ X c2 H2) as Y. cbv beta in Y. rewrite G in Y. apply Nat.eqb_eq. exact Y.
Qed.
End Wing.
