(** The strategy solver: rules for the searches and effect of an elimination on the history. *)
From Coq Require Import List Arith NArith ZArith ZifyNat ZifyN ZifyBool Lia Bool.
From Verif Require Import Spec TableSpec GeomSpec Solver Bits Geom Gen BitLemmas GridProofs BitsProofs GeomProofs GenProofs Strat StratFind StratSolve StratUse StratWhy StratWhyLemmas StratInv StratPos.
Import ListNotations.
Ltac Zify.zify_post_hook ::= Z.to_euclidean_division_equations.

(** * Loops of the searches *)

(** No panic; [I] after [Cont], [Q] after [return Ok(())], [E] after [return Err(Unsolvable)] *)
Definition okc {S} (r : res (S * ctl)) (I Q E : S -> Prop) : Prop :=
  match r with Ok (s, Cont) => I s | Ok (s, Stop) => Q s | Ok (s, Fail) => E s | _ => False end.
(** No panic; the boolean [true] means that the search ends *)
Definition okb {S} (r : res (S * bool)) (I Q : S -> Prop) : Prop :=
  match r with Ok (s, true) => Q s | Ok (s, false) => I s | _ => False end.

Lemma okc_impl {S} (r : res (S * ctl)) (I Q E I' Q' E' : S -> Prop) : okc r I Q E ->
  (forall s, I s -> I' s) -> (forall s, Q s -> Q' s) -> (forall s, E s -> E' s) -> okc r I' Q' E'.
Proof. destruct r as [[s [ | | ]] | | | ]; cbn; auto. Qed.
Lemma okb_impl {S} (r : res (S * bool)) (I Q I' Q' : S -> Prop) : okb r I Q -> (forall s, I s -> I' s) -> (forall s, Q s -> Q' s) -> okb r I' Q'.
Proof. destruct r as [[s [ | ]] | | | ]; cbn; auto. Qed.

(** [I done s]: the items of [done] have been visited. *)
Lemma for_ctl_rule {A S} (f : A -> S -> res (S * ctl)) (I : list A -> S -> Prop) (Q E : S -> Prop) : forall l done s,
  (forall pre x post s, l = pre ++ x :: post -> I (done ++ pre) s -> okc (f x s) (I (done ++ pre ++ [x])) Q E) ->
  I done s -> okc (for_ctl l f s) (I (done ++ l)) Q E.
Proof.
  induction l as [ | x l IH]; intros done s H Hs; cbn [for_ctl].
  - cbn. rewrite app_nil_r. exact Hs.
  - specialize (H []) as H0. specialize (H0 x l s eq_refl). rewrite app_nil_r in H0. specialize (H0 Hs). cbn [app] in H0.
    destruct (f x s) as [[s' [ | | ]] | | | ]; cbn [okc] in H0; try contradiction; cbn [bind fst snd]; try exact H0.
    replace (done ++ x :: l) with ((done ++ [x]) ++ l) by (rewrite <- app_assoc; reflexivity). apply IH; [ | exact H0].
    intros pre y post s2 E2 Hs2. specialize (H (x :: pre) y post s2). rewrite <- !app_assoc in *. cbn [app] in *. apply H; [rewrite E2; reflexivity | exact Hs2].
Qed.

Lemma for_ctl_inv {A S} (f : A -> S -> res (S * ctl)) (I Q E : S -> Prop) l s :
  (forall x s, In x l -> I s -> okc (f x s) I Q E) -> I s -> okc (for_ctl l f s) I Q E.
Proof.
  intros H Hs. apply (for_ctl_rule f (fun _ => I) Q E l [] s); [ | exact Hs]. intros pre x post s' -> Hs'. apply H; [ | exact Hs'].
  apply in_app_iff. right. left. reflexivity.
Qed.

Lemma finish_rule {S} (r : res (S * ctl)) (I Q E : S -> Prop) : okc r I Q E -> hp (finish r) (fun s => I s \/ Q s) E.
Proof. unfold finish. destruct r as [[s [ | | ]] | | | ]; cbn; auto. Qed.

Lemma rmap_spec {A B} (f : A -> res B) (R : A -> B -> Prop) : forall l, (forall x, In x l -> exists y, f x = Ok y /\ R x y) ->
  exists r, rmap f l = Ok r /\ Forall2 R l r.
Proof.
  induction l as [ | x l IH]; intros H; [exists []; auto | ]. destruct (H x (or_introl eq_refl)) as [y [E Ry]].
  destruct IH as [r [Er Rr]]; [intros z Hz; apply H; right; exact Hz | ]. exists (y :: r). cbn [rmap]. rewrite E. cbn [bind]. rewrite Er. cbn [bind]. auto.
Qed.

Lemma Forall2_in_l {A B} (R : A -> B -> Prop) l r : Forall2 R l r -> forall x, In x l -> exists y, In y r /\ R x y.
Proof. induction 1 as [ | a b l r Hab HF IH]; intros x []; [subst; exists b; split; [left; reflexivity | exact Hab] | ]. destruct (IH x H) as [y [Hy Rxy]]. exists y. split; [right; exact Hy | exact Rxy]. Qed.
Lemma Forall2_in_r {A B} (R : A -> B -> Prop) l r : Forall2 R l r -> forall y, In y r -> exists x, In x l /\ R x y.
Proof. induction 1 as [ | a b l r Hab HF IH]; intros y []; [subst; exists a; split; [left; reflexivity | exact Hab] | ]. destruct (IH y H) as [x [Hx Rxy]]. exists x. split; [right; exact Hx | exact Rxy]. Qed.

(** The concatenation of the results holds what [R] says of each item. *)
Lemma rflat_spec {A B} (f : A -> res (list B)) (R : A -> B -> Prop) l : (forall x, In x l -> exists y, f x = Ok y /\ forall b, In b y <-> R x b) ->
  exists r, rflat f l = Ok r /\ forall b, In b r <-> exists x, In x l /\ R x b.
Proof.
  intros H. unfold rflat. destruct (rmap_spec f (fun x y => forall b, In b y <-> R x b) l H) as [r [E F]]. rewrite E. cbn [bind].
  exists (concat r). split; [reflexivity | ]. intros b. rewrite in_concat. split.
  - intros [y [Hy Hb]]. destruct (Forall2_in_r _ _ _ F y Hy) as [x [Hx Q]]. exists x. split; [exact Hx | apply Q; exact Hb].
  - intros [x [Hx Rb]]. destruct (Forall2_in_l _ _ _ F x Hx) as [y [Hy Q]]. exists y. split; [exact Hy | apply Q; exact Rb].
Qed.

Lemma digits_of_ok m : is_set EDigit m -> exists l, digits_of m = Ok l /\ NoDup l /\ forall d, In d l <-> 1 <= d <= 9 /\ mem m (d - 1).
Proof.
  intros Sm. unfold digits_of. rewrite (iter_exact EDigit m Sm). cbn [bind]. exists (map S (members EDigit m)).
  assert (E : forall l, (forall x, In x l -> x < 9) -> rmap digit_from_index l = Ok (map S l)).
  { induction l as [ | x l IH]; intros H; [reflexivity | ]. cbn [rmap map]. rewrite from_index_ok by (apply H; left; reflexivity). cbn [bind].
    rewrite IH by (intros y Hy; apply H; right; exact Hy). reflexivity. }
  split; [apply E; intros x Hx; apply (members_in EDigit m x Sm) in Hx; apply Sm, Hx | ]. split.
  - apply FinFun.Injective_map_NoDup; [intros x y Q; exact (eq_add_S x y Q) | apply NoDup_filter, seq_NoDup].
  - intros d. rewrite in_map_iff. split.
    + intros [x [<- Hx]]. apply (members_in EDigit m x Sm) in Hx. split; [apply Sm in Hx; cbn in Hx; lia | ]. replace (S x - 1) with x by lia. exact Hx.
    + intros [R Q]. exists (d - 1). split; [lia | ]. apply (members_in EDigit m _ Sm). exact Q.
Qed.

Lemma cands_of_ok c m : is_set EDigit m -> exists l, cands_of c m = Ok l /\ forall x, In x l <-> fst x = c /\ 1 <= snd x <= 9 /\ mem m (snd x - 1).
Proof.
  intros S. unfold cands_of. destruct (digits_of_ok m S) as [l [E [_ I]]]. rewrite E. cbn [bind]. eexists. split; [reflexivity | ].
  intros [k d]. rewrite in_map_iff. cbn [fst snd]. split.
  - intros [e [[= <- <-] He]]. apply I in He. tauto.
  - intros [-> Q]. exists d. split; [reflexivity | apply I; exact Q].
Qed.

Lemma with_digit_ok poss d cells : length poss = 81 -> 1 <= d <= 9 -> (forall c, In c cells -> c < 81) ->
  exists l, with_digit poss d cells = Ok l /\ forall x, In x l <-> In (fst x) cells /\ snd x = d /\ mem (nth (fst x) poss 0%N) (d - 1).
Proof.
  intros L Hd' Hc. unfold with_digit.
  destruct (rflat_spec (fun cell => m <- aget poss cell; d0 <- digit_set d; Ok (if set_contains m d0 then [(cell, d)] else []))
    (fun c x => fst x = c /\ snd x = d /\ mem (nth c poss 0%N) (d - 1)) cells) as [r [E I]].
  - intros c Hi. specialize (Hc c Hi). rewrite (aget_ok _ _ 0%N) by lia. cbn [bind]. destruct (digit_set_ok d Hd') as [m [Em [Sm M]]]. rewrite Em. cbn [bind].
    eexists. split; [reflexivity | ]. intros [k e]. cbn [fst snd]. destruct (set_contains (nth c poss 0%N) m) eqn:T.
    + assert (Q := proj1 (contains_iff _ _) T (d - 1) (proj2 (M _) eq_refl)). cbn [In]. split; [intros [X | []]; injection X as <- <-; auto | intros [-> [-> _]]; left; reflexivity].
    + cbn [In]. split; [intros [] | ]. intros [_ [_ Q]]. assert (X : set_contains (nth c poss 0%N) m = true); [ | congruence].
      apply contains_iff. intros i Hm. apply M in Hm. subst i. exact Q.
  - exists r. split; [exact E | ]. intros x. rewrite I. split.
    + intros [c [Hi [E1 Q]]]. subst c. auto.
    + intros [Hi Q]. exists (fst x). auto.
Qed.

(** * Up to date *)

(** All entries have been processed and all eliminations removed. *)
Record UP (D : nat -> nat) (st : strat) : Prop := {
  u_w : W st;
  u_c : C D st;
  u_disj : disj st;
  u_dead : dead st;
  u_all : s_cnd st = length (s_entries st)
}.

Lemma u_open D st c x : UP D st -> c < 81 -> mem (P st c) x -> D c = 0 /\ x < 9.
Proof.
  intros U Hc M. split; [ | apply (w_p _ (u_w _ _ U) c Hc) in M; exact M]. destruct (Nat.eq_dec (D c) 0) as [ | N]; [assumption | ].
  destruct (c_done _ _ (u_c _ _ U) c N) as [_ [_ E]]. rewrite E in M. destruct (mem0 _ M).
Qed.

Lemma u_entry D st c d : UP D st -> In (c, d) (s_entries st) -> D c = d.
Proof. intros U Hi. apply (c_ent _ _ (u_c _ _ U)). rewrite (u_all _ _ U), firstn_all. exact Hi. Qed.
Lemma u_entry' D st c : UP D st -> D c <> 0 -> In (c, D c) (s_entries st).
Proof. intros U N. destruct (c_done _ _ (u_c _ _ U) c N) as [_ [Q _]]. apply in_firstn in Q. exact Q. Qed.

(** The digit of a solved grid in a cell is placed there or a candidate. *)
Lemma u_digit D st s c : UP D st -> solved s -> Snd s st -> c < 81 -> D c = at_ s c \/ (D c = 0 /\ mem (P st c) (at_ s c - 1)).
Proof.
  intros U So Ss Hc. destruct (Nat.eq_dec (D c) 0) as [Z | N].
  - right. split; [exact Z | ]. apply (keeps D st s c (u_c _ _ U) So Ss Hc Z).
  - left. symmetry. apply Ss. apply (u_entry' D st c U N).
Qed.

(** A digit that is a candidate in a house is a candidate where the solved grid has it. *)
Lemma u_house D st s h c x : UP D st -> solved s -> Snd s st -> h < 27 -> c < 81 -> in_house h c -> mem (P st c) x ->
  exists k, k < 81 /\ in_house h k /\ at_ s k = S x /\ mem (P st k) x /\ D k = 0.
Proof.
  intros U So Ss Hh Hc Hi M. destruct (u_open D st c x U Hc M) as [Z Hx].
  destruct (any_house_has_digit s h (S x) So Hh ltac:(lia)) as [k [Hk [Hik E]]]. exists k. split; [exact Hk | ]. split; [exact Hik | ]. split; [exact E | ].
  destruct (u_digit D st s k U So Ss Hk) as [Q | [Q Q']].
  - exfalso. apply (u_disj _ _ U c x h Hc Hh Hi M). apply (c_house _ _ (u_c _ _ U) h x Hh). exists k. split; [exact Hk | ]. split; [exact Hik | congruence].
  - rewrite E in Q'. replace (S x - 1) with x in Q' by lia. auto.
Qed.

(** * Eliminations *)

(** A candidate that no solved grid agreeing with the history has *)
Definition good (st : strat) (x : cand) : Prop :=
  fst x < 81 /\ 1 <= snd x <= 9 /\ mem (P st (fst x)) (snd x - 1) /\ forall s, solved s -> Snd s st -> at_ s (fst x) <> snd x.

Lemma tiles_app a ds b ds' c : tiles a ds b -> tiles b ds' c -> tiles a (ds ++ ds') c.
Proof.
  revert a. induction ds as [ | x ds IH]; intros a; cbn [tiles app]; [intros <- Q; exact Q | ].
  destruct (range_of x) as [r | ]; [ | apply IH]. intros [A [B Q]] Q'. auto.
Qed.
Lemma tiles_le a ds : forall b, tiles a ds b -> a <= b.
Proof.
  revert a. induction ds as [ | x ds IH]; intros a b; cbn [tiles]; [lia | ]. destruct (range_of x) as [r | ]; [ | apply IH].
  intros [_ [L Q]]. apply IH in Q. lia.
Qed.
Lemma tiles_naked a l : tiles a (map DNaked l) a.
Proof. induction l as [ | x l IH]; cbn; auto. Qed.

(** The deduction can be read, and its strategy is [S]. *)
Definition plain (x : deduction range) : Prop := match x with DFish _ _ _ _ | DAvoidable _ _ => False | _ => True end.
Definition reads (S : strategy) (elims : list cand) (x : deduction range) : Prop :=
  exists y, with_slices elims x = Ok y /\ ded_strategy y = Ok S /\ plain x.

Lemma slice_app l l' r x : slice l r = Ok x -> slice (l ++ l') r = Ok x.
Proof.
  unfold slice. destruct (Nat.leb_spec (fst r) (snd r)) as [A | A]; cbn [andb]; [ | discriminate].
  destruct (Nat.leb_spec (snd r) (length l)) as [B | B]; [ | discriminate]. intros [= <-].
  rewrite (proj2 (Nat.leb_le _ _)) by (rewrite app_length; lia). f_equal.
  rewrite skipn_app, firstn_app. replace (fst r - length l) with 0 by lia. rewrite skipn_length. replace (snd r - fst r - (length l - fst r)) with 0 by lia.
  cbn [skipn firstn]. rewrite app_nil_r. reflexivity.
Qed.
Lemma reads_app S l l' x : reads S l x -> reads S (l ++ l') x.
Proof.
  intros [y [E F]]. exists y. split; [ | exact F]. destruct x; cbn [with_slices] in *; try exact E;
    match type of E with bind (slice ?l ?r) _ = _ => destruct (slice l r) as [z | | | ] eqn:Q; cbn [bind] in E; try discriminate; rewrite (slice_app _ l' _ _ Q); exact E end.
Qed.

(** The deduction follows from what was known in the state [st0]. *)
Definition shows (st0 : strat) (S : strategy) (elims : list cand) (x : deduction range) : Prop :=
  exists y, with_slices elims x = Ok y /\ ded_strategy y = Ok S /\ plain x /\ why (listed (s_entries st0)) (listed (s_elims st0)) S y.
Lemma shows_reads st0 S l x : shows st0 S l x -> reads S l x.
Proof. intros [y [A [B [Q _]]]]. exists y. auto. Qed.
Lemma slices_app l l' x y : with_slices l x = Ok y -> with_slices (l ++ l') x = Ok y.
Proof.
  intros E. destruct x; cbn [with_slices] in *; try exact E;
    match type of E with bind (slice ?l ?r) _ = _ => destruct (slice l r) as [z | | | ] eqn:Q; cbn [bind] in E; try discriminate; rewrite (slice_app _ l' _ _ Q); exact E end.
Qed.
Lemma shows_app st0 S l l' x : shows st0 S l x -> shows st0 S (l ++ l') x.
Proof. intros [y [E F]]. exists y. split; [apply slices_app, E | exact F]. Qed.

(** [st] is [st0] with eliminations found by the strategy [S]. *)
Definition found (S : strategy) (st0 st : strat) : Prop := exists el ds,
  st = set_deds (set_elims st0 (s_elims st0 ++ el)) (s_deds st0 ++ ds) /\
  (forall x, In x el -> good st0 x) /\ tiles (length (s_elims st0)) ds (length (s_elims st0 ++ el)) /\
  (forall x, In x ds -> shows st0 S (s_elims st0 ++ el) x).

Lemma found_refl S st : found S st st.
Proof. exists [], []. rewrite !app_nil_r. split; [destruct st; reflexivity | ]. split; [intros x [] | ]. split; [reflexivity | intros x []]. Qed.

Lemma enter_found S st0 st conflicts mk b st' : found S st0 st -> (forall x, In x conflicts -> good st0 x) ->
  (forall r, range_of (mk r) = Some r) ->
  (forall el r, conflicts <> [] -> slice el r = Ok conflicts -> shows st0 S el (mk r)) ->
  enter_conflicts st conflicts mk = (st', b) -> found S st0 st' /\ (b = true <-> conflicts <> []) /\ (conflicts = [] -> st' = st).
Proof.
  intros [el [ds [E [Go [Ti Re]]]]] Gc Mk Rc. unfold enter_conflicts.
  assert (Ee : s_elims st = s_elims st0 ++ el) by (rewrite E; reflexivity). assert (Ed : s_deds st = s_deds st0 ++ ds) by (rewrite E; reflexivity).
  destruct conflicts as [ | x t].
  - rewrite app_nil_r, Nat.sub_diag. cbn [Nat.ltb Nat.leb]. intros [= <- <-]. split; [ | split].
    + exists el, ds. split; [rewrite E; reflexivity | auto].
    + split; [discriminate | intros []; reflexivity].
    + intros _. rewrite E. reflexivity.
  - set (cs := x :: t) in *. rewrite app_length. replace (length (s_elims st) + length cs - length (s_elims st)) with (length t + 1) by (cbn [cs length]; lia). rewrite Nat.add_1_r.
    cbn [Nat.ltb Nat.leb]. intros [= <- <-]. split; [ | split; [split; [intros _; discriminate | reflexivity] | discriminate]].
    exists (el ++ cs), (ds ++ [mk (length (s_elims st), length (s_elims st) + length cs)]). split; [rewrite E; cbn [s_elims s_deds set_elims set_deds]; rewrite !app_assoc; reflexivity | ].
    split; [intros y Hy; apply in_app_iff in Hy; destruct Hy as [Hy | Hy]; auto | ]. split.
    + eapply tiles_app; [exact Ti | ]. cbn [tiles]. rewrite Mk. cbn [fst snd]. rewrite Ee. rewrite !app_length. cbn [cs length]. repeat split; lia.
    + intros y Hy. rewrite app_assoc. apply in_app_iff in Hy. destruct Hy as [Hy | [<- | []]]; [apply shows_app, Re, Hy | ].
      apply Rc; [discriminate | ]. unfold slice. cbn [fst snd]. rewrite <- Ee. rewrite (proj2 (Nat.leb_le _ _)) by lia. cbn [andb].
      rewrite (proj2 (Nat.leb_le _ _)) by (rewrite app_length; lia). f_equal.
      rewrite skipn_app, skipn_all, Nat.sub_diag. cbn [app skipn]. replace (length (s_elims st) + length cs - length (s_elims st)) with (length cs) by lia. apply firstn_all.
Qed.
