(** The strategy solver: searches that stop after their first success *)
From Coq Require Import List Arith NArith ZArith ZifyNat ZifyN ZifyBool Lia Bool.
From Verif Require Import Spec TableSpec GeomSpec Solver Bits Geom Gen BitLemmas GridProofs BitsProofs GeomProofs GenProofs Strat StratFind StratSolve StratUse StratWhy StratWhyLemmas StratInv StratPos StratFound StratWalk StratWing StratMutant StratCall StratSpec StratHist StratStuck StratPush StratDeduce StratMain.
Import ListNotations.
Ltac Zify.zify_post_hook ::= Z.to_euclidean_division_equations.

(** * Lengths *)

Lemma bind_ok {A B} (r : res A) (f : A -> res B) y : bind r f = Ok y -> exists x, r = Ok x /\ f x = Ok y.
Proof. destruct r as [x | | | ]; cbn [bind]; intros E; try discriminate. exists x. auto. Qed.
Ltac inv_bind E x := let E1 := fresh "Hb" in apply bind_ok in E; destruct E as [x [E1 E]].

Lemma set_iter_set e m l : set_iter e m = Ok l -> is_set e m.
Proof.
  unfold set_iter. change (iter_f 129 e m) with (r <- iter_next e m; match r with None => Ok [] | Some (x, m') => l <- iter_f 128 e m'; Ok (x :: l) end). intros E. inv_bind E r.
  unfold iter_next in Hb. destruct (N.ltb_spec (set_all e) m) as [L | L]; [discriminate | ]. apply is_set_lt. rewrite set_all_eq in L. pose proof (pow_pos (N.of_nat (esize e))). lia.
Qed.
Lemma set_iter_members e m l : set_iter e m = Ok l -> is_set e m /\ l = members e m.
Proof. intros E. assert (H := set_iter_set e m l E). split; [exact H | ]. rewrite (iter_exact e m H) in E. congruence. Qed.
Lemma set_iter_len e m l : set_iter e m = Ok l -> length l <= esize e.
Proof. intros E. destruct (set_iter_members e m l E) as [_ ->]. unfold members. eapply Nat.le_trans; [apply filter_length_le | ]. rewrite seq_length. lia. Qed.
Lemma rmap_len {A B} (f : A -> res B) : forall l r, rmap f l = Ok r -> length r = length l.
Proof. induction l as [ | x l IH]; intros r E; cbn [rmap] in E; [injection E as <-; reflexivity | ]. inv_bind E y. inv_bind E t. injection E as <-. cbn [length]. rewrite (IH t Hb0). reflexivity. Qed.
Lemma digits_of_len m l : digits_of m = Ok l -> length l <= 9.
Proof. unfold digits_of. intros E. inv_bind E x. rewrite (rmap_len _ _ _ E). apply (set_iter_len EDigit m x Hb). Qed.
Lemma cands_of_len c m l : cands_of c m = Ok l -> length l <= 9.
Proof. unfold cands_of. intros E. inv_bind E x. injection E as <-. rewrite map_length. apply (digits_of_len m x Hb). Qed.
Lemma cands_of_one c m d d' l : digit_set d = Ok d' -> cands_of c (set_and m d') = Ok l -> length l <= 1.
Proof.
  intros Ed E. unfold cands_of in E. inv_bind E x. injection E as <-. rewrite map_length. unfold digits_of in Hb. inv_bind Hb y. rewrite (rmap_len _ _ _ Hb).
  destruct (set_iter_members _ _ _ Hb0) as [Hs ->]. change 1 with (length [d - 1]). apply NoDup_incl_length; [apply NoDup_filter, seq_NoDup | ].
  intros i Hi. apply (members_in EDigit _ i Hs) in Hi. apply mem_and in Hi. left. symmetry. apply (mem_single EDigit (d - 1) d' i Ed), Hi.
Qed.
Lemma rflat_len {A B} (f : A -> res (list B)) k : forall l r, (forall x y, In x l -> f x = Ok y -> length y <= k) -> rflat f l = Ok r -> length r <= length l * k.
Proof.
  unfold rflat. induction l as [ | x l IH]; intros r H E; cbn [rmap] in E; [injection E as <-; cbn; lia | ]. inv_bind E t. inv_bind Hb y. inv_bind Hb u. injection Hb as <-. injection E as <-.
  cbn [concat length]. rewrite app_length. pose proof (H x y (or_introl eq_refl) Hb0). specialize (IH (concat u) (fun z w Hz => H z w (or_intror Hz))). rewrite Hb1 in IH. specialize (IH eq_refl). lia.
Qed.
Lemma with_digit_len poss d cells r : with_digit poss d cells = Ok r -> length r <= length cells.
Proof.
  unfold with_digit. intros E. rewrite <- (Nat.mul_1_r (length cells)). refine (rflat_len _ 1 cells r _ E). intros x y _ Ey. inv_bind Ey m. inv_bind Ey s. injection Ey as <-. destruct (set_contains m s); cbn; lia.
Qed.

(** * Searches that stop *)

Section Once.
Context {S : Type} (R Q : S -> Prop).
(** A callback leaves [R] true, or returns [true] and makes [Q] true. *)
Definition hits (on : S -> res (S * bool)) : Prop := forall s s' b, R s -> on s = Ok (s', b) -> (b = false /\ R s') \/ (b = true /\ Q s').
Definition hits_ctl (f : S -> res (S * ctl)) : Prop := forall s s' c, R s -> f s = Ok (s', c) -> (c <> Stop /\ R s') \/ (c = Stop /\ Q s').

Lemma for_hits {A} (l : list A) f : (forall x, In x l -> hits_ctl (f x)) -> hits_ctl (for_ctl l f).
Proof.
  induction l as [ | x l IH]; intros H s s' c Hr E; cbn [for_ctl] in E; [injection E as <- <-; left; split; [discriminate | exact Hr] | ]. inv_bind E r. destruct r as [s1 c1]. cbn [fst snd] in E.
  destruct (H x (or_introl eq_refl) s s1 c1 Hr Hb) as [[N R1] | [-> Q1]]; [ | injection E as <- <-; auto]. destruct c1; [ | congruence | injection E as <- <-; auto].
  apply (IH (fun y Hy => H y (or_intror Hy)) s1 s' c R1 E).
Qed.
Lemma finish_hits f : hits_ctl f -> forall s s' b, R s -> finish (f s) = Ok (s', b) -> R s' \/ Q s'.
Proof. intros H s s' b Hr E. unfold finish in E. inv_bind E r. destruct r as [s1 c]. injection E as <- _. destruct (H s s1 c Hr Hb) as [[_ X] | [_ X]]; auto. Qed.
Lemma stop_hits on : hits on -> hits_ctl (fun s => r <- on s; Ok (fst r, stop_if (snd r))).
Proof. intros H s s' c Hr E. inv_bind E r. destruct r as [s1 b]. injection E as <- <-. destruct (H s s1 b Hr Hb) as [[-> X] | [-> X]]; [left; split; [discriminate | exact X] | right; auto]. Qed.
Lemma same_hits : hits_ctl (fun s => Ok (s, Cont)).
Proof. intros s s' c Hr E. injection E as <- <-. left. split; [discriminate | exact Hr]. Qed.
Lemma seq_hits on1 on2 : hits on1 -> hits on2 -> hits (fun s => r <- on1 s; if snd r then Ok (fst r, true) else on2 (fst r)).
Proof. intros H1 H2 s s' b Hr E. inv_bind E r. destruct r as [s1 b1]. destruct (H1 s s1 b1 Hr Hb) as [[-> X] | [-> X]]; cbn [fst snd] in E; [apply (H2 s1 s' b X E) | injection E as <- <-; auto]. Qed.

Lemma naked_enter_hits house size on pset total rest : hits (on house pset total) -> hits rest -> hits (naked_enter house size true on pset total rest).
Proof.
  intros H1 H2 s s' b Hr E. unfold naked_enter in E. destruct (size <? set_len pset); [injection E as <- <-; auto | ]. destruct ((set_len pset =? size) && (set_len total =? set_len pset)); [ | apply (H2 s s' b Hr E)].
  inv_bind E r. destruct r as [s1 b1]. cbn [fst snd] in E. rewrite andb_true_r in E. destruct (H1 s s1 b1 Hr Hb) as [[-> X] | [-> X]]; [apply (H2 s1 s' b X E) | injection E as <- <-; auto].
Qed.
Lemma naked_walk_hits poss house size on : (forall ps t, hits (on house ps t)) -> forall l pset total, hits (naked_walk poss house size true on l pset total).
Proof.
  intros H. induction l as [ | p l IH]; intros pset total s s' b Hr E; cbn [naked_walk] in E; [injection E as <- <-; auto | ]. inv_bind E cell. inv_bind E m.
  destruct (set_is_empty m); [apply (IH _ _ s s' b Hr E) | ]. inv_bind E ps. revert Hr E. apply (seq_hits _ _ (naked_enter_hits _ _ _ _ _ _ (H _ _) (IH _ _)) (IH pset total)).
Qed.
Lemma find_naked_sub_hits poss hs size on : (forall h ps t, hits (on h ps t)) -> forall s s' b, R s -> find_naked_sub poss hs size true on s = Ok (s', b) -> R s' \/ Q s'.
Proof.
  intros H s s' b. unfold find_naked_sub. apply finish_hits, for_hits. intros h _ s1 s2 c Hr E. inv_bind E hm. destruct (set_is_full EDigit hm); [apply (same_hits s1 s2 c Hr E) | ]. inv_bind E l.
  revert Hr E. apply stop_hits. apply naked_enter_hits; [apply H | ]. apply naked_walk_hits. intros; apply H.
Qed.

Lemma hidden_enter_hits house size on pset total rest : hits (on house pset total) -> hits rest -> hits (hidden_enter house size true on pset total rest).
Proof.
  intros H1 H2 s s' b Hr E. unfold hidden_enter in E. destruct (size <? set_len pset); [injection E as <- <-; auto | ]. destruct ((set_len pset =? size) && (set_len total =? size)); [ | apply (H2 s s' b Hr E)].
  inv_bind E r. destruct r as [s1 b1]. cbn [fst snd] in E. rewrite andb_true_r in E. destruct (H1 s s1 b1 Hr Hb) as [[-> X] | [-> X]]; [apply (H2 s1 s' b X E) | injection E as <- <-; auto].
Qed.
Lemma hidden_walk_hits row house size on : (forall ps t, hits (on house ps t)) -> forall l pset total, hits (hidden_walk row house size true on l pset total).
Proof.
  intros H. induction l as [ | p l IH]; intros pset total s s' b Hr E; cbn [hidden_walk] in E; [injection E as <- <-; auto | ]. inv_bind E m.
  destruct (set_is_empty m); [apply (IH _ _ s s' b Hr E) | ]. inv_bind E ps. revert Hr E. apply (seq_hits _ _ (hidden_enter_hits _ _ _ _ _ _ (H _ _) (IH _ _)) (IH pset total)).
Qed.
Lemma find_hidden_sub_hits hs pos size on : (forall h ps t, hits (on h ps t)) -> forall s s' b, R s -> find_hidden_sub hs pos size true on s = Ok (s', b) -> R s' \/ Q s'.
Proof.
  intros H s s' b. unfold find_hidden_sub. apply finish_hits, for_hits. intros h _ s1 s2 c Hr E. inv_bind E hm. destruct (set_is_full EDigit hm); [apply (same_hits s1 s2 c Hr E) | ]. inv_bind E row. inv_bind E l.
  revert Hr E. apply stop_hits. apply hidden_enter_hits; [apply H | ]. apply hidden_walk_hits. intros; apply H.
Qed.

Lemma fish_enter_hits d size all on ls u rest : hits (on all d ls u) -> hits rest -> hits (fish_enter d size all true on ls u rest).
Proof.
  intros H1 H2 s s' b Hr E. unfold fish_enter in E. destruct (set_len ls =? size); [ | apply (H2 s s' b Hr E)]. destruct (negb (set_len u =? size)); [injection E as <- <-; auto | ].
  inv_bind E r. destruct r as [s1 b1]. cbn [fst snd] in E. destruct (H1 s s1 b1 Hr Hb) as [[-> X] | [-> X]]; [apply (H2 s1 s' b X E) | injection E as <- <-; auto].
Qed.
Lemma fish_walk_hits pos d size all on : (forall ls u, hits (on all d ls u)) -> forall l ls u, hits (fish_walk pos d size all true on l ls u).
Proof.
  intros H. induction l as [ | p l IH]; intros ls u s s' b Hr E; cbn [fish_walk] in E; [injection E as <- <-; auto | ]. inv_bind E h. inv_bind E m. inv_bind E lp.
  destruct ((set_len m <? 2) || (size <? set_len (set_or u lp))); [apply (IH _ _ s s' b Hr E) | ]. inv_bind E ps. revert Hr E. apply (seq_hits _ _ (fish_enter_hits _ _ _ _ _ _ _ (H _ _) (IH _ _)) (IH ls u)).
Qed.
Lemma find_fish_hits pos size on : (forall all d ls u, In all [LINE_ALL_ROWS; LINE_ALL_COLS] -> hits (on all d ls u)) -> forall s s' b, R s -> find_fish pos size true on s = Ok (s', b) -> R s' \/ Q s'.
Proof.
  intros H s s' b. unfold find_fish. apply finish_hits, for_hits. intros d _. apply for_hits. intros all Ha s1 s2 c Hr E. inv_bind E l.
  revert Hr E. apply stop_hits. apply fish_enter_hits; [apply H, Ha | ]. apply fish_walk_hits. intros; apply H, Ha.
Qed.

Lemma find_wing_hits n common wl poss on : (forall h hd c1 m1 c2 m2, hits (on h hd c1 m1 c2 m2)) -> forall s s' b, R s -> find_wing n common wl poss true on s = Ok (s', b) -> R s' \/ Q s'.
Proof.
  intros H s s' b. unfold find_wing. apply finish_hits, for_hits. intros cell _ s1 s2 c Hr E. inv_bind E pd. destruct (negb (set_len pd =? n)); [apply (same_hits s1 s2 c Hr E) | ]. inv_bind E r. inv_bind E k. inv_bind E bl.
  revert Hr E. apply for_hits. intros x _ s3 s4 c' Hr E. inv_bind E l1. inv_bind E l2. revert Hr E. apply for_hits. intros p1 _. apply for_hits. intros p2 _ s5 s6 c'' Hr E.
  match type of E with (if ?t then _ else _) = _ => destruct t end; [apply (same_hits s5 s6 c'' Hr E) | ]. inv_bind E y. rewrite andb_true_r in E.
  apply (stop_hits _ (H cell pd (fst p1) (snd p1) (fst p2) (snd p2)) s5 s6 c'' Hr). match goal with X : on _ _ _ _ _ _ _ = Ok y |- _ => rewrite X end. exact E.
Qed.

Lemma find_locked_hits poss on : (forall m d nbs p, length nbs = 2 -> hits (on m d nbs p)) -> forall s s' b, R s -> find_locked poss true on s = Ok (s', b) -> R s' \/ Q s'.
Proof.
  intros H s s' b. unfold find_locked. apply finish_hits, for_hits. intros chute _ s1 s2 c Hr E. inv_bind E mpd. inv_bind E lu. inv_bind E bu.
  revert Hr E. apply for_hits. intros i _ s3 s4 c' Hr E. inv_bind E ml. inv_bind E pd. inv_bind E l1. inv_bind E b1. inv_bind E nb.
  match goal with X : miniline_neighbors _ = Ok nb |- _ => unfold miniline_neighbors in X; inv_bind X q; destruct q as [[q1 q2] [q3 q4]]; injection X as <- end.
  revert Hr E. apply for_hits. intros [[un nbs] p] Hx s5 s6 c'' Hr E. assert (Ln : length nbs = 2) by (destruct Hx as [Hx | [Hx | []]]; injection Hx as _ <- _; reflexivity).
  destruct (set_is_empty un); [apply (same_hits s5 s6 c'' Hr E) | ]. inv_bind E l. revert Hr E. apply for_hits. intros d _ s7 s8 c3 Hr E. cbn [andb] in E.
  apply (stop_hits _ (H ml d nbs p Ln) s7 s8 c3 Hr E).
Qed.
End Once.

(** * Singles *)

Lemma single_no_elims S0 a b : S0 = NakedSingles \/ S0 = HiddenSingles -> hist S0 a b -> s_elims b = s_elims a.
Proof.
  intros HS H. destruct (h_new _ _ _ H) as [en [el [ds [_ [E2 [_ [T [R _]]]]]]]].
  assert (X : forall y, In y ds -> range_of y = None).
  { intros y Hy. destruct (R y Hy) as [z [E [Q _]]]. destruct y as [c | c h | d m p r | h p d r | d ln p r | d bs cv r | h hd p r | ln r]; cbn [with_slices] in E; try reflexivity; try discriminate; exfalso;
      (destruct (slice (s_elims b) r) as [cs | | | ]; cbn [bind] in E; try discriminate); injection E as <-; cbn [ded_strategy] in Q; destruct HS as [-> | ->]; try discriminate.
    all: try (destruct (aget cs 0) as [c | | | ]; cbn [bind] in Q; try discriminate; destruct (house_categorize h) as [t | | | ]; cbn [bind] in Q; try discriminate;
      destruct (as_set EPosHouse _) as [x | | | ]; cbn [bind] in Q; try discriminate; destruct (set_overlaps EPosHouse x p), (set_len p) as [ | [ | [ | [ | [ | ?]]]]]; discriminate).
    all: try (destruct (set_len p) as [ | [ | [ | [ | [ | ?]]]]]; discriminate).
    all: try (destruct (is_mutant bs || is_mutant cv), (set_len bs) as [ | [ | [ | [ | [ | ?]]]]]; discriminate).
    all: destruct (set_len hd) as [ | [ | [ | [ | ?]]]]; discriminate. }
  assert (T' := tiles_none (length (s_elims a)) ds X). assert (F : forall ds a b c, tiles a ds b -> tiles a ds c -> b = c).
  { clear. induction ds as [ | y ds IH]; intros a b c; cbn [tiles]; [congruence | ]. destruct (range_of y) as [r | ]; [ | apply IH]. intros [_ [_ Q]] [_ [_ Q']]. apply (IH _ _ _ Q Q'). }
  assert (L := F ds _ _ _ T' T). rewrite E2, app_length in L. rewrite E2. destruct el; [apply app_nil_r | cbn [length] in L; lia].
Qed.

Definition is_single (S0 : strategy) : Prop := S0 = NakedSingles \/ S0 = HiddenSingles.
Lemma is_single_dec S0 : {is_single S0} + {~ is_single S0}.
Proof. destruct S0; (left; left; reflexivity) || (left; right; reflexivity) || (right; intros [X | X]; discriminate). Qed.

Lemma left_over_max l : length (left_over l) <= 729.
Proof.
  unfold left_over. assert (Y := filter_le (fun x : cand => if in_dec cand_dec x l then false else true) (fun _ => true) (list_prod (seq 0 81) (seq 1 9)) (fun _ _ => eq_refl)).
  assert (Z : length (filter (fun _ : cand => true) (list_prod (seq 0 81) (seq 1 9))) = 729) by (vm_compute; reflexivity). lia.
Qed.
