(** The strategy solver and symmetries. *)
From Coq Require Import List Arith NArith ZArith ZifyNat ZifyN ZifyBool Lia Bool Permutation.
From Verif Require Import Spec CanonSpec GeomSpec Solver Geom Gen Canon GridProofs GeomProofs EquivProofs TransProofs CanonApi Strat StratSolve StratUse StratSpec StratWhy StratWhyLemmas
  StratHist StratMain StratApi StratCertify StratCount StratBound Samples StratSamples StratOrderSpec StratOrder StratSymSpec.
Import ListNotations.
Ltac Zify.zify_post_hook ::= Z.to_euclidean_division_equations.

(** * Patterns *)

Section Transport.
(** Cells, digits and houses are renamed by [m], [r] and [k], and back by [m'], [r'] and [k']. *)
Variables (m m' r r' k k' : nat -> nat) (flip : bool) (A B : nat -> nat -> Prop).
Hypothesis m_lt : forall c, c < 81 -> m c < 81.
Hypothesis m'_lt : forall c, c < 81 -> m' c < 81.
Hypothesis mm' : forall c, c < 81 -> m (m' c) = c.
Hypothesis m'm : forall c, c < 81 -> m' (m c) = c.
Hypothesis r_lt : forall d, 1 <= d <= 9 -> 1 <= r d <= 9.
Hypothesis r'_lt : forall d, 1 <= d <= 9 -> 1 <= r' d <= 9.
Hypothesis rr' : forall d, 1 <= d <= 9 -> r (r' d) = d.
Hypothesis r'r : forall d, 1 <= d <= 9 -> r' (r d) = d.
Hypothesis k_lt : forall h, h < 27 -> k h < 27.
Hypothesis k'_lt : forall h, h < 27 -> k' h < 27.
Hypothesis kk' : forall h, h < 27 -> k (k' h) = h.
Hypothesis k'k : forall h, h < 27 -> k' (k h) = h.
Hypothesis house : forall h c, h < 27 -> c < 81 -> (in_house (k h) (m c) <-> in_house h c).
Hypothesis kind : forall h, h < 27 -> (18 <= k h <-> 18 <= h) /\ (h < 18 -> (k h < 9 <-> if flip then 9 <= h else h < 9)).
Hypothesis mpeers : forall c c', c < 81 -> c' < 81 -> (peers (m c) (m c') <-> peers c c').
Hypothesis rangeA : forall c d, A c d -> c < 81 /\ 1 <= d <= 9.
Hypothesis rangeB : forall c d, B c d -> c < 81 /\ 1 <= d <= 9.
Hypothesis AB : forall c d, c < 81 -> 1 <= d <= 9 -> (B (m c) (r d) <-> A c d).

Lemma up c d : A c d -> B (m c) (r d).
Proof. intros H. destruct (rangeA c d H). apply AB; assumption. Qed.
Lemma down c d : B c d -> A (m' c) (r' d).
Proof. intros H. destruct (rangeB c d H). apply AB; [auto.. | ]. rewrite mm', rr' by assumption. exact H. Qed.
Lemma up_at c d : c < 81 -> B (m c) d -> A c (r' d).
Proof. intros Hc H. assert (Q := down _ _ H). rewrite m'm in Q by exact Hc. exact Q. Qed.
Lemma up_for c d : 1 <= d <= 9 -> B c (r d) -> A (m' c) d.
Proof. intros Hd H. assert (Q := down _ _ H). rewrite r'r in Q by exact Hd. exact Q. Qed.
Lemma house' h c : h < 27 -> c < 81 -> (in_house (k h) c <-> in_house h (m' c)).
Proof. intros Hh Hc. rewrite <- (house h (m' c)) by auto. rewrite mm' by exact Hc. reflexivity. Qed.
Lemma m_inj c c' : c < 81 -> c' < 81 -> m c = m c' -> c = c'.
Proof. intros H H' E. rewrite <- (m'm c), <- (m'm c') by assumption. congruence. Qed.
Lemma r_inj c c' : 1 <= c <= 9 -> 1 <= c' <= 9 -> r c = r c' -> c = c'.
Proof. intros H H' E. rewrite <- (r'r c), <- (r'r c') by assumption. congruence. Qed.
Lemma k_inj c c' : c < 27 -> c' < 27 -> k c = k c' -> c = c'.
Proof. intros H H' E. rewrite <- (k'k c), <- (k'k c') by assumption. congruence. Qed.

Lemma move_naked : naked_single A -> naked_single B.
Proof.
  intros [c [d [H U]]]. exists (m c), (r d). split; [apply up, H | ]. intros d' Q. destruct (rangeA _ _ H) as [Hc Hd]. destruct (rangeB _ _ Q) as [_ Hd'].
  rewrite <- (rr' d') by exact Hd'. f_equal. apply U, up_at; assumption.
Qed.
Lemma move_hidden : hidden_single A -> hidden_single B.
Proof.
  intros [h [c [d [Hh [I [H U]]]]]]. destruct (rangeA _ _ H) as [Hc Hd]. exists (k h), (m c), (r d). split; [auto | ]. split; [apply house; assumption | ]. split; [apply up, H | ].
  intros c' I' Q. destruct (rangeB _ _ Q) as [Hc' _]. rewrite <- (mm' c') by exact Hc'. f_equal. apply U; [apply house'; assumption | apply up_for; assumption].
Qed.
Lemma move_locked_in h1 h2 : h1 < 27 -> h2 < 27 -> locked_in A h1 h2 -> locked_in B (k h1) (k h2).
Proof.
  intros H1 H2 [d [[c [I H]] [C [c' [I2 [N1 H']]]]]]. destruct (rangeA _ _ H) as [Hc Hd]. destruct (rangeA _ _ H') as [Hc' _]. exists (r d). split; [ | split].
  - exists (m c). split; [apply house; assumption | apply up, H].
  - intros x Ix Q. destruct (rangeB _ _ Q) as [Hx _]. apply house'; [assumption.. | ]. apply C; [apply house'; assumption | apply up_for; assumption].
  - exists (m c'). split; [apply house; assumption | ]. split; [intros Q; apply N1, house; assumption | apply up, H'].
Qed.
Lemma move_locked : locked_candidates A -> locked_candidates B.
Proof.
  intros [l [b [Hl [Hb L]]]]. exists (k l), (k b). destruct (kind l ltac:(lia)) as [Kl _]. destruct (kind b ltac:(lia)) as [Kb _]. assert (k l < 27) by (apply k_lt; lia). assert (k b < 27) by (apply k_lt; lia).
  split; [lia | ]. split; [lia | ]. destruct L as [L | L]; [left | right]; apply move_locked_in; (lia || exact L).
Qed.

Lemma map_nodup (f : nat -> nat) (P : nat -> Prop) l : (forall x y, P x -> P y -> f x = f y -> x = y) -> (forall x, In x l -> P x) -> NoDup l -> NoDup (map f l).
Proof.
  intros Inj R N. induction N as [ | x l Nx N IH]; cbn [map]; constructor.
  - rewrite in_map_iff. intros [y [E Hy]]. apply Nx. rewrite <- (Inj y x); [exact Hy | apply R; right; exact Hy | apply R; left; reflexivity | exact E].
  - apply IH. intros y Hy. apply R. right. exact Hy.
Qed.

Lemma move_naked_subset n : naked_subset A n -> naked_subset B n.
Proof.
  intros [h [cs [ds [Hh [Nc [Lc [Nd [Ld [Ic [Id [c0 [d0 [I0 [N0 [D0 H0]]]]]]]]]]]]]]].
  assert (Rc : forall c, In c cs -> c < 81) by (intros c H; destruct (Ic c H) as [_ [d Q]]; apply (rangeA c d Q)).
  assert (Rd : forall d, In d ds -> 1 <= d <= 9) by (intros d H; apply Id in H; destruct H as [c [_ Q]]; apply (rangeA c d Q)).
  exists (k h), (map m cs), (map r ds). split; [auto | ]. split; [apply (map_nodup m (fun c => c < 81)); [exact m_inj | exact Rc | exact Nc] | ]. split; [rewrite map_length; exact Lc | ].
  split; [apply (map_nodup r (fun d => 1 <= d <= 9)); [exact r_inj | exact Rd | exact Nd] | ]. split; [rewrite map_length; exact Ld | ]. split; [ | split].
  - intros x Hx. apply in_map_iff in Hx. destruct Hx as [c [<- Hc]]. destruct (Ic c Hc) as [I [d Q]]. split; [apply house; auto | ]. exists (r d). apply up, Q.
  - intros d. rewrite in_map_iff. split.
    + intros [e [<- He]]. apply Id in He. destruct He as [c [Hc Q]]. exists (m c). split; [apply in_map, Hc | apply up, Q].
    + intros [x [Hx Q]]. apply in_map_iff in Hx. destruct Hx as [c [<- Hc]]. destruct (rangeB _ _ Q) as [_ Hd]. exists (r' d). split; [apply rr', Hd | ]. apply Id. exists c. split; [exact Hc | apply up_at; auto].
  - destruct (rangeA _ _ H0) as [Hc0 Hd0]. exists (m c0), (r d0). split; [apply house; assumption | ]. split; [ | split; [apply in_map, D0 | apply up, H0]].
    rewrite in_map_iff. intros [c [E Hc]]. apply N0. rewrite <- (m_inj c c0); auto.
Qed.
Lemma move_hidden_subset n : hidden_subset A n -> hidden_subset B n.
Proof.
  intros [h [cs [ds [Hh [Nc [Lc [Nd [Ld [Id [Ic [c0 [d0 [C0 [N0 H0]]]]]]]]]]]]]].
  assert (Rc : forall c, In c cs -> c < 81) by (intros c H; apply Ic in H; destruct H as [_ [d [_ Q]]]; apply (rangeA c d Q)).
  assert (Rd : forall d, In d ds -> 1 <= d <= 9) by (intros d H; apply Id in H; destruct H as [c [_ Q]]; apply (rangeA c d Q)).
  exists (k h), (map m cs), (map r ds). split; [auto | ]. split; [apply (map_nodup m (fun c => c < 81)); [exact m_inj | exact Rc | exact Nc] | ]. split; [rewrite map_length; exact Lc | ].
  split; [apply (map_nodup r (fun d => 1 <= d <= 9)); [exact r_inj | exact Rd | exact Nd] | ]. split; [rewrite map_length; exact Ld | ]. split; [ | split].
  - intros x Hx. apply in_map_iff in Hx. destruct Hx as [d [<- Hd]]. destruct (Id d Hd) as [c [I Q]]. destruct (rangeA _ _ Q) as [Hc _]. exists (m c). split; [apply house; auto | apply up, Q].
  - intros x. rewrite in_map_iff. split.
    + intros [c [<- Hc]]. assert (Hl := Rc c Hc). apply Ic in Hc. destruct Hc as [I [d [Hd Q]]]. split; [apply house; assumption | ]. exists (r d). split; [apply in_map, Hd | apply up, Q].
    + intros [I [e [He Q]]]. apply in_map_iff in He. destruct He as [d [<- Hd]]. destruct (rangeB _ _ Q) as [Hx _]. exists (m' x). split; [apply mm', Hx | ]. apply Ic. split; [apply house'; assumption | ]. exists d. split; [exact Hd | apply up_for; auto].
  - destruct (rangeA _ _ H0) as [Hc0 Hd0]. exists (m c0), (r d0). split; [apply in_map, C0 | ]. split; [ | apply up, H0].
    rewrite in_map_iff. intros [d [E Hd]]. apply N0. rewrite <- (r_inj d d0); auto.
Qed.

Lemma move_fish n : fish A n -> fish B n.
Proof.
  intros [d [rows [base [cover [Nb [Lb [Nv [Lv [Tb [Two [Cv [x0 [c0 [X0 [I0 [F0 H0]]]]]]]]]]]]]]]].
  assert (Rb : forall l, In l base -> l < 27) by (intros l H; specialize (Tb l H); destruct rows; lia).
  assert (Rv : forall l, In l cover -> l < 27) by (intros l H; apply Cv in H; destruct H as [H _]; destruct rows; lia).
  destruct (rangeA _ _ H0) as [Hc0 Hd].
  exists (r d), (xorb flip rows), (map k base), (map k cover). split; [apply (map_nodup k (fun h => h < 27)); [exact k_inj | exact Rb | exact Nb] | ]. split; [rewrite map_length; exact Lb | ].
  split; [apply (map_nodup k (fun h => h < 27)); [exact k_inj | exact Rv | exact Nv] | ]. split; [rewrite map_length; exact Lv | ]. split; [ | split; [ | split]].
  - intros x Hx. apply in_map_iff in Hx. destruct Hx as [l [<- Hl]]. specialize (Tb l Hl). specialize (Rb l Hl). destruct (kind l Rb) as [K1 K2]. destruct flip, rows; cbn [xorb]; lia.
  - intros x Hx. apply in_map_iff in Hx. destruct Hx as [l [<- Hl]]. specialize (Rb l Hl). destruct (Two l Hl) as [c [c' [N [I [I' [Q Q']]]]]]. destruct (rangeA _ _ Q) as [Hc _]. destruct (rangeA _ _ Q') as [Hc' _].
    exists (m c), (m c'). split; [intros E; apply N, m_inj; assumption | ]. split; [apply house; assumption | ]. split; [apply house; assumption | ]. split; apply up; assumption.
  - intros x. rewrite in_map_iff. split.
    + intros [l [<- Hl]]. assert (Rl := Rv l Hl). apply Cv in Hl. destruct Hl as [T [b [c [Hb [Ib [Ic Q]]]]]]. destruct (rangeA _ _ Q) as [Hc _]. split.
      * destruct (kind l Rl) as [K1 K2]. assert (k l < 27) by (apply k_lt, Rl). destruct flip, rows; cbn [xorb]; lia.
      * exists (k b), (m c). split; [apply in_map, Hb | ]. split; [apply house; auto | ]. split; [apply house; auto | apply up, Q].
    + intros [T [y [c [Hy [Iy [Ix Q]]]]]]. apply in_map_iff in Hy. destruct Hy as [b [<- Hb]]. destruct (rangeB _ _ Q) as [Hc _].
      assert (Hx : x < 27) by (destruct flip, rows; cbn [xorb] in T; lia). assert (Hx' := k'_lt x Hx). exists (k' x). split; [apply kk', Hx | ]. apply Cv. split.
      * destruct (kind (k' x) Hx') as [K1 K2]. rewrite kk' in K1, K2 by exact Hx. destruct flip, rows; cbn [xorb] in *; lia.
      * exists b, (m' c). split; [exact Hb | ]. split; [apply house'; auto | ]. split; [ | apply up_for; assumption]. apply house'; [assumption.. | ]. rewrite kk' by exact Hx. exact Ix.
  - exists (k x0), (m c0). split; [apply in_map, X0 | ]. split; [apply house; auto | ]. split; [ | apply up, H0].
    intros y Hy. apply in_map_iff in Hy. destruct Hy as [l [<- Hl]]. intros Q. apply (F0 l Hl), house; auto.
Qed.

Lemma move_has c l : c < 81 -> (forall d, In d l -> 1 <= d <= 9) -> has A c l -> has B (m c) (map r l).
Proof.
  intros Hc Rl H d. rewrite in_map_iff. split.
  - intros Q. destruct (rangeB _ _ Q) as [_ Hd]. exists (r' d). split; [apply rr', Hd | ]. apply H, up_at; assumption.
  - intros [e [<- He]]. apply up, H, He.
Qed.
Lemma move_nodup x y z : 1 <= x <= 9 -> 1 <= y <= 9 -> 1 <= z <= 9 -> NoDup [x; y; z] -> NoDup [r x; r y; r z].
Proof. intros Hx Hy Hz N. apply (map_nodup r (fun d => 1 <= d <= 9) [x; y; z]); [exact r_inj | | exact N]. intros d [<- | [<- | [<- | []]]]; assumption. Qed.
Lemma move_xy : xy_wing A -> xy_wing B.
Proof.
  intros [h [c1 [c2 [x [y [z [N [Hh [H1 [H2 [P1 [P2 [Np [q [Q1 [Q2 H]]]]]]]]]]]]]]]].
  assert (X : A h x) by (apply Hh; left; reflexivity). assert (Y : A c2 y) by (apply H2; left; reflexivity). assert (Z : A c1 z) by (apply H1; right; left; reflexivity).
  destruct (rangeA _ _ X) as [Rh Rx], (rangeA _ _ Y) as [R2 Ry], (rangeA _ _ Z) as [R1 Rz], (rangeA _ _ H) as [Rq _].
  exists (m h), (m c1), (m c2), (r x), (r y), (r z). split; [apply move_nodup; assumption | ].
  split; [apply (move_has h [x; y]); [exact Rh | intros d [<- | [<- | []]]; assumption | exact Hh] | ]. split; [apply (move_has c1 [x; z]); [exact R1 | intros d [<- | [<- | []]]; assumption | exact H1] | ].
  split; [apply (move_has c2 [y; z]); [exact R2 | intros d [<- | [<- | []]]; assumption | exact H2] | ].
  split; [apply mpeers; assumption | ]. split; [apply mpeers; assumption | ]. split; [intros Q; apply Np, mpeers; assumption | ].
  exists (m q). split; [apply mpeers; assumption | ]. split; [apply mpeers; assumption | apply up, H].
Qed.
Lemma move_xyz : xyz_wing A -> xyz_wing B.
Proof.
  intros [h [c1 [c2 [x [y [z [N [Hh [H1 [H2 [P1 [P2 [Np [q [Q0 [Q1 [Q2 H]]]]]]]]]]]]]]]]].
  assert (X : A h x) by (apply Hh; left; reflexivity). assert (Y : A c2 y) by (apply H2; left; reflexivity). assert (Z : A c1 z) by (apply H1; right; left; reflexivity).
  destruct (rangeA _ _ X) as [Rh Rx], (rangeA _ _ Y) as [R2 Ry], (rangeA _ _ Z) as [R1 Rz], (rangeA _ _ H) as [Rq _].
  exists (m h), (m c1), (m c2), (r x), (r y), (r z). split; [apply move_nodup; assumption | ].
  split; [apply (move_has h [x; y; z]); [exact Rh | intros d [<- | [<- | [<- | []]]]; assumption | exact Hh] | ]. split; [apply (move_has c1 [x; z]); [exact R1 | intros d [<- | [<- | []]]; assumption | exact H1] | ].
  split; [apply (move_has c2 [y; z]); [exact R2 | intros d [<- | [<- | []]]; assumption | exact H2] | ].
  split; [apply mpeers; assumption | ]. split; [apply mpeers; assumption | ]. split; [intros Q; apply Np, mpeers; assumption | ].
  exists (m q). split; [apply mpeers; assumption | ]. split; [apply mpeers; assumption | ]. split; [apply mpeers; assumption | apply up, H].
Qed.

Lemma move_fires S : fires A S -> fires B S.
Proof.
  destruct S; cbn [fires]; first [apply move_naked | apply move_hidden | apply move_locked | apply move_naked_subset | apply move_hidden_subset | apply move_fish | apply move_xy | apply move_xyz | intros []].
Qed.
End Transport.

(** * The houses under a symmetry *)

(** The house whose cells move to house [h] *)
Definition hm (a : sym) (h : nat) : nat :=
  let row := nth h (s_rows a) 0 in
  let col := nth (h - 9) (s_cols a) 0 in
  let band := nth (3 * ((h - 18) / 3)) (s_rows a) 0 / 3 in
  let stack := nth (3 * ((h - 18) mod 3)) (s_cols a) 0 / 3 in
  if s_tr a then if h <? 9 then 9 + row else if h <? 18 then col else 18 + 3 * stack + band
  else if h <? 9 then row else if h <? 18 then 9 + col else 18 + 3 * band + stack.

Lemma hm_kind a h : sym_ok a -> h < 27 -> hm a h < 27 /\ (18 <= hm a h <-> 18 <= h) /\ (h < 18 -> (hm a h < 9 <-> if s_tr a then 9 <= h else h < 9)).
Proof.
  intros [Or [Oc _]] Hh. unfold hm. assert (R := fun i => line_lt (s_rows a) i Or). assert (C := fun i => line_lt (s_cols a) i Oc).
  assert (R1 := R h). assert (R2 := R (3 * ((h - 18) / 3))). assert (C1 := C (h - 9)). assert (C2 := C (3 * ((h - 18) mod 3))). clear R C.
  generalize dependent (nth h (s_rows a) 0). intros x1 X1. generalize dependent (nth (3 * ((h - 18) / 3)) (s_rows a) 0). intros x2 X2.
  generalize dependent (nth (h - 9) (s_cols a) 0). intros x3 X3. generalize dependent (nth (3 * ((h - 18) mod 3)) (s_cols a) 0). intros x4 X4.
  destruct (s_tr a), (Nat.ltb_spec h 9), (Nat.ltb_spec h 18); lia.
Qed.

Lemma house_row h c : h < 9 -> (in_house h c <-> c / 9 = h).
Proof. intros H. unfold in_house. replace (h <? 9) with true by lia. unfold row_of. reflexivity. Qed.
Lemma house_col h c : h < 9 -> (in_house (9 + h) c <-> c mod 9 = h).
Proof. intros H. unfold in_house. replace (9 + h <? 9) with false by lia. replace (9 + h <? 18) with true by lia. unfold col_of. lia. Qed.
Lemma house_block x y c : x < 3 -> y < 3 -> c < 81 -> (in_house (18 + 3 * x + y) c <-> (c / 9) / 3 = x /\ (c mod 9) / 3 = y).
Proof. intros Hx Hy Hc. unfold in_house. replace (18 + 3 * x + y <? 9) with false by lia. replace (18 + 3 * x + y <? 18) with false by lia. unfold block_of, row_of, col_of. lia. Qed.

Lemma hm_house a h c : sym_ok a -> h < 27 -> c < 81 -> (in_house (hm a h) (source a c) <-> in_house h c).
Proof.
  intros Oa Hh Hc. assert (Sl := source_lt a c Oa). destruct Oa as [Or [Oc _]]. assert (Hr : c / 9 < 9) by lia. assert (Hk : c mod 9 < 9) by lia.
  assert (R := line_lt (s_rows a) (c / 9) Or). assert (C := line_lt (s_cols a) (c mod 9) Oc).
  assert (Cases : h < 9 \/ (exists q, q < 9 /\ h = 9 + q) \/ exists x y, x < 3 /\ y < 3 /\ h = 18 + 3 * x + y).
  { destruct (Nat.lt_ge_cases h 9); [left; assumption | ]. destruct (Nat.lt_ge_cases h 18); [right; left; exists (h - 9); lia | ]. right. right. exists ((h - 18) / 3), ((h - 18) mod 3). lia. }
  unfold hm, source in *. destruct Cases as [H | [[q [Hq ->]] | [x [y [Hx [Hy ->]]]]]].
  - replace (h <? 9) with true by lia. rewrite (house_row h c H). assert (Rh := line_lt (s_rows a) h Or). destruct (s_tr a).
    + rewrite house_col by exact Rh. replace ((9 * nth (c mod 9) (s_cols a) 0 + nth (c / 9) (s_rows a) 0) mod 9) with (nth (c / 9) (s_rows a) 0) by lia.
      split; [intros E; apply (line_inj (s_rows a)); assumption | intros <-; reflexivity].
    + rewrite house_row by exact Rh. replace ((9 * nth (c / 9) (s_rows a) 0 + nth (c mod 9) (s_cols a) 0) / 9) with (nth (c / 9) (s_rows a) 0) by lia.
      split; [intros E; apply (line_inj (s_rows a)); assumption | intros <-; reflexivity].
  - replace (9 + q <? 9) with false by lia. replace (9 + q <? 18) with true by lia. replace (9 + q - 9) with q by lia. rewrite (house_col q c Hq). assert (Rh := line_lt (s_cols a) q Oc). destruct (s_tr a).
    + rewrite house_row by exact Rh. replace ((9 * nth (c mod 9) (s_cols a) 0 + nth (c / 9) (s_rows a) 0) / 9) with (nth (c mod 9) (s_cols a) 0) by lia.
      split; [intros E; apply (line_inj (s_cols a)); assumption | intros <-; reflexivity].
    + rewrite house_col by exact Rh. replace ((9 * nth (c / 9) (s_rows a) 0 + nth (c mod 9) (s_cols a) 0) mod 9) with (nth (c mod 9) (s_cols a) 0) by lia.
      split; [intros E; apply (line_inj (s_cols a)); assumption | intros <-; reflexivity].
  - replace (18 + 3 * x + y <? 9) with false by lia. replace (18 + 3 * x + y <? 18) with false by lia. replace ((18 + 3 * x + y - 18) / 3) with x by lia. replace ((18 + 3 * x + y - 18) mod 3) with y by lia.
    rewrite (house_block x y c Hx Hy Hc). assert (B := line_lt (s_rows a) (3 * x) Or). assert (T := line_lt (s_cols a) (3 * y) Oc).
    assert (Br := line_chute (s_rows a) (c / 9) (3 * x) Or Hr ltac:(lia)). assert (Tc := line_chute (s_cols a) (c mod 9) (3 * y) Oc Hk ltac:(lia)).
    replace (3 * x / 3) with x in Br by lia. replace (3 * y / 3) with y in Tc by lia. rewrite <- Br, <- Tc. clear Br Tc.
    revert R C B T Sl. generalize (nth (c / 9) (s_rows a) 0). intros u. generalize (nth (c mod 9) (s_cols a) 0). intros v. generalize (nth (3 * x) (s_rows a) 0). intros w. generalize (nth (3 * y) (s_cols a) 0). intros z. intros R C B T Sl.
    destruct (s_tr a).
    + rewrite house_block by lia. replace ((9 * v + u) / 9) with v by lia. replace ((9 * v + u) mod 9) with u by lia. split; intros [P Q]; split; assumption.
    + rewrite house_block by lia. replace ((9 * u + v) / 9) with u by lia. replace ((9 * u + v) mod 9) with v by lia. split; intros [P Q]; split; assumption.
Qed.

Lemma house_same h h' : h < 27 -> h' < 27 -> (forall c, c < 81 -> (in_house h c <-> in_house h' c)) -> h = h'.
Proof.
  intros Hh Hh' E. assert (B : forallb (fun h => forallb (fun h' => (h =? h') || existsb (fun c => xorb (in_houseb h c) (in_houseb h' c)) (seq 0 81)) (seq 0 27)) (seq 0 27) = true) by (vm_compute; reflexivity).
  rewrite forallb_forall in B. specialize (B h ltac:(apply in_seq; lia)). rewrite forallb_forall in B. specialize (B h' ltac:(apply in_seq; lia)). apply orb_true_iff in B. destruct B as [B | B]; [apply Nat.eqb_eq, B | exfalso].
  apply existsb_exists in B. destruct B as [c [Hc X]]. apply in_seq in Hc. specialize (E c ltac:(lia)). rewrite <- !in_houseb_iff in E. destruct (in_houseb h c), (in_houseb h' c); cbn in X; try discriminate; intuition discriminate.
Qed.

(** * Inverse *)

Lemma source_id c : c < 81 -> source (Sym false (seq 0 9) (seq 0 9) (seq 1 9)) c = c.
Proof. intros H. unfold source. cbn [s_tr s_rows s_cols]. rewrite !seq_nth by lia. lia. Qed.
Lemma source_inv a c : sym_ok a -> c < 81 -> source (sinv a) (source a c) = c.
Proof. intros Oa Hc. rewrite <- source_scomp; [ | exact Oa | apply sinv_ok, Oa | exact Hc]. rewrite sinv_scomp by exact Oa. apply source_id, Hc. Qed.
Lemma source_inv' a c : sym_ok a -> c < 81 -> source a (source (sinv a) c) = c.
Proof. intros Oa Hc. rewrite <- source_scomp; [ | apply sinv_ok, Oa | exact Oa | exact Hc]. rewrite sinv_scomp' by exact Oa. apply source_id, Hc. Qed.
Lemma digits_sinv a : s_digits (sinv a) = inv_d (s_digits a).
Proof. unfold sinv. destruct (s_tr a); reflexivity. Qed.
Lemma hm_inv a h : sym_ok a -> h < 27 -> hm (sinv a) (hm a h) = h.
Proof.
  intros Oa Hh. assert (Oi := sinv_ok a Oa). destruct (hm_kind a h Oa Hh) as [L _]. destruct (hm_kind (sinv a) (hm a h) Oi L) as [L' _]. apply house_same; [exact L' | exact Hh | ].
  intros c Hc. rewrite <- (source_inv a c Oa Hc) at 1. assert (Sc := source_lt a c Oa). rewrite (hm_house (sinv a) (hm a h) (source a c) Oi L Sc). apply hm_house; assumption.
Qed.
Lemma hm_inv' a h : sym_ok a -> h < 27 -> hm a (hm (sinv a) h) = h.
Proof.
  intros Oa Hh. assert (Oi := sinv_ok a Oa). destruct (hm_kind (sinv a) h Oi Hh) as [L _]. destruct (hm_kind a (hm (sinv a) h) Oa L) as [L' _]. apply house_same; [exact L' | exact Hh | ].
  intros c Hc. rewrite <- (source_inv' a c Oa Hc) at 1. assert (Sc := source_lt (sinv a) c Oi). rewrite (hm_house a (hm (sinv a) h) (source (sinv a) c) Oa L Sc). apply hm_house; assumption.
Qed.
Lemma tr_sinv a : s_tr (sinv a) = s_tr a.
Proof. unfold sinv. destruct (s_tr a) eqn:E; cbn [s_tr]; congruence. Qed.

(** * Runs *)

Lemma api_range st pl el : api st pl el -> (forall c d, pl c d -> c < 81 /\ 1 <= d <= 9) /\ (forall c d, el c d -> c < 81 /\ 1 <= d <= 9).
Proof.
  assert (G : forall p, wf_grid p -> (forall c d, given p c d -> c < 81 /\ 1 <= d <= 9) /\ (forall c d, nothing c d -> c < 81 /\ 1 <= d <= 9)).
  { intros p W. split; [ | intros c d []]. intros c d [Hc [N E]]. assert (L := wf_le p c W). lia. }
  induction 1 as [p st W E | p clues st W E | g st [L F] E | st pl el c d st' A IH Hc Hd E | st pl el c d st' A IH Hc Hd E | st pl el st' g A IH E | st pl el cell st' x A IH Hc U E]; try (apply G; assumption); try exact IH.
  - rewrite Forall_forall in F. split.
    + intros c d [Hc E']. split; [exact Hc | ]. apply nth_error_In in E'. exact (F _ E').
    + intros c d [Hc [Hd _]]. auto.
  - destruct IH as [I1 I2]. split; [ | exact I2]. intros c' d' [H | [-> ->]]; auto.
Qed.

(** All candidates whose image is in the list *)
Definition pulled (a : sym) (l : list (nat * nat)) : list (nat * nat) :=
  filter (fun x => if in_dec cand_dec (source (sinv a) (fst x), rename (s_digits a) (snd x)) l then true else false) (list_prod (seq 0 81) (seq 1 9)).
Lemma in_pulled a l c d : In (c, d) (pulled a l) <-> c < 81 /\ 1 <= d <= 9 /\ In (source (sinv a) c, rename (s_digits a) d) l.
Proof.
  unfold pulled. rewrite filter_In, in_prod_iff, !in_seq. cbn [fst snd]. destruct (in_dec cand_dec (source (sinv a) c, rename (s_digits a) d) l) as [H | H]; split.
  - intros [[H1 H2] _]. split; [lia | ]. split; [lia | exact H].
  - intros [H1 [H2 _]]. split; [lia | reflexivity].
  - intros [_ Q]. discriminate.
  - intros [_ [_ Q]]. contradiction.
Qed.

Section Moved.
Variable a : sym.
Hypothesis Oa : sym_ok a.
Notation phi := (source a).
Notation psi := (source (sinv a)).
Notation rho := (rename (s_digits a)).
Notation rho' := (rename (s_digits (sinv a))).

Lemma psi_lt c : psi c < 81. Proof. apply source_lt, sinv_ok, Oa. Qed.
Lemma phi_lt c : phi c < 81. Proof. apply source_lt, Oa. Qed.
Lemma perm_a : Permutation (s_digits a) (seq 1 9). Proof. apply Oa. Qed.
Lemma rho_lt d : 1 <= d <= 9 -> 1 <= rho d <= 9. Proof. apply rename_range, perm_a. Qed.
Lemma rho'_lt d : 1 <= d <= 9 -> 1 <= rho' d <= 9. Proof. apply rename_range. rewrite digits_sinv. apply inv_digits, perm_a. Qed.
Lemma rho_rho' d : d <= 9 -> rho (rho' d) = d. Proof. rewrite digits_sinv. apply (inv_digits _ perm_a). Qed.
Lemma rho'_rho d : d <= 9 -> rho' (rho d) = d. Proof. rewrite digits_sinv. apply (inv_digits _ perm_a). Qed.
Lemma psi_peers c c' : c < 81 -> c' < 81 -> (peers (psi c) (psi c') <-> peers c c'). Proof. apply source_peers, sinv_ok, Oa. Qed.

Section Lists.
Variables (en el : list (nat * nat)).
Hypothesis Ren : forall c d, In (c, d) en -> c < 81 /\ 1 <= d <= 9.

Lemma alive_pulled c d : c < 81 -> 1 <= d <= 9 -> (alive en el (psi c) (rho d) <-> alive (pulled a en) (pulled a el) c d).
Proof.
  intros Hc Hd. split.
  - intros [_ [_ [N V]]]. split; [exact Hc | ]. split; [exact Hd | ]. split; [intros Q; apply N; apply in_pulled in Q; apply Q | ].
    intros c' d' Q. apply in_pulled in Q. destruct Q as [Hc' [Hd' Q]]. destruct (V _ _ Q) as [N1 N2]. split; [intros ->; apply N1; reflexivity | ]. intros [Pe ->]. apply N2. split; [apply psi_peers; assumption | reflexivity].
  - intros [_ [_ [N V]]]. split; [apply psi_lt | ]. split; [apply rho_lt, Hd | ]. split; [intros Q; apply N, in_pulled; auto | ].
    intros c' d' Q. destruct (Ren _ _ Q) as [Hc' Hd']. assert (Q' : In (phi c', rho' d') (pulled a en)).
    { apply in_pulled. split; [apply phi_lt | ]. split; [apply rho'_lt, Hd' | ]. rewrite (source_inv a c' Oa Hc'), rho_rho' by lia. exact Q. }
    destruct (V _ _ Q') as [N1 N2]. split.
    + intros E. apply N1. rewrite <- E, source_inv' by assumption. reflexivity.
    + intros [Pe E]. apply N2. split; [ | rewrite <- E, rho'_rho by lia; reflexivity]. apply psi_peers; [exact Hc | apply phi_lt | ]. rewrite source_inv by assumption. exact Pe.
Qed.

Lemma pulled_fires S : fires (alive (pulled a en) (pulled a el)) S -> fires (alive en el) S.
Proof.
  assert (Oi := sinv_ok a Oa).
  apply (move_fires psi phi rho rho' (hm (sinv a)) (hm a) (s_tr a)).
  - intros c _. apply psi_lt.
  - intros c _. apply phi_lt.
  - intros c Hc. apply source_inv; assumption.
  - intros c Hc. apply source_inv'; assumption.
  - exact rho_lt.
  - exact rho'_lt.
  - intros d Hd. apply rho_rho'. lia.
  - intros d Hd. apply rho'_rho. lia.
  - intros h Hh. apply (hm_kind (sinv a) h Oi Hh).
  - intros h Hh. apply (hm_kind a h Oa Hh).
  - intros h Hh. apply hm_inv; assumption.
  - intros h Hh. apply hm_inv'; assumption.
  - intros h c Hh Hc. apply hm_house; assumption.
  - intros h Hh. rewrite <- tr_sinv. apply (hm_kind (sinv a) h Oi Hh).
  - exact psi_peers.
  - intros c d [Hc [Hd _]]. auto.
  - intros c d [Hc [Hd _]]. auto.
  - exact alive_pulled.
Qed.

Lemma completion_pulled s : completion (listed en) (listed el) s -> completion (listed (pulled a en)) (listed (pulled a el)) (act (sinv a) s).
Proof.
  intros [So [P Q]]. assert (R := proj1 (proj2 So)). split; [apply act_solved; [apply sinv_ok, Oa | exact So] | ]. split; intros c d H; apply in_pulled in H; destruct H as [Hc [Hd H]]; rewrite at_act by exact Hc.
  - rewrite (P _ _ H). apply rho'_rho. lia.
  - intros E. apply (Q _ _ H). rewrite <- E, rho_rho'; [reflexivity | ]. apply R, psi_lt.
Qed.
End Lists.

(** [f1] is carried into [f2]. *)
Definition carried (f1 f2 : facts) : Prop := forall c d, c < 81 -> 1 <= d <= 9 -> f1 (phi c) d -> f2 c (rho d).

Lemma carried_more l1 l2 st1 st2 pl1 pl2 el1 el2 ok1 ok2 g1 g2 ds1 ds2 : implemented l1 -> implemented l2 -> api st1 pl1 el1 -> api st2 pl2 el2 ->
  carried pl1 pl2 -> carried el1 el2 -> (exists s, completion pl2 el2 s) -> covers l2 l1 -> l2 <> [] ->
  strat_solve l1 st1 = Ok (ok1, g1, ds1) -> strat_solve l2 st2 = Ok (ok2, g2, ds2) ->
  (ok1 = true -> ok2 = true) /\ (forall c, c < 81 -> at_ g1 (phi c) <> 0 -> at_ g2 c = rho (at_ g1 (phi c))) /\
  (forall c d, c < 81 -> 1 <= d <= 9 -> alive (d_entries ds2) (d_elims ds2) c (rho d) -> alive (d_entries ds1) (d_elims ds1) (phi c) d).
Proof.
  intros I1 I2 A1 A2 Pl El Co Cv Ne R1 R2. destruct l2 as [ | first rest]; [contradiction | ]. assert (Co' := Co). destruct Co' as [s2 Cs].
  destruct (api_range _ _ _ A1) as [Rp1 Re1]. destruct (solve_explained _ _ _ _ _ _ _ I1 A1 R1) as [r1 [_ [X1 [P1 Q1]]]]. destruct (solve_explained _ _ _ _ _ _ _ I2 A2 R2) as [r2 [_ [X2 [P2 Q2]]]].
  set (s := act (sinv a) s2). assert (Ps : forall c d, pl1 c d -> pl2 (psi c) (rho d)).
  { intros c d H. destruct (Rp1 c d H) as [Hc Hd]. apply Pl; [apply psi_lt | exact Hd | ]. rewrite source_inv' by assumption. exact H. }
  assert (Es : forall c d, el1 c d -> el2 (psi c) (rho d)).
  { intros c d H. destruct (Re1 c d H) as [Hc Hd]. apply El; [apply psi_lt | exact Hd | ]. rewrite source_inv' by assumption. exact H. }
  assert (Cs1 : completion pl1 el1 s).
  { destruct Cs as [So [H H']]. assert (R := proj1 (proj2 So)). split; [apply act_solved; [apply sinv_ok, Oa | exact So] | ]. split; intros c d Q.
    - destruct (Rp1 c d Q) as [Hc Hd]. unfold s. rewrite at_act by exact Hc. rewrite (H _ _ (Ps c d Q)). apply rho'_rho. lia.
    - destruct (Re1 c d Q) as [Hc Hd]. unfold s. rewrite at_act by exact Hc. intros E. apply (H' _ _ (Es c d Q)). rewrite <- E, rho_rho'; [reflexivity | ]. apply R, psi_lt. }
  assert (Cl2 : completion (listed (d_entries ds2)) (listed (d_elims ds2)) s2).
  { apply (completion_same (all_places pl2 r2) _ (all_removes el2 r2) _ s2); [intros c d; symmetry; apply P2 | intros c d; symmetry; apply Q2 | ]. apply (explained_sound _ _ _ _ _ X2 Cs). }
  destruct (solve_grid _ _ _ _ _ _ _ I1 A1 R1) as [W1 [_ [S1 G1]]]. destruct (solve_grid _ _ _ _ _ _ _ I2 A2 R2) as [W2 [_ [S2 G2]]].
  assert (Ren : forall c d, In (c, d) (d_entries ds2) -> c < 81 /\ 1 <= d <= 9).
  { intros c d H. apply G2 in H. destruct H as [Hc [Hd E]]. assert (L := wf_le g2 c W2). lia. }
  assert (Cs2 := completion_pulled _ _ Ren s2 Cl2). fold s in Cs2.
  assert (Main : (forall c d, In (c, d) (d_entries ds1) -> In (psi c, rho d) (d_entries ds2)) /\
    (forall c d, In (c, d) (d_elims ds1) -> ~ alive (pulled a (d_entries ds2)) (pulled a (d_elims ds2)) c d)).
  { destruct ok2.
    - destruct (solve_ok _ _ _ _ _ _ I2 A2 R2) as [Sg [_ U]]. assert (Eg := U s2 Cs). assert (Full : forall c, c < 81 -> In (c, at_ s2 c) (d_entries ds2)).
      { intros c Hc. apply G2. split; [exact Hc | ]. rewrite Eg. destruct (proj1 (proj2 Sg) c Hc). auto. }
      split.
      + intros c d Hi. apply G1 in Hi. destruct Hi as [Hc [Hd Ed]]. assert (Q := S1 c Hc ltac:(lia) s Cs1). unfold s in Q. rewrite at_act in Q by exact Hc.
        assert (L : at_ s2 (psi c) <= 9) by (apply (proj1 (proj2 (proj1 Cs))), psi_lt). rewrite <- Ed, <- Q, rho_rho' by exact L. apply Full, psi_lt.
      + intros c d _ A. assert (A' := A). destruct A' as [Hc [Hd _]]. apply (alive_pulled _ (d_elims ds2) Ren c d Hc Hd) in A. destruct A as [_ [_ [_ V]]]. destruct (V _ _ (Full (psi c) (psi_lt c))) as [N _]. apply N. reflexivity.
    - assert (NF : forall S S', In S l1 -> In S' (turns_into S) -> ~ fires (alive (pulled a (d_entries ds2)) (pulled a (d_elims ds2))) S').
      { intros S S' Hs Hs' F. apply (pulled_fires _ _ Ren) in F. revert F. apply (solve_gives_up first rest st2 pl2 el2 g2 ds2 S' I2 A2 R2 Co). exact (Cv S S' Hs Hs'). }
      destruct (run_order (pulled a (d_entries ds2)) (pulled a (d_elims ds2)) s Cs2 l1 NF r1 pl1 el1 Cs1 X1) as [X Y].
      + intros c d Q. destruct (Rp1 c d Q) as [Hc Hd]. apply in_pulled. split; [exact Hc | ]. split; [exact Hd | ]. apply P2. left. apply Ps, Q.
      + intros c d Q [_ [_ [N _]]]. apply N. destruct (Re1 c d Q) as [Hc Hd]. apply in_pulled. split; [exact Hc | ]. split; [exact Hd | ]. apply Q2. left. apply Es, Q.
      + split; intros c d Q; [apply (in_pulled a (d_entries ds2) c d), X, P1, Q | apply Y, Q1, Q]. }
  destruct Main as [Me Md].
  assert (Gr : forall c, c < 81 -> at_ g1 (phi c) <> 0 -> at_ g2 c = rho (at_ g1 (phi c))).
  { intros c Hc N. assert (Hi : In (phi c, at_ g1 (phi c)) (d_entries ds1)) by (apply G1; split; [apply phi_lt | split; [lia | reflexivity]]).
    apply Me in Hi. rewrite source_inv in Hi by assumption. apply G2 in Hi. apply Hi. }
  split; [ | split; [exact Gr | ]].
  - intros ->. destruct ok2; [reflexivity | exfalso]. destruct (solve_ok _ _ _ _ _ _ I1 A1 R1) as [Sg _]. destruct (gives_up_unfinished first rest st2 pl2 el2 g2 ds2 I2 A2 Co R2) as [c [Hc Z]].
    assert (Rg := proj1 (proj2 Sg) (phi c) (phi_lt c)). assert (Q := Gr c Hc ltac:(lia)). assert (T := rho_lt _ Rg). lia.
  - intros c d Hc Hd A. assert (A' : alive (pulled a (d_entries ds2)) (pulled a (d_elims ds2)) (phi c) d).
    { apply alive_pulled; [exact Ren | apply phi_lt | exact Hd | ]. rewrite source_inv by assumption. exact A. }
    split; [apply phi_lt | ]. split; [exact Hd | ]. split; [intros Q; apply (Md _ _ Q A') | ]. intros c' d' Q. destruct A' as [_ [_ [_ V]]]. apply V. assert (Q' := Me _ _ Q). apply G1 in Q. destruct Q as [Hc' [Hd' E']]. assert (L := wf_le g1 c' W1).
    apply in_pulled. split; [exact Hc' | ]. split; [lia | exact Q'].
Qed.
End Moved.

Lemma moved_carried a f1 f2 : moved a f1 f2 -> carried a f1 f2.
Proof. intros M c d Hc Hd. apply M; assumption. Qed.
Lemma moved_back a f1 f2 : sym_ok a -> moved a f1 f2 -> carried (sinv a) f2 f1.
Proof.
  intros Oa M c d Hc Hd H. assert (Hs := psi_lt a Oa c). assert (Hr := rho'_lt a Oa d Hd). assert (Q := proj2 (M (source (sinv a) c) (rename (s_digits (sinv a)) d) Hs Hr)).
  rewrite source_inv' in Q by assumption. apply Q. rewrite rho_rho' by (assumption || lia). exact H.
Qed.
Lemma moved_completion a (pl1 pl2 el1 el2 : facts) s : sym_ok a -> (forall c d, pl2 c d -> c < 81 /\ 1 <= d <= 9) -> (forall c d, el2 c d -> c < 81 /\ 1 <= d <= 9) ->
  moved a pl1 pl2 -> moved a el1 el2 -> completion pl1 el1 s -> completion pl2 el2 (act a s).
Proof.
  intros Oa Rp Re Mp Me [So [P Q]]. assert (R := proj1 (proj2 So)). split; [apply act_solved; assumption | ]. split; intros c d H.
  - destruct (Rp c d H) as [Hc Hd]. rewrite at_act by exact Hc. assert (Z := moved_back a pl1 pl2 Oa Mp (source a c) d (phi_lt a Oa c) Hd). rewrite source_inv in Z by assumption.
    rewrite (P _ _ (Z H)). apply rho_rho'; [exact Oa | lia].
  - destruct (Re c d H) as [Hc Hd]. rewrite at_act by exact Hc. assert (Z := moved_back a el1 el2 Oa Me (source a c) d (phi_lt a Oa c) Hd). rewrite source_inv in Z by assumption.
    intros E. apply (Q _ _ (Z H)). rewrite <- E. symmetry. apply rho'_rho; [exact Oa | ]. apply R, phi_lt, Oa.
Qed.

(** Solving by strategies commutes with symmetries. *)
Lemma strategies_symmetric a l st1 st2 pl1 pl2 el1 el2 ok1 ok2 g1 g2 ds1 ds2 : sym_ok a -> implemented l -> l <> [] -> covers l l ->
  api st1 pl1 el1 -> api st2 pl2 el2 -> moved a pl1 pl2 -> moved a el1 el2 -> (exists s, completion pl1 el1 s) ->
  strat_solve l st1 = Ok (ok1, g1, ds1) -> strat_solve l st2 = Ok (ok2, g2, ds2) ->
  ok2 = ok1 /\ g2 = act a g1 /\
  (forall c d, c < 81 -> 1 <= d <= 9 -> (alive (d_entries ds1) (d_elims ds1) (source a c) d <-> alive (d_entries ds2) (d_elims ds2) c (rename (s_digits a) d))).
Proof.
  intros Oa Im Ne Cv A1 A2 Mp Me Co R1 R2. assert (Oi := sinv_ok a Oa). assert (Co2 : exists s, completion pl2 el2 s).
  { destruct Co as [s Cs]. exists (act a s). destruct (api_range _ _ _ A2). apply (moved_completion a pl1 pl2 el1 el2); assumption. }
  destruct (carried_more a Oa l l st1 st2 pl1 pl2 el1 el2 ok1 ok2 g1 g2 ds1 ds2 Im Im A1 A2 (moved_carried _ _ _ Mp) (moved_carried _ _ _ Me) Co2 Cv Ne R1 R2) as [X1 [Y1 Z1]].
  destruct (carried_more (sinv a) Oi l l st2 st1 pl2 pl1 el2 el1 ok2 ok1 g2 g1 ds2 ds1 Im Im A2 A1 (moved_back _ _ _ Oa Mp) (moved_back _ _ _ Oa Me) Co Cv Ne R2 R1) as [X2 [Y2 Z2]].
  destruct (solve_grid _ _ _ _ _ _ _ Im A1 R1) as [W1 _]. destruct (solve_grid _ _ _ _ _ _ _ Im A2 R2) as [W2 _].
  split; [destruct ok1, ok2; auto; try (specialize (X1 eq_refl); congruence); specialize (X2 eq_refl); congruence | ]. split.
  - apply grid_eq; [exact W2 | apply act_wf; assumption | ]. intros c Hc. rewrite at_act by exact Hc. destruct (Nat.eq_dec (at_ g1 (source a c)) 0) as [E | E]; [ | apply Y1; assumption].
    rewrite E. change (rename (s_digits a) 0) with 0. destruct (Nat.eq_dec (at_ g2 c) 0) as [E' | E']; [exact E' | exfalso]. assert (Q := Y2 (source a c) (phi_lt a Oa c)). rewrite source_inv in Q by assumption. specialize (Q E').
    assert (L := wf_le g2 c W2). assert (T := rho'_lt a Oa (at_ g2 c) ltac:(lia)). lia.
  - intros c d Hc Hd. split; [ | apply Z1; assumption]. intros A. assert (Q := Z2 (source a c) (rename (s_digits a) d) (phi_lt a Oa c) (rho_lt a Oa d Hd)). rewrite source_inv in Q by assumption.
    apply Q. rewrite rho'_rho by (assumption || lia). exact A.
Qed.

Lemma given_moved a p : sym_ok a -> wf_grid p -> moved a (given p) (given (act a p)).
Proof.
  intros Oa W c d Hc Hd. assert (L := wf_le p (source a c) W). unfold given. rewrite at_act by exact Hc. split.
  - intros [_ [N E]]. split; [exact Hc | ]. assert (T := rho_lt a Oa d Hd). split; [lia | congruence].
  - intros [_ [N E]]. split; [apply phi_lt, Oa | ]. split; [lia | ]. apply (rename_inj (s_digits a)); [apply Oa | exact L | lia | exact E].
Qed.
Lemma nothing_moved a : moved a nothing nothing.
Proof. intros c d _ _. split; intros []. Qed.

(** In particular for shuffled puzzles *)
Lemma strategies_shuffled a l p st1 st2 ok1 ok2 g1 g2 ds1 ds2 : sym_ok a -> implemented l -> l <> [] -> covers l l -> wf_grid p -> (exists s, solution_of p s) ->
  strat_from_sudoku p = Ok st1 -> strat_from_sudoku (act a p) = Ok st2 -> strat_solve l st1 = Ok (ok1, g1, ds1) -> strat_solve l st2 = Ok (ok2, g2, ds2) ->
  ok2 = ok1 /\ g2 = act a g1.
Proof.
  intros Oa Im Ne Cv W [s So] E1 E2 R1 R2.
  destruct (strategies_symmetric a l st1 st2 (given p) (given (act a p)) nothing nothing ok1 ok2 g1 g2 ds1 ds2 Oa Im Ne Cv (api_sudoku p st1 W E1) (api_sudoku (act a p) st2 (act_wf a p Oa W) E2)
    (given_moved a p Oa W) (nothing_moved a)) as [X [Y _]]; [exists s; apply completion_given; assumption | assumption | assumption | auto].
Qed.

(** Both runs of a puzzle and its shuffled form, which always come to an end *)
Lemma shuffled_runs l p perm tr rng : implemented l -> l <> [] -> covers l l -> wf_grid p -> (exists s, solution_of p s) ->
  exists a st st' ok g ds ds', sym_ok a /\ shuffle p perm tr rng = Ok (act a p) /\
    strat_from_sudoku p = Ok st /\ strat_solve l st = Ok (ok, g, ds) /\
    strat_from_sudoku (act a p) = Ok st' /\ strat_solve l st' = Ok (ok, act a g, ds') /\
    (forall c d, c < 81 -> 1 <= d <= 9 -> (alive (d_entries ds) (d_elims ds) (source a c) d <-> alive (d_entries ds') (d_elims ds') c (rename (s_digits a) d))).
Proof.
  intros Im Ne Cv W [s So]. destruct (shuffle_ok p perm tr rng W) as [a [Oa E]]. assert (W' := act_wf a p Oa W).
  assert (A := fresh_api p W). assert (A' := fresh_api (act a p) W').
  destruct (solve_total l _ _ _ Im A) as [ok [g [ds R]]]. destruct (solve_total l _ _ _ Im A') as [ok' [g' [ds' R']]].
  destruct (strategies_symmetric a l _ _ _ _ _ _ ok ok' g g' ds ds' Oa Im Ne Cv A A' (given_moved a p Oa W) (nothing_moved a)) as [-> [-> Al]]; [exists s; apply completion_given; assumption | exact R | exact R' | ].
  exists a, (fresh p), (fresh (act a p)), ok, g, ds, ds'. split; [exact Oa | ]. split; [exact E | ]. split; [apply fresh_ok, W | ]. split; [exact R | ]. split; [apply fresh_ok, W' | ]. split; [exact R' | exact Al].
Qed.

(** For other lists it matters in which order the searches read the grid: 26 clues that are solved, while their transposition is not. *)
Definition puzzle_tr : grid :=
  [3;0;0;0;0;0;0;0;0; 0;0;5;0;0;9;0;0;0; 2;0;0;5;0;4;0;0;0;
   0;2;0;0;0;0;7;0;0; 1;0;0;0;0;0;0;5;8; 7;0;4;3;1;0;6;0;0;
   0;0;0;8;9;3;1;0;0; 0;0;0;0;6;7;0;8;0; 0;0;0;0;0;0;4;3;7].
Lemma any_list_refuted : exists l p st perm tr rng p' st' g g' ds ds', implemented l /\ wf_grid p /\ uniquely_solvable p /\
  shuffle p perm tr rng = Ok p' /\ strat_from_sudoku p = Ok st /\ strat_from_sudoku p' = Ok st' /\
  strat_solve l st = Ok (true, g, ds) /\ strat_solve l st' = Ok (false, g', ds').
Proof.
  assert (W : wf_grid puzzle_tr) by (apply wf_gridb_ok; vm_compute; reflexivity).
  assert (Sh : shuffle puzzle_tr 362879%N true (fun _ => 0) = Ok (act (Sym true (seq 0 9) (seq 0 9) (seq 1 9)) puzzle_tr)) by (vm_compute; reflexivity).
  set (q := act (Sym true (seq 0 9) (seq 0 9) (seq 1 9)) puzzle_tr) in *.
  assert (W' : wf_grid q) by (apply wf_gridb_ok; vm_compute; reflexivity).
  destruct (outcomeb_ok [NakedSingles; HiddenSingles; LockedCandidates] puzzle_tr (fun ok _ _ => ok) ltac:(vm_compute; reflexivity)) as [[ | ] [g [ds [E B]]]]; [clear B | discriminate].
  destruct (outcomeb_ok [NakedSingles; HiddenSingles; LockedCandidates] q (fun ok _ _ => negb ok) ltac:(vm_compute; reflexivity)) as [[ | ] [g' [ds' [E' B]]]]; [discriminate | clear B].
  assert (Im : implemented [NakedSingles; HiddenSingles; LockedCandidates]) by (clear; intros S [<- | [<- | [<- | []]]]; discriminate).
  destruct (solve_ok _ _ _ _ _ _ Im (fresh_api _ W) E) as [Sg [Ex U]].
  exists [NakedSingles; HiddenSingles; LockedCandidates], puzzle_tr, (fresh puzzle_tr), 362879%N, true, (fun _ => 0), q, (fresh q), g, g', ds, ds'.
  split; [exact Im | ]. split; [exact W | ]. split.
  - exists g. split; [apply completion_given; [exact W | ]; split; [exact Sg | ]; split; [exact Ex | intros c d []] | ]. intros s Hs. apply U, completion_given; assumption.
  - split; [exact Sh | ]. split; [apply fresh_ok, W | ]. split; [apply fresh_ok, W' | ]. split; [exact E | exact E'].
Qed.
