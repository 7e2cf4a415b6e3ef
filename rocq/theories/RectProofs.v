(** The search for avoidable rectangles finds exactly the rectangles it should, and they are sound. *)
From Coq Require Import List Arith NArith ZArith ZifyNat ZifyN ZifyBool Lia Bool.
From Verif Require Import Spec TableSpec GeomSpec BitLemmas Solver Bits BitsProofs GridProofs Geom GeomProofs Gen Strat Wip WipSpec.
Import ListNotations.
Ltac Zify.zify_post_hook ::= Z.to_euclidean_division_equations.

(** * Loops *)

Lemma for_ok_flat {A B S} (g : A -> list B) (f : B -> S -> res (S * bool)) : forall l s,
  for_ok l (fun a s => for_ok (g a) f s) s = for_ok (flat_map g l) f s.
Proof.
  assert (App : forall l l' s, for_ok (l ++ l') f s = bindE (for_ok l f s) (fun s => for_ok l' f s)).
  { induction l as [ | x t IH]; intros l' s; cbn [app for_ok]; [reflexivity | ]. destruct (f x s) as [[s1 [ | ]] | | | ]; cbn [bindE bind fst snd]; try reflexivity. apply IH. }
  induction l as [ | a t IH]; intros s; cbn [for_ok flat_map]; [reflexivity | ]. rewrite App. destruct (for_ok (g a) f s) as [[s1 [ | ]] | | | ]; cbn [bindE bind fst snd]; try reflexivity. apply IH.
Qed.
Lemma for_ok_map {A B S} (h : A -> B) (f : B -> S -> res (S * bool)) : forall l s, for_ok l (fun a s => f (h a) s) s = for_ok (map h l) f s.
Proof. induction l as [ | a t IH]; intros s; cbn [for_ok map]; [reflexivity | ]. destruct (f (h a) s) as [[s1 [ | ]] | | | ]; cbn [bindE bind fst snd]; try reflexivity. apply IH. Qed.
Lemma for_ok_ext {A S} (f g : A -> S -> res (S * bool)) l : (forall x s, f x s = g x s) -> forall s, for_ok l f s = for_ok l g s.
Proof. intros E. induction l as [ | a t IH]; intros s; cbn [for_ok]; [reflexivity | ]. rewrite E. destruct (g a s) as [[s1 [ | ]] | | | ]; cbn [bindE bind fst snd]; try reflexivity. apply IH. Qed.

(** Pairs of rows and columns *)
Definition quads : list (nat * nat * nat * nat) :=
  flat_map (fun r1 => flat_map (fun r2 => flat_map (fun c1 => map (fun c2 => (r1, r2, c1, c2)) (seq (c1 + 1) (9 - (c1 + 1)))) (seq 0 8))
    (seq (r1 + 1) (9 - (r1 + 1)))) (seq 0 8).
Lemma find_flat {S} filled clues poss stop (on : N -> cand -> S -> res S) s : find_rectangles filled clues poss stop on s = for_ok quads (rect_at filled clues poss on) s.
Proof.
  unfold find_rectangles, quads. rewrite <- for_ok_flat. apply for_ok_ext. intros r1 s1. rewrite <- for_ok_flat. apply for_ok_ext. intros r2 s2.
  rewrite <- for_ok_flat. apply for_ok_ext. intros c1 s3. rewrite <- for_ok_map. reflexivity.
Qed.
Lemma quads_in r1 r2 c1 c2 : In (r1, r2, c1, c2) quads <-> r1 < r2 < 9 /\ c1 < c2 < 9.
Proof.
  unfold quads. rewrite in_flat_map. split.
  - intros [a [Ha H]]. apply in_flat_map in H. destruct H as [b [Hb H]]. apply in_flat_map in H. destruct H as [c [Hc H]]. apply in_map_iff in H. destruct H as [d [E Hd]].
    injection E as <- <- <- <-. rewrite in_seq in *. lia.
  - intros [Hr Hk]. exists r1. split; [rewrite in_seq; lia | ]. apply in_flat_map. exists r2. split; [rewrite in_seq; lia | ].
    apply in_flat_map. exists c1. split; [rewrite in_seq; lia | ]. apply in_map_iff. exists c2. split; [reflexivity | rewrite in_seq; lia].
Qed.
Definition quad_eqb (x y : nat * nat * nat * nat) : bool :=
  let '(a, b, c, d) := x in let '(a', b', c', d') := y in (a =? a') && (b =? b') && (c =? c') && (d =? d').
Lemma quads_nodup : NoDup quads.
Proof.
  assert (K : forall (A B : Type) (l : list A) (g : A -> list B), NoDup l -> (forall a, In a l -> NoDup (g a)) -> (forall a a' b, In a l -> In a' l -> In b (g a) -> In b (g a') -> a = a') -> NoDup (flat_map g l)).
  { intros A B l g. induction l as [ | a t IH]; intros Nd Ng Inj; cbn [flat_map]; [constructor | ]. apply NoDup_cons_iff in Nd. destruct Nd as [Na Nt].
    assert (D : forall l1 l2 : list B, NoDup l1 -> NoDup l2 -> (forall x, In x l1 -> ~ In x l2) -> NoDup (l1 ++ l2)).
    { induction l1 as [ | x t1 IH1]; intros l2 N1 N2 X; cbn [app]; [exact N2 | ]. apply NoDup_cons_iff in N1. destruct N1 as [Nx N1]. constructor.
      - rewrite in_app_iff. intros [H | H]; [exact (Nx H) | apply (X x); [left; reflexivity | exact H]].
      - apply IH1; [exact N1 | exact N2 | intros y Hy; apply X; right; exact Hy]. }
    apply D.
    - apply Ng. left. reflexivity.
    - apply IH; [exact Nt | intros x Hx; apply Ng; right; exact Hx | intros x x' b Hx Hx'; apply Inj; right; assumption].
    - intros b Hb H. apply in_flat_map in H. destruct H as [a' [Ha' Hb']]. assert (E : a = a') by (apply (Inj a a' b); [left; reflexivity | right; exact Ha' | exact Hb | exact Hb']). subst a'. exact (Na Ha'). }
  unfold quads. apply K; [apply seq_NoDup | | ].
  - intros r1 _. apply K; [apply seq_NoDup | | ].
    + intros r2 _. apply K; [apply seq_NoDup | | ].
      * intros c1 _. apply FinFun.Injective_map_NoDup; [intros x y E; injection E; auto | apply seq_NoDup].
      * intros a a' q _ _ H H'. apply in_map_iff in H, H'. destruct H as [? [<- _]]. destruct H' as [? [E _]]. injection E. auto.
    + intros a a' q _ _ H H'. apply in_flat_map in H, H'. destruct H as [? [_ H]]. destruct H' as [? [_ H']]. apply in_map_iff in H, H'. destruct H as [? [<- _]]. destruct H' as [? [E _]]. injection E. auto.
  - intros a a' q _ _ H H'. apply in_flat_map in H, H'. destruct H as [? [_ H]]. destruct H' as [? [_ H']]. apply in_flat_map in H, H'. destruct H as [? [_ H]]. destruct H' as [? [_ H']].
    apply in_map_iff in H, H'. destruct H as [? [<- _]]. destruct H' as [? [E _]]. injection E. auto.
Qed.

(** * The corners *)

Section Rect.
Variables (filled clues : grid) (poss : list N).
Hypothesis Wf : wf_grid filled.
Hypothesis Wc : length clues = 81.
Hypothesis Wp : digit_sets poss.

Definition bit_of (d : nat) : N := match as_set EDigit (d - 1) with Ok m => m | _ => 0%N end.
Lemma bit_ok d : 1 <= d <= 9 -> as_set EDigit (d - 1) = Ok (bit_of d).
Proof. intros H. unfold bit_of. destruct (as_set_total EDigit (d - 1)) as [m E]; [cbn [esize]; lia | ]. rewrite E. reflexivity. Qed.
Lemma bit_mem d i : 1 <= d <= 9 -> (mem (bit_of d) i <-> i = d - 1).
Proof. intros H. apply (mem_single EDigit), bit_ok, H. Qed.

Definition step (s : corner_info) (c : nat) : corner_info :=
  let '(n, k, ds, free) := s in
  if at_ filled c =? 0 then (n, k, ds, c) else (S n, if at_ clues c =? 0 then k else S k, set_or ds (bit_of (at_ filled c)), free).
Lemma filled_le c : c < 81 -> at_ filled c <= 9.
Proof. intros H. destruct Wf as [L F]. rewrite Forall_forall in F. apply F, nth_In. lia. Qed.
Lemma scan_fold : forall cells s, (forall c, In c cells -> c < 81) ->
  rfold (fun cell (s : corner_info) =>
    let '(n, k, ds, free) := s in
    d <- aget filled cell;
    if d =? 0 then Ok (n, k, ds, cell)
    else
      d <- digit_new d;
      m <- as_set EDigit (digit_as_index d);
      c <- aget clues cell;
      Ok (S n, if c =? 0 then k else S k, set_or ds m, free)) cells s = Ok (fold_left step cells s).
Proof.
  induction cells as [ | c t IH]; intros [[[n k] ds] fr] H; cbn [rfold fold_left]; [reflexivity | ].
  assert (Hc := H c (or_introl eq_refl)). rewrite (aget_ok filled c 0) by (destruct Wf; lia). cbn [bind]. fold (at_ filled c).
  cbn [step]. destruct (Nat.eqb_spec (at_ filled c) 0) as [E | E]; cbn [bind].
  - apply IH. intros x Hx. apply H. right. exact Hx.
  - assert (B := filled_le c Hc). rewrite (proj1 (proj1 (digit_new_exact (at_ filled c)) ltac:(lia))). cbn [bind]. unfold digit_as_index. rewrite bit_ok by lia. cbn [bind].
    rewrite (aget_ok clues c 0) by lia. cbn [bind]. apply IH. intros x Hx. apply H. right. exact Hx.
Qed.

Definition three_ok (a b c : nat) : bool :=
  Bool.eqb (set_len (set_or (set_or (set_or (set_none EDigit) (bit_of a)) (bit_of b)) (bit_of c)) =? 2)
    ((a =? b) && negb (a =? c) || (a =? c) && negb (a =? b) || (b =? c) && negb (a =? b)).
Lemma three_sweep : forallb (fun a => forallb (fun b => forallb (three_ok a b) (seq 1 9)) (seq 1 9)) (seq 1 9) = true.
Proof. vm_compute. reflexivity. Qed.
Lemma three_bits a b c : 1 <= a <= 9 -> 1 <= b <= 9 -> 1 <= c <= 9 ->
  (set_len (set_or (set_or (set_or (set_none EDigit) (bit_of a)) (bit_of b)) (bit_of c)) = 2 <-> (a = b /\ a <> c) \/ (a = c /\ a <> b) \/ (b = c /\ a <> b)).
Proof.
  intros Ha Hb Hc. pose proof three_sweep as T. rewrite forallb_forall in T. specialize (T a ltac:(rewrite in_seq; lia)). rewrite forallb_forall in T. specialize (T b ltac:(rewrite in_seq; lia)).
  rewrite forallb_forall in T. specialize (T c ltac:(rewrite in_seq; lia)). unfold three_ok in T. apply Bool.eqb_prop in T.
  rewrite <- Nat.eqb_eq, T, !orb_true_iff, !andb_true_iff, !negb_true_iff, !Nat.eqb_eq, !Nat.eqb_neq. tauto.
Qed.

Definition two_digits (xs : list nat) (c a b : nat) : Prop :=
  In c xs /\ at_ filled c = 0 /\ a <> b /\
  (forall x, In x xs -> x <> c -> at_ clues x = 0 /\ at_ filled x <> 0 /\ (at_ filled x = a \/ at_ filled x = b)) /\
  (exists x, In x xs /\ x <> c /\ at_ filled x = a) /\ (exists x, In x xs /\ x <> c /\ at_ filled x = b).

Lemma filled_set y1 y2 y3 a b i : 1 <= at_ filled y1 <= 9 -> 1 <= at_ filled y2 <= 9 -> 1 <= at_ filled y3 <= 9 ->
  (forall y, In y [y1; y2; y3] -> at_ filled y = a \/ at_ filled y = b) -> (exists y, In y [y1; y2; y3] /\ at_ filled y = a) -> (exists y, In y [y1; y2; y3] /\ at_ filled y = b) ->
  (mem (set_or (set_or (set_or (set_none EDigit) (bit_of (at_ filled y1))) (bit_of (at_ filled y2))) (bit_of (at_ filled y3))) i <-> i = a - 1 \/ i = b - 1).
Proof.
  intros H1 H2 H3 F [ya [Ia Ea]] [yb [Ib Eb]]. rewrite !mem_or, !bit_mem by assumption. split.
  - intros [[[Q | Q] | Q] | Q]; [destruct (mem_none EDigit i Q) | | | ]; subst i; [destruct (F y1) as [-> | ->] | destruct (F y2) as [-> | ->] | destruct (F y3) as [-> | ->]]; cbn [In]; auto.
  - cbn [In] in Ia, Ib. intros [-> | ->]; [rewrite <- Ea; destruct Ia as [<- | [<- | [<- | []]]] | rewrite <- Eb; destruct Ib as [<- | [<- | [<- | []]]]]; auto.
Qed.
Lemma two_of_three y1 y2 y3 : 1 <= at_ filled y1 <= 9 -> 1 <= at_ filled y2 <= 9 -> 1 <= at_ filled y3 <= 9 ->
  let ds := set_or (set_or (set_or (set_none EDigit) (bit_of (at_ filled y1))) (bit_of (at_ filled y2))) (bit_of (at_ filled y3)) in
  set_len ds = 2 <-> exists a b, a <> b /\ (forall y, In y [y1; y2; y3] -> at_ filled y = a \/ at_ filled y = b) /\ (exists y, In y [y1; y2; y3] /\ at_ filled y = a) /\ (exists y, In y [y1; y2; y3] /\ at_ filled y = b).
Proof.
  intros H1 H2 H3 ds. unfold ds. rewrite three_bits by assumption. split.
  - intros Q. assert (X : exists a b, a <> b /\ (at_ filled y1 = a \/ at_ filled y1 = b) /\ (at_ filled y2 = a \/ at_ filled y2 = b) /\ (at_ filled y3 = a \/ at_ filled y3 = b) /\
      (at_ filled y1 = a \/ at_ filled y2 = a \/ at_ filled y3 = a) /\ (at_ filled y1 = b \/ at_ filled y2 = b \/ at_ filled y3 = b)).
    { destruct Q as [[E Q] | [[E Q] | [E Q]]]; [exists (at_ filled y1), (at_ filled y3) | exists (at_ filled y1), (at_ filled y2) | exists (at_ filled y1), (at_ filled y2)]; repeat split; auto; congruence || (right; congruence) || auto. }
    destruct X as [a [b [Nab [F1 [F2 [F3 [A B]]]]]]]. exists a, b. split; [exact Nab | ]. split; [ | split].
    + intros y [<- | [<- | [<- | []]]]; assumption.
    + destruct A as [A | [A | A]]; eexists; (split; [ | exact A]); cbn [In]; auto.
    + destruct B as [B | [B | B]]; eexists; (split; [ | exact B]); cbn [In]; auto.
  - intros [a [b [Nab [F [[ya [Ia Ea]] [yb [Ib Eb]]]]]]]. assert (F1 := F y1 ltac:(cbn [In]; auto)). assert (F2 := F y2 ltac:(cbn [In]; auto)). assert (F3 := F y3 ltac:(cbn [In]; auto)).
    cbn [In] in Ia, Ib. destruct Ia as [<- | [<- | [<- | []]]], Ib as [<- | [<- | [<- | []]]]; lia.
Qed.

Lemma sets_lt m : is_set EDigit m <-> forall i, mem m i -> i < 9.
Proof. reflexivity. Qed.
(** One of four different cells is empty: the result of the scan. *)
Definition found (i : corner_info) (xs : list nat) : Prop :=
  let '(n, k, ds, free) := i in
  (n = 3 /\ k = 0 /\ set_len ds = 2 -> exists a b, two_digits xs free a b /\ 1 <= a <= 9 /\ 1 <= b <= 9 /\ forall i, mem ds i <-> i = a - 1 \/ i = b - 1) /\
  (forall c a b, two_digits xs c a b -> n = 3 /\ k = 0 /\ set_len ds = 2 /\ free = c).
Lemma one_free y1 y2 y3 c k xs : (forall x, In x xs <-> x = c \/ In x [y1; y2; y3]) -> ~ In c [y1; y2; y3] -> at_ filled c = 0 ->
  1 <= at_ filled y1 <= 9 -> 1 <= at_ filled y2 <= 9 -> 1 <= at_ filled y3 <= 9 -> (k = 0 <-> forall y, In y [y1; y2; y3] -> at_ clues y = 0) ->
  found (3, k, set_or (set_or (set_or (set_none EDigit) (bit_of (at_ filled y1))) (bit_of (at_ filled y2))) (bit_of (at_ filled y3)), c) xs.
Proof.
  intros Hx Nc Z H1 H2 H3 Hk. assert (T := two_of_three y1 y2 y3 H1 H2 H3). cbv zeta in T. unfold found. set (ds := set_or _ _) in *.
  assert (R : forall y, In y [y1; y2; y3] -> 1 <= at_ filled y <= 9) by (intros y [<- | [<- | [<- | []]]]; assumption).
  split.
  - intros [_ [K L]]. apply T in L. destruct L as [a [b [Nab [F [A B]]]]]. exists a, b. split; [ | split; [ | split]].
    + split; [apply Hx; left; reflexivity | ]. split; [exact Z | ]. split; [exact Nab | ]. split.
      * intros x Ix Nx. apply Hx in Ix. destruct Ix as [-> | Ix]; [destruct (Nx eq_refl) | ]. split; [apply (proj1 Hk K x Ix) | ]. split; [specialize (R x Ix); lia | apply F, Ix].
      * destruct A as [ya [Ia Ea]], B as [yb [Ib Eb]]. split; [exists ya | exists yb]; (split; [apply Hx; right; assumption | split; [intros ->; contradiction | assumption]]).
    + destruct A as [ya [Ia <-]]. apply R, Ia.
    + destruct B as [yb [Ib <-]]. apply R, Ib.
    + intros i. apply filled_set; assumption.
  - intros c' a b [Ic' [Zc' [Nab [F [[xa [Ia [Na Ea]]] [xb [Ib [Nb Eb]]]]]]]]. assert (Ec : c' = c).
    { apply Hx in Ic'. destruct Ic' as [-> | Ic']; [reflexivity | ]. specialize (R c' Ic'). lia. }
    subst c'. assert (G : forall y, In y [y1; y2; y3] -> In y xs /\ y <> c) by (intros y Iy; split; [apply Hx; right; exact Iy | intros ->; exact (Nc Iy)]).
    split; [reflexivity | ]. split; [apply Hk; intros y Iy; apply F; apply G, Iy | ]. split; [ | reflexivity]. apply T.
    exists a, b. split; [exact Nab | ]. split; [intros y Iy; apply F; apply G, Iy | ]. split; [exists xa | exists xb]; (split; [ | assumption]); [apply Hx in Ia; destruct Ia; [contradiction | assumption] | apply Hx in Ib; destruct Ib; [contradiction | assumption]].
Qed.
Lemma none_found n k ds fr xs : n <> 3 -> (forall c a b, ~ two_digits xs c a b) -> found (n, k, ds, fr) xs.
Proof. intros N Q. unfold found. split; [intros [E _]; contradiction | intros c a b T; destruct (Q c a b T)]. Qed.

Lemma scan_found x1 x2 x3 x4 : NoDup [x1; x2; x3; x4] -> x1 < 81 -> x2 < 81 -> x3 < 81 -> x4 < 81 ->
  exists i, rect_scan filled clues [x1; x2; x3; x4] = Ok i /\ found i [x1; x2; x3; x4].
Proof.
  intros Nd H1 H2 H3 H4. eexists. split; [unfold rect_scan; apply scan_fold; intros c [<- | [<- | [<- | [<- | []]]]]; assumption | ]. cbn [fold_left].
  assert (B1 := filled_le x1 H1). assert (B2 := filled_le x2 H2). assert (B3 := filled_le x3 H3). assert (B4 := filled_le x4 H4).
  assert (D : x1 <> x2 /\ x1 <> x3 /\ x1 <> x4 /\ x2 <> x3 /\ x2 <> x4 /\ x3 <> x4).
  { rewrite !NoDup_cons_iff in Nd. cbn [In] in Nd. intuition. }
  assert (Kz : forall y1 y2 y3, (if at_ clues y3 =? 0 then if at_ clues y2 =? 0 then if at_ clues y1 =? 0 then 0 else 1 else S (if at_ clues y1 =? 0 then 0 else 1)
      else S (if at_ clues y2 =? 0 then if at_ clues y1 =? 0 then 0 else 1 else S (if at_ clues y1 =? 0 then 0 else 1))) = 0 <-> forall y, In y [y1; y2; y3] -> at_ clues y = 0).
  { intros y1 y2 y3. split.
    - destruct (Nat.eqb_spec (at_ clues y1) 0), (Nat.eqb_spec (at_ clues y2) 0), (Nat.eqb_spec (at_ clues y3) 0); intros E; try discriminate E. intros y [<- | [<- | [<- | []]]]; assumption.
    - intros F. rewrite (F y1), (F y2), (F y3) by (cbn [In]; auto). reflexivity. }
  assert (Two : forall u v c a b, In u [x1; x2; x3; x4] -> In v [x1; x2; x3; x4] -> u <> v -> at_ filled u = 0 -> at_ filled v = 0 -> ~ two_digits [x1; x2; x3; x4] c a b).
  { intros u v c a b Iu Iv Nuv Zu Zv [_ [_ [_ [F _]]]]. destruct (Nat.eq_dec u c) as [-> | Nu]; [destruct (F v Iv) as [_ [Q _]]; congruence | destruct (F u Iu Nu) as [_ [Q _]]; congruence]. }
  assert (Full : at_ filled x1 <> 0 -> at_ filled x2 <> 0 -> at_ filled x3 <> 0 -> at_ filled x4 <> 0 -> forall c a b, ~ two_digits [x1; x2; x3; x4] c a b).
  { intros N1 N2 N3 N4 c a b [Ic [Z _]]. destruct Ic as [<- | [<- | [<- | [<- | []]]]]; contradiction. }
  assert (In1 : In x1 [x1; x2; x3; x4]) by (cbn [In]; auto). assert (In2 : In x2 [x1; x2; x3; x4]) by (cbn [In]; auto). assert (In3 : In x3 [x1; x2; x3; x4]) by (cbn [In]; auto). assert (In4 : In x4 [x1; x2; x3; x4]) by (cbn [In]; auto 6).
  unfold step. destruct (Nat.eqb_spec (at_ filled x1) 0) as [E1 | E1], (Nat.eqb_spec (at_ filled x2) 0) as [E2 | E2], (Nat.eqb_spec (at_ filled x3) 0) as [E3 | E3], (Nat.eqb_spec (at_ filled x4) 0) as [E4 | E4]; cbv beta iota;
    try (apply none_found; [discriminate | intros c a b; first [ apply Full; assumption | apply (Two x1 x2); try assumption; apply D | apply (Two x1 x3); try assumption; apply D
      | apply (Two x1 x4); try assumption; apply D | apply (Two x2 x3); try assumption; apply D | apply (Two x2 x4); try assumption; apply D | apply (Two x3 x4); try assumption; apply D ] ]).
  - apply one_free; [intros x; clear; cbn [In]; intuition | clear - D; cbn [In]; intuition | exact E1 | lia | lia | lia | apply Kz].
  - apply one_free; [intros x; clear; cbn [In]; intuition | clear - D; cbn [In]; intuition | exact E2 | lia | lia | lia | apply Kz].
  - apply one_free; [intros x; clear; cbn [In]; intuition | clear - D; cbn [In]; intuition | exact E3 | lia | lia | lia | apply Kz].
  - apply one_free; [intros x; clear; cbn [In]; intuition | clear - D; cbn [In]; intuition | exact E4 | lia | lia | lia | apply Kz].
Qed.

(** * One rectangle *)

Lemma rect_corners r1 r2 c1 c2 x : corner r1 r2 c1 c2 x <-> In x [rect_cell r1 c1; rect_cell r1 c2; rect_cell r2 c1; rect_cell r2 c2].
Proof.
  unfold corner, rect_cell. cbn [In]. split.
  - intros [r [k [[-> | ->] [[-> | ->] ->]]]]; [left | right; left | right; right; left | right; right; right; left]; lia.
  - intros [<- | [<- | [<- | [<- | []]]]]; [exists r1, c1 | exists r1, c2 | exists r2, c1 | exists r2, c2]; (split; [auto | ]); (split; [auto | ]); lia.
Qed.
Lemma avoidable_two r1 r2 c1 c2 c d : avoidable filled clues (marks poss) r1 r2 c1 c2 c d <->
  rectangle r1 r2 c1 c2 /\ exists b, two_digits [rect_cell r1 c1; rect_cell r1 c2; rect_cell r2 c1; rect_cell r2 c2] c d b /\ marks poss c d /\ ~ marks poss c b.
Proof.
  unfold avoidable, two_digits. split.
  - intros [R [Ic [Z [b [N [F [[xa [Ia A]] [[xb [Ib B]] [C1 C2]]]]]]]]]. split; [exact R | ]. exists b. split; [ | split; assumption]. split; [apply rect_corners, Ic | ]. split; [exact Z | ]. split; [exact N | ].
    split; [intros x Ix; apply F, rect_corners, Ix | ]. split; [exists xa | exists xb]; (split; [apply rect_corners; assumption | assumption]).
  - intros [R [b [[Ic [Z [N [F [[xa [Ia A]] [xb [Ib B]]]]]]] [C1 C2]]]]. split; [exact R | ]. split; [apply rect_corners, Ic | ]. split; [exact Z | ]. exists b. split; [exact N | ].
    split; [intros x Ix; apply F, rect_corners, Ix | ]. split; [exists xa; (split; [apply rect_corners; assumption | assumption]) | ]. split; [exists xb; (split; [apply rect_corners; assumption | assumption]) | split; assumption].
Qed.
Lemma lines_ok r1 r2 c1 c2 : r1 < 9 -> r2 < 9 -> c1 < 9 -> c2 < 9 -> exists l, rect_lines r1 r2 c1 c2 = Ok l /\ is_set ELine l /\ forall i, mem l i <-> four_lines r1 r2 c1 c2 i.
Proof.
  intros H1 H2 H3 H4. unfold rect_lines, line_of_row, line_of_col, COL_OFFSET. rewrite (chk_ok 18 r1), (chk_ok 18 r2), (chk_ok 18 (c1 + 9)), (chk_ok 18 (c2 + 9)) by lia. cbn [bind].
  destruct (as_set_total ELine r1) as [m1 E1]; [cbn [esize]; lia | ]. destruct (as_set_total ELine r2) as [m2 E2]; [cbn [esize]; lia | ].
  destruct (as_set_total ELine (c1 + 9)) as [m3 E3]; [cbn [esize]; lia | ]. destruct (as_set_total ELine (c2 + 9)) as [m4 E4]; [cbn [esize]; lia | ].
  rewrite E1, E2, E3, E4. cbn [bind]. eexists. split; [reflexivity | ].
  assert (M : forall i, mem (set_or (set_or (set_or m1 m2) m3) m4) i <-> four_lines r1 r2 c1 c2 i).
  { intros i. unfold four_lines. rewrite !mem_or, (mem_single _ _ _ _ E1), (mem_single _ _ _ _ E2), (mem_single _ _ _ _ E3), (mem_single _ _ _ _ E4). lia. }
  split; [intros i Hi; apply M in Hi; unfold four_lines in Hi; cbn [esize]; lia | exact M].
Qed.
Lemma poss_set c : is_set EDigit (nth c poss 0%N).
Proof.
  destruct Wp as [L F]. rewrite Forall_forall in F. intros i Hi. destruct (le_lt_dec (length poss) c) as [G | G]; [rewrite nth_overflow in Hi by exact G; destruct (mem_none EDigit i Hi) | ].
  apply (F _ (nth_In poss 0%N G) i Hi).
Qed.

Definition hit (q : nat * nat * nat * nat) (x : N * cand) : Prop :=
  let '(r1, r2, c1, c2) := q in avoidable filled clues (marks poss) r1 r2 c1 c2 (fst (snd x)) (snd (snd x)) /\ is_set ELine (fst x) /\ forall i, mem (fst x) i <-> four_lines r1 r2 c1 c2 i.
Lemma rect_at_spec q : In q quads ->
  (exists x, hit q x /\ forall S (on : N -> cand -> S -> res S) s, rect_at filled clues poss on q s = (s' <- on (fst x) (snd x) s; Ok (s', true))) \/
  ((forall x, ~ hit q x) /\ forall S (on : N -> cand -> S -> res S) s, rect_at filled clues poss on q s = Ok (s, true)).
Proof.
  destruct q as [[[r1 r2] c1] c2]. intros Hq. apply quads_in in Hq. destruct Hq as [Hr Hk].
  assert (Rx : rectangle r1 r2 c1 c2 <-> xorb (r1 / 3 =? r2 / 3) (c1 / 3 =? c2 / 3) = true).
  { unfold rectangle. destruct (Nat.eqb_spec (r1 / 3) (r2 / 3)), (Nat.eqb_spec (c1 / 3) (c2 / 3)); cbn [xorb]; split; intros; try discriminate; try reflexivity; try lia; tauto. }
  destruct (xorb (r1 / 3 =? r2 / 3) (c1 / 3 =? c2 / 3)) eqn:X.
  2: { right. split; [intros x [[R _] _]; apply Rx in R; discriminate R | ]. intros S on s. unfold rect_at. rewrite X. reflexivity. }
  assert (R : rectangle r1 r2 c1 c2) by (apply Rx; reflexivity). clear Rx.
  destruct (scan_found (rect_cell r1 c1) (rect_cell r1 c2) (rect_cell r2 c1) (rect_cell r2 c2)) as [[[[n k] ds] fr] [E [F1 F2]]]; [ | unfold rect_cell; lia .. | ].
  { unfold rect_cell. repeat constructor; cbn [In]; lia. }
  set (xs := [_; _; _; _]) in *.
  assert (Q : forall S (on : N -> cand -> S -> res S) s, rect_at filled clues poss on (r1, r2, c1, c2) s =
    if (n =? 3) && (k =? 0) && (set_len ds =? 2) then
      c <- chk 81 fr;
      m <- aget poss c;
      if set_overlaps EDigit m ds then
        row1 <- chk 9 r1; row2 <- chk 9 r2; col1 <- chk 9 c1; col2 <- chk 9 c2;
        u <- set_unique EDigit (set_and m ds);
        match u with
        | UEmpty => Ok (s, false)
        | UOk None => Ok (s, true)
        | UOk (Some i) =>
            d <- digit_from_index i;
            l <- rect_lines row1 row2 col1 col2;
            c <- chk 81 fr;
            s <- on l (c, d) s;
            Ok (s, true)
        end
      else Ok (s, true)
    else Ok (s, true)).
  { intros S on s. unfold rect_at. rewrite X. cbn [negb]. fold xs. rewrite E. reflexivity. }
  destruct ((n =? 3) && (k =? 0) && (set_len ds =? 2)) eqn:B.
  2: { right. split; [ | exact Q]. intros x [A _]. apply avoidable_two in A. destruct A as [_ [b [T _]]]. destruct (F2 _ _ _ T) as [Y1 [Y2 [Y3 _]]]. rewrite Y1, Y2, Y3 in B. discriminate B. }
  rewrite !andb_true_iff, !Nat.eqb_eq in B. destruct F1 as [a [b [T [Ha [Hb M]]]]]; [tauto | ]. assert (Hf : fr < 81).
  { destruct T as [I _]. unfold xs, rect_cell in I. cbn [In] in I. lia. }
  assert (Sd : is_set EDigit ds) by (intros i Hi; apply M in Hi; cbn [esize]; lia).
  assert (L81 : length poss = 81) by apply Wp.
  rewrite (chk_ok 81 fr Hf) in Q. cbn [bind] in Q. rewrite (aget_ok poss fr 0%N) in Q by lia. cbn [bind] in Q. set (m := nth fr poss 0%N) in *. assert (Sm : is_set EDigit m) by apply poss_set.
  rewrite !chk_ok in Q by lia. cbn [bind] in Q.
  assert (Sa : is_set EDigit (set_and m ds)) by (intros i Hi; apply mem_and in Hi; apply Sd, Hi).
  assert (Ma : forall d, 1 <= d -> marks poss fr d <-> mem m (d - 1)) by (intros d Hd; unfold marks; fold m; tauto).
  (* the other digit *)
  assert (G : forall c d b', two_digits xs c d b' -> c = fr /\ ((d = a /\ b' = b) \/ (d = b /\ b' = a))).
  { intros c d b' T'. destruct (F2 _ _ _ T') as [_ [_ [_ <-]]]. split; [reflexivity | ]. destruct T as [_ [_ [Nab [Fa _]]]], T' as [_ [_ [Ndb [Fd [[xd [Id [Xd Ed]]] [xb [Ib [Xb Eb]]]]]]]].
    destruct (Fa xd Id Xd) as [_ [_ P1]], (Fa xb Ib Xb) as [_ [_ P2]]. lia. }
  assert (U := unique_meaning EDigit (set_and m ds) Sa). destruct U as [U0 [U1 U2]].
  destruct (set_overlaps EDigit m ds) eqn:O.
  2: { right. split; [ | exact Q]. intros x [A _]. apply avoidable_two in A. destruct A as [_ [b' [T' [C1 C2]]]]. destruct (G _ _ _ T') as [Ef Cs]. rewrite Ef in C1. apply Ma in C1; [ | destruct Cs; lia].
    assert (set_overlaps EDigit m ds = true) by (apply overlaps_iff; exists (snd (snd x) - 1); split; [exact C1 | apply M; destruct Cs as [[-> _] | [-> _]]; auto]). congruence. }
  apply overlaps_iff in O. destruct O as [i0 [I1 I2]].
  destruct (lines_ok r1 r2 c1 c2) as [l [El [Sl Ml]]]; [lia .. | ]. rewrite El in Q.
  assert (Case : (mem m (a - 1) /\ mem m (b - 1)) \/ (exists d b', (d = a /\ b' = b \/ d = b /\ b' = a) /\ mem m (d - 1) /\ ~ mem m (b' - 1))).
  { unfold mem in *. apply M in I2. destruct (N.testbit m (N.of_nat (a - 1))) eqn:Ta, (N.testbit m (N.of_nat (b - 1))) eqn:Tb.
    - left. split; reflexivity.
    - right. exists a, b. split; [left; split; reflexivity | ]. rewrite Ta, Tb. split; [reflexivity | discriminate].
    - right. exists b, a. split; [right; split; reflexivity | ]. rewrite Ta, Tb. split; [reflexivity | discriminate].
    - exfalso. destruct I2 as [-> | ->]; congruence. }
  assert (Nab : a <> b) by apply T.
  destruct Case as [[Aa Ab] | [d [b' [Cs [Cd Cb]]]]].
  - right. assert (E2 : set_unique EDigit (set_and m ds) = Ok (UOk None)).
    { apply U2. exists (a - 1), (b - 1). rewrite !mem_and. split; [split; [exact Aa | apply M; auto] | ]. split; [split; [exact Ab | apply M; auto] | lia]. }
    rewrite E2 in Q. cbn [bind] in Q. split; [ | exact Q]. intros x [A _]. apply avoidable_two in A. destruct A as [_ [b' [T' [_ C2]]]]. destruct (G _ _ _ T') as [Ef Cs]. rewrite Ef in C2. apply C2, Ma; [destruct Cs; lia | ].
    destruct Cs as [[_ ->] | [_ ->]]; assumption.
  - left. assert (E2 : set_unique EDigit (set_and m ds) = Ok (UOk (Some (d - 1)))).
    { apply U1. intros i. rewrite mem_and, M. split.
      - intros [Hi [-> | ->]]; destruct Cs as [[-> ->] | [-> ->]]; try reflexivity; contradiction.
      - intros ->. split; [exact Cd | ]. destruct Cs as [[-> _] | [-> _]]; auto. }
    rewrite E2 in Q. cbn [bind] in Q. assert (Hd : 1 <= d <= 9) by (destruct Cs; lia). assert (Ed := proj2 (proj1 (digit_new_exact d) Hd)). unfold digit_as_index in Ed. rewrite Ed in Q. cbn [bind] in Q.
    exists (l, (fr, d)). split; [ | exact Q]. cbn [hit fst snd]. split; [ | split; assumption]. apply avoidable_two. split; [exact R | ]. exists b'. split; [ | split; [apply Ma; [lia | exact Cd] | rewrite Ma by (destruct Cs; lia); exact Cb]].
    destruct Cs as [[-> ->] | [-> ->]]; [exact T | ]. destruct T as [T1 [T2 [T3 [T4 [T5 T6]]]]]. split; [exact T1 | ]. split; [exact T2 | ]. split; [auto | ].
    split; [intros x Ix Nx; destruct (T4 x Ix Nx) as [Y1 [Y2 Y3]]; split; [exact Y1 | ]; split; [exact Y2 | tauto] | ]. split; assumption.
Qed.

Lemma hit_quad q q' x : In q quads -> In q' quads -> hit q x -> hit q' x -> q = q'.
Proof.
  destruct q as [[[r1 r2] c1] c2], q' as [[[r1' r2'] c1'] c2']. rewrite !quads_in. intros [H1 H2] [H3 H4] [_ [_ A]] [_ [_ B]].
  assert (Q : forall i, four_lines r1 r2 c1 c2 i <-> four_lines r1' r2' c1' c2' i) by (intros i; rewrite <- A, <- B; reflexivity). unfold four_lines in Q.
  assert (P : forall a b a' b', a < b -> a' < b' -> (a = a' \/ a = b') -> (b = a' \/ b = b') -> a = a' /\ b = b') by (clear; intros; lia).
  assert (X1 : r1 = r1' \/ r1 = r2') by (destruct (proj1 (Q r1) (or_introl eq_refl)) as [E | [E | [E | E]]]; [left | right | exfalso | exfalso]; clear Q A B; lia).
  assert (X2 : r2 = r1' \/ r2 = r2') by (destruct (proj1 (Q r2) (or_intror (or_introl eq_refl))) as [E | [E | [E | E]]]; [left | right | exfalso | exfalso]; clear Q A B; lia).
  assert (X3 : c1 = c1' \/ c1 = c2') by (destruct (proj1 (Q (9 + c1)) (or_intror (or_intror (or_introl eq_refl)))) as [E | [E | [E | E]]]; [exfalso | exfalso | left | right]; clear Q A B; lia).
  assert (X4 : c2 = c1' \/ c2 = c2') by (destruct (proj1 (Q (9 + c2)) (or_intror (or_intror (or_intror eq_refl)))) as [E | [E | [E | E]]]; [exfalso | exfalso | left | right]; clear Q A B; lia).
  destruct (P r1 r2 r1' r2') as [-> ->]; [apply H1 | apply H3 | exact X1 | exact X2 | ]. destruct (P c1 c2 c1' c2') as [-> ->]; [apply H2 | apply H4 | exact X3 | exact X4 | ]. reflexivity.
Qed.
Lemma hit_fun q x x' : In q quads -> hit q x -> hit q x' -> x = x'.
Proof.
  destruct q as [[[r1 r2] c1] c2], x as [l [c d]], x' as [l' [c' d']]. intros _ [A [Sl L]] [A' [Sl' L']]. cbn [fst snd] in *.
  assert (El : l = l') by (apply mem_ext; intros i; rewrite L, L'; reflexivity). subst l'. apply avoidable_two in A, A'. destruct A as [_ [b [T [C1 C2]]]], A' as [_ [b' [T' [C1' C2']]]].
  destruct T as [Ic [Zc [_ [F [[xd [Id [Nd Ed]]] _]]]]], T' as [Ic' [Zc' [_ [F' [[xd' [Id' [Nd' Ed']]] _]]]]].
  assert (Ec : c = c'). { destruct (Nat.eq_dec c' c) as [-> | Nc]; [reflexivity | ]. destruct (F c' Ic' Nc) as [_ [Q _]]. congruence. }
  subst c'. destruct (F xd' Id' Nd') as [_ [_ [Q | Q]]]; [congruence | ]. exfalso. apply C2. rewrite <- Q, Ed'. exact C1'.
Qed.

Fixpoint run {S} (on : N -> cand -> S -> res S) (l : list (N * cand)) (s : S) : res S :=
  match l with [] => Ok s | x :: t => s <- on (fst x) (snd x) s; run on t s end.
Lemma quads_found : forall Q, (forall q, In q Q -> In q quads) -> NoDup Q ->
  exists l, NoDup l /\ (forall x, In x l <-> exists q, In q Q /\ hit q x) /\
  forall S (on : N -> cand -> S -> res S) s, for_ok Q (rect_at filled clues poss on) s = (s <- run on l s; Ok (s, true)).
Proof.
  induction Q as [ | q Q IH]; intros HQ Nd.
  - exists []. split; [constructor | ]. split; [intros x; split; [intros [] | intros [q [[] _]]] | ]. reflexivity.
  - apply NoDup_cons_iff in Nd. destruct Nd as [Nq Nd]. destruct IH as [l [Nl [Il R]]]; [intros q' H'; apply HQ; right; exact H' | exact Nd | ].
    assert (Hq := HQ q (or_introl eq_refl)). destruct (rect_at_spec q Hq) as [[x [Hx E]] | [Hx E]].
    + exists (x :: l). split; [constructor; [ | exact Nl] | split].
      * rewrite Il. intros [q' [I' H']]. assert (q = q') by (apply (hit_quad q q' x); [exact Hq | apply HQ; right; exact I' | exact Hx | exact H']). subst q'. exact (Nq I').
      * intros y. cbn [In]. rewrite Il. split.
        -- intros [<- | [q' [I' H']]]; [exists q; auto | exists q'; auto].
        -- intros [q' [[<- | I'] H']]; [left; apply (hit_fun q); assumption | right; exists q'; auto].
      * intros S on s. cbn [for_ok run]. rewrite E. destruct (on (fst x) (snd x) s) as [s1 | | | ]; cbn [bind bindE fst snd]; try reflexivity. apply R.
    + exists l. split; [exact Nl | ]. split.
      * intros y. rewrite Il. split; [intros [q' [I' H']]; exists q'; split; [right; exact I' | exact H'] | ]. intros [q' [[<- | I'] H']]; [destruct (Hx y H') | exists q'; auto].
      * intros S on s. cbn [for_ok]. rewrite E. cbn [bindE bind fst snd]. apply R.
Qed.

(** The search calls the callback exactly once for each rectangle. *)
Lemma rectangles_exact : exists l, NoDup l /\
  (forall ls c d, In (ls, (c, d)) l <-> exists r1 r2 c1 c2, avoidable filled clues (marks poss) r1 r2 c1 c2 c d /\ forall i, mem ls i <-> four_lines r1 r2 c1 c2 i) /\
  forall S stop (on : N -> cand -> S -> res S) s, find_rectangles filled clues poss stop on s = (s <- run on l s; Ok (s, true)).
Proof.
  destruct (quads_found quads) as [l [Nl [Il R]]]; [auto | apply quads_nodup | ]. exists l. split; [exact Nl | ]. split.
  - intros ls c d. rewrite Il. split.
    + intros [[[[r1 r2] c1] c2] [_ [A [_ L]]]]. exists r1, r2, c1, c2. split; assumption.
    + intros [r1 [r2 [c1 [c2 [A L]]]]]. exists (r1, r2, c1, c2). assert (Rt := proj1 A). destruct Rt as [H1 [H2 _]]. split; [apply quads_in; auto | ]. split; [exact A | ]. split; [ | exact L].
      intros i Hi. cbn [fst] in Hi. apply L in Hi. unfold four_lines in Hi. cbn [esize]. lia.
  - intros S stop on s. rewrite find_flat. apply R.
Qed.
End Rect.

(** * Soundness *)

(** Exchange two digits in some cells. *)
Definition swap_at (K : nat -> bool) (a b : nat) (s : grid) : grid :=
  map (fun c => if K c then if at_ s c =? a then b else a else at_ s c) (seq 0 81).
Lemma swap_get K a b s c : c < 81 -> at_ (swap_at K a b s) c = if K c then if at_ s c =? a then b else a else at_ s c.
Proof.
  intros H. unfold swap_at, at_ at 1. rewrite (nth_indep _ 0 ((fun c => if K c then if at_ s c =? a then b else a else at_ s c) 0)) by (rewrite map_length, seq_length; exact H).
  rewrite (map_nth (fun c => if K c then if at_ s c =? a then b else a else at_ s c)), seq_nth by exact H. reflexivity.
Qed.
Lemma swap_solved K a b s : solved s -> a <> b -> 1 <= a <= 9 -> 1 <= b <= 9 ->
  (forall c, c < 81 -> K c = true -> at_ s c = a \/ at_ s c = b) ->
  (forall c c', c < 81 -> c' < 81 -> K c = true -> K c' = false -> peers c c' -> exists x, x < 81 /\ K x = true /\ at_ s x <> at_ s c /\ peers x c') ->
  solved (swap_at K a b s).
Proof.
  intros [L [D P]] N Ha Hb Dk H. split; [unfold swap_at; rewrite map_length, seq_length; reflexivity | ]. split.
  - intros c Hc. rewrite swap_get by exact Hc. destruct (K c); [ | apply D, Hc]. destruct (at_ s c =? a); assumption.
  - assert (One : forall c c', c < 81 -> c' < 81 -> K c = true -> K c' = false -> peers c c' -> (if at_ s c =? a then b else a) <> at_ s c').
    { intros c c' Hc Hc' Kc Kc' Pc E. destruct (H c c' Hc Hc' Kc Kc' Pc) as [x [Hx [Kx [Nx Px]]]]. apply (P x c' Hx Hc' Px). rewrite <- E.
      destruct (Dk c Hc Kc) as [Ec | Ec], (Dk x Hx Kx) as [Ex | Ex]; rewrite Ec in *; rewrite Ex in *; try congruence; [rewrite Nat.eqb_refl; reflexivity | rewrite (proj2 (Nat.eqb_neq b a)) by auto; reflexivity]. }
    intros c c' Hc Hc' Pc. rewrite !swap_get by assumption. assert (Pn := P c c' Hc Hc' Pc). destruct (K c) eqn:Kc, (K c') eqn:Kc'.
    + destruct (Dk c Hc Kc) as [Ec | Ec], (Dk c' Hc' Kc') as [Ec' | Ec']; rewrite Ec, Ec' in *; rewrite ?Nat.eqb_refl; try congruence; rewrite (proj2 (Nat.eqb_neq b a)) by auto; auto.
    + apply One; assumption.
    + intros E. symmetry in E. revert E. apply One; try assumption. destruct Pc as [Q [R | [R | R]]]; (split; [congruence | rewrite R; auto]).
    + exact Pn.
Qed.

(** The arithmetic of a rectangle *)
Lemma cell_lt r k : r < 9 -> k < 9 -> 9 * r + k < 81.
Proof. lia. Qed.
Lemma cell_neq r k r' k' : k < 9 -> k' < 9 -> r <> r' \/ k <> k' -> 9 * r + k <> 9 * r' + k'.
Proof. lia. Qed.
Lemma cell_row r k : k < 9 -> row_of (9 * r + k) = r.
Proof. unfold row_of. lia. Qed.
Lemma cell_col r k : k < 9 -> col_of (9 * r + k) = k.
Proof. unfold col_of. lia. Qed.
Lemma cell_block r k : k < 9 -> block_of (9 * r + k) = 3 * (r / 3) + k / 3.
Proof. intros H. unfold block_of. rewrite cell_row, cell_col by exact H. reflexivity. Qed.

Lemma swap_rect s r k r' k' d b : solved s -> r < 9 -> k < 9 -> r' < 9 -> k' < 9 -> r <> r' -> k <> k' -> (r / 3 = r' / 3 <-> k / 3 <> k' / 3) -> d <> b ->
  at_ s (9 * r + k) = d -> at_ s (9 * r + k') = b -> at_ s (9 * r' + k) = b -> at_ s (9 * r' + k') = d ->
  exists s', solved s' /\ at_ s' (9 * r + k) = b /\
  forall x, x < 81 -> x <> 9 * r + k -> x <> 9 * r + k' -> x <> 9 * r' + k -> x <> 9 * r' + k' -> at_ s' x = at_ s x.
Proof.
  intros So Hr Hk Hr' Hk' Nr Nk R3 Ndb V0 V1 V2 V3. assert (Dg := proj1 (proj2 So)).
  assert (B0 := cell_lt r k Hr Hk). assert (B1 := cell_lt r k' Hr Hk'). assert (B3 := cell_lt r' k' Hr' Hk').
  set (K := fun x => (x =? 9 * r + k) || (x =? 9 * r + k') || (x =? 9 * r' + k) || (x =? 9 * r' + k')).
  assert (KT : forall x, K x = true <-> ((x = 9 * r + k \/ x = 9 * r + k') \/ x = 9 * r' + k) \/ x = 9 * r' + k') by (intros x; unfold K; rewrite !orb_true_iff, !Nat.eqb_eq; reflexivity).
  assert (K0 : K (9 * r + k) = true) by (apply KT; auto). assert (K1 : K (9 * r + k') = true) by (apply KT; auto). assert (K2 : K (9 * r' + k) = true) by (apply KT; auto). assert (K3 : K (9 * r' + k') = true) by (apply KT; auto).
  exists (swap_at K d b s). split; [ | split].
  - apply swap_solved; [exact So | exact Ndb | rewrite <- V3; apply Dg, B3 | rewrite <- V1; apply Dg, B1 | | ].
    + intros x Hx Kx. apply KT in Kx. destruct Kx as [[[-> | ->] | ->] | ->]; auto.
    + intros x y Hx Hy Kx Ky Pxy.
      (* the corners next to [x] in its row and column *)
      assert (Nx : exists u v, u < 9 /\ v < 9 /\ x = 9 * u + v /\ exists u' v', u' < 9 /\ v' < 9 /\ (u / 3 = u' / 3 <-> v / 3 <> v' / 3) /\ K (9 * u + v') = true /\ K (9 * u' + v) = true /\
        at_ s (9 * u + v') <> at_ s x /\ at_ s (9 * u' + v) <> at_ s x).
      { assert (R3b : r / 3 = r' / 3 <-> k' / 3 <> k / 3) by (split; intros X; [intros Y; apply R3 in X; congruence | apply R3; congruence]).
        assert (R3c : r' / 3 = r / 3 <-> k / 3 <> k' / 3) by (split; intros X; [apply R3; congruence | symmetry; apply R3; exact X]).
        assert (R3d : r' / 3 = r / 3 <-> k' / 3 <> k / 3) by (split; intros X; [apply R3b; congruence | symmetry; apply R3b; exact X]).
        assert (Nbd : b <> d) by congruence.
        apply KT in Kx. destruct Kx as [[[-> | ->] | ->] | ->]; [exists r, k | exists r, k' | exists r', k | exists r', k'];
          (split; [assumption | ]); (split; [assumption | ]); (split; [reflexivity | ]); [exists r', k' | exists r', k | exists r, k' | exists r, k];
          (split; [assumption | ]); (split; [assumption | ]); (split; [assumption | ]); (split; [assumption | ]); (split; [assumption | ]); rewrite V0, V1, V2 || rewrite V0, V1, V3 || rewrite V0, V2, V3 || rewrite V1, V2, V3; auto. }
      destruct Nx as [u [v [Hu [Hv [-> [u' [v' [Hu' [Hv' [Ru [L1 [L2 [D4 D5]]]]]]]]]]]]]. clear KT K0 K1 K2 K3 V0 V1 V2 V3 R3.
      assert (Y1 : 9 * u + v' <> y) by congruence. assert (Y2 : 9 * u' + v <> y) by congruence.
      assert (T1 := cell_row u v Hv). assert (T2 := cell_row u v' Hv'). assert (T3 := cell_col u v Hv). assert (T4 := cell_col u' v Hv). assert (T5 := cell_block u v Hv). assert (T6 := cell_block u v' Hv'). assert (T7 := cell_block u' v Hv).
      destruct Pxy as [_ [R | [R | R]]].
      * exists (9 * u + v'). split; [apply cell_lt; assumption | ]. split; [exact L1 | ]. split; [exact D4 | ]. split; [exact Y1 | left; congruence].
      * exists (9 * u' + v). split; [apply cell_lt; assumption | ]. split; [exact L2 | ]. split; [exact D5 | ]. split; [exact Y2 | right; left; congruence].
      * destruct (Nat.eq_dec (v / 3) (v' / 3)) as [Ev | Ev].
        -- exists (9 * u + v'). split; [apply cell_lt; assumption | ]. split; [exact L1 | ]. split; [exact D4 | ]. split; [exact Y1 | right; right; congruence].
        -- apply Ru in Ev. exists (9 * u' + v). split; [apply cell_lt; assumption | ]. split; [exact L2 | ]. split; [exact D5 | ]. split; [exact Y2 | right; right; congruence].
  - rewrite (swap_get K d b s _ B0), K0, V0, Nat.eqb_refl. reflexivity.
  - intros x Hx X0 X1 X2 X3. rewrite (swap_get K d b s _ Hx). destruct (K x) eqn:Kx; [ | reflexivity]. exfalso. apply KT in Kx. destruct Kx as [[[E | E] | E] | E]; contradiction.
Qed.

(** The corner [c] and the other row and column *)
Lemma corner_other r1 r2 c1 c2 c : rectangle r1 r2 c1 c2 -> corner r1 r2 c1 c2 c -> exists r k r' k', c = 9 * r + k /\ r < 9 /\ k < 9 /\ r' < 9 /\ k' < 9 /\ r <> r' /\ k <> k' /\
  (r / 3 = r' / 3 <-> k / 3 <> k' / 3) /\ forall x, corner r1 r2 c1 c2 x <-> x = 9 * r + k \/ x = 9 * r + k' \/ x = 9 * r' + k \/ x = 9 * r' + k'.
Proof.
  intros [Hr [Hk Rc]] [r [k [Er [Ek ->]]]].
  assert (Co : forall x, corner r1 r2 c1 c2 x <-> x = 9 * r1 + c1 \/ x = 9 * r1 + c2 \/ x = 9 * r2 + c1 \/ x = 9 * r2 + c2).
  { intros x. split; [intros [u [v [[-> | ->] [[-> | ->] ->]]]]; auto | ]. intros [-> | [-> | [-> | ->]]]; [exists r1, c1 | exists r1, c2 | exists r2, c1 | exists r2, c2]; auto. }
  assert (R2 : r1 / 3 = r2 / 3 <-> c2 / 3 <> c1 / 3) by (split; intros X; [intros Y; apply Rc in X; congruence | apply Rc; congruence]).
  assert (Rb : r2 / 3 = r1 / 3 <-> c1 / 3 <> c2 / 3) by (split; intros X; [apply Rc; congruence | symmetry; apply Rc; exact X]).
  assert (Rd : r2 / 3 = r1 / 3 <-> c2 / 3 <> c1 / 3) by (split; intros X; [apply R2; congruence | symmetry; apply R2; exact X]).
  assert (G1 : r1 < 9 /\ r2 < 9 /\ r1 <> r2 /\ r2 <> r1 /\ c1 < 9 /\ c2 < 9 /\ c1 <> c2 /\ c2 <> c1) by (clear - Hr Hk; lia). destruct G1 as [G1 [G2 [G3 [G4 [G5 [G6 [G7 G8]]]]]]].
  destruct Er as [-> | ->], Ek as [-> | ->]; [exists r1, c1, r2, c2 | exists r1, c2, r2, c1 | exists r2, c1, r1, c2 | exists r2, c2, r1, c1];
    (split; [reflexivity | ]); do 6 (split; [assumption | ]); (split; [assumption | ]); intros x; rewrite Co; clear; tauto.
Qed.

Lemma rectangle_sound filled clues cand r1 r2 c1 c2 c d s : uniquely_solvable clues -> extends clues filled -> solution_of filled s -> avoidable filled clues cand r1 r2 c1 c2 c d -> at_ s c <> d.
Proof.
  intros [s0 [S0 U]] Ext [So Ef] [Rt [Cc [Z [b [Ndb [F [[xd [Id [Nd Ed]]] _]]]]]]] Q.
  destruct (corner_other r1 r2 c1 c2 c Rt Cc) as [r [k [r' [k' [-> [Hr [Hk [Hr' [Hk' [Nr [Nk [R3 Co]]]]]]]]]]]]. clear Rt Cc.
  assert (B0 := cell_lt r k Hr Hk). assert (B1 := cell_lt r k' Hr Hk'). assert (B2 := cell_lt r' k Hr' Hk). assert (B3 := cell_lt r' k' Hr' Hk').
  assert (M1 : 9 * r + k' <> 9 * r + k) by (apply cell_neq; auto). assert (M2 : 9 * r' + k <> 9 * r + k) by (apply cell_neq; auto). assert (M3 : 9 * r' + k' <> 9 * r + k) by (apply cell_neq; auto).
  destruct (F (9 * r + k')) as [C1 [N1 D1]]; [apply Co; auto | exact M1 | ]. destruct (F (9 * r' + k)) as [C2 [N2 D2]]; [apply Co; auto | exact M2 | ]. destruct (F (9 * r' + k')) as [C3 [N3 D3]]; [apply Co; auto | exact M3 | ].
  assert (S1 := Ef _ B1 N1). assert (S2 := Ef _ B2 N2). assert (S3 := Ef _ B3 N3). assert (P := proj2 (proj2 So)).
  assert (P1 : at_ s (9 * r + k) <> at_ s (9 * r + k')) by (apply P; [exact B0 | exact B1 | split; [congruence | left; rewrite !cell_row by assumption; reflexivity]]).
  assert (P2 : at_ s (9 * r + k) <> at_ s (9 * r' + k)) by (apply P; [exact B0 | exact B2 | split; [congruence | right; left; rewrite !cell_col by assumption; reflexivity]]).
  (* the solution has [d b] / [b d] in the rectangle *)
  assert (V1 : at_ s (9 * r + k') = b) by (destruct D1; congruence). assert (V2 : at_ s (9 * r' + k) = b) by (destruct D2; congruence).
  assert (V3 : at_ s (9 * r' + k') = d) by (apply Co in Id; destruct Id as [E | [E | [E | E]]]; subst xd; congruence).
  destruct (swap_rect s r k r' k' d b So Hr Hk Hr' Hk' Nr Nk R3 Ndb Q V1 V2 V3) as [s' [So' [E' Same]]].
  assert (C0 : at_ clues (9 * r + k) = 0). { destruct (Nat.eq_dec (at_ clues (9 * r + k)) 0) as [E | E]; [exact E | ]. rewrite <- (Ext _ B0 E). exact Z. }
  assert (Ss : solution_of clues s). { split; [exact So | ]. intros x Hx Nx. rewrite <- (Ext x Hx Nx). apply Ef; [exact Hx | rewrite (Ext x Hx Nx); exact Nx]. }
  assert (S' : solution_of clues s'). { split; [exact So' | ]. intros x Hx Nx. rewrite Same; [apply Ss; assumption | exact Hx | intros -> .. ]; contradiction. }
  assert (E : s' = s) by (rewrite (U _ S'), (U _ Ss); reflexivity). congruence.
Qed.

Lemma rectangles_sound filled clues poss stop s : wf_grid filled -> length clues = 81 -> digit_sets poss -> uniquely_solvable clues -> extends clues filled -> solution_of filled s ->
  exists l, find_rectangles filled clues poss stop (fun ls x acc => Ok (acc ++ [(ls, x)])) [] = Ok (l, true) /\ forall ls c d, In (ls, (c, d)) l -> c < 81 /\ at_ s c <> d.
Proof.
  intros Wf Wc Wp U Ext So. destruct (rectangles_exact filled clues poss Wf Wc Wp) as [l [_ [I E]]]. exists l. split.
  - rewrite E. assert (R : forall l acc, run (fun ls x acc => Ok (acc ++ [(ls, x)])) l acc = Ok (acc ++ l)).
    { induction l0 as [ | [m x] t IH]; intros acc; cbn [run fst snd bind]; [rewrite app_nil_r; reflexivity | ]. rewrite IH, <- app_assoc. reflexivity. }
    rewrite R. reflexivity.
  - intros ls c d H. apply I in H. destruct H as [r1 [r2 [c1 [c2 [A _]]]]]. split; [ | apply (rectangle_sound filled clues (marks poss) r1 r2 c1 c2 c d s); assumption].
    destruct A as [[Hr [Hk _]] [[r [k [Er [Ek ->]]]] _]]. destruct Er, Ek; lia.
Qed.

(** If the candidates are up to date, no rectangle is missed. *)
Lemma rectangles_complete filled clues poss stop r k r' k' d b : wf_grid filled -> length clues = 81 -> digit_sets poss ->
  (forall c x, c < 81 -> x < 81 -> peers c x -> at_ filled x <> 0 -> ~ marks poss c (at_ filled x)) ->
  r < 9 -> k < 9 -> r' < 9 -> k' < 9 -> r <> r' -> k <> k' -> (r / 3 = r' / 3 <-> k / 3 <> k' / 3) ->
  at_ filled (9 * r + k) = 0 -> at_ filled (9 * r' + k') = d -> at_ filled (9 * r + k') = b -> at_ filled (9 * r' + k) = b -> d <> 0 -> b <> 0 -> d <> b ->
  at_ clues (9 * r' + k') = 0 -> at_ clues (9 * r + k') = 0 -> at_ clues (9 * r' + k) = 0 -> marks poss (9 * r + k) d ->
  exists l ls, find_rectangles filled clues poss stop (fun ls x acc => Ok (acc ++ [(ls, x)])) [] = Ok (l, true) /\ In (ls, (9 * r + k, d)) l.
Proof.
  intros Wf Wc Wp Up Hr Hk Hr' Hk' Nr Nk R3 Z D B1 B2 Nd Nb Ndb C1 C2 C3 M. destruct (rectangles_exact filled clues poss Wf Wc Wp) as [l [_ [I E]]].
  destruct (lines_ok filled (proj1 Wf) (min r r') (max r r') (min k k') (max k k')) as [ls [_ [_ Ml]]]; [lia .. | ]. exists l, ls. split.
  - rewrite E. assert (R : forall l acc, run (fun ls x acc => Ok (acc ++ [(ls, x)])) l acc = Ok (acc ++ l)).
    { induction l0 as [ | [m x] t IH]; intros acc; cbn [run fst snd bind]; [rewrite app_nil_r; reflexivity | ]. rewrite IH, <- app_assoc. reflexivity. }
    rewrite R. reflexivity.
  - apply I. exists (min r r'), (max r r'), (min k k'), (max k k'). split; [ | exact Ml].
    assert (Cn : forall u v, (u = r \/ u = r') -> (v = k \/ v = k') -> corner (min r r') (max r r') (min k k') (max k k') (9 * u + v)).
    { intros u v Hu Hv. exists u, v. split; [lia | ]. split; [lia | reflexivity]. }
    assert (R9 : rectangle (min r r') (max r r') (min k k') (max k k')).
    { unfold rectangle. destruct (Nat.min_spec r r') as [[? ->] | [? ->]], (Nat.max_spec r r') as [[? ->] | [? ->]], (Nat.min_spec k k') as [[? ->] | [? ->]], (Nat.max_spec k k') as [[? ->] | [? ->]]; lia. }
    split; [exact R9 | ]. split; [apply Cn; auto | ]. split; [exact Z | ]. exists b. split; [exact Ndb | ]. split; [ | split; [ | split; [ | split]]].
    + intros x [u [v [Hu [Hv ->]]]] Nx. assert (Q : u = r /\ v = k' \/ u = r' /\ v = k \/ u = r' /\ v = k').
      { assert (U : u = r \/ u = r') by (clear - Hu; lia). assert (V : v = k \/ v = k') by (clear - Hv; lia). destruct U as [-> | ->], V as [-> | ->]; auto. destruct (Nx eq_refl). }
      destruct Q as [[-> ->] | [[-> ->] | [-> ->]]]; (split; [assumption | ]); (split; [congruence | ]); auto.
    + exists (9 * r' + k'). split; [apply Cn; auto | ]. split; [lia | exact D].
    + exists (9 * r + k'). split; [apply Cn; auto | ]. split; [lia | exact B1].
    + exact M.
    + rewrite <- B1. apply Up; [lia | lia | split; [lia | left; unfold row_of; lia] | congruence].
Qed.
