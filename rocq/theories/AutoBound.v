(** A solved grid has at most 648 automorphisms. *)
From Coq Require Import List Arith NArith ZArith ZifyNat ZifyN ZifyBool Lia Bool Permutation.
From Verif Require Import Spec CanonSpec BitLemmas GridProofs EquivProofs.
Import ListNotations.
Ltac Zify.zify_post_hook ::= Z.to_euclidean_division_equations.

(** * Counting *)

Lemma nodup_map_on {A B} (f : A -> B) : forall l, NoDup l -> (forall x y, In x l -> In y l -> f x = f y -> x = y) -> NoDup (map f l).
Proof.
  induction l as [ | x l IH]; intros N F; [constructor | ]. inversion N as [ | ? ? X N']; subst. cbn [map]. constructor.
  - intros I. apply in_map_iff in I. destruct I as [y [E I]]. apply X. rewrite (F x y); [exact I | left; reflexivity | right; exact I | symmetry; exact E].
  - apply IH; [exact N' | ]. intros a b Ia Ib. apply F; right; assumption.
Qed.

Lemma count_inj {A B} (f : A -> B) (l : list A) (k : list B) : NoDup l -> (forall x y, In x l -> In y l -> f x = f y -> x = y) ->
  (forall x, In x l -> In (f x) k) -> length l <= length k.
Proof.
  intros N F H. rewrite <- (map_length f l). apply NoDup_incl_length; [apply nodup_map_on; assumption | ].
  intros y I. apply in_map_iff in I. destruct I as [x [<- I]]. apply H. exact I.
Qed.

Lemma filter_split {A} (f : A -> bool) l : length l = length (filter f l) + length (filter (fun x => negb (f x)) l).
Proof. induction l as [ | x l IH]; [reflexivity | ]. cbn [filter]. destruct (f x); cbn [negb length]; lia. Qed.

Lemma filter_filter {A} (f h : A -> bool) l : (forall x, In x l -> f x = true -> h x = true) -> filter f (filter h l) = filter f l.
Proof.
  induction l as [ | x l IH]; intros H; [reflexivity | ]. cbn [filter]. assert (Hx := H x (or_introl eq_refl)).
  assert (T : filter f (filter h l) = filter f l) by (apply IH; intros y I; apply H; right; exact I).
  destruct (h x) eqn:E; cbn [filter]; rewrite T; [reflexivity | ]. destruct (f x); [specialize (Hx eq_refl); discriminate | reflexivity].
Qed.

(** Classes of bounded size *)
Lemma count_classes {A B} (eqb : B -> B -> bool) (Hq : forall a b, eqb a b = true <-> a = b) (f : A -> B) n : forall C l,
  (forall x, In x l -> In (f x) C) -> (forall c, In c C -> length (filter (fun x => eqb (f x) c) l) <= n) -> length l <= length C * n.
Proof.
  induction C as [ | c C IH]; intros l H F.
  - destruct l as [ | x l]; [cbn; lia | destruct (H x (or_introl eq_refl))].
  - rewrite (filter_split (fun x => eqb (f x) c) l). assert (F0 := F c (or_introl eq_refl)). cbn [length].
    assert (X : length (filter (fun x => negb (eqb (f x) c)) l) <= length C * n); [ | lia].
    apply IH.
    + intros x I. apply filter_In in I. destruct I as [I E]. destruct (H x I) as [E' | I']; [ | exact I'].
      exfalso. rewrite (proj2 (Hq (f x) c) (eq_sym E')) in E. discriminate.
    + intros c' I. destruct (eqb c' c) eqn:Q.
      * apply Hq in Q. subst c'.
        replace (filter _ _) with (@nil A); [cbn; lia | ]. symmetry. clear. induction l as [ | x l IH]; [reflexivity | ].
        cbn [filter]. destruct (eqb (f x) c) eqn:E; cbn [negb]; [exact IH | ]. cbn [filter]. rewrite E. exact IH.
      * rewrite filter_filter; [apply F; right; exact I | ]. intros x _ E. apply Hq in E. rewrite E, Q. reflexivity.
Qed.

(** * Three lines *)

Lemma in_perms3 a b c : a < 3 -> b < 3 -> c < 3 -> a <> b -> a <> c -> b <> c -> In [a; b; c] perms3.
Proof.
  intros A B C. destruct a as [ | [ | [ | a]]]; [ | | | lia]; (destruct b as [ | [ | [ | b]]]; [ | | | lia]);
    (destruct c as [ | [ | [ | c]]]; [ | | | lia]); intros; try lia; cbn; tauto.
Qed.

Definition evenb (l : list nat) : bool := nth 1 l 0 =? (nth 0 l 0 + 1) mod 3.

(** Two permutations of the same parity differ by a rotation. *)
Lemma same_parity c c' u : In c perms3 -> In c' perms3 -> In u perms3 -> evenb c = evenb c' -> c <> c' ->
  (forall k, k < 3 -> nth (nth k u 0) c 0 = nth k c' 0) -> u = [1; 2; 0] \/ u = [2; 0; 1].
Proof.
  intros Ic Ic' Iu E N H.
  assert (X : forallb (fun c => forallb (fun c' => forallb (fun u =>
     negb (Bool.eqb (evenb c) (evenb c')) || listb_eq c c' ||
     negb (forallb (fun k => nth (nth k u 0) c 0 =? nth k c' 0) [0;1;2]) || listb_eq u [1; 2; 0] || listb_eq u [2; 0; 1]) perms3) perms3) perms3 = true)
    by (vm_compute; reflexivity).
  rewrite forallb_forall in X. specialize (X c Ic). rewrite forallb_forall in X. specialize (X c' Ic'). rewrite forallb_forall in X.
  specialize (X u Iu).
  assert (K : forallb (fun k => nth (nth k u 0) c 0 =? nth k c' 0) [0;1;2] = true).
  { apply forallb_forall. intros k I. apply Nat.eqb_eq. apply H. cbn in I. lia. }
  rewrite K, E, eqb_reflx in X. cbn [negb orb] in X. rewrite !orb_true_iff in X. rewrite !listb_eq_iff in X.
  destruct X as [[[X | X] | X] | X]; first [contradiction | discriminate | left; exact X | right; exact X].
Qed.

(** An isotopy of a Latin square of order 3 permutes rows and columns with the same parity. *)
Lemma latin3 (q : nat -> nat -> nat) p b : In p perms3 -> In b perms3 ->
  (forall r j, r < 3 -> j < 3 -> q r j < 3) ->
  (forall r j j', r < 3 -> j < 3 -> j' < 3 -> q r j = q r j' -> j = j') ->
  (forall r r' j, r < 3 -> r' < 3 -> j < 3 -> q r j = q r' j -> r = r') ->
  (forall r j r' j', r < 3 -> j < 3 -> r' < 3 -> j' < 3 ->
     q (nth r p 0) (nth j b 0) = q (nth r' p 0) (nth j' b 0) -> q r j = q r' j') -> evenb p = evenb b.
Proof.
  intros Ip Ib Q R C H.
  pose (rows := map (fun r => map (q r) [0;1;2]) [0;1;2]).
  pose (at2 := fun (m : list (list nat)) r j => nth j (nth r m []) 0).
  assert (Q0 : forall r j, r < 3 -> j < 3 -> at2 rows r j = q r j).
  { intros r j Hr Hj. destruct r as [ | [ | [ | r]]]; [ | | | lia]; (destruct j as [ | [ | [ | j]]]; [ | | | lia]); reflexivity. }
  pose (iso := fun m => forallb (fun r => forallb (fun j => forallb (fun r' => forallb (fun j' =>
      negb (at2 m (nth r p 0) (nth j b 0) =? at2 m (nth r' p 0) (nth j' b 0)) || (at2 m r j =? at2 m r' j')) [0;1;2]) [0;1;2]) [0;1;2]) [0;1;2]).
  pose (lat := fun m => forallb (fun r => forallb (fun r' => forallb (fun j => negb (at2 m r j =? at2 m r' j) || (r =? r')) [0;1;2]) [0;1;2]) [0;1;2]).
  assert (IR : forall r, r < 3 -> In (map (q r) [0;1;2]) perms3).
  { intros r Hr. cbn [map]. apply in_perms3; try (apply Q; lia); intros E; apply R in E; lia. }
  assert (P3 : forall r l, In l perms3 -> r < 3 -> nth r l 0 < 3).
  { intros r l I Hr. cbn in I. repeat (destruct I as [<- | I]; [destruct r as [ | [ | [ | r]]]; cbn; lia | ]); contradiction. }
  assert (L : lat rows = true).
  { unfold lat. apply forallb_forall. intros r Ir. apply forallb_forall. intros r' Ir'. apply forallb_forall. intros j Ij.
    assert (B : r < 3 /\ r' < 3 /\ j < 3) by (cbn in Ir, Ir', Ij; lia). rewrite !Q0 by lia.
    destruct (q r j =? q r' j) eqn:E; [ | reflexivity]. apply Nat.eqb_eq in E. apply C in E; lia. }
  assert (S : iso rows = true).
  { unfold iso. apply forallb_forall. intros r Ir. apply forallb_forall. intros j Ij. apply forallb_forall. intros r' Ir'. apply forallb_forall. intros j' Ij'.
    assert (B : r < 3 /\ r' < 3 /\ j < 3 /\ j' < 3) by (cbn in Ir, Ir', Ij, Ij'; lia).
    rewrite !Q0 by (try lia; apply P3; (assumption || lia)).
    destruct (q (nth r p 0) (nth j b 0) =? q (nth r' p 0) (nth j' b 0)) eqn:E; [ | reflexivity]. apply Nat.eqb_eq in E.
    cbn [negb orb]. apply Nat.eqb_eq. apply H; lia. }
  assert (A : forallb (fun r0 => forallb (fun r1 => forallb (fun r2 => forallb (fun p => forallb (fun b => let m := [r0; r1; r2] in
     negb (forallb (fun r => forallb (fun r' => forallb (fun j => negb (at2 m r j =? at2 m r' j) || (r =? r')) [0;1;2]) [0;1;2]) [0;1;2]) ||
     negb (forallb (fun r => forallb (fun j => forallb (fun r' => forallb (fun j' =>
      negb (at2 m (nth r p 0) (nth j b 0) =? at2 m (nth r' p 0) (nth j' b 0)) || (at2 m r j =? at2 m r' j')) [0;1;2]) [0;1;2]) [0;1;2]) [0;1;2])
     || Bool.eqb (evenb p) (evenb b)) perms3) perms3) perms3) perms3) perms3 = true) by (vm_compute; reflexivity).
  rewrite forallb_forall in A. specialize (A _ (IR 0 ltac:(lia))). rewrite forallb_forall in A. specialize (A _ (IR 1 ltac:(lia))).
  rewrite forallb_forall in A. specialize (A _ (IR 2 ltac:(lia))). rewrite forallb_forall in A. specialize (A p Ip).
  rewrite forallb_forall in A. specialize (A b Ib). cbv zeta in A. fold rows in A.
  change (negb (lat rows) || negb (iso rows) || Bool.eqb (evenb p) (evenb b) = true) in A.
  rewrite L, S in A. cbn [negb orb] in A. apply eqb_prop. exact A.
Qed.

(** * Automorphisms *)

Section Grid.
Variable g : grid.
Hypothesis Hs : solved g.

Definition G (r k : nat) : nat := at_ g (9 * r + k).

Lemma G_range r k : r < 9 -> k < 9 -> 1 <= G r k <= 9.
Proof. intros. apply Hs. lia. Qed.

Lemma G_row r k k' : r < 9 -> k < 9 -> k' < 9 -> G r k = G r k' -> k = k'.
Proof.
  intros Hr Hk Hk' E. assert (X : 9 * r + k = 9 * r + k'); [ | lia]. apply (solved_same g _ _ Hs); try lia; [exact E | ].
  left. unfold row_of. lia.
Qed.

Lemma G_col r r' k : r < 9 -> r' < 9 -> k < 9 -> G r k = G r' k -> r = r'.
Proof.
  intros Hr Hr' Hk E. assert (X : 9 * r + k = 9 * r' + k); [ | lia]. apply (solved_same g _ _ Hs); try lia; [exact E | ].
  right. left. unfold col_of. lia.
Qed.

Lemma G_block r r' k k' : r < 9 -> r' < 9 -> k < 9 -> k' < 9 -> r / 3 = r' / 3 -> k / 3 = k' / 3 -> G r k = G r' k' -> r = r' /\ k = k'.
Proof.
  intros Hr Hr' Hk Hk' Er Ek E. assert (X : 9 * r + k = 9 * r' + k'); [ | lia]. apply (solved_same g _ _ Hs); try lia; [exact E | ].
  right. right. unfold block_of, row_of, col_of. lia.
Qed.

Lemma G_corner d : 1 <= d <= 9 -> exists r k, r < 3 /\ k < 3 /\ G r k = d.
Proof.
  intros Hd. destruct (block_has_digit g 0 d Hs ltac:(lia) Hd) as [c [Hc [B E]]]. exists (c / 9), (c mod 9). unfold block_of, row_of, col_of in B.
  split; [lia | ]. split; [lia | ]. unfold G. rewrite <- E. f_equal. lia.
Qed.

Definition aut (s : sym) : Prop := sym_ok s /\ act s g = g.

Lemma aut_at s c : aut s -> c < 81 -> at_ g c = rename (s_digits s) (at_ g (source s c)).
Proof. intros [_ A] Hc. rewrite <- A at 1. apply at_act. exact Hc. Qed.

Lemma g_wf : wf_grid g.
Proof.
  destruct Hs as [L [P _]]. split; [exact L | ]. apply Forall_forall. intros d I. apply In_nth with (d := 0) in I.
  destruct I as [c [C <-]]. rewrite L in C. exact (proj2 (P c C)).
Qed.

Lemma g_le c : at_ g c <= 9.
Proof. apply wf_le. exact g_wf. Qed.

(** Three rows and three columns of one block determine an automorphism. *)
Lemma key_inj s s' : aut s -> aut s' -> s_tr s = s_tr s' ->
  (forall i, i < 3 -> nth i (s_rows s) 0 = nth i (s_rows s') 0) -> (forall i, i < 3 -> nth i (s_cols s) 0 = nth i (s_cols s') 0) -> s = s'.
Proof.
  intros A A' T R K. pose proof A as [[Or [Oc Od]] _]. pose proof A' as [[Or' [Oc' Od']] _].
  assert (SS : forall c, c < 81 -> c / 9 < 3 -> c mod 9 < 3 -> source s c = source s' c).
  { intros c Hc H1 H2. unfold source. rewrite <- T, (R _ H1), (K _ H2). reflexivity. }
  assert (DD : forall d, 1 <= d <= 9 -> rename (s_digits s) d = rename (s_digits s') d).
  { intros d Hd. destruct (G_corner (rename (s_digits s) d) (rename_range _ _ Od Hd)) as [r [k [Hr [Hk E]]]].
    assert (Hc : 9 * r + k < 81) by lia. unfold G in E. assert (E1 := aut_at s _ A Hc). assert (E2 := aut_at s' _ A' Hc).
    rewrite E in E1. apply rename_inj in E1; [ | exact Od | lia | apply g_le]. rewrite <- SS in E2 by lia. rewrite <- E1 in E2. congruence. }
  assert (SG : forall c, c < 81 -> at_ g (source s c) = at_ g (source s' c)).
  { intros c Hc. assert (S1 := source_lt s c (proj1 A)). assert (S2 := source_lt s' c (proj1 A')).
    assert (R1 : 1 <= at_ g (source s c) <= 9) by (apply Hs; exact S1).
    apply (rename_inj (s_digits s')); [exact Od' | lia | apply g_le | ]. rewrite <- DD by exact R1. rewrite <- (aut_at s c A Hc). apply aut_at; assumption. }
  assert (CC : s_cols s = s_cols s').
  { apply list9_ext; try (apply line_length; assumption). intros k Hk. assert (Hc : k < 81) by lia.
    assert (E := SG k Hc). assert (X : source s k = source s' k).
    { apply (solved_same g _ _ Hs); try (apply source_lt; [apply A || apply A']); [exact E | ].
      unfold source. rewrite <- T. replace (k / 9) with 0 by lia. rewrite <- (R 0 ltac:(lia)).
      assert (B := line_lt (s_rows s) 0 Or). assert (B1 := line_lt (s_cols s) (k mod 9) Oc). assert (B2 := line_lt (s_cols s') (k mod 9) Oc').
      destruct (s_tr s); [right; left; unfold col_of | left; unfold row_of]; lia. }
    unfold source in X. rewrite <- T in X. replace (k / 9) with 0 in X by lia. replace (k mod 9) with k in X by lia.
    rewrite <- (R 0 ltac:(lia)) in X. destruct (s_tr s); lia. }
  assert (RR : s_rows s = s_rows s').
  { apply list9_ext; try (apply line_length; assumption). intros r Hr. assert (Hc : 9 * r < 81) by lia.
    assert (E := SG (9 * r) Hc). assert (X : source s (9 * r) = source s' (9 * r)).
    { apply (solved_same g _ _ Hs); try (apply source_lt; [apply A || apply A']); [exact E | ].
      unfold source. rewrite <- T. replace ((9 * r) mod 9) with 0 by lia. rewrite <- (K 0 ltac:(lia)).
      assert (B := line_lt (s_cols s) 0 Oc). assert (B1 := line_lt (s_rows s) (9 * r / 9) Or). assert (B2 := line_lt (s_rows s') (9 * r / 9) Or').
      destruct (s_tr s); [left; unfold row_of | right; left; unfold col_of]; lia. }
    unfold source in X. rewrite <- T in X. replace ((9 * r) mod 9) with 0 in X by lia. replace (9 * r / 9) with r in X by lia.
    rewrite <- (K 0 ltac:(lia)) in X. destruct (s_tr s); lia. }
  assert (ED : s_digits s = s_digits s').
  { apply list9_ext; try (apply digits_facts; assumption). intros i Hi. specialize (DD (S i) ltac:(lia)). unfold rename in DD.
    cbn [Nat.eqb] in DD. replace (S i - 1) with i in DD by lia. exact DD. }
  destruct s as [t rs cs ds], s' as [t' rs' cs' ds']. cbn [s_tr s_rows s_cols s_digits] in *. congruence.
Qed.

(** * Quotients *)

Definition quot (a h : sym) : sym := scomp a (sinv h).

Lemma quot_aut a h : aut a -> aut h -> aut (quot a h).
Proof.
  intros [Oa Aa] [Oh Ah]. assert (Oi := sinv_ok h Oh). split; [apply scomp_ok; assumption | ].
  unfold quot. rewrite act_scomp by (assumption || apply g_wf). assert (X : act (sinv h) g = g); [ | rewrite X; exact Aa].
  rewrite <- Ah at 1. apply act_inv; [exact Oh | apply g_wf].
Qed.

Lemma quot_parts a h : s_tr a = s_tr h -> s_tr (quot a h) = false /\
  s_rows (quot a h) = comp_l (inv_l (s_rows h)) (s_rows a) /\ s_cols (quot a h) = comp_l (inv_l (s_cols h)) (s_cols a).
Proof. intros E. unfold quot, scomp, sinv. rewrite E. destruct (s_tr h); cbn; auto. Qed.

Lemma quot_row a h i : aut a -> aut h -> s_tr a = s_tr h -> i < 9 ->
  nth i (s_rows (quot a h)) 0 = nth (nth i (s_rows a) 0) (inv_l (s_rows h)) 0.
Proof. intros [[O _] _] _ E Hi. rewrite (proj1 (proj2 (quot_parts a h E))), nth_comp; [reflexivity | ]. rewrite (line_length _ O). exact Hi. Qed.

Lemma quot_col a h i : aut a -> aut h -> s_tr a = s_tr h -> i < 9 ->
  nth i (s_cols (quot a h)) 0 = nth (nth i (s_cols a) 0) (inv_l (s_cols h)) 0.
Proof. intros [[_ [O _]] _] _ E Hi. rewrite (proj2 (proj2 (quot_parts a h E))), nth_comp; [reflexivity | ]. rewrite (line_length _ O). exact Hi. Qed.

Lemma quot_inj a a' h : aut a -> aut a' -> aut h -> s_tr a = s_tr h -> s_tr a' = s_tr h -> quot a h = quot a' h -> a = a'.
Proof.
  intros A A' H E E' Q. pose proof H as [[Or [Oc _]] _]. pose proof A as [[Ar [Ac _]] _]. pose proof A' as [[Ar' [Ac' _]] _].
  apply key_inj; try assumption; [congruence | | ]; intros i Hi.
  - apply (line_inj (inv_l (s_rows h))); [apply inv_line; exact Or | apply line_lt; assumption | apply line_lt; assumption | ].
    rewrite <- !quot_row by (assumption || lia). rewrite Q. reflexivity.
  - apply (line_inj (inv_l (s_cols h))); [apply inv_line; exact Oc | apply line_lt; assumption | apply line_lt; assumption | ].
    rewrite <- !quot_col by (assumption || lia). rewrite Q. reflexivity.
Qed.

(** * Automorphisms that keep the first band *)

Definition keeps (s : sym) : bool := negb (s_tr s) && (nth 0 (s_rows s) 0 / 3 =? 0).

Definition kr (s : sym) : list nat := map (fun i => nth i (s_rows s) 0) [0; 1; 2].
Definition kb (s : sym) : list nat := map (fun j => nth (3 * j) (s_cols s) 0 / 3) [0; 1; 2].
Definition kc (s : sym) : list nat := map (fun i => nth i (s_cols s) 0 mod 3) [0; 1; 2].

Lemma keeps_rows s i : aut s -> keeps s = true -> i < 3 -> nth i (s_rows s) 0 < 3.
Proof.
  intros [[O _] _] K Hi. unfold keeps in K. assert (X := line_chute (s_rows s) i 0 O ltac:(lia) ltac:(lia)). lia.
Qed.

Lemma kr_perm s : aut s -> keeps s = true -> In (kr s) perms3.
Proof.
  intros A K. pose proof A as [[O _] _]. cbn [kr map]. unfold kr. cbn [map].
  apply in_perms3; try (apply keeps_rows; (assumption || lia)); intros E; apply (line_inj _ _ _ O) in E; lia.
Qed.

Lemma kb_perm s : aut s -> In (kb s) perms3.
Proof.
  intros [[_ [O _]] _]. unfold kb. cbn [map].
  assert (B0 := line_lt (s_cols s) (3 * 0) O). assert (B1 := line_lt (s_cols s) (3 * 1) O). assert (B2 := line_lt (s_cols s) (3 * 2) O).
  assert (C1 := line_chute (s_cols s) (3 * 0) (3 * 1) O ltac:(lia) ltac:(lia)).
  assert (C2 := line_chute (s_cols s) (3 * 0) (3 * 2) O ltac:(lia) ltac:(lia)).
  assert (C3 := line_chute (s_cols s) (3 * 1) (3 * 2) O ltac:(lia) ltac:(lia)).
  apply in_perms3; lia.
Qed.

Lemma kc_perm s : aut s -> In (kc s) perms3.
Proof.
  intros [[_ [O _]] _]. unfold kc. cbn [map].
  assert (C1 := line_chute (s_cols s) 0 1 O ltac:(lia) ltac:(lia)). assert (C2 := line_chute (s_cols s) 0 2 O ltac:(lia) ltac:(lia)).
  assert (I1 := line_inj (s_cols s) 0 1 O ltac:(lia) ltac:(lia)). assert (I2 := line_inj (s_cols s) 0 2 O ltac:(lia) ltac:(lia)).
  assert (I3 := line_inj (s_cols s) 1 2 O ltac:(lia) ltac:(lia)).
  apply in_perms3; try lia.
Qed.

Lemma kr_nth s i : i < 3 -> nth i (kr s) 0 = nth i (s_rows s) 0.
Proof. intros H. destruct i as [ | [ | [ | i]]]; [ | | | lia]; reflexivity. Qed.
Lemma kb_nth s j : j < 3 -> nth j (kb s) 0 = nth (3 * j) (s_cols s) 0 / 3.
Proof. intros H. destruct j as [ | [ | [ | i]]]; [ | | | lia]; reflexivity. Qed.
Lemma kc_nth s i : i < 3 -> nth i (kc s) 0 = nth i (s_cols s) 0 mod 3.
Proof. intros H. destruct i as [ | [ | [ | i]]]; [ | | | lia]; reflexivity. Qed.

Lemma col_split s k : aut s -> k < 9 -> nth k (s_cols s) 0 / 3 = nth (k / 3) (kb s) 0.
Proof.
  intros [[_ [O _]] _] Hk. rewrite kb_nth by lia. apply line_chute; [exact O | exact Hk | lia | lia].
Qed.

Lemma key3 s s' : aut s -> aut s' -> keeps s = true -> keeps s' = true -> kr s = kr s' -> kb s = kb s' -> kc s = kc s' -> s = s'.
Proof.
  intros A A' K K' Er Eb Ec. apply key_inj; try assumption.
  - unfold keeps in K, K'. destruct (s_tr s), (s_tr s'); cbn in K, K'; congruence.
  - intros i Hi. rewrite <- !kr_nth by exact Hi. rewrite Er. reflexivity.
  - intros i Hi. assert (X := col_split s i A ltac:(lia)). assert (Y := col_split s' i A' ltac:(lia)). rewrite Eb in X.
    assert (Z := kc_nth s i Hi). assert (W := kc_nth s' i Hi). rewrite Ec in Z. lia.
Qed.

(** ** A rotation inside the stacks makes the first band regular *)

Definition turns (u : sym) : bool :=
  listb_eq (kr u) [0; 1; 2] && listb_eq (kb u) [0; 1; 2] && (listb_eq (kc u) [1; 2; 0] || listb_eq (kc u) [2; 0; 1]).

(** Row and column of a digit in the first block *)
Definition corner_cells : list nat := [0; 1; 2; 9; 10; 11; 18; 19; 20].
Definition brow (d : nat) : nat := index d (map (at_ g) corner_cells) / 3.
Definition bcol (d : nat) : nat := index d (map (at_ g) corner_cells) mod 3.

Lemma corner_nth i : i < 9 -> nth i (map (at_ g) corner_cells) 0 = G (i / 3) (i mod 3).
Proof. intros H. do 9 (destruct i as [ | i]; [reflexivity | ]). lia. Qed.

Lemma brow_spec d : 1 <= d <= 9 -> brow d < 3 /\ bcol d < 3 /\ G (brow d) (bcol d) = d.
Proof.
  intros Hd. destruct (G_corner d Hd) as [r [k [Hr [Hk E]]]].
  assert (I : In d (map (at_ g) corner_cells)).
  { rewrite <- E. replace (G r k) with (nth (3 * r + k) (map (at_ g) corner_cells) 0).
    - apply nth_In. rewrite map_length. cbn [corner_cells length]. lia.
    - rewrite corner_nth by lia. f_equal; lia. }
  destruct (index_in _ _ I) as [L N]. rewrite map_length in L. cbn [corner_cells length] in L. rewrite corner_nth in N by exact L.
  unfold brow, bcol. split; [lia | ]. split; [lia | exact N].
Qed.

Lemma brow_G r k : r < 3 -> k < 3 -> brow (G r k) = r /\ bcol (G r k) = k.
Proof.
  intros Hr Hk. destruct (brow_spec (G r k) (G_range r k ltac:(lia) ltac:(lia))) as [A [B C]].
  apply G_block in C; lia.
Qed.

Section Turning.
Variable u : sym.
Hypothesis Au : aut u.
Hypothesis Ku : keeps u = true.
Hypothesis Tu : turns u = true.

Definition U (k : nat) : nat := nth k (s_cols u) 0.

Lemma u_row r : r < 3 -> nth r (s_rows u) 0 = r.
Proof.
  intros Hr. unfold turns in Tu. rewrite !andb_true_iff, !listb_eq_iff in Tu. destruct Tu as [[E _] _].
  rewrite <- kr_nth by exact Hr. rewrite E. destruct r as [ | [ | [ | r]]]; [ | | | lia]; reflexivity.
Qed.

Lemma u_stack k : k < 9 -> U k / 3 = k / 3.
Proof.
  intros Hk. unfold turns in Tu. rewrite !andb_true_iff, !listb_eq_iff in Tu. destruct Tu as [[_ E] _].
  unfold U. rewrite (col_split u k Au Hk), E. assert (H : k / 3 < 3) by lia. destruct (k / 3) as [ | [ | [ | j]]]; [ | | | lia]; reflexivity.
Qed.

Lemma u_lt k : U k < 9.
Proof. apply line_lt. apply Au. Qed.

Lemma u_moves0 k : k < 3 -> U k <> k.
Proof.
  intros Hk E. assert (X := kc_nth u k Hk). fold (U k) in X. rewrite E in X.
  unfold turns in Tu. rewrite !andb_true_iff, orb_true_iff, !listb_eq_iff in Tu. destruct Tu as [_ [C | C]]; rewrite C in X;
    destruct k as [ | [ | [ | k]]]; cbn in X; lia.
Qed.

Lemma u_at r k : r < 3 -> k < 9 -> G r k = rename (s_digits u) (G r (U k)).
Proof.
  intros Hr Hk. assert (E := aut_at u (9 * r + k) Au ltac:(lia)). unfold G at 1. rewrite E. f_equal. unfold G. f_equal.
  unfold source. replace ((9 * r + k) / 9) with r by lia. replace ((9 * r + k) mod 9) with k by lia.
  unfold keeps in Ku. destruct (s_tr u); [discriminate | ]. rewrite u_row by exact Hr. reflexivity.
Qed.

(** The relabelling keeps rows of the first block. *)
Lemma u_brow d : 1 <= d <= 9 -> brow (rename (s_digits u) d) = brow d.
Proof.
  intros Hd. destruct (brow_spec d Hd) as [A [B C]].
  assert (X : exists k, k < 3 /\ U k = bcol d).
  { assert (P : In (kc u) perms3) by (apply kc_perm; exact Au).
    assert (N : forall k, k < 3 -> U k = nth k (kc u) 0).
    { intros k Hk. rewrite kc_nth by exact Hk. fold (U k). assert (S := u_stack k ltac:(lia)). lia. }
    assert (Q : exists k, k < 3 /\ nth k (kc u) 0 = bcol d).
    { clear N. revert P. generalize (kc u). intros l P. cbn in P. destruct (bcol d) as [ | [ | [ | b]]]; [ | | | lia];
        repeat (destruct P as [<- | P]; [first [exists 0; split; [lia | reflexivity] | exists 1; split; [lia | reflexivity] | exists 2; split; [lia | reflexivity]] | ]); contradiction. }
    destruct Q as [k [Hk Q]]. exists k. split; [exact Hk | ]. rewrite N by exact Hk. exact Q. }
  destruct X as [k [Hk X]]. rewrite <- C at 1. rewrite <- X, <- u_at by lia. apply brow_G; lia.
Qed.

Lemma u_moves k : k < 9 -> U k <> k.
Proof.
  intros Hk E. assert (X := u_at 0 k ltac:(lia) Hk). rewrite E in X.
  assert (R := G_range 0 k ltac:(lia) Hk). destruct (brow_spec (G 0 k) R) as [A [B C]].
  (* the digit is fixed, but the rotation moves its column in the first block *)
  assert (Y : exists j, j < 3 /\ U j = bcol (G 0 k)).
  { assert (I := inv_line (s_cols u) (proj1 (proj2 (proj1 Au)))). destruct I as [_ [_ I]].
    exists (nth (bcol (G 0 k)) (inv_l (s_cols u)) 0). assert (J := I (bcol (G 0 k)) ltac:(lia)). split; [ | exact J].
    assert (L : nth (bcol (G 0 k)) (inv_l (s_cols u)) 0 < 9) by (apply line_lt; apply inv_line; apply Au).
    assert (S := u_stack _ L). unfold U in S. rewrite J in S. lia. }
  destruct Y as [j [Hj Y]]. assert (Z := u_at (brow (G 0 k)) j A ltac:(lia)). rewrite Y, C, <- X in Z.
  rewrite <- C in Z at 2. apply G_row in Z; try lia. apply (u_moves0 j Hj). congruence.
Qed.

(** All cells of the first band in one stack and row have digits from one row of the first block. *)
Lemma pure r k k' : r < 3 -> k < 9 -> k' < 9 -> k / 3 = k' / 3 -> brow (G r k) = brow (G r k').
Proof.
  intros Hr Hk Hk' E.
  assert (S : forall k, k < 9 -> brow (G r k) = brow (G r (U k))).
  { intros x Hx. rewrite (u_at r x Hr Hx). apply u_brow. apply G_range; [lia | apply u_lt]. }
  assert (M := u_moves k Hk). assert (M1 := u_moves (U k) (u_lt k)). assert (T := u_stack k Hk). assert (T1 := u_stack (U k) (u_lt k)).
  assert (M2 : U (U k) <> k).
  { intros F. assert (M3 : forall x, x < 9 -> x <> k -> U x <> U k) by (intros x Hx N Q; apply N; apply (line_inj (s_cols u)); [apply Au | exact Hx | exact Hk | exact Q]).
    (* the third cell would be fixed *)
    assert (exists x, x < 9 /\ x / 3 = k / 3 /\ x <> k /\ x <> U k) as [x [Hx [Sx [N1 N2]]]].
    { exists (9 * (k / 3) + 3 - k - U k). lia. }
    assert (Mx := u_moves x Hx). assert (Tx := u_stack x Hx). assert (A := M3 x Hx N1).
    assert (B : U x <> k).
    { intros Q. apply N2. apply (line_inj (s_cols u)); [apply Au | exact Hx | apply u_lt | ]. fold (U x) (U (U k)). congruence. }
    lia. }
  destruct (Nat.eq_dec k' k) as [-> | N0]; [reflexivity | ].
  destruct (Nat.eq_dec k' (U k)) as [-> | N1]; [apply S; exact Hk | ].
  assert (X : k' = U (U k)) by lia. rewrite X. rewrite <- S by apply u_lt. apply S. exact Hk.
Qed.

Definition q (r j : nat) : nat := brow (G r (3 * j)).

Lemma q_at r k : r < 3 -> k < 9 -> brow (G r k) = q r (k / 3).
Proof. intros Hr Hk. unfold q. apply pure; lia. Qed.

(** Every digit of a row of the first block occurs in the cells with that row. *)
Lemma q_has r j e : r < 3 -> j < 3 -> 1 <= e <= 9 -> brow e = q r j -> exists k, k < 9 /\ k / 3 = j /\ G r k = e.
Proof.
  intros Hr Hj He E.
  assert (F : forall m, m < 3 -> brow (G r (3 * j + m)) = brow e /\ bcol (G r (3 * j + m)) < 3 /\ G (brow e) (bcol (G r (3 * j + m))) = G r (3 * j + m)).
  { intros m Hm. assert (B : brow (G r (3 * j + m)) = brow e) by (rewrite E, q_at by lia; f_equal; lia).
    destruct (brow_spec (G r (3 * j + m)) (G_range r (3 * j + m) ltac:(lia) ltac:(lia))) as [_ [C D]]. split; [exact B | ]. split; [exact C | ]. rewrite <- B. exact D. }
  destruct (brow_spec e He) as [A [B C]].
  assert (I : forall m m', m < 3 -> m' < 3 -> bcol (G r (3 * j + m)) = bcol (G r (3 * j + m')) -> m = m').
  { intros m m' Hm Hm' Q. destruct (F m Hm) as [_ [_ X]]. destruct (F m' Hm') as [_ [_ Y]]. rewrite Q, Y in X.
    apply G_row in X; lia. }
  assert (I1 := I 0 1 ltac:(lia) ltac:(lia)). assert (I2 := I 0 2 ltac:(lia) ltac:(lia)). assert (I3 := I 1 2 ltac:(lia) ltac:(lia)).
  assert (F0 := F 0 ltac:(lia)). assert (F1 := F 1 ltac:(lia)). assert (F2 := F 2 ltac:(lia)).
  assert (X : exists m, m < 3 /\ bcol (G r (3 * j + m)) = bcol e).
  { destruct (Nat.eq_dec (bcol (G r (3 * j + 0))) (bcol e)) as [Q | N0]; [exists 0; split; [lia | exact Q] | ].
    destruct (Nat.eq_dec (bcol (G r (3 * j + 1))) (bcol e)) as [Q | N1]; [exists 1; split; [lia | exact Q] | ].
    exists 2. split; [lia | ]. destruct F0 as [_ [F0 _]], F1 as [_ [F1 _]], F2 as [_ [F2 _]]. clear - I1 I2 I3 N0 N1 F0 F1 F2 B.
    lia. }
  destruct X as [m [Hm X]]. exists (3 * j + m). split; [lia | ]. split; [lia | ]. destruct (F m Hm) as [_ [_ Y]]. rewrite X in Y. congruence.
Qed.

Lemma even_keys t : aut t -> keeps t = true -> evenb (kr t) = evenb (kb t).
Proof.
  intros At Kt. apply (latin3 q); [apply kr_perm; assumption | apply kb_perm; exact At | | | | ].
  - intros r j Hr Hj. apply brow_spec. apply G_range; lia.
  - intros r j j' Hr Hj Hj' E. destruct (Nat.eq_dec j j') as [ | N]; [assumption | exfalso].
    destruct (q_has r j' (G r (3 * j)) Hr Hj' (G_range r (3 * j) ltac:(lia) ltac:(lia)) E) as [k [Hk [S Q]]]. apply G_row in Q; lia.
  - intros r r' j Hr Hr' Hj E. destruct (q_has r' j (G r (3 * j)) Hr' Hj (G_range r (3 * j) ltac:(lia) ltac:(lia)) E) as [k [Hk [S Q]]].
    apply G_block in Q; lia.
  - intros r j r' j' Hr Hj Hr' Hj' E. rewrite !kr_nth, !kb_nth in E by assumption.
    assert (Tf : s_tr t = false) by (unfold keeps in Kt; destruct (s_tr t); [discriminate | reflexivity]).
    assert (TA : forall r k, r < 3 -> k < 9 -> G r k = rename (s_digits t) (G (nth r (s_rows t) 0) (nth k (s_cols t) 0))).
    { intros x k Hx Hk. assert (X := aut_at t (9 * x + k) At ltac:(lia)). unfold G at 1. rewrite X. f_equal. unfold G. f_equal.
      unfold source. rewrite Tf. replace ((9 * x + k) / 9) with x by lia. replace ((9 * x + k) mod 9) with k by lia. reflexivity. }
    assert (P1 := keeps_rows t r At Kt Hr). assert (P2 := keeps_rows t r' At Kt Hr').
    pose proof At as [[_ [Oc _]] _].
    assert (L1 := line_lt (s_cols t) (3 * j) Oc). assert (L2 := line_lt (s_cols t) (3 * j') Oc).
    rewrite <- !q_at in E by assumption.
    set (e := G (nth r (s_rows t) 0) (nth (3 * j) (s_cols t) 0)) in *.
    assert (Re : 1 <= e <= 9) by (apply G_range; lia).
    rewrite (q_at (nth r' (s_rows t) 0)) in E by assumption.
    destruct (q_has (nth r' (s_rows t) 0) (nth (3 * j') (s_cols t) 0 / 3) e P2 ltac:(lia) Re E) as [k [Hk [S Q]]].
    destruct (inv_line (s_cols t) Oc) as [Oi [_ I]]. set (k' := nth k (inv_l (s_cols t)) 0).
    assert (Hk' : k' < 9) by (apply line_lt; exact Oi). assert (Ek : nth k' (s_cols t) 0 = k) by (apply I; exact Hk).
    assert (Sk : k' / 3 = 3 * j' / 3) by (apply (line_chute (s_cols t)); [exact Oc | exact Hk' | lia | rewrite Ek; exact S]).
    assert (X := TA r (3 * j) Hr ltac:(lia)). fold e in X. assert (Y := TA r' k' Hr' Hk'). rewrite Ek, Q, <- X in Y.
    unfold q at 1. rewrite <- Y, q_at by assumption. f_equal. lia.
Qed.

End Turning.

(** ** At most 108 automorphisms keep the first band *)

Lemma keeps_quot a h : aut a -> aut h -> s_tr a = s_tr h -> nth 0 (s_rows a) 0 / 3 = nth 0 (s_rows h) 0 / 3 -> keeps (quot a h) = true.
Proof.
  intros A H T E. unfold keeps. rewrite (proj1 (quot_parts a h T)). cbn [negb andb]. rewrite quot_row by (assumption || lia).
  pose proof H as [[Or _] _]. pose proof A as [[Ar _] _]. destruct (inv_line (s_rows h) Or) as [Oi [I _]]. apply Nat.eqb_eq.
  assert (X := proj2 (line_chute (inv_l (s_rows h)) (nth 0 (s_rows a) 0) (nth 0 (s_rows h) 0) Oi (line_lt _ _ Ar) (line_lt _ _ Or)) E).
  rewrite (I 0 ltac:(lia)) in X. exact X.
Qed.

Lemma turns_quot t t' : aut t -> aut t' -> keeps t = true -> keeps t' = true -> kr t = kr t' -> kb t = kb t' ->
  evenb (kc t) = evenb (kc t') -> kc t <> kc t' -> keeps (quot t' t) = true /\ turns (quot t' t) = true.
Proof.
  intros A A' K K' Er Eb Ev N.
  assert (T : s_tr t' = s_tr t) by (unfold keeps in K, K'; destruct (s_tr t), (s_tr t'); cbn in K, K'; congruence).
  assert (KQ : keeps (quot t' t) = true).
  { apply keeps_quot; try assumption. assert (X := keeps_rows t 0 A K ltac:(lia)). assert (Y := keeps_rows t' 0 A' K' ltac:(lia)). lia. }
  split; [exact KQ | ]. assert (AQ := quot_aut t' t A' A).
  pose proof A as [[Or [Oc _]] _]. pose proof A' as [[Or' [Oc' _]] _].
  destruct (inv_line (s_rows t) Or) as [Ri [RI _]]. destruct (inv_line (s_cols t) Oc) as [Ci [CI CI']].
  assert (E1 : kr (quot t' t) = [0; 1; 2]).
  { unfold kr. cbn [map]. rewrite !quot_row by (assumption || lia). rewrite <- !(kr_nth t') by lia. rewrite <- Er. rewrite !kr_nth by lia. rewrite !RI by lia. reflexivity. }
  assert (SQ : forall k, k < 9 -> nth k (s_cols (quot t' t)) 0 / 3 = k / 3).
  { intros k Hk. rewrite quot_col by (assumption || lia).
    assert (X := col_split t' k A' Hk). rewrite <- Eb, <- (col_split t k A Hk) in X.
    assert (Y := proj2 (line_chute (inv_l (s_cols t)) _ _ Ci (line_lt _ k Oc') (line_lt _ k Oc)) X). rewrite (CI k Hk) in Y. exact Y. }
  assert (E2 : kb (quot t' t) = [0; 1; 2]) by (unfold kb; cbn [map]; rewrite !SQ by lia; reflexivity).
  assert (E3 : kc (quot t' t) = [1; 2; 0] \/ kc (quot t' t) = [2; 0; 1]).
  { apply (same_parity (kc t) (kc t')); try (apply kc_perm; assumption); try assumption.
    intros k Hk. rewrite (kc_nth (quot t' t)) by exact Hk. assert (S := SQ k ltac:(lia)).
    set (m := nth k (s_cols (quot t' t)) 0) in *. assert (Hm : m < 3) by lia. replace (m mod 3) with m by lia.
    rewrite !kc_nth by assumption. f_equal. unfold m. rewrite quot_col by (assumption || lia). apply CI'. apply line_lt. exact Oc'. }
  unfold turns. rewrite !andb_true_iff, orb_true_iff, !listb_eq_iff. auto.
Qed.

Lemma keeping_bound l : NoDup l -> (forall s, In s l <-> aut s /\ keeps s = true) -> length l <= 108.
Proof.
  intros N H. destruct (existsb turns l) eqn:E.
  - apply existsb_exists in E. destruct E as [u [Iu Tu]]. apply H in Iu. destruct Iu as [Au Ku].
    pose (keys := filter (fun x => Bool.eqb (evenb (fst (fst x))) (evenb (snd (fst x)))) (list_prod (list_prod perms3 perms3) perms3)).
    assert (L : length keys = 108) by (vm_compute; reflexivity). rewrite <- L.
    apply (count_inj (fun s => (kr s, kb s, kc s))); [exact N | | ].
    + intros x y Ix Iy Q. apply H in Ix. apply H in Iy. assert (Q1 := f_equal (fun p => fst (fst p)) Q). assert (Q2 := f_equal (fun p => snd (fst p)) Q). assert (Q3 := f_equal snd Q). cbn [fst snd] in Q1, Q2, Q3. apply key3; tauto.
    + intros x Ix. apply H in Ix. destruct Ix as [Ax Kx]. apply filter_In. split.
      * apply in_prod; [apply in_prod | ]; [apply kr_perm; assumption | apply kb_perm; assumption | apply kc_perm; assumption].
      * cbn [fst snd]. rewrite (even_keys u Au Ku Tu x Ax Kx). apply eqb_reflx.
  - pose (keys := list_prod (list_prod perms3 perms3) [true; false]).
    assert (L : length keys = 72) by reflexivity.
    assert (X : length l <= length keys); [ | lia].
    apply (count_inj (fun s => (kr s, kb s, evenb (kc s)))); [exact N | | ].
    + intros x y Ix Iy Q. apply H in Ix. apply H in Iy. assert (Q1 := f_equal (fun p => fst (fst p)) Q). assert (Q2 := f_equal (fun p => snd (fst p)) Q). assert (Q3 := f_equal snd Q). cbn [fst snd] in Q1, Q2, Q3.
      destruct (list_eq_dec Nat.eq_dec (kc x) (kc y)) as [Ec | Ec]; [apply key3; tauto | exfalso].
      destruct (turns_quot x y) as [KQ TQ]; try tauto.
      assert (IQ : In (quot y x) l) by (apply H; split; [apply quot_aut; tauto | exact KQ]).
      assert (Z : existsb turns l = true) by (apply existsb_exists; exists (quot y x); auto). congruence.
    + intros x Ix. apply H in Ix. destruct Ix as [Ax Kx].
      apply in_prod; [apply in_prod | ]; [apply kr_perm; assumption | apply kb_perm; assumption | ]. destruct (evenb (kc x)); cbn; auto.
Qed.

(** ** All automorphisms *)

Definition chute (s : sym) : bool * nat := (s_tr s, nth 0 (s_rows s) 0 / 3).
Definition chute_eqb (a b : bool * nat) : bool := Bool.eqb (fst a) (fst b) && (snd a =? snd b).
Lemma chute_eqb_iff a b : chute_eqb a b = true <-> a = b.
Proof.
  unfold chute_eqb. destruct a as [a1 a2], b as [b1 b2]. cbn [fst snd]. rewrite andb_true_iff, eqb_true_iff, Nat.eqb_eq.
  split; [intros [-> ->]; reflexivity | intros E; injection E as -> ->; auto].
Qed.

Lemma automorphisms_bound n : automorphism_count g n -> n <= 648.
Proof.
  intros [l [N [H <-]]].
  pose (C := list_prod [true; false] [0; 1; 2]). change 648 with (length C * 108).
  apply (count_classes chute_eqb chute_eqb_iff chute).
  - intros s I. apply H in I. destruct I as [[Or _] _]. assert (B := line_lt (s_rows s) 0 Or). apply in_prod; [destruct (s_tr s); cbn; auto | ].
    assert (X : nth 0 (s_rows s) 0 / 3 < 3) by lia. destruct (nth 0 (s_rows s) 0 / 3) as [ | [ | [ | x]]]; cbn; auto. lia.
  - intros c _. assert (NF : NoDup (filter (fun x => chute_eqb (chute x) c) l)) by (apply NoDup_filter; exact N).
    destruct (filter (fun x => chute_eqb (chute x) c) l) as [ | h t] eqn:F; [cbn; lia | ]. rewrite <- F in *.
    assert (FI : forall s, In s (filter (fun x => chute_eqb (chute x) c) l) -> aut s /\ chute s = c).
    { intros s I. apply filter_In in I. destruct I as [I E]. apply chute_eqb_iff in E. apply H in I. split; [exact I | exact E]. }
    assert (Ih : In h (filter (fun x => chute_eqb (chute x) c) l)) by (rewrite F; left; reflexivity).
    destruct (FI h Ih) as [Ah Ch].
    assert (B : length (filter keeps l) <= 108).
    { apply keeping_bound; [apply NoDup_filter; exact N | ]. intros s. rewrite filter_In, H. unfold aut. tauto. }
    apply Nat.le_trans with (length (filter keeps l)); [ | exact B]. apply (count_inj (fun s => quot s h)); [exact NF | | ].
    + intros x y Ix Iy Q. apply FI in Ix. apply FI in Iy. destruct Ix as [Ax Cx], Iy as [Ay Cy]. unfold chute in *.
      apply (quot_inj x y h); try assumption; congruence.
    + intros x Ix. apply FI in Ix. destruct Ix as [Ax Cx]. unfold chute in *. apply filter_In.
      split; [apply H; apply quot_aut; assumption | apply keeps_quot; try assumption; congruence].
Qed.

End Grid.
