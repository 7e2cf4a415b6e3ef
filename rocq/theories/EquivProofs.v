(** Proofs about sudoku symmetries (CanonSpec): composition, inverse, what they preserve. *)
From Coq Require Import List Arith NArith ZArith ZifyNat ZifyN ZifyBool Lia Bool Permutation.
From Verif Require Import Spec CanonSpec BitLemmas GridProofs.
Import ListNotations.
Ltac Zify.zify_post_hook ::= Z.to_euclidean_division_equations.

(** * Permutations of nine lines, three by three *)

Definition perms3 : list (list nat) := [[0;1;2]; [1;0;2]; [2;1;0]; [0;2;1]; [1;2;0]; [2;0;1]].
Definition p3l (p : nat * nat) : list nat := nth (fst p + 3 * snd p) perms3 [].
Definition p3ok (p : nat * nat) : Prop := fst p < 3 /\ snd p < 2.
Definition all_p3 : list (nat * nat) := [(0,0); (1,0); (2,0); (0,1); (1,1); (2,1)].
Definition id3 : nat * nat := (0, 0).

Definition lp3 (b r0 r1 r2 : nat * nat) : list nat :=
  map (fun j => 3 * nth 0 (p3l b) 0 + j) (p3l r0) ++ map (fun j => 3 * nth 1 (p3l b) 0 + j) (p3l r1) ++
  map (fun j => 3 * nth 2 (p3l b) 0 + j) (p3l r2).
Definition lp (b : nat * nat) (rs : list (nat * nat)) : list nat :=
  lp3 b (nth 0 rs id3) (nth 1 rs id3) (nth 2 rs id3).

Lemma p3_all p : p3ok p <-> In p all_p3.
Proof.
  destruct p as [a b]. unfold p3ok. cbn [fst snd]. split.
  - intros [Ha Hb]. destruct a as [ | [ | [ | a]]]; [ | | | lia]; (destruct b as [ | [ | b]]; [ | | lia]); cbn; tauto.
  - cbn. intros H. repeat (destruct H as [H | H]; [injection H as <- <-; lia | ]). contradiction.
Qed.

Lemma p3_sweep (P : nat * nat -> bool) : forallb P all_p3 = true -> forall p, p3ok p -> P p = true.
Proof. intros H p Hp. rewrite forallb_forall in H. apply H. apply p3_all. exact Hp. Qed.

Definition listb_eq (a b : list nat) : bool := if list_eq_dec Nat.eq_dec a b then true else false.
Lemma listb_eq_iff a b : listb_eq a b = true <-> a = b.
Proof. unfold listb_eq. destruct (list_eq_dec _ a b); split; congruence. Qed.

Definition p3_eqb (a b : nat * nat) : bool := (fst a =? fst b) && (snd a =? snd b).
Lemma p3_eqb_iff a b : p3_eqb a b = true <-> a = b.
Proof. unfold p3_eqb. destruct a, b; cbn. rewrite andb_true_iff, !Nat.eqb_eq. split; [intros [-> ->]; reflexivity | intros [= -> ->]; auto]. Qed.

Definition all_lp : list ((nat * nat) * (nat * nat) * (nat * nat) * (nat * nat)) :=
  list_prod (list_prod (list_prod all_p3 all_p3) all_p3) all_p3.

Lemma in_all_lp b r0 r1 r2 : In (b, r0, r1, r2) all_lp <-> p3ok b /\ p3ok r0 /\ p3ok r1 /\ p3ok r2.
Proof. unfold all_lp. rewrite !in_prod_iff, <- !p3_all. tauto. Qed.

(** Checked for all 1296 of them. *)
Lemma lp_sweep (P : list nat -> bool) :
  forallb (fun '(b, r0, r1, r2) => P (lp3 b r0 r1 r2)) all_lp = true ->
  forall b r0 r1 r2, p3ok b -> p3ok r0 -> p3ok r1 -> p3ok r2 -> P (lp3 b r0 r1 r2) = true.
Proof.
  intros H b r0 r1 r2 Hb H0 H1 H2. rewrite forallb_forall in H. apply (H (b, r0, r1, r2)). apply in_all_lp. auto.
Qed.

Fixpoint nodupb (l : list nat) : bool :=
  match l with [] => true | x :: t => negb (existsb (Nat.eqb x) t) && nodupb t end.
Lemma nodupb_iff l : nodupb l = true <-> NoDup l.
Proof.
  induction l as [ | x t IH]; cbn [nodupb]; [split; [constructor | reflexivity] | ].
  rewrite andb_true_iff, negb_true_iff, IH, NoDup_cons_iff. rewrite <- not_true_iff_false, existsb_exists.
  split; intros [H1 H2]; (split; [ | exact H2]).
  - intros Hx. apply H1. exists x. rewrite Nat.eqb_refl. auto.
  - intros [y [Hy E]]. apply Nat.eqb_eq in E. subst y. contradiction.
Qed.

Lemma perm_seq9 l : length l = 9 -> NoDup l -> (forall x, In x l -> x < 9) -> Permutation l (seq 0 9).
Proof.
  intros L N B. apply NoDup_Permutation_bis; [exact N | rewrite L, seq_length; lia | ].
  intros x Hx. apply in_seq. specialize (B x Hx). lia.
Qed.

Lemma lp3_line b r0 r1 r2 : p3ok b -> p3ok r0 -> p3ok r1 -> p3ok r2 -> line_perm (lp3 b r0 r1 r2).
Proof.
  intros Hb H0 H1 H2.
  pose (P := fun l => (length l =? 9) && nodupb l && forallb (fun x => x <? 9) l &&
     forallb (fun i => forallb (fun j => implb (i / 3 =? j / 3) (nth i l 0 / 3 =? nth j l 0 / 3)) (seq 0 9)) (seq 0 9)).
  assert (E : P (lp3 b r0 r1 r2) = true).
  { apply (lp_sweep P); try assumption. vm_compute. reflexivity. }
  unfold P in E. rewrite !andb_true_iff in E. destruct E as [[[E1 E2] E3] E4]. split.
  - apply perm_seq9; [lia | apply nodupb_iff; exact E2 | ]. intros x Hx. rewrite forallb_forall in E3. specialize (E3 x Hx). lia.
  - intros i j Hi Hj Eq. pose proof (sweep2 9 9 _ E4 i j Hi Hj) as E. cbv beta in E. lia.
Qed.

(** Three different numbers of one chute *)
Definition blocks3 : list (list nat) := flat_map (fun i => map (fun p => map (fun j => 3 * i + j) p) perms3) [0;1;2].

Lemma in_blocks3 a b c : a < 9 -> b < 9 -> c < 9 -> a / 3 = b / 3 -> a / 3 = c / 3 -> a <> b -> a <> c -> b <> c ->
  In [a; b; c] blocks3.
Proof.
  intros Ha Hb Hc E1 E2 N1 N2 N3.
  assert (H : implb ((a / 3 =? b / 3) && (a / 3 =? c / 3) && negb (a =? b) && negb (a =? c) && negb (b =? c))
     (existsb (listb_eq [a; b; c]) blocks3) = true).
  { revert a b c Ha Hb Hc E1 E2 N1 N2 N3. intros a b c Ha Hb Hc _ _ _ _ _.
    apply (sweep3 9 9 9 (fun a b c => implb ((a / 3 =? b / 3) && (a / 3 =? c / 3) && negb (a =? b) && negb (a =? c) && negb (b =? c))
      (existsb (listb_eq [a; b; c]) blocks3))); try assumption. vm_compute. reflexivity. }
  replace (_ && _) with true in H; [ | lia]. cbn [implb] in H. apply existsb_exists in H. destruct H as [x [Hx E]].
  apply listb_eq_iff in E. rewrite E. exact Hx.
Qed.

Lemma line_lp l : line_perm l -> exists b r0 r1 r2, p3ok b /\ p3ok r0 /\ p3ok r1 /\ p3ok r2 /\ l = lp3 b r0 r1 r2.
Proof.
  intros [P C].
  assert (L : length l = 9) by (rewrite (Permutation_length P); apply seq_length).
  assert (N : NoDup l) by (apply (Permutation_NoDup (Permutation_sym P)), seq_NoDup).
  assert (B : forall x, In x l -> x < 9) by (intros x Hx; apply (Permutation_in _ P), in_seq in Hx; lia).
  do 10 (destruct l as [ | ? l]; try discriminate L). clear L P.
  pose proof (C 0 1 ltac:(lia) ltac:(lia) eq_refl) as E01. pose proof (C 0 2 ltac:(lia) ltac:(lia) eq_refl) as E02.
  pose proof (C 3 4 ltac:(lia) ltac:(lia) eq_refl) as E34. pose proof (C 3 5 ltac:(lia) ltac:(lia) eq_refl) as E35.
  pose proof (C 6 7 ltac:(lia) ltac:(lia) eq_refl) as E67. pose proof (C 6 8 ltac:(lia) ltac:(lia) eq_refl) as E68.
  cbn [nth] in *. clear C.
  assert (I1 : In [n; n0; n1] blocks3).
  { apply in_blocks3; try assumption; try (apply B; cbn; tauto); rewrite !NoDup_cons_iff in N; cbn in N; intuition congruence. }
  assert (I2 : In [n2; n3; n4] blocks3).
  { apply in_blocks3; try assumption; try (apply B; cbn; tauto); rewrite !NoDup_cons_iff in N; cbn in N; intuition congruence. }
  assert (I3 : In [n5; n6; n7] blocks3).
  { apply in_blocks3; try assumption; try (apply B; cbn; tauto); rewrite !NoDup_cons_iff in N; cbn in N; intuition congruence. }
  assert (S : forallb (fun x => forallb (fun y => forallb (fun z => implb (nodupb (x ++ y ++ z))
     (existsb (fun '(b, r0, r1, r2) => listb_eq (x ++ y ++ z) (lp3 b r0 r1 r2)) all_lp)) blocks3) blocks3) blocks3 = true).
  { vm_compute. reflexivity. }
  rewrite forallb_forall in S. specialize (S _ I1). rewrite forallb_forall in S. specialize (S _ I2).
  rewrite forallb_forall in S. specialize (S _ I3). apply nodupb_iff in N. cbn [app] in S. rewrite N in S. cbn [implb] in S.
  apply existsb_exists in S. destruct S as [[[[b r0] r1] r2] [Hx E]]. apply listb_eq_iff in E. apply in_all_lp in Hx.
  exists b, r0, r1, r2. tauto.
Qed.

Lemma line_sweep (P : list nat -> bool) :
  forallb (fun '(b, r0, r1, r2) => P (lp3 b r0 r1 r2)) all_lp = true -> forall l, line_perm l -> P l = true.
Proof.
  intros H l Hl. destruct (line_lp l Hl) as [b [r0 [r1 [r2 [Hb [H0 [H1 [H2 ->]]]]]]]]. apply lp_sweep; assumption.
Qed.

(** [lp3] is one-to-one *)
Definition lp_b (l : list nat) : nat * nat :=
  let a := nth 0 l 0 / 3 in (a, if (nth 3 l 0 / 3 =? (if a =? 1 then 0 else 1)) then 0 else 1).
Definition un3 (a b : nat) : nat * nat := (a, if (b =? (if a =? 1 then 0 else 1)) then 0 else 1).
Definition un_lp (l : list nat) : (nat * nat) * (nat * nat) * (nat * nat) * (nat * nat) :=
  (un3 (nth 0 l 0 / 3) (nth 3 l 0 / 3), un3 (nth 0 l 0 mod 3) (nth 1 l 0 mod 3),
   un3 (nth 3 l 0 mod 3) (nth 4 l 0 mod 3), un3 (nth 6 l 0 mod 3) (nth 7 l 0 mod 3)).

Lemma un_lp_lp b r0 r1 r2 : p3ok b -> p3ok r0 -> p3ok r1 -> p3ok r2 -> un_lp (lp3 b r0 r1 r2) = (b, r0, r1, r2).
Proof.
  intros Hb H0 H1 H2.
  assert (S : forallb (fun '(b, r0, r1, r2) => let '(b', r0', r1', r2') := un_lp (lp3 b r0 r1 r2) in
     p3_eqb b b' && p3_eqb r0 r0' && p3_eqb r1 r1' && p3_eqb r2 r2') all_lp = true) by (vm_compute; reflexivity).
  rewrite forallb_forall in S. specialize (S (b, r0, r1, r2) (proj2 (in_all_lp b r0 r1 r2) ltac:(auto))). cbv beta match in S.
  destruct (un_lp (lp3 b r0 r1 r2)) as [[[b' r0'] r1'] r2']. rewrite !andb_true_iff, !p3_eqb_iff in S.
  destruct S as [[[-> ->] ->] ->]. reflexivity.
Qed.

Lemma lp3_inj b r0 r1 r2 b' r0' r1' r2' : p3ok b -> p3ok r0 -> p3ok r1 -> p3ok r2 -> p3ok b' -> p3ok r0' -> p3ok r1' -> p3ok r2' ->
  lp3 b r0 r1 r2 = lp3 b' r0' r1' r2' -> b = b' /\ r0 = r0' /\ r1 = r1' /\ r2 = r2'.
Proof.
  intros Hb H0 H1 H2 Hb' H0' H1' H2' E. apply (f_equal un_lp) in E. rewrite !un_lp_lp in E by assumption.
  injection E as -> -> -> ->. auto.
Qed.

(** * Properties of line permutations *)

Lemma line_length l : line_perm l -> length l = 9.
Proof. intros [P _]. rewrite (Permutation_length P). apply seq_length. Qed.

Lemma line_lt l i : line_perm l -> nth i l 0 < 9.
Proof.
  intros H. destruct (Nat.lt_ge_cases i 9) as [Hi | Hi].
  - destruct H as [P _]. assert (In (nth i l 0) l) as I. { apply nth_In. rewrite (Permutation_length P), seq_length. exact Hi. }
    apply (Permutation_in _ P), in_seq in I. lia.
  - rewrite nth_overflow; [lia | ]. rewrite (line_length l H). exact Hi.
Qed.

Lemma line_inj l i j : line_perm l -> i < 9 -> j < 9 -> nth i l 0 = nth j l 0 -> i = j.
Proof.
  intros H Hi Hj E. pose proof (line_length l H) as L. destruct H as [P _].
  apply (proj1 (NoDup_nth l 0)); try lia. apply (Permutation_NoDup (Permutation_sym P)), seq_NoDup.
Qed.

Lemma line_chute l i j : line_perm l -> i < 9 -> j < 9 -> (nth i l 0 / 3 = nth j l 0 / 3 <-> i / 3 = j / 3).
Proof.
  intros H Hi Hj.
  pose (P := fun l => forallb (fun i => forallb (fun j => Bool.eqb (nth i l 0 / 3 =? nth j l 0 / 3) (i / 3 =? j / 3)) (seq 0 9)) (seq 0 9)).
  assert (E : P l = true).
  { apply (line_sweep P); [vm_compute; reflexivity | exact H]. }
  unfold P in E. pose proof (sweep2 9 9 _ E i j Hi Hj) as F. cbv beta in F. apply eqb_prop in F. lia.
Qed.

Lemma nth_map_seq {A} (f : nat -> A) n i d : i < n -> nth i (map f (seq 0 n)) d = f i.
Proof.
  intros H. rewrite (nth_indep (map f (seq 0 n)) d (f 0)) by (rewrite map_length, seq_length; exact H).
  rewrite map_nth, seq_nth by exact H. reflexivity.
Qed.

(** Composition: first [b], then [a] in the order of sources *)
Definition comp_l (a b : list nat) : list nat := map (fun i => nth i a 0) b.

Lemma nth_comp a b i : i < length b -> nth i (comp_l a b) 0 = nth (nth i b 0) a 0.
Proof.
  intros H. unfold comp_l. rewrite (nth_indep _ 0 (nth 0 a 0)) by (rewrite map_length; exact H).
  rewrite (map_nth (fun i => nth i a 0)). reflexivity.
Qed.

Lemma comp_line a b : line_perm a -> line_perm b -> line_perm (comp_l a b).
Proof.
  intros Ha Hb. pose proof (line_length _ Ha) as La. pose proof (line_length _ Hb) as Lb. split.
  - apply perm_seq9.
    + unfold comp_l. rewrite map_length. exact Lb.
    + apply (NoDup_nth _ 0). unfold comp_l at 1 2. rewrite map_length. intros i j Hi Hj E.
      rewrite !nth_comp in E by lia. rewrite Lb in *.
      apply (line_inj _ _ _ Ha) in E; try apply line_lt; try assumption. apply (line_inj _ _ _ Hb) in E; assumption.
    + intros x Hx. unfold comp_l in Hx. apply in_map_iff in Hx. destruct Hx as [y [<- Hy]]. apply line_lt. exact Ha.
  - intros i j Hi Hj E. rewrite !nth_comp by lia. apply line_chute; try apply line_lt; try assumption.
    apply line_chute; assumption.
Qed.

Fixpoint index (x : nat) (l : list nat) : nat :=
  match l with [] => 0 | y :: t => if y =? x then 0 else S (index x t) end.

Lemma index_in x l : In x l -> index x l < length l /\ nth (index x l) l 0 = x.
Proof.
  induction l as [ | y t IH]; [intros [] | ]. intros H. cbn [index length]. destruct (y =? x) eqn:E.
  - split; [lia | ]. cbn. lia.
  - destruct H as [-> | H]; [rewrite Nat.eqb_refl in E; discriminate | ]. destruct (IH H) as [I1 I2]. split; [lia | exact I2].
Qed.

Lemma index_nth l i : NoDup l -> i < length l -> index (nth i l 0) l = i.
Proof.
  intros N H. destruct (index_in (nth i l 0) l (nth_In _ _ H)) as [I1 I2].
  apply (proj1 (NoDup_nth l 0) N); assumption.
Qed.

Definition inv_l (l : list nat) : list nat := map (fun i => index i l) (seq 0 9).

Lemma inv_line l : line_perm l -> line_perm (inv_l l) /\ (forall i, i < 9 -> nth (nth i l 0) (inv_l l) 0 = i) /\
  (forall i, i < 9 -> nth (nth i (inv_l l) 0) l 0 = i).
Proof.
  intros H. pose proof (line_length _ H) as L. pose proof H as [P C].
  assert (N : NoDup l) by (apply (Permutation_NoDup (Permutation_sym P)), seq_NoDup).
  assert (A1 : forall i, i < 9 -> nth (nth i l 0) (inv_l l) 0 = i).
  { intros i Hi. unfold inv_l. rewrite nth_map_seq by (apply line_lt; exact H). apply index_nth; lia || assumption. }
  assert (I : forall i, i < 9 -> In i l) by (intros i Hi; apply (Permutation_in _ (Permutation_sym P)), in_seq; lia).
  assert (A2 : forall i, i < 9 -> nth i (inv_l l) 0 < 9 /\ nth (nth i (inv_l l) 0) l 0 = i).
  { intros i Hi. unfold inv_l. rewrite nth_map_seq by exact Hi. rewrite <- L at 1. apply index_in. apply I. exact Hi. }
  split; [split | split; [exact A1 | intros i Hi; apply A2; exact Hi]].
  - apply perm_seq9.
    + unfold inv_l. rewrite map_length. apply seq_length.
    + apply (NoDup_nth _ 0). unfold inv_l at 1 2. rewrite map_length, seq_length. intros i j Hi Hj E.
      rewrite <- (proj2 (A2 i Hi)), E. apply A2. exact Hj.
    + intros x Hx. unfold inv_l in Hx. apply in_map_iff in Hx. destruct Hx as [y [<- Hy]]. apply in_seq in Hy.
      rewrite <- L. apply index_in. apply I. lia.
  - intros i j Hi Hj E. destruct (A2 i Hi) as [I1 I2]. destruct (A2 j Hj) as [J1 J2].
    apply (line_chute l); try assumption. rewrite I2, J2. exact E.
Qed.

Lemma list9_ext (a b : list nat) : length a = 9 -> length b = 9 -> (forall i, i < 9 -> nth i a 0 = nth i b 0) -> a = b.
Proof. intros La Lb H. apply (nth_ext _ _ 0 0); [lia | ]. intros i Hi. apply H. lia. Qed.

Lemma seq_line : line_perm (seq 0 9).
Proof. split; [apply Permutation_refl | ]. intros i j Hi Hj E. rewrite !seq_nth by assumption. exact E. Qed.

(** * Digit relabellings *)

Lemma digits_facts l : Permutation l (seq 1 9) -> length l = 9 /\ NoDup l /\ (forall d, In d l <-> 1 <= d <= 9).
Proof.
  intros P. split; [rewrite (Permutation_length P); apply seq_length | ]. split.
  - apply (Permutation_NoDup (Permutation_sym P)), seq_NoDup.
  - intros d. split; intros H.
    + apply (Permutation_in _ P), in_seq in H. lia.
    + apply (Permutation_in _ (Permutation_sym P)), in_seq. lia.
Qed.

Lemma rename_range l d : Permutation l (seq 1 9) -> 1 <= d <= 9 -> 1 <= rename l d <= 9.
Proof.
  intros P H. destruct (digits_facts l P) as [L [N R]]. unfold rename. destruct (d =? 0) eqn:E; [lia | ].
  apply R. apply nth_In. lia.
Qed.

Lemma rename_le l d : Permutation l (seq 1 9) -> d <= 9 -> rename l d <= 9.
Proof. intros P H. destruct d; [cbn; lia | ]. apply rename_range; [exact P | lia]. Qed.

Lemma rename_zero l d : Permutation l (seq 1 9) -> d <= 9 -> (rename l d = 0 <-> d = 0).
Proof.
  intros P H. split; [ | intros ->; reflexivity]. intros E. destruct d; [reflexivity | ].
  pose proof (rename_range l (S d) P ltac:(lia)). lia.
Qed.

Lemma rename_inj l d d' : Permutation l (seq 1 9) -> d <= 9 -> d' <= 9 -> rename l d = rename l d' -> d = d'.
Proof.
  intros P H H' E. destruct (digits_facts l P) as [L [N R]].
  destruct (Nat.eq_dec d 0) as [-> | Hd]. { symmetry. apply (rename_zero l); [exact P | exact H' | ]. rewrite <- E. reflexivity. }
  destruct (Nat.eq_dec d' 0) as [-> | Hd']. { apply (rename_zero l); [exact P | exact H | ]. rewrite E. reflexivity. }
  unfold rename in E. replace (d =? 0) with false in E by lia. replace (d' =? 0) with false in E by lia.
  apply (proj1 (NoDup_nth l 0) N) in E; lia.
Qed.

Definition comp_d (b a : list nat) : list nat := map (rename b) a.
Lemma comp_digits b a : Permutation a (seq 1 9) -> Permutation b (seq 1 9) -> Permutation (comp_d b a) (seq 1 9) /\
  (forall d, d <= 9 -> rename (comp_d b a) d = rename b (rename a d)).
Proof.
  intros Pa Pb. destruct (digits_facts a Pa) as [La [Na Ra]]. split.
  - apply NoDup_Permutation_bis.
    + apply (NoDup_nth _ 0). unfold comp_d. rewrite map_length. intros i j Hi Hj.
      change 0 with (rename b 0) at 1 2. rewrite !map_nth.
      intros E. apply (rename_inj b) in E; [ | exact Pb | apply Ra, nth_In; assumption | apply Ra, nth_In; assumption].
      apply (proj1 (NoDup_nth a 0) Na) in E; assumption.
    + unfold comp_d. rewrite map_length, La, seq_length. lia.
    + intros x Hx. unfold comp_d in Hx. apply in_map_iff in Hx. destruct Hx as [y [<- Hy]]. apply Ra in Hy.
      apply in_seq. pose proof (rename_range b y Pb Hy). lia.
  - intros d Hd. unfold rename at 1 3. destruct (d =? 0) eqn:E; [reflexivity | ]. unfold comp_d.
    rewrite (nth_indep _ 0 (rename b 0)) by (rewrite map_length; lia). rewrite map_nth. reflexivity.
Qed.

Definition inv_d (l : list nat) : list nat := map (fun d => S (index d l)) (seq 1 9).
Lemma nth_map_seq1 (f : nat -> nat) d : 1 <= d <= 9 -> nth (d - 1) (map f (seq 1 9)) 0 = f d.
Proof.
  intros H. rewrite (nth_indep _ 0 (f 0)) by (rewrite map_length, seq_length; lia). rewrite map_nth, seq_nth by lia.
  f_equal. lia.
Qed.

Lemma inv_digits l : Permutation l (seq 1 9) -> Permutation (inv_d l) (seq 1 9) /\
  (forall d, d <= 9 -> rename (inv_d l) (rename l d) = d) /\ (forall d, d <= 9 -> rename l (rename (inv_d l) d) = d).
Proof.
  intros P. destruct (digits_facts l P) as [L [N R]].
  assert (A1 : forall d, d <= 9 -> rename (inv_d l) (rename l d) = d).
  { intros d Hd. destruct (Nat.eq_dec d 0) as [-> | Hd0]; [reflexivity | ].
    pose proof (rename_range l d P ltac:(lia)) as Hr. unfold rename at 1. replace (rename l d =? 0) with false by lia.
    unfold inv_d. rewrite nth_map_seq1 by exact Hr. unfold rename. replace (d =? 0) with false by lia.
    rewrite index_nth by (lia || assumption). lia. }
  assert (A2 : forall d, d <= 9 -> rename l (rename (inv_d l) d) = d /\ rename (inv_d l) d <= 9).
  { intros d Hd. destruct (Nat.eq_dec d 0) as [-> | Hd0]; [split; [reflexivity | cbn; lia] | ].
    unfold rename at 2 3. replace (d =? 0) with false by lia. unfold inv_d. rewrite nth_map_seq1 by lia.
    destruct (index_in d l) as [I1 I2]; [apply R; lia | ]. split; [ | lia]. unfold rename. cbn [Nat.eqb].
    replace (S (index d l) - 1) with (index d l) by lia. exact I2. }
  split; [ | split; [exact A1 | intros d Hd; apply A2; exact Hd]].
  apply NoDup_Permutation_bis.
  - apply (NoDup_nth _ 0). unfold inv_d at 1 2. rewrite map_length, seq_length. intros i j Hi Hj E.
    assert (Q : forall k, k < 9 -> nth k (inv_d l) 0 = rename (inv_d l) (S k)).
    { intros k _. unfold rename. cbn [Nat.eqb]. f_equal. lia. }
    rewrite !Q in E by assumption. apply (f_equal (rename l)) in E.
    rewrite !(fun d H => proj1 (A2 d H)) in E by lia. lia.
  - unfold inv_d. rewrite map_length, !seq_length. lia.
  - intros x Hx. unfold inv_d in Hx. apply in_map_iff in Hx. destruct Hx as [y [<- Hy]]. apply in_seq in Hy.
    destruct (index_in y l) as [I1 _]; [apply R; lia | ]. apply in_seq. lia.
Qed.

(** * Symmetries *)

Lemma act_length s g : length (act s g) = 81.
Proof. unfold act. rewrite map_length. apply seq_length. Qed.

Lemma at_act s g c : c < 81 -> at_ (act s g) c = rename (s_digits s) (at_ g (source s c)).
Proof. intros H. unfold act. apply (at_of_fun (fun c => rename (s_digits s) (at_ g (source s c)))). exact H. Qed.

Lemma source_lt s c : sym_ok s -> source s c < 81.
Proof.
  intros [Hr [Hc _]]. unfold source. pose proof (line_lt _ (c / 9) Hr). pose proof (line_lt _ (c mod 9) Hc).
  destruct (s_tr s); lia.
Qed.

Lemma wf_le g c : wf_grid g -> at_ g c <= 9.
Proof.
  intros [L F]. unfold at_. destruct (Nat.lt_ge_cases c (length g)) as [H | H].
  - rewrite Forall_forall in F. apply F. apply nth_In. exact H.
  - rewrite nth_overflow by exact H. lia.
Qed.

Lemma act_wf s g : sym_ok s -> wf_grid g -> wf_grid (act s g).
Proof.
  intros [_ [_ Hd]] H. split; [apply act_length | ]. apply Forall_forall. intros x Hx. unfold act in Hx. apply in_map_iff in Hx.
  destruct Hx as [c [<- _]]. apply rename_le; [exact Hd | apply wf_le; exact H].
Qed.

(** Composition: [act (scomp b a) g = act b (act a g)] *)
Definition scomp (b a : sym) : sym :=
  if s_tr b
  then Sym (negb (s_tr a)) (comp_l (s_cols a) (s_rows b)) (comp_l (s_rows a) (s_cols b)) (comp_d (s_digits b) (s_digits a))
  else Sym (s_tr a) (comp_l (s_rows a) (s_rows b)) (comp_l (s_cols a) (s_cols b)) (comp_d (s_digits b) (s_digits a)).

Lemma scomp_ok b a : sym_ok b -> sym_ok a -> sym_ok (scomp b a).
Proof.
  intros [Br [Bc Bd]] [Ar [Ac Ad]]. unfold scomp.
  destruct (s_tr b); (split; [ | split]); cbn; try (apply comp_line; assumption); apply comp_digits; assumption.
Qed.

Lemma source_scomp b a c : sym_ok b -> sym_ok a -> c < 81 -> source (scomp b a) c = source a (source b c).
Proof.
  intros [Br [Bc _]] [Ar [Ac _]] Hc. pose proof (line_length _ Br) as L1. pose proof (line_length _ Bc) as L2.
  unfold scomp, source. pose proof (line_lt _ (c / 9) Br) as H1. pose proof (line_lt _ (c mod 9) Bc) as H2.
  assert (M : c mod 9 < length (s_cols b)) by lia. assert (D : c / 9 < length (s_rows b)) by lia.
  destruct (s_tr b); cbn [s_tr s_rows s_cols]; rewrite !nth_comp by assumption.
  - replace ((9 * nth (c mod 9) (s_cols b) 0 + nth (c / 9) (s_rows b) 0) / 9) with (nth (c mod 9) (s_cols b) 0) by lia.
    replace ((9 * nth (c mod 9) (s_cols b) 0 + nth (c / 9) (s_rows b) 0) mod 9) with (nth (c / 9) (s_rows b) 0) by lia.
    destruct (s_tr a); reflexivity.
  - replace ((9 * nth (c / 9) (s_rows b) 0 + nth (c mod 9) (s_cols b) 0) / 9) with (nth (c / 9) (s_rows b) 0) by lia.
    replace ((9 * nth (c / 9) (s_rows b) 0 + nth (c mod 9) (s_cols b) 0) mod 9) with (nth (c mod 9) (s_cols b) 0) by lia.
    reflexivity.
Qed.

Lemma act_scomp b a g : sym_ok b -> sym_ok a -> wf_grid g -> act (scomp b a) g = act b (act a g).
Proof.
  intros Hb Ha Hg. apply grid_ext; try apply act_length. intros c Hc. rewrite !at_act by (try apply source_lt; assumption).
  rewrite source_scomp by assumption. destruct Hb as [_ [_ Bd]], Ha as [_ [_ Ad]].
  replace (s_digits (scomp b a)) with (comp_d (s_digits b) (s_digits a)) by (unfold scomp; destruct (s_tr b); reflexivity).
  apply comp_digits; try assumption. apply wf_le. exact Hg.
Qed.

Definition sinv (s : sym) : sym :=
  if s_tr s then Sym true (inv_l (s_cols s)) (inv_l (s_rows s)) (inv_d (s_digits s))
  else Sym false (inv_l (s_rows s)) (inv_l (s_cols s)) (inv_d (s_digits s)).

Lemma sinv_ok s : sym_ok s -> sym_ok (sinv s).
Proof.
  intros [Hr [Hc Hd]]. unfold sinv. destruct (s_tr s); (split; [ | split]); cbn; try (apply inv_line; assumption); apply inv_digits; assumption.
Qed.

Lemma comp_inv_l a b b' : length a = 9 -> line_perm b -> line_perm b' -> (forall i, i < 9 -> nth (nth i b' 0) b 0 = i) ->
  comp_l (comp_l a b) b' = a.
Proof.
  intros La Hb Hb' E. pose proof (line_length _ Hb). pose proof (line_length _ Hb'). apply list9_ext; [ | exact La | ].
  - unfold comp_l. rewrite map_length. assumption.
  - intros i Hi. rewrite nth_comp by lia. rewrite nth_comp by (pose proof (line_lt b' i Hb'); lia). rewrite E by exact Hi. reflexivity.
Qed.

Lemma comp_inv_d b b' a : Permutation a (seq 1 9) -> Permutation b (seq 1 9) -> Permutation b' (seq 1 9) ->
  (forall d, d <= 9 -> rename b' (rename b d) = d) -> comp_d b' (comp_d b a) = a.
Proof.
  intros Pa Pb Pb' E. unfold comp_d. rewrite map_map. rewrite <- (map_id a) at 2. apply map_ext_in. intros d Hd. apply E.
  apply (digits_facts a Pa) in Hd. lia.
Qed.

Lemma scomp_inv b a : sym_ok b -> sym_ok a -> scomp (sinv b) (scomp b a) = a /\ scomp b (scomp (sinv b) a) = a.
Proof.
  intros [Br [Bc Bd]] [Ar [Ac Ad]]. destruct (inv_line _ Br) as [R1 [R2 R3]]. destruct (inv_line _ Bc) as [C1 [C2 C3]].
  destruct (inv_digits _ Bd) as [D1 [D2 D3]]. pose proof (line_length _ Ar). pose proof (line_length _ Ac).
  unfold scomp, sinv. destruct a as [ta ra ca da], b as [tb rb cb db]. cbn [s_tr s_rows s_cols s_digits] in *.
  destruct tb; cbn [s_tr s_rows s_cols s_digits]; rewrite ?negb_involutive; split; f_equal;
    first [apply comp_inv_l; assumption | apply comp_inv_d; assumption].
Qed.

Lemma act_id g : wf_grid g -> act (Sym false (seq 0 9) (seq 0 9) (seq 1 9)) g = g.
Proof.
  intros H. apply grid_ext; [apply act_length | apply H | ]. intros c Hc. rewrite at_act by exact Hc. cbn [s_digits].
  assert (E : source (Sym false (seq 0 9) (seq 0 9) (seq 1 9)) c = c).
  { unfold source. cbn [s_tr s_rows s_cols]. rewrite !seq_nth by lia. lia. }
  rewrite E. pose proof (wf_le g c H). unfold rename. destruct (at_ g c =? 0) eqn:Z; [lia | ]. rewrite seq_nth by lia. lia.
Qed.

Lemma id_ok : sym_ok (Sym false (seq 0 9) (seq 0 9) (seq 1 9)).
Proof. split; [ | split]; cbn [s_rows s_cols s_digits]; try apply seq_line. apply Permutation_refl. Qed.

Lemma scomp_id a : sym_ok a -> scomp a (Sym false (seq 0 9) (seq 0 9) (seq 1 9)) = a.
Proof.
  intros [Ar [Ac Ad]]. pose proof (line_length _ Ar) as Lr. pose proof (line_length _ Ac) as Lc.
  assert (Q : forall l, line_perm l -> comp_l (seq 0 9) l = l).
  { intros l Hl. apply list9_ext; [unfold comp_l; rewrite map_length; apply line_length; exact Hl | apply line_length; exact Hl | ].
    intros i Hi. rewrite nth_comp by (rewrite line_length; assumption). rewrite seq_nth by (apply line_lt; exact Hl). reflexivity. }
  assert (D : comp_d (s_digits a) (seq 1 9) = s_digits a).
  { pose proof (proj1 (digits_facts _ Ad)) as Ld. apply list9_ext; [unfold comp_d; rewrite map_length; apply seq_length | exact Ld | ].
    intros i Hi. unfold comp_d. replace i with (S i - 1) at 1 by lia. rewrite nth_map_seq1 by lia. unfold rename. cbn [Nat.eqb].
    f_equal. lia. }
  unfold scomp. destruct a as [t r c d]. cbn [s_tr s_rows s_cols s_digits negb] in *. rewrite D. destruct t; rewrite !Q by assumption; reflexivity.
Qed.

Lemma act_inv s g : sym_ok s -> wf_grid g -> act (sinv s) (act s g) = g.
Proof.
  intros H Hg. rewrite <- act_scomp by (try apply sinv_ok; assumption).
  rewrite <- (scomp_id s H) at 2. rewrite (proj1 (scomp_inv s _ H id_ok)). apply act_id. exact Hg.
Qed.

Lemma sinv_scomp s : sym_ok s -> scomp s (sinv s) = Sym false (seq 0 9) (seq 0 9) (seq 1 9).
Proof.
  intros H. pose proof (sinv_ok s H) as H'. rewrite <- (scomp_id _ H'). apply scomp_inv; [exact H | apply id_ok].
Qed.

Lemma act_inv' s g : sym_ok s -> wf_grid g -> act s (act (sinv s) g) = g.
Proof.
  intros H Hg. rewrite <- act_scomp by (try apply sinv_ok; assumption). rewrite sinv_scomp by exact H. apply act_id. exact Hg.
Qed.

Lemma act_inj s g g' : sym_ok s -> wf_grid g -> wf_grid g' -> act s g = act s g' -> g = g'.
Proof. intros H Hg Hg' E. rewrite <- (act_inv s g H Hg), E. apply act_inv; assumption. Qed.

Lemma equiv_refl g : wf_grid g -> equivalent g g.
Proof. intros H. exists (Sym false (seq 0 9) (seq 0 9) (seq 1 9)). split; [apply id_ok | apply act_id; exact H]. Qed.

Lemma equiv_sym g g' : wf_grid g -> equivalent g g' -> equivalent g' g.
Proof. intros H [s [Hs <-]]. exists (sinv s). split; [apply sinv_ok; exact Hs | apply act_inv; assumption]. Qed.

Lemma equiv_trans g g' g'' : wf_grid g -> equivalent g g' -> equivalent g' g'' -> equivalent g g''.
Proof. intros H [s [Hs <-]] [s' [Hs' <-]]. exists (scomp s' s). split; [apply scomp_ok; assumption | apply act_scomp; assumption]. Qed.

Lemma equiv_wf g g' : wf_grid g -> equivalent g g' -> wf_grid g'.
Proof. intros H [s [Hs <-]]. apply act_wf; assumption. Qed.

(** * What symmetries preserve *)

Lemma source_peers s c c' : sym_ok s -> c < 81 -> c' < 81 -> (peers (source s c) (source s c') <-> peers c c').
Proof.
  intros [Hr [Hc _]] H H'.
  set (r := c / 9). set (k := c mod 9). set (r' := c' / 9). set (k' := c' mod 9).
  assert (B : r < 9 /\ k < 9 /\ r' < 9 /\ k' < 9) by (unfold r, k, r', k'; lia). destruct B as [B1 [B2 [B3 B4]]].
  assert (Ec : c = 9 * r + k) by (apply Nat.div_mod; lia). assert (Ec' : c' = 9 * r' + k') by (apply Nat.div_mod; lia).
  assert (E : c = c' <-> r = r' /\ k = k') by (clearbody r k r' k'; clear - Ec Ec' B1 B2 B3 B4; lia).
  pose proof (line_chute _ r r' Hr B1 B3) as C1. pose proof (line_chute _ k k' Hc B2 B4) as C2.
  assert (J1 : nth r (s_rows s) 0 = nth r' (s_rows s) 0 <-> r = r') by (split; [apply line_inj; assumption | intros ->; reflexivity]).
  assert (J2 : nth k (s_cols s) 0 = nth k' (s_cols s) 0 <-> k = k') by (split; [apply line_inj; assumption | intros ->; reflexivity]).
  unfold peers, block_of, row_of, col_of, source. fold r k r' k'.
  pose proof (line_lt _ r Hr) as L1. pose proof (line_lt _ r' Hr) as L2. pose proof (line_lt _ k Hc) as L3. pose proof (line_lt _ k' Hc) as L4.
  generalize dependent (nth r (s_rows s) 0). generalize dependent (nth r' (s_rows s) 0).
  generalize dependent (nth k (s_cols s) 0). generalize dependent (nth k' (s_cols s) 0).
  intros y' y x' x C2 J2 L3 C1. intros J1 L1 L2 L4.
  assert (Q1 : forall a b, b < 9 -> (9 * a + b) / 9 = a) by (clear; intros; lia).
  assert (Q2 : forall a b, b < 9 -> (9 * a + b) mod 9 = b) by (clear; intros; lia).
  rewrite E.
  assert (D : forall a b a' b', b < 9 -> b' < 9 -> (9 * a + b = 9 * a' + b' <-> a = a' /\ b = b')) by (clear; intros; lia).
  assert (G : forall a b a' b', b < 3 -> b' < 3 -> (3 * a + b = 3 * a' + b' <-> a = a' /\ b = b')) by (clear; intros; lia).
  destruct (s_tr s); rewrite !Q1, !Q2 by assumption; rewrite D by assumption; rewrite !G by (apply Nat.div_lt_upper_bound; [discriminate | assumption]); tauto.
Qed.

Lemma act_solved s g : sym_ok s -> solved g -> solved (act s g).
Proof.
  intros Hs [L [R V]]. pose proof (proj2 (proj2 Hs)) as Hd. split; [apply act_length | split].
  - intros c Hc. rewrite at_act by exact Hc. apply rename_range; [exact Hd | apply R, source_lt; exact Hs].
  - intros c c' Hc Hc' P. rewrite !at_act by assumption. intros E.
    pose proof (source_lt s c Hs) as S1. pose proof (source_lt s c' Hs) as S2.
    apply rename_inj in E; [ | exact Hd | apply R; assumption | apply R; assumption].
    revert E. apply V; try assumption. apply source_peers; assumption.
Qed.

Lemma act_extends s p q : sym_ok s -> wf_grid p -> extends p q -> extends (act s p) (act s q).
Proof.
  intros Hs Hp H c Hc N. rewrite at_act in * by exact Hc. rewrite at_act by exact Hc. f_equal. apply H; [apply source_lt; exact Hs | ].
  intros E. apply N. rewrite E. reflexivity.
Qed.

Lemma act_solution s p q : sym_ok s -> wf_grid p -> solution_of p q -> solution_of (act s p) (act s q).
Proof. intros Hs Hp [S X]. split; [apply act_solved; assumption | apply act_extends; assumption]. Qed.

Lemma act_solution_iff s p q : sym_ok s -> wf_grid p -> wf_grid q -> (solution_of (act s p) (act s q) <-> solution_of p q).
Proof.
  intros Hs Hp Hq. split; [ | apply act_solution; assumption]. intros H.
  apply (act_solution (sinv s)) in H; [ | apply sinv_ok; exact Hs | apply act_wf; assumption]. rewrite !act_inv in H by assumption. exact H.
Qed.

Lemma act_solved_iff s g : sym_ok s -> wf_grid g -> (solved (act s g) <-> solved g).
Proof.
  intros Hs Hg. split; [ | apply act_solved; exact Hs]. intros H. apply (act_solved (sinv s)) in H; [ | apply sinv_ok; exact Hs].
  rewrite act_inv in H by assumption. exact H.
Qed.

Lemma solution_wf p q : solution_of p q -> wf_grid q.
Proof. intros [[L [R _]] _]. split; [exact L | ]. apply Forall_forall. intros x Hx. apply (In_nth _ _ 0) in Hx. destruct Hx as [c [Hc <-]]. apply R. lia. Qed.

Lemma act_n_solutions s p n : sym_ok s -> wf_grid p -> n_solutions p n -> n_solutions (act s p) n.
Proof.
  intros Hs Hp [l [N [I <-]]]. exists (map (act s) l). split; [ | split].
  - clear Hp. assert (W : forall q, In q l -> wf_grid q) by (intros q Hq; apply (solution_wf p), I, Hq). clear I.
    induction N as [ | q l Hq N IH]; [constructor | ]. cbn [map]. constructor.
    + intros Hi. apply in_map_iff in Hi. destruct Hi as [q' [E Hq']]. apply act_inj in E; [ | exact Hs | apply W; right; exact Hq' | apply W; left; reflexivity].
      subst q'. contradiction.
    + apply IH. intros q' Hq'. apply W. right. exact Hq'.
  - intros q. rewrite in_map_iff. split.
    + intros [q' [<- Hq']]. apply act_solution; try assumption. apply I. exact Hq'.
    + intros Hq. exists (act (sinv s) q). pose proof (solution_wf _ _ Hq) as Wq. split; [apply act_inv'; assumption | ].
      apply I. apply (act_solution (sinv s)) in Hq; [ | apply sinv_ok; exact Hs | apply act_wf; assumption].
      rewrite act_inv in Hq by assumption. exact Hq.
  - apply map_length.
Qed.

Lemma act_unique s p : sym_ok s -> wf_grid p -> (uniquely_solvable (act s p) <-> uniquely_solvable p).
Proof.
  assert (D : forall s p, sym_ok s -> wf_grid p -> uniquely_solvable p -> uniquely_solvable (act s p)).
  { clear. intros s p Hs Hp [q [Hq U]]. exists (act s q). split; [apply act_solution; assumption | ]. intros q' Hq'.
    pose proof (solution_wf _ _ Hq') as W. apply (act_solution (sinv s)) in Hq'; [ | apply sinv_ok; exact Hs | apply act_wf; assumption].
    rewrite act_inv in Hq' by assumption. rewrite <- (U _ Hq'). symmetry. apply act_inv'; assumption. }
  intros Hs Hp. split; [ | apply D; assumption]. intros H. apply (D (sinv s)) in H; [ | apply sinv_ok; exact Hs | apply act_wf; assumption].
  rewrite act_inv in H by assumption. exact H.
Qed.

Lemma source_perm s : sym_ok s -> Permutation (map (source s) (seq 0 81)) (seq 0 81).
Proof.
  intros Hs. apply NoDup_Permutation_bis.
  - apply (NoDup_nth _ 0). rewrite map_length, seq_length. intros i j Hi Hj E. rewrite !nth_map_seq in E by assumption.
    destruct Hs as [Hr [Hc _]]. unfold source in E. pose proof (line_lt _ (i / 9) Hr). pose proof (line_lt _ (j / 9) Hr).
    pose proof (line_lt _ (i mod 9) Hc). pose proof (line_lt _ (j mod 9) Hc).
    assert (nth (i / 9) (s_rows s) 0 = nth (j / 9) (s_rows s) 0 /\ nth (i mod 9) (s_cols s) 0 = nth (j mod 9) (s_cols s) 0) as [E1 E2].
    { destruct (s_tr s); lia. }
    apply line_inj in E1; try lia; [ | exact Hr]. apply line_inj in E2; try lia. exact Hc.
  - rewrite map_length. lia.
  - intros x Hx. apply in_map_iff in Hx. destruct Hx as [c [<- _]]. apply in_seq. pose proof (source_lt s c Hs). lia.
Qed.

Lemma perm_filter_length (f : nat -> bool) a b : Permutation a b -> length (filter f a) = length (filter f b).
Proof.
  intros P. induction P; cbn [filter]; try (repeat destruct (f _); cbn [length]; lia).
Qed.

Lemma filter_map_length (f : nat -> bool) (h : nat -> nat) l : length (filter f (map h l)) = length (filter (fun x => f (h x)) l).
Proof. induction l as [ | x l IH]; [reflexivity | ]. cbn [map filter]. destruct (f (h x)); cbn [length]; rewrite IH; reflexivity. Qed.

Lemma act_clue_count s g : sym_ok s -> wf_grid g -> clue_count (act s g) = clue_count g.
Proof.
  intros Hs Hg. unfold clue_count.
  rewrite <- (perm_filter_length (fun c => negb (at_ g c =? 0)) _ _ (source_perm s Hs)).
  rewrite filter_map_length. assert (F : forall l, (forall c, In c l -> c < 81) ->
    filter (fun c => negb (at_ (act s g) c =? 0)) l = filter (fun c => negb (at_ g (source s c) =? 0)) l).
  { intros l Hl. apply filter_ext_in. intros c Hc. rewrite at_act by (apply Hl; exact Hc). f_equal.
    pose proof (rename_zero (s_digits s) (at_ g (source s c)) (proj2 (proj2 Hs)) (wf_le g _ Hg)). lia. }
  rewrite F; [reflexivity | ]. intros c Hc. apply in_seq in Hc. lia.
Qed.
