(** Bit sets behave like mathematical sets. *)
From Coq Require Import List Arith NArith ZArith ZifyNat Lia Bool Sorted.
From Verif Require Import TableSpec Solver Api Bits BitLemmas ApiProofs.
Import ListNotations.
Ltac Zify.zify_post_hook ::= Z.to_euclidean_division_equations.

(** [m] is a set of elements of type [e]: all its members are in range. *)
Definition is_set (e : elem) (m : N) : Prop := forall i, mem m i -> i < esize e.

Lemma is_set_lt e m : is_set e m <-> (m < 2 ^ N.of_nat (esize e))%N.
Proof.
  split.
  - intros H. apply bits_lt_pow2. intros i Hi. destruct (N.testbit m i) eqn:E; [ | reflexivity]. exfalso.
    specialize (H (N.to_nat i)). unfold mem in H. rewrite N2Nat.id in H. specialize (H E). lia.
  - intros H i Hi. unfold mem in Hi. destruct (Nat.lt_ge_cases i (esize e)) as [L | L]; [exact L | ]. exfalso.
    rewrite (bits_ge_pow2 m (N.of_nat (esize e))) in Hi by (auto; lia). discriminate.
Qed.

Lemma set_all_eq e : set_all e = (2 ^ N.of_nat (esize e) - 1)%N.
Proof. destruct e; vm_compute; reflexivity. Qed.

Lemma size_width e : esize e < ewidth e.
Proof. destruct e; simpl; lia. Qed.

Lemma pow_size_width e : (2 ^ N.of_nat (esize e) < 2 ^ N.of_nat (ewidth e))%N.
Proof. apply N.pow_lt_mono_r; [lia | ]. pose proof (size_width e). lia. Qed.

Lemma pow_pos k : (0 < 2 ^ k)%N.
Proof. apply N.neq_0_lt_0, N.pow_nonzero. lia. Qed.

Lemma mem_ext a b : (forall i, mem a i <-> mem b i) -> a = b.
Proof. intros H. apply tb_ext. intros i. apply eq_true_iff_eq. apply H. Qed.

Lemma tb_ones k i : tb (2 ^ N.of_nat k - 1) i = (i <? k).
Proof.
  rewrite N.sub_1_r, <- N.ones_equiv. unfold tb. destruct (Nat.ltb_spec i k).
  - apply N.ones_spec_low. lia.
  - apply N.ones_spec_high. lia.
Qed.

Lemma tb_snot e m i : tb (snot e m) i = xorb (tb m i) (i <? ewidth e).
Proof. unfold snot. rewrite tb_lxor, tb_ones. reflexivity. Qed.

Lemma mem_and a b i : mem (set_and a b) i <-> mem a i /\ mem b i.
Proof. unfold mem, set_and. rewrite N.land_spec, andb_true_iff. reflexivity. Qed.
Lemma mem_or a b i : mem (set_or a b) i <-> mem a i \/ mem b i.
Proof. unfold mem, set_or. rewrite N.lor_spec, orb_true_iff. reflexivity. Qed.
Lemma mem_xor a b i : mem (set_xor a b) i <-> (mem a i /\ ~ mem b i) \/ (~ mem a i /\ mem b i).
Proof.
  unfold mem, set_xor. rewrite N.lxor_spec.
  destruct (N.testbit a (N.of_nat i)), (N.testbit b (N.of_nat i)); simpl; intuition congruence.
Qed.
Lemma mem_without e a b i : is_set e a -> (mem (set_without e a b) i <-> mem a i /\ ~ mem b i).
Proof.
  intros Ha. unfold mem, set_without. fold (tb (N.land a (snot e b)) i). rewrite tb_land, tb_snot.
  fold (tb a i) (tb b i). destruct (tb a i) eqn:E.
  - apply Ha in E. pose proof (size_width e). replace (i <? ewidth e) with true by (symmetry; apply Nat.ltb_lt; lia).
    destruct (tb b i); simpl; intuition congruence.
  - simpl. intuition congruence.
Qed.
Lemma mem_all e i : mem (set_all e) i <-> i < esize e.
Proof. unfold mem. rewrite set_all_eq. fold (tb (2 ^ N.of_nat (esize e) - 1) i). rewrite tb_ones. apply Nat.ltb_lt. Qed.
Lemma mem_none e i : ~ mem (set_none e) i.
Proof. unfold mem, set_none. rewrite N.bits_0. discriminate. Qed.
Lemma is_set_all e : is_set e (set_all e).
Proof. intros i Hi. apply mem_all. exact Hi. Qed.
Lemma mem_not e a i : is_set e a -> (mem (set_not e a) i <-> i < esize e /\ ~ mem a i).
Proof. intros _. unfold set_not. rewrite mem_without by apply is_set_all. rewrite mem_all. reflexivity. Qed.
Lemma mem_single e x m i : as_set e x = Ok m -> (mem m i <-> i = x).
Proof.
  unfold as_set. destruct (x <? ewidth e); [ | discriminate]. intros [= <-]. unfold mem.
  fold (tb (N.shiftl 1 (N.of_nat x)) i). rewrite tb_shiftl1. apply Nat.eqb_eq.
Qed.
Lemma as_set_total e x : x < esize e -> exists m, as_set e x = Ok m.
Proof.
  intros H. pose proof (size_width e). unfold as_set.
  replace (x <? ewidth e) with true by (symmetry; apply Nat.ltb_lt; lia). eexists. reflexivity.
Qed.

Lemma overlaps_iff e a b : set_overlaps e a b = true <-> exists i, mem a i /\ mem b i.
Proof.
  unfold set_overlaps. rewrite negb_true_iff. split.
  - intros H. destruct (eqb0_tb _ H) as [i Hi]. exists i. apply mem_and. exact Hi.
  - intros [i Hi]. apply mem_and in Hi. apply N.eqb_neq. intros E. rewrite E in Hi. apply (mem_none e i Hi).
Qed.
Lemma contains_iff a b : set_contains a b = true <-> forall i, mem b i -> mem a i.
Proof.
  unfold set_contains. rewrite N.eqb_eq. split.
  - intros E i Hi. rewrite <- E in Hi. apply mem_and in Hi. apply Hi.
  - intros H. apply mem_ext. intros i. rewrite mem_and. firstorder.
Qed.
Lemma contains_elem_ok e a x : x < esize e -> exists b, set_contains_elem e a x = Ok b /\ (b = true <-> mem a x).
Proof.
  intros H. destruct (as_set_total e x H) as [m E]. unfold set_contains_elem. rewrite E. eexists. split; [reflexivity | ].
  rewrite contains_iff. split.
  - intros Hc. apply Hc. apply (mem_single e x m x E). reflexivity.
  - intros Hx i Hi. apply (mem_single e x m i E) in Hi. subst. exact Hx.
Qed.

(** The members of a set in increasing order. *)
Definition members (e : elem) (m : N) : list nat := filter (fun i => N.testbit m (N.of_nat i)) (seq 0 (esize e)).

Lemma members_in e m i : is_set e m -> (In i (members e m) <-> mem m i).
Proof.
  intros H. unfold members. rewrite filter_In, in_seq. unfold mem. split; [tauto | ]. intros Hi. split; [ | exact Hi].
  apply H in Hi. lia.
Qed.

Lemma filter_seq_sorted f n : forall a, StronglySorted lt (filter f (seq a n)).
Proof.
  induction n as [ | n IH]; intros a; [constructor | ]. cbn [seq filter]. destruct (f a); [ | apply IH].
  constructor; [apply IH | ]. apply Forall_forall. intros x Hx. apply filter_In in Hx. destruct Hx as [Hx _].
  apply in_seq in Hx. lia.
Qed.

Lemma members_sorted e m : StronglySorted lt (members e m).
Proof. apply filter_seq_sorted. Qed.

Lemma sorted_unique l : forall l', StronglySorted lt l -> StronglySorted lt l' ->
  (forall x, In x l <-> In x l') -> l = l'.
Proof.
  induction l as [ | a t IH]; intros [ | b t'] S S' H.
  - reflexivity.
  - exfalso. apply (H b). left. reflexivity.
  - exfalso. apply (H a). left. reflexivity.
  - inversion S as [ | ? ? S1 F1]; inversion S' as [ | ? ? S2 F2]; subst. rewrite Forall_forall in F1, F2.
    assert (a = b).
    { destruct (proj1 (H a) (or_introl eq_refl)) as [E | E]; [auto | ].
      destruct (proj2 (H b) (or_introl eq_refl)) as [E' | E']; [auto | ].
      apply F2 in E. apply F1 in E'. lia. }
    subst b. f_equal. apply IH; auto. intros x. split; intros Hx.
    + destruct (proj1 (H x) (or_intror Hx)) as [E | E]; [ | exact E]. apply F1 in Hx. lia.
    + destruct (proj2 (H x) (or_intror Hx)) as [E | E]; [ | exact E]. apply F2 in Hx. lia.
Qed.

Lemma len_members e m : is_set e m -> set_len m = length (members e m).
Proof. intros H. apply is_set_lt in H. apply (count_ones_spec (esize e)). exact H. Qed.

Lemma snot_add e m : is_set e m -> (snot e m + 1 = 2 ^ N.of_nat (ewidth e) - m)%N.
Proof.
  intros H. apply is_set_lt in H. pose proof (pow_size_width e). unfold snot.
  destruct (N.eq_dec m 0) as [-> | Hm].
  - rewrite N.lxor_0_l. pose proof (pow_pos (N.of_nat (ewidth e))). lia.
  - rewrite N.sub_1_r, <- N.ones_equiv. change (N.lxor m (N.ones (N.of_nat (ewidth e)))) with (N.lnot m (N.of_nat (ewidth e))).
    rewrite N.lnot_sub_low by (apply N.log2_lt_pow2; lia). rewrite N.ones_equiv. lia.
Qed.

Lemma construct_ok e i : i < esize e -> construct e i = Ok i.
Proof.
  intros H. unfold construct. destruct e; simpl esize in *; try reflexivity;
  try (replace (i <? _) with true by (symmetry; apply Nat.ltb_lt; lia); reflexivity).
  replace (9 <? i + 1) with false by (symmetry; apply Nat.ltb_ge; lia). reflexivity.
Qed.

Lemma iter_next_spec e m : is_set e m ->
  (m = 0%N /\ iter_next e m = Ok None /\ members e m = []) \/
  (m <> 0%N /\ exists x m', iter_next e m = Ok (Some (x, m')) /\ is_set e m' /\ members e m = x :: members e m').
Proof.
  intros H. unfold iter_next.
  assert (L : (m < 2 ^ N.of_nat (esize e))%N) by (apply is_set_lt; exact H).
  replace (set_all e <? m)%N with false by (symmetry; apply N.ltb_ge; rewrite set_all_eq; lia).
  destruct (N.eqb_spec m 0) as [-> | Hm].
  - left. repeat split. unfold members. generalize (seq 0 (esize e)). intros l.
    induction l as [ | y t IH]; [reflexivity | ]. cbn [filter]. rewrite N.bits_0. exact IH.
  - right. split; [exact Hm | ]. rewrite snot_add by exact H.
    replace (2 ^ N.of_nat (ewidth e) <=? 2 ^ N.of_nat (ewidth e) - m)%N with false
      by (symmetry; apply N.leb_gt; pose proof (pow_size_width e); lia).
    destruct (bit_pos_spec m Hm) as [B1 B2].
    assert (E : N.land m (2 ^ N.of_nat (ewidth e) - m) = (2 ^ N.of_nat (bit_pos m))%N).
    { destruct m; [congruence | ]. apply land_neg_pos. pose proof (pow_size_width e). lia. }
    rewrite E, bit_pos_pow2. assert (Hb : bit_pos m < esize e) by (apply H; exact B1).
    rewrite construct_ok by exact Hb. cbn [bind].
    exists (bit_pos m), (N.lxor m (2 ^ N.of_nat (bit_pos m))). split; [reflexivity | ].
    assert (M : forall i, tb (N.lxor m (2 ^ N.of_nat (bit_pos m))) i = tb m i && negb (i =? bit_pos m)).
    { intros i. rewrite tb_lxor, tb_pow2. destruct (Nat.eqb_spec i (bit_pos m)) as [-> | ].
      - rewrite B1. reflexivity.
      - rewrite xorb_false_r, andb_true_r. reflexivity. }
    split.
    + intros i Hi. specialize (M i). unfold mem in Hi. unfold tb at 1 in M. rewrite Hi in M. symmetry in M.
      apply andb_true_iff in M. apply H. apply M.
    + unfold members. rewrite (filter_seq_first _ (bit_pos m)); [ | lia | intros i Hi; apply (B2 i); lia | exact B1].
      f_equal. apply filter_ext. intros i. symmetry. apply M.
Qed.

Lemma iter_f_spec e : forall fuel m, is_set e m -> length (members e m) < fuel -> iter_f fuel e m = Ok (members e m).
Proof.
  induction fuel as [ | f IH]; intros m H L; [lia | ]. cbn [iter_f].
  destruct (iter_next_spec e m H) as [[-> [E M]] | [_ [x [m' [E [H' M]]]]]]; rewrite E, M; cbn [bind]; [reflexivity | ].
  rewrite IH; [reflexivity | exact H' | ]. rewrite M in L. simpl in L. lia.
Qed.

Lemma iter_exact e m : is_set e m -> set_iter e m = Ok (members e m).
Proof.
  intros H. apply iter_f_spec; [exact H | ]. unfold members. eapply Nat.le_lt_trans; [apply filter_length_le | ].
  rewrite seq_length. destruct e; simpl; lia.
Qed.

Lemma iter_meaning e m : is_set e m -> exists l, set_iter e m = Ok l /\ StronglySorted lt l /\ NoDup l /\
  forall i, In i l <-> mem m i.
Proof.
  intros H. exists (members e m). split; [apply iter_exact; exact H | ]. split; [apply members_sorted | ].
  split; [apply NoDup_filter, seq_NoDup | ]. intros i. apply members_in. exact H.
Qed.

Lemma len_meaning e m l : is_set e m -> NoDup l -> (forall i, In i l <-> mem m i) -> set_len m = length l.
Proof.
  intros H N I. rewrite (len_members e m H). apply Nat.le_antisymm; apply NoDup_incl_length.
  - apply NoDup_filter, seq_NoDup.
  - intros x Hx. apply I. apply (members_in e m x H). exact Hx.
  - exact N.
  - intros x Hx. apply (members_in e m x H). apply I. exact Hx.
Qed.

Lemma is_empty_meaning e m : is_set e m -> (set_is_empty m = true <-> forall i, ~ mem m i).
Proof.
  intros H. unfold set_is_empty. rewrite Nat.eqb_eq, (len_members e m H), length_zero_iff_nil. split.
  - intros E i Hi. apply (members_in e m i H) in Hi. rewrite E in Hi. destruct Hi.
  - intros Hn. destruct (members e m) as [ | x t] eqn:E; [reflexivity | ]. exfalso. apply (Hn x).
    apply (members_in e m x H). rewrite E. left. reflexivity.
Qed.

Lemma is_full_meaning e m : is_set e m -> (set_is_full e m = true <-> forall i, i < esize e -> mem m i).
Proof.
  intros H. unfold set_is_full. rewrite N.eqb_eq. split.
  - intros -> i Hi. apply mem_all. exact Hi.
  - intros Hf. apply mem_ext. intros i. rewrite mem_all. split; [apply H | apply Hf].
Qed.

Lemma from_bits_meaning e m :
  (is_set e m -> from_bits e m = Ok m) /\ (~ is_set e m -> from_bits e m = Panic).
Proof.
  unfold from_bits. rewrite is_set_lt. pose proof (set_all_eq e). pose proof (pow_pos (N.of_nat (esize e))).
  split; intros H1; destruct (N.leb_spec m (set_all e)); auto; lia.
Qed.

Lemma unique_meaning e m : is_set e m ->
  (set_unique e m = Ok UEmpty <-> forall i, ~ mem m i) /\
  (forall x, set_unique e m = Ok (UOk (Some x)) <-> forall i, mem m i <-> i = x) /\
  (set_unique e m = Ok (UOk None) <-> exists i j, mem m i /\ mem m j /\ i <> j).
Proof.
  intros H. unfold set_unique. rewrite (len_members e m H).
  pose proof (fun i => members_in e m i H) as I. pose proof (members_sorted e m) as S.
  destruct (iter_next_spec e m H) as [[-> [E M]] | [_ [x [m' [E [H' M]]]]]].
  - rewrite M in *. cbn [length]. split; [ | split].
    + split; [intros _ i Hi; apply I in Hi; destruct Hi | reflexivity].
    + intros x. split; [discriminate | ]. intros Hx. exfalso. destruct (proj2 (I x)). apply Hx. reflexivity.
    + split; [discriminate | ]. intros [i [j [Hi _]]]. apply I in Hi. destruct Hi.
  - rewrite E. cbn [bind]. destruct (members e m) as [ | y [ | z t]] eqn:M0; [discriminate | | ]; cbn [length].
    + injection M as <- M'. split; [ | split].
      * split; [discriminate | ]. intros Hn. exfalso. apply (Hn y), I. left. reflexivity.
      * intros x. split.
        -- intros [= <-] i. rewrite <- I. simpl. intuition.
        -- intros Hx. f_equal. f_equal. f_equal. apply Hx. apply I. left. reflexivity.
      * split; [discriminate | ]. intros [i [j [Hi [Hj N]]]]. exfalso. apply I in Hi, Hj. simpl in Hi, Hj. intuition congruence.
    + inversion S as [ | ? ? S1 F]; subst. inversion F; subst. split; [ | split].
      * split; [discriminate | ]. intros Hn. exfalso. apply (Hn y), I. left. reflexivity.
      * intros w. split; [discriminate | ]. intros Hw. exfalso.
        assert (y = w) by (apply Hw, I; left; reflexivity). assert (z = w) by (apply Hw, I; right; left; reflexivity). lia.
      * split; [ | reflexivity]. intros _. exists y, z. rewrite <- !I. simpl. repeat split; auto. lia.
Qed.

Lemma one_possibility_meaning e m : is_set e m ->
  (m = 0%N /\ one_possibility e m = Panic) \/
  (exists x, one_possibility e m = Ok x /\ mem m x /\ forall i, mem m i -> x <= i).
Proof.
  intros H. unfold one_possibility.
  pose proof (fun i => members_in e m i H) as I. pose proof (members_sorted e m) as S.
  destruct (iter_next_spec e m H) as [[-> [E M]] | [_ [x [m' [E [H' M]]]]]]; rewrite E; cbn [bind]; [auto | ].
  right. exists x. rewrite M in *. split; [reflexivity | ]. split; [apply I; left; reflexivity | ].
  intros i Hi. apply I in Hi. inversion S as [ | ? ? S1 F]; subst. rewrite Forall_forall in F.
  destruct Hi as [-> | Hi]; [lia | ]. apply F in Hi. lia.
Qed.

Lemma closed_ops e a b : is_set e a -> is_set e b ->
  is_set e (set_and a b) /\ is_set e (set_or a b) /\ is_set e (set_xor a b) /\
  is_set e (set_without e a b) /\ is_set e (set_not e a) /\ is_set e (set_all e) /\ is_set e (set_none e).
Proof.
  intros Ha Hb. repeat split; intros i Hi.
  - apply mem_and in Hi. apply Ha, Hi.
  - apply mem_or in Hi. destruct Hi; auto.
  - apply mem_xor in Hi. destruct Hi as [[X _] | [_ X]]; auto.
  - apply mem_without in Hi; [ | exact Ha]. apply Ha, Hi.
  - apply mem_not in Hi; [ | exact Ha]. apply Hi.
  - apply mem_all. exact Hi.
  - destruct (mem_none e i Hi).
Qed.

Lemma set_algebra e a b : is_set e a -> is_set e b -> forall i,
  (mem (set_and a b) i <-> mem a i /\ mem b i) /\
  (mem (set_or a b) i <-> mem a i \/ mem b i) /\
  (mem (set_xor a b) i <-> (mem a i /\ ~ mem b i) \/ (~ mem a i /\ mem b i)) /\
  (mem (set_without e a b) i <-> mem a i /\ ~ mem b i) /\
  (mem (set_not e a) i <-> i < esize e /\ ~ mem a i) /\
  (mem (set_all e) i <-> i < esize e) /\ ~ mem (set_none e) i.
Proof.
  intros Ha Hb i.
  split; [apply mem_and | ].
  split; [apply mem_or | ].
  split; [apply mem_xor | ].
  split; [apply mem_without; exact Ha | ].
  split; [apply mem_not; exact Ha | ].
  split; [apply mem_all | ].
  apply mem_none.
Qed.

Lemma set_tests e a b : is_set e a -> is_set e b ->
  (set_overlaps e a b = true <-> exists i, mem a i /\ mem b i) /\
  (set_contains a b = true <-> forall i, mem b i -> mem a i) /\
  (set_is_empty a = true <-> forall i, ~ mem a i) /\
  (set_is_full e a = true <-> forall i, i < esize e -> mem a i) /\
  (forall x, x < esize e -> exists c, set_contains_elem e a x = Ok c /\ (c = true <-> mem a x)) /\
  (forall x, x < esize e -> exists m, as_set e x = Ok m /\ forall i, mem m i <-> i = x).
Proof.
  intros Ha Hb.
  split; [apply overlaps_iff | ].
  split; [apply contains_iff | ].
  split; [apply is_empty_meaning with e; exact Ha | ].
  split; [apply is_full_meaning; exact Ha | ].
  split; [intros x; apply contains_elem_ok | ].
  intros x Hx. destruct (as_set_total e x Hx) as [m E]. exists m. split; [exact E | ]. intros i. apply (mem_single e x m i E).
Qed.
