(** Lemmas on bit masks, lists with bounds-checked access and finite sweeps. *)
From Coq Require Import List Arith NArith Lia Bool.
From Verif Require Import Solver.
Import ListNotations.

#[global] Arguments Nat.div : simpl never.
#[global] Arguments Nat.modulo : simpl never.

(** Bit [i] of a mask. *)
Definition tb (m : N) (i : nat) : bool := N.testbit m (N.of_nat i).
#[global] Arguments tb : simpl never.
#[global] Arguments N.land : simpl never.
#[global] Arguments N.lor : simpl never.
#[global] Arguments N.lxor : simpl never.
#[global] Arguments N.ldiff : simpl never.
#[global] Arguments N.shiftl : simpl never.
#[global] Arguments N.shiftr : simpl never.
#[global] Arguments N.pow : simpl never.
#[global] Arguments N.testbit : simpl never.

(** * Finite sweeps *)

Lemma sweep1 n (P : nat -> bool) :
  forallb P (seq 0 n) = true -> forall c, c < n -> P c = true.
Proof.
  intros H c Hc. rewrite forallb_forall in H. apply H. apply in_seq. lia.
Qed.

Lemma sweep2 n m (P : nat -> nat -> bool) :
  forallb (fun x => forallb (P x) (seq 0 m)) (seq 0 n) = true ->
  forall x y, x < n -> y < m -> P x y = true.
Proof.
  intros H x y Hx Hy.
  pose proof (sweep1 n _ H x Hx) as H1. cbv beta in H1.
  apply (sweep1 m _ H1 y Hy).
Qed.

Lemma sweep3 n m k (P : nat -> nat -> nat -> bool) :
  forallb (fun x => forallb (fun y => forallb (P x y) (seq 0 k)) (seq 0 m)) (seq 0 n) = true ->
  forall x y z, x < n -> y < m -> z < k -> P x y z = true.
Proof.
  intros H x y z Hx Hy Hz.
  pose proof (sweep1 n _ H x Hx) as H1. cbv beta in H1.
  apply (sweep2 m k _ H1 y z Hy Hz).
Qed.

(** * Masks below a power of two *)

Lemma bits_lt_pow2 (m : N) (n : N) :
  (forall i, (n <= i)%N -> N.testbit m i = false) -> (m < 2 ^ n)%N.
Proof.
  intros H. assert (m mod 2 ^ n = m)%N.
  { apply N.bits_inj. intros i. destruct (N.lt_ge_cases i n) as [Hi | Hi].
    - rewrite N.mod_pow2_bits_low by lia. reflexivity.
    - rewrite N.mod_pow2_bits_high by lia. symmetry. apply H. lia. }
  rewrite <- H0. apply N.mod_lt. apply N.pow_nonzero. lia.
Qed.

Lemma bits_ge_pow2 (m : N) (n i : N) :
  (m < 2 ^ n)%N -> (n <= i)%N -> N.testbit m i = false.
Proof.
  intros H Hi. rewrite <- (N.mod_small m (2 ^ n)) by lia.
  apply N.mod_pow2_bits_high. lia.
Qed.

Definition m27 (m : N) : Prop := (m < 2 ^ 27)%N.
Definition m9 (m : N) : Prop := (m < 2 ^ 9)%N.

Lemma tb_high27 m i : m27 m -> 27 <= i -> tb m i = false.
Proof. intros H Hi. apply (bits_ge_pow2 m 27); [exact H | lia]. Qed.

Lemma m27_intro m : (forall i, 27 <= i -> tb m i = false) -> m27 m.
Proof.
  intros H. apply bits_lt_pow2. intros i Hi.
  specialize (H (N.to_nat i)). unfold tb in H. rewrite N2Nat.id in H. apply H. lia.
Qed.

Lemma tb_ext m m' : (forall i, tb m i = tb m' i) -> m = m'.
Proof.
  intros H. apply N.bits_inj. intros i. specialize (H (N.to_nat i)).
  unfold tb in H. rewrite N2Nat.id in H. exact H.
Qed.

Lemma tb_ext27 m m' : m27 m -> m27 m' -> (forall i, i < 27 -> tb m i = tb m' i) -> m = m'.
Proof.
  intros Hm Hm' H. apply tb_ext. intros i. destruct (Nat.lt_ge_cases i 27) as [Hi | Hi].
  - auto.
  - rewrite !tb_high27 by auto. reflexivity.
Qed.

Lemma tb_0 i : tb 0 i = false.
Proof. apply N.bits_0. Qed.

Lemma tb_land a b i : tb (N.land a b) i = tb a i && tb b i.
Proof. apply N.land_spec. Qed.
Lemma tb_lor a b i : tb (N.lor a b) i = tb a i || tb b i.
Proof. apply N.lor_spec. Qed.
Lemma tb_lxor a b i : tb (N.lxor a b) i = xorb (tb a i) (tb b i).
Proof. apply N.lxor_spec. Qed.
Lemma tb_ldiff a b i : tb (N.ldiff a b) i = tb a i && negb (tb b i).
Proof. apply N.ldiff_spec. Qed.
Lemma tb_shiftr a k i : tb (N.shiftr a (N.of_nat k)) i = tb a (i + k).
Proof. unfold tb. rewrite N.shiftr_spec by lia. f_equal. lia. Qed.
Lemma tb_shiftl_high a k i : k <= i -> tb (N.shiftl a (N.of_nat k)) i = tb a (i - k).
Proof. intros. unfold tb. rewrite N.shiftl_spec_high' by lia. f_equal. lia. Qed.
Lemma tb_shiftl_low a k i : i < k -> tb (N.shiftl a (N.of_nat k)) i = false.
Proof. intros. unfold tb. apply N.shiftl_spec_low. lia. Qed.

Lemma tb_pow2 k i : tb (2 ^ N.of_nat k) i = (i =? k).
Proof.
  unfold tb. destruct (Nat.eqb_spec i k) as [-> | H].
  - apply N.pow2_bits_true.
  - apply N.pow2_bits_false. lia.
Qed.

Lemma shiftl_1 k : N.shiftl 1 (N.of_nat k) = (2 ^ N.of_nat k)%N.
Proof. rewrite N.shiftl_mul_pow2. lia. Qed.

Lemma tb_shiftl1 k i : tb (N.shiftl 1 (N.of_nat k)) i = (i =? k).
Proof. rewrite shiftl_1. apply tb_pow2. Qed.

Lemma tb_LOW9 i : tb LOW9 i = (i <? 9).
Proof.
  destruct (Nat.ltb_spec i 9).
  - do 9 (destruct i; [reflexivity | ]). lia.
  - apply (bits_ge_pow2 LOW9 9); [reflexivity | lia].
Qed.

Lemma tb_ALL i : tb ALL i = (i <? 27).
Proof.
  destruct (Nat.ltb_spec i 27).
  - do 27 (destruct i; [reflexivity | ]). lia.
  - apply (bits_ge_pow2 ALL 27); [reflexivity | lia].
Qed.

Lemma m27_ALL : m27 ALL.
Proof. reflexivity. Qed.
Lemma m27_0 : m27 0.
Proof. reflexivity. Qed.
Lemma m27_land_l a b : m27 a -> m27 (N.land a b).
Proof.
  intros H. apply m27_intro. intros i Hi. rewrite tb_land, (tb_high27 a) by auto. reflexivity.
Qed.
Lemma m27_land_r a b : m27 b -> m27 (N.land a b).
Proof. rewrite N.land_comm. apply m27_land_l. Qed.
Lemma m27_ldiff a b : m27 a -> m27 (N.ldiff a b).
Proof.
  intros H. apply m27_intro. intros i Hi. rewrite tb_ldiff, (tb_high27 a) by auto. reflexivity.
Qed.
Lemma m27_lor a b : m27 a -> m27 b -> m27 (N.lor a b).
Proof.
  intros H H'. apply m27_intro. intros i Hi.
  rewrite tb_lor, (tb_high27 a), (tb_high27 b) by auto. reflexivity.
Qed.
Lemma m27_lxor a b : m27 a -> m27 b -> m27 (N.lxor a b).
Proof.
  intros H H'. apply m27_intro. intros i Hi.
  rewrite tb_lxor, (tb_high27 a), (tb_high27 b) by auto. reflexivity.
Qed.
Lemma m27_pow2 k : k < 27 -> m27 (2 ^ N.of_nat k).
Proof.
  intros H. apply m27_intro. intros i Hi. rewrite tb_pow2. apply Nat.eqb_neq. lia.
Qed.

Lemma land_pow2_zero p k : (N.land p (2 ^ N.of_nat k) =? 0)%N = negb (tb p k).
Proof.
  destruct (N.eqb_spec (N.land p (2 ^ N.of_nat k)) 0) as [H | H].
  - assert (E : tb (N.land p (2 ^ N.of_nat k)) k = false) by (rewrite H; apply tb_0).
    rewrite tb_land, tb_pow2, Nat.eqb_refl, andb_true_r in E. rewrite E. reflexivity.
  - destruct (tb p k) eqn:E; [reflexivity | ]. exfalso. apply H. apply tb_ext. intros i.
    rewrite tb_land, tb_pow2, tb_0. destruct (Nat.eqb_spec i k) as [-> | ].
    + rewrite E. reflexivity.
    + apply andb_false_r.
Qed.

Lemma eqb0_tb m : (m =? 0)%N = false -> exists i, tb m i = true.
Proof.
  intros H. apply N.eqb_neq in H. exists (N.to_nat (N.log2 m)).
  unfold tb. rewrite N2Nat.id. apply N.bit_log2. exact H.
Qed.

(** * Lowest bit and mask iteration *)

Lemma ctz_pos_spec p :
  N.testbit (Npos p) (N.of_nat (ctz_pos p)) = true /\
  forall i, i < ctz_pos p -> N.testbit (Npos p) (N.of_nat i) = false.
Proof.
  induction p as [p IH | p IH | ]; simpl ctz_pos.
  - split; [reflexivity | intros i Hi; lia].
  - destruct IH as [IH1 IH2]. split.
    + rewrite Nat2N.inj_succ. change (Npos p~0) with (2 * Npos p)%N.
      rewrite N.testbit_even_succ by lia. exact IH1.
    + intros i Hi. destruct i; [reflexivity | ].
      rewrite Nat2N.inj_succ. change (Npos p~0) with (2 * Npos p)%N.
      rewrite N.testbit_even_succ by lia. apply IH2. lia.
  - split; [reflexivity | intros i Hi; lia].
Qed.

Lemma bit_pos_spec m : m <> 0%N ->
  tb m (bit_pos m) = true /\ forall i, i < bit_pos m -> tb m i = false.
Proof. destruct m; [congruence | ]. intros _. apply ctz_pos_spec. Qed.

Lemma bit_pos_pow2 k : bit_pos (2 ^ N.of_nat k) = k.
Proof.
  assert (H : (2 ^ N.of_nat k)%N <> 0%N) by (apply N.pow_nonzero; lia).
  destruct (bit_pos_spec _ H) as [H1 H2]. rewrite tb_pow2 in H1. apply Nat.eqb_eq in H1. exact H1.
Qed.

Lemma m32_lnot m : (m < 2 ^ 32)%N -> N.lxor m 4294967295 = (2 ^ 32 - 1 - m)%N.
Proof.
  intros H. change 4294967295%N with (N.ones 32).
  destruct (N.eq_dec m 0) as [-> | Hm]; [reflexivity | ].
  change (N.lxor m (N.ones 32)) with (N.lnot m 32).
  rewrite N.lnot_sub_low.
  - reflexivity.
  - apply N.log2_lt_pow2; lia.
Qed.

(** [m & (2^n - m)] isolates the lowest bit *)
Lemma land_neg_pos p : forall n, (Npos p < 2 ^ n)%N ->
  N.land (Npos p) (2 ^ n - Npos p) = (2 ^ N.of_nat (ctz_pos p))%N.
Proof.
  induction p as [p IH | p IH | ]; intros n Hn.
  - simpl ctz_pos. change (2 ^ N.of_nat 0)%N with 1%N.
    assert (Hn0 : (n <> 0)%N) by (intros ->; simpl in Hn; lia).
    replace n with (N.succ (N.pred n)) in * by lia. set (k := N.pred n) in *.
    rewrite N.pow_succ_r' in *.
    replace (2 * 2 ^ k - Npos p~1)%N with (2 * (2 ^ k - 1 - Npos p) + 1)%N by lia.
    change (Npos p~1) with (2 * Npos p + 1)%N.
    assert (Hp : (Npos p < 2 ^ k)%N) by lia.
    apply N.bits_inj. intros i. rewrite N.land_spec.
    destruct (N.eq_dec i 0) as [-> | Hi].
    + rewrite !N.testbit_odd_0. reflexivity.
    + replace i with (N.succ (N.pred i)) by lia.
      rewrite !N.testbit_odd_succ by lia.
      change 1%N with (2 ^ 0)%N at 2. rewrite N.pow2_bits_false by lia.
      replace (2 ^ k - 1 - Npos p)%N with (N.ones k - Npos p)%N
        by (rewrite N.ones_equiv; lia).
      rewrite <- N.lnot_sub_low by (apply N.log2_lt_pow2; lia).
      destruct (N.lt_ge_cases (N.pred i) k) as [H | H].
      * rewrite N.lnot_spec_low by lia. destruct (N.testbit (Npos p) (N.pred i)); reflexivity.
      * rewrite (bits_ge_pow2 (Npos p) k) by lia. reflexivity.
  - simpl ctz_pos. rewrite Nat2N.inj_succ, N.pow_succ_r'.
    assert (Hn0 : (n <> 0)%N) by (intros ->; simpl in Hn; lia).
    replace n with (N.succ (N.pred n)) in * by lia. set (k := N.pred n) in *.
    rewrite N.pow_succ_r' in *.
    rewrite <- (IH k) by lia.
    replace (2 * 2 ^ k - Npos p~0)%N with (2 * (2 ^ k - Npos p))%N by lia.
    change (Npos p~0) with (2 * Npos p)%N.
    rewrite <- !N.double_spec. apply N.bits_inj. intros i. rewrite N.land_spec.
    destruct (N.eq_dec i 0) as [-> | Hi].
    + rewrite !N.double_spec, !N.testbit_even_0. reflexivity.
    + replace i with (N.succ (N.pred i)) by lia.
      rewrite !N.double_spec, !N.testbit_even_succ by lia. rewrite N.land_spec. reflexivity.
  - simpl ctz_pos. change (2 ^ N.of_nat 0)%N with 1%N.
    assert (Hn0 : (n <> 0)%N) by (intros ->; simpl in Hn; lia).
    replace n with (N.succ (N.pred n)) in * by lia. set (k := N.pred n) in *.
    rewrite N.pow_succ_r' in *.
    replace (2 * 2 ^ k - 1)%N with (2 * (2 ^ k - 1) + 1)%N by lia.
    change 1%N with (2 * 0 + 1)%N at 1.
    apply N.bits_inj. intros i. rewrite N.land_spec.
    destruct (N.eq_dec i 0) as [-> | Hi].
    + rewrite !N.testbit_odd_0. reflexivity.
    + replace i with (N.succ (N.pred i)) by lia.
      rewrite !N.testbit_odd_succ by lia.
      change 1%N with (2 ^ 0)%N at 2. rewrite N.pow2_bits_false by lia.
      rewrite N.bits_0. reflexivity.
Qed.

Lemma lowest_bit_spec m : (m < 2 ^ 32)%N -> m <> 0%N -> lowest_bit m = (2 ^ N.of_nat (bit_pos m))%N.
Proof.
  intros H H0. unfold lowest_bit. rewrite m32_lnot by exact H.
  replace (2 ^ 32 - 1 - m + 1)%N with (2 ^ 32 - m)%N by lia.
  destruct m; [congruence | ]. apply land_neg_pos. exact H.
Qed.

Lemma m27_32 m : m27 m -> (m < 2 ^ 32)%N.
Proof. unfold m27. intros. change (2 ^ 32)%N with 4294967296%N. change (2^27)%N with 134217728%N in *. lia. Qed.

Lemma filter_length_le {A} (f : A -> bool) l : length (filter f l) <= length l.
Proof. induction l as [ | a t IH]; simpl; [lia | ]. destruct (f a); simpl; lia. Qed.

(** Positions of the bits set in a mask, ascending. *)
Definition bits (m : N) : list nat := filter (tb m) (seq 0 27).

Lemma in_bits m i : m27 m -> (In i (bits m) <-> tb m i = true).
Proof.
  intros Hm. unfold bits. rewrite filter_In, in_seq. split.
  - intros [_ H]. exact H.
  - intros H. split; [ | exact H]. destruct (Nat.lt_ge_cases i 27); [lia | ].
    rewrite tb_high27 in H by auto. discriminate.
Qed.

Lemma NoDup_bits m : NoDup (bits m).
Proof. apply NoDup_filter. apply seq_NoDup. Qed.

Lemma bits_length_le m : length (bits m) <= 27.
Proof.
  unfold bits. etransitivity; [apply filter_length_le | ]. rewrite seq_length. lia.
Qed.

Lemma filter_seq_first f k n : forall a, a <= k < a + n ->
  (forall i, a <= i < k -> f i = false) -> f k = true ->
  filter f (seq a n) = k :: filter (fun i => f i && negb (i =? k)) (seq a n).
Proof.
  induction n as [ | n IH]; intros a Hk Hlt Hf; [lia | ]. simpl.
  destruct (Nat.eq_dec a k) as [-> | Hne].
  - rewrite Hf, Nat.eqb_refl. simpl. f_equal.
    apply filter_ext_in. intros i Hi. apply in_seq in Hi.
    replace (i =? k) with false by (symmetry; apply Nat.eqb_neq; lia).
    rewrite andb_true_r. reflexivity.
  - rewrite (Hlt a) by lia. simpl. apply IH; [lia | | exact Hf].
    intros i Hi. apply Hlt. lia.
Qed.

Lemma bits_cons m : m27 m -> m <> 0%N ->
  bits m = bit_pos m :: bits (N.lxor m (2 ^ N.of_nat (bit_pos m))).
Proof.
  intros Hm H0. destruct (bit_pos_spec m H0) as [H1 H2].
  assert (Hlt : bit_pos m < 27).
  { destruct (Nat.lt_ge_cases (bit_pos m) 27); [lia | ]. rewrite tb_high27 in H1 by auto. discriminate. }
  unfold bits at 1. rewrite (filter_seq_first (tb m) (bit_pos m)); [ | lia | | exact H1].
  - f_equal. unfold bits. apply filter_ext. intros i. rewrite tb_lxor, tb_pow2.
    destruct (Nat.eqb_spec i (bit_pos m)) as [-> | ].
    + rewrite H1. reflexivity.
    + simpl. rewrite andb_true_r, xorb_false_r. reflexivity.
  - intros i Hi. apply H2. lia.
Qed.

Lemma bit_pos_lt27 m : m27 m -> m <> 0%N -> bit_pos m < 27.
Proof.
  intros Hm H0. destruct (bit_pos_spec m H0) as [H1 _].
  destruct (Nat.lt_ge_cases (bit_pos m) 27); [lia | ]. rewrite tb_high27 in H1 by auto. discriminate.
Qed.

Lemma mask_iter_f_spec fuel : forall m, m27 m -> length (bits m) <= fuel ->
  mask_iter_f fuel m = Ok (map (fun i => 2 ^ N.of_nat i)%N (bits m)).
Proof.
  induction fuel as [ | f IH]; intros m Hm Hlen.
  - simpl. destruct (N.eqb_spec m 0) as [-> | H0]; [reflexivity | ].
    rewrite bits_cons in Hlen by auto. simpl in Hlen. lia.
  - simpl. destruct (N.eqb_spec m 0) as [-> | H0]; [reflexivity | ].
    rewrite lowest_bit_spec; [ | apply m27_32; auto | auto].
    rewrite (bits_cons m) in Hlen |- * by auto.
    simpl in Hlen. rewrite IH; [reflexivity | | lia].
    apply m27_lxor; [auto | apply m27_pow2; apply bit_pos_lt27; auto].
Qed.

Lemma mask_iter_spec m : m27 m ->
  mask_iter m = Ok (map (fun i => 2 ^ N.of_nat i)%N (bits m)).
Proof.
  intros H. apply mask_iter_f_spec; [exact H | ]. pose proof (bits_length_le m). lia.
Qed.

Lemma mask_first_spec m : m27 m ->
  match mask_first m with
  | None => m = 0%N
  | Some b => exists i, i < 27 /\ tb m i = true /\ b = (2 ^ N.of_nat i)%N
  end.
Proof.
  intros H. unfold mask_first. destruct (N.eqb_spec m 0) as [ | H0]; [assumption | ].
  exists (bit_pos m). split; [apply bit_pos_lt27; auto | ].
  split; [apply bit_pos_spec; auto | ]. apply lowest_bit_spec; [apply m27_32; auto | auto].
Qed.

Lemma popcount1_pow2 k : k < 27 -> popcount1 (2 ^ N.of_nat k) = true.
Proof.
  intros H. unfold popcount1.
  assert (H0 : (2 ^ N.of_nat k)%N <> 0%N) by (apply N.pow_nonzero; lia).
  rewrite lowest_bit_spec; [ | apply m27_32, m27_pow2; auto | auto].
  rewrite bit_pos_pow2, N.lxor_nilpotent. apply N.eqb_neq in H0. rewrite H0. reflexivity.
Qed.

(** * Lists *)

Lemma lset_length {A} (l : list A) : forall i x, length (lset l i x) = length l.
Proof. induction l; intros [ | i] x; simpl; auto. Qed.

Lemma nth_lset {A} (l : list A) : forall i x j d, i < length l ->
  nth j (lset l i x) d = if j =? i then x else nth j l d.
Proof.
  induction l as [ | h t IH]; intros i x j d Hi; simpl in Hi; [lia | ].
  destruct i as [ | i], j as [ | j]; simpl; try reflexivity. apply IH. lia.
Qed.

Lemma aget_ok {A} (l : list A) i d : i < length l -> aget l i = Ok (nth i l d).
Proof.
  intros H. unfold aget. rewrite (nth_error_nth' l d) by exact H. reflexivity.
Qed.

Lemma aset_ok {A} (l : list A) i x : i < length l -> aset l i x = Ok (lset l i x).
Proof. intros H. unfold aset. apply Nat.ltb_lt in H. rewrite H. reflexivity. Qed.

Lemma amod_ok l i f : i < length l -> amod l i f = Ok (lset l i (f (nth i l 0%N))).
Proof.
  intros H. unfold amod. rewrite (aget_ok _ _ 0%N) by exact H. simpl. apply aset_ok. exact H.
Qed.

Lemma for_each_app {A S} (l1 l2 : list A) (f : A -> S -> res S) s :
  for_each (l1 ++ l2) f s = bind (for_each l1 f s) (for_each l2 f).
Proof.
  revert s. induction l1 as [ | a t IH]; intros s; simpl; [reflexivity | ].
  destruct (f a s); simpl; auto.
Qed.

(** A loop whose body is total, as a fold. *)
Lemma for_each_fold {A S} (l : list A) (f : A -> S -> res S) (g : A -> S -> S) (Inv : S -> Prop) :
  (forall a s, In a l -> Inv s -> f a s = Ok (g a s) /\ Inv (g a s)) ->
  forall s, Inv s -> for_each l f s = Ok (fold_left (fun s a => g a s) l s) /\
                     Inv (fold_left (fun s a => g a s) l s).
Proof.
  induction l as [ | a t IH]; intros H s Hs; simpl; [auto | ].
  destruct (H a s (or_introl eq_refl) Hs) as [E Hg]. rewrite E. simpl.
  apply IH; [ | exact Hg]. intros b s' Hb. apply H. right. exact Hb.
Qed.
