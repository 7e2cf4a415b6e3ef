(** The lookup tables meet [TableSpec]. *)
From Coq Require Import List Arith NArith ZArith ZifyNat Lia Bool.
From Verif Require Import TableSpec Tables Solver BitLemmas TableProofs ProcessProofs.
Import ListNotations.
Ltac Zify.zify_post_hook ::= Z.to_euclidean_division_equations.

Lemma clo_possible s t : t < 9 -> (clo (tb s) t = true <-> minirow_possible s t).
Proof.
  intros Ht. rewrite clo_iff. split.
  - intros [p [Hp [E H]]]. exists (fun r => nth r p 0). split; [split | exact E].
    + intros r Hr. split; [apply (perms3_range p r Hp Hr) | apply H; exact Hr].
    + intros r r' Hr Hr'. simpl in Hp.
      destruct Hp as [<- | [<- | [<- | [<- | [<- | [<- | []]]]]]];
        do 3 (destruct r; [do 3 (destruct r'; [simpl; lia | ]); lia | ]); lia.
  - intros [f [[H1 H2] E]]. exists [f 0; f 1; f 2]. split.
    + apply perms3_complete; [intros r Hr; apply H1; exact Hr | ]. intros r r' Hr Hr' N X. apply N, H2; auto.
    + split.
      * assert (Hr : t / 3 < 3) by lia. revert E. destruct (t / 3) as [ | [ | [ | ]]]; simpl; auto; lia.
      * intros r Hr. destruct r as [ | [ | [ | ]]]; try lia; apply (H1 _ Hr).
Qed.

Lemma only_col_mem s x : only_col (tb s) x = true <-> only_column s x.
Proof. rewrite only_col_iff. reflexivity. Qed.

Lemma nat_N x : N.of_nat (N.to_nat x) = x.
Proof. lia. Qed.

Lemma shrink_mask_meaning x : (x < 512)%N -> exists m, shrink_mask x = Ok m /\ (m < 8)%N /\
  forall k, k < 3 -> (mem m k <-> exists j, j < 9 /\ j / 3 = k /\ mem x j).
Proof.
  intros H. eexists. split; [apply shrink_mask_ok; exact H | ]. split; [apply shrink_tbl_lt; lia | ].
  intros k Hk. unfold mem at 1. fold (tb (nth (N.to_nat x) shrink_mask_tbl 0%N) k).
  rewrite shrink_tbl by lia. rewrite nat_N, any_in_stack_iff. split.
  - intros [j [E Hj]]. exists j. split; [lia | auto].
  - intros [j [_ [E Hj]]]. exists j. auto.
Qed.

Lemma locked_same_zero : forallb (fun x => implb (negb (existsb (clo (tb (N.of_nat x))) (seq 0 9)))
   (nth x locked_same_band_tbl 0 =? 0)%N) (seq 0 512) = true.
Proof. vm_compute. reflexivity. Qed.
Lemma locked_same_m27 : forallb (fun x => (nth x locked_same_band_tbl 0 <? 134217728)%N) (seq 0 512) = true.
Proof. vm_compute. reflexivity. Qed.
Lemma locked_neighbor_m27 : forallb (fun x => (nth x locked_neighbor_band_tbl 0 <? 134217728)%N) (seq 0 512) = true.
Proof. vm_compute. reflexivity. Qed.

Lemma locked_same_meaning x : (x < 512)%N -> exists m, locked_same_band x = Ok m /\ (m < 2 ^ 27)%N /\
  (forall i, i < 27 -> mem x (i / 3) -> (mem m i <-> minirow_possible x (i / 3))) /\
  ((forall f, ~ placement_in x f) -> m = 0%N).
Proof.
  intros H. eexists. split; [apply locked_same_ok; exact H | ].
  assert (Hx : N.to_nat x < 512) by lia. split; [ | split].
  - apply N.ltb_lt. apply (sweep1 512 _ locked_same_m27 (N.to_nat x) Hx).
  - intros i Hi Hm. rewrite <- clo_possible by lia. unfold mem at 1.
    fold (tb (nth (N.to_nat x) locked_same_band_tbl 0%N) i).
    rewrite locked_same_tbl by (try lia; rewrite nat_N; exact Hm). rewrite nat_N. reflexivity.
  - intros Hn. pose proof (sweep1 512 _ locked_same_zero (N.to_nat x) Hx) as Z. cbv beta in Z.
    destruct (existsb _ _) eqn:E in Z.
    + apply existsb_exists in E. destruct E as [t [Ht E]]. apply in_seq in Ht. rewrite nat_N in E.
      apply clo_possible in E; [ | lia]. destruct E as [f [Hf _]]. exfalso. apply (Hn f Hf).
    + apply N.eqb_eq. exact Z.
Qed.

Lemma locked_minirows_meaning x : (x < 512)%N -> exists m, locked_minirows x = Ok m /\ (m < 512)%N /\
  forall t, t < 9 -> (mem m t <-> minirow_locked x t).
Proof.
  intros H. eexists. split; [apply locked_minirows_ok; exact H | ].
  split; [apply locked_minirows_tbl_lt; lia | ]. intros t Ht. unfold mem at 1.
  fold (tb (nth (N.to_nat x) locked_minirows_tbl 0%N) t). rewrite locked_minirows_tbl_spec by lia.
  rewrite nat_N, lonely_iff. unfold minirow_locked. rewrite clo_possible by exact Ht.
  split; intros [H1 H2]; (split; [exact H1 | ]); intros t' Ht' Hp; apply H2; auto; apply clo_possible; auto.
Qed.

Lemma column_single_meaning x : (x < 512)%N -> exists m, column_single x = Ok m /\ (m < 512)%N /\
  forall t, t < 9 -> (mem m t <->
    (forall k, k < 3 -> exists j, j < 9 /\ j / 3 = k /\ mem x j) /\ exists j, j < 9 /\ j / 3 = t mod 3 /\ only_column x j).
Proof.
  intros H. eexists. split; [apply column_single_ok; exact H | ].
  split; [apply column_single_tbl_lt; lia | ]. intros t Ht. unfold mem at 1.
  fold (tb (nth (N.to_nat x) column_single_tbl 0%N) t). rewrite column_single_tbl_spec by lia.
  rewrite nat_N, andb_true_iff, forallb_forall, single_in_stack_iff by lia.
  split; intros [H1 H2]; split.
  - intros k Hk. specialize (H1 k ltac:(simpl; lia)). apply any_in_stack_iff in H1. destruct H1 as [j [E Hj]].
    exists j. split; [lia | auto].
  - destruct H2 as [j [Hj [E Ho]]]. exists j. rewrite <- only_col_mem. auto.
  - intros k Hk. simpl in Hk. destruct (H1 k ltac:(lia)) as [j [_ [E Hj]]]. apply any_in_stack_iff. exists j. auto.
  - destruct H2 as [j [Hj [E Ho]]]. exists j. rewrite only_col_mem. auto.
Qed.

Lemma locked_neighbor_meaning x : (x < 512)%N -> exists m, locked_neighbor_bands x = Ok m /\ (m < 2 ^ 27)%N /\
  forall i, i < 27 -> (mem m i <-> ~ only_column x (i mod 9)).
Proof.
  intros H. eexists. split; [apply locked_neighbor_ok; exact H | ]. assert (Hx : N.to_nat x < 512) by lia. split.
  - apply N.ltb_lt. apply (sweep1 512 _ locked_neighbor_m27 (N.to_nat x) Hx).
  - intros i Hi. unfold mem at 1. fold (tb (nth (N.to_nat x) locked_neighbor_band_tbl 0%N) i).
    rewrite locked_neighbor_tbl by lia. rewrite nat_N, negb_true_iff, <- only_col_mem.
    destruct (only_col (tb x) (i mod 9)); split; congruence.
Qed.

Lemma row_mask_meaning x : (x < 8)%N -> exists m, row_mask x = Ok m /\
  forall i, i < 27 -> (mem m i <-> mem x (i / 9)).
Proof.
  intros H. eexists. split; [apply row_mask_ok; exact H | ]. intros i Hi. unfold mem.
  fold (tb (nth (N.to_nat x) row_mask_tbl 0%N) i). rewrite row_mask_tbl_spec by lia. rewrite nat_N. reflexivity.
Qed.

Lemma self_mask_meaning c : c < 81 -> exists m, nonconflicting_cells_same_band c = Ok m /\
  forall i, i < 27 -> (mem m i <->
    i = c mod 27 \/ (i / 9 <> (c mod 27) / 9 /\ (i mod 9) / 3 <> ((c mod 27) mod 9) / 3)).
Proof.
  intros H. eexists. split.
  - unfold nonconflicting_cells_same_band. apply (aget_ok _ _ 0%N). exact H.
  - intros i Hi. unfold mem. fold (tb (nth c self_mask_tbl 0%N) i). rewrite self_mask_tbl_spec by assumption.
    rewrite orb_true_iff, Nat.eqb_eq, negb_true_iff, orb_false_iff, !Nat.eqb_neq. lia.
Qed.

Lemma other_mask_meaning c i : c < 81 -> i < 27 ->
  (mem (nonconflicting_cells_neighbor_bands c) i <-> i mod 9 <> c mod 9).
Proof.
  intros Hc Hi. generalize (neighbor_mask_tbl c i Hc Hi). generalize (nonconflicting_cells_neighbor_bands c).
  intros m E. unfold mem. unfold tb in E. rewrite E.
  rewrite negb_true_iff, Nat.eqb_neq. reflexivity.
Qed.

Lemma neighbor_meaning sb : sb < 27 -> exists a b, neighbor_subbands sb = Ok (a, b) /\
  forall x, x < 27 -> (x = a \/ x = b <-> x / 3 = sb / 3 /\ x <> sb).
Proof.
  intros H. exists (3 * (sb / 3) + (sb mod 3 + 1) mod 3), (3 * (sb / 3) + (sb mod 3 + 2) mod 3). split.
  - unfold neighbor_subbands. rewrite (aget_ok _ _ (0, 0)) by exact H. f_equal.
    rewrite <- (neighbor_tbl (sb / 3) (sb mod 3)) by lia. f_equal. lia.
  - intros x Hx. lia.
Qed.
