(** Proofs about Canon: the search for minimal first bands, the canonical form, the number of automorphisms. *)
From Coq Require Import List Arith NArith ZArith ZifyNat ZifyN ZifyBool Lia Bool Permutation.
From Verif Require Import Spec CanonSpec Solver Parse Canon BitLemmas GridProofs GenProofs EquivProofs TransProofs MinlexProofs.
Import ListNotations.
Ltac Zify.zify_post_hook ::= Z.to_euclidean_division_equations.

(** * Bands *)

Definition CB (h : grid) (b : nat) (rp : p3) (k : list nat) : list nat :=
  map (fun c => at_ h (9 * (3 * b + nth (c / 9) (p3l rp) 0) + nth (c mod 9) k 0)) (seq 0 27).

Lemma CB_length h b rp k : length (CB h b rp k) = 27.
Proof. unfold CB. rewrite map_length. apply seq_length. Qed.

Lemma nth_CB h b rp k c : c < 27 -> nth c (CB h b rp k) 0 = at_ h (9 * (3 * b + nth (c / 9) (p3l rp) 0) + nth (c mod 9) k 0).
Proof. intros H. apply (nth_map_seq (fun c => at_ h (9 * (3 * b + nth (c / 9) (p3l rp) 0) + nth (c mod 9) k 0)) 27 c 0 H). Qed.

Lemma p3l_lt p i : p3ok p -> i < 3 -> nth i (p3l p) 0 < 3.
Proof.
  intros Hp Hi. assert (I : In (nth i (p3l p) 0) (p3l p)) by (apply nth_In; rewrite (Permutation_length (p3l_perm p Hp)); exact Hi).
  apply (Permutation_in _ (p3l_perm p Hp)) in I. generalize dependent (nth i (p3l p) 0). intros x I. cbn in I. lia.
Qed.

Lemma p3l_inj p i j : p3ok p -> i < 3 -> j < 3 -> nth i (p3l p) 0 = nth j (p3l p) 0 -> i = j.
Proof.
  intros Hp Hi Hj E. pose proof (p3l_perm p Hp) as P. apply (proj1 (NoDup_nth (p3l p) 0)); try (rewrite (Permutation_length P); assumption); [ | exact E].
  apply (Permutation_NoDup (Permutation_sym P)). apply nodupb_iff. reflexivity.
Qed.

Definition bvalid (E : list nat) : Prop :=
  (forall i, i < 27 -> 1 <= nth i E 0 <= 9) /\
  (forall i j, i < 27 -> j < 27 -> i <> j -> i / 9 = j / 9 \/ (i mod 9) / 3 = (j mod 9) / 3 -> nth i E 0 <> nth j E 0).

Lemma CB_valid h b rp k : solved h -> b < 3 -> p3ok rp -> line_perm k -> bvalid (CB h b rp k).
Proof.
  intros S Hb Hr Hk.
  assert (L : forall i, i < 27 -> nth (i / 9) (p3l rp) 0 < 3 /\ nth (i mod 9) k 0 < 9).
  { intros i Hi. split; [apply p3l_lt; [exact Hr | lia] | apply line_lt; exact Hk]. }
  split.
  - intros i Hi. rewrite nth_CB by exact Hi. destruct (L i Hi). apply S. lia.
  - intros i j Hi Hj N P. rewrite !nth_CB by assumption. destruct (L i Hi) as [L1 L2]. destruct (L j Hj) as [L3 L4].
    assert (Mi : i mod 9 < 9) by lia. assert (Mj : j mod 9 < 9) by lia. assert (Di : i / 9 < 3) by lia. assert (Dj : j / 9 < 3) by lia.
    assert (Q : i / 9 = j / 9 -> i mod 9 = j mod 9 -> False) by lia.
    pose proof (p3l_inj rp _ _ Hr Di Dj) as J1. pose proof (line_inj k _ _ Hk Mi Mj) as J2. pose proof (line_chute k _ _ Hk Mi Mj) as J3.
    assert (J4 : i / 9 = j / 9 -> nth (i / 9) (p3l rp) 0 = nth (j / 9) (p3l rp) 0) by (intros ->; reflexivity).
    generalize dependent (nth (i / 9) (p3l rp) 0). generalize dependent (nth (j / 9) (p3l rp) 0).
    generalize dependent (nth (i mod 9) k 0). generalize dependent (nth (j mod 9) k 0).
    intros y L4 y' L2. intros J2 J3 x L3 x' L1. intros J1 J4.
    apply S; try lia. split.
    + intros E. assert (x' = x /\ y' = y) as [E1 E2] by lia. auto.
    + unfold block_of, row_of, col_of.
      replace ((9 * (3 * b + x') + y') / 9) with (3 * b + x') by lia. replace ((9 * (3 * b + x) + y) / 9) with (3 * b + x) by lia.
      replace ((9 * (3 * b + x') + y') mod 9) with y' by lia. replace ((9 * (3 * b + x) + y) mod 9) with y by lia.
      replace ((3 * b + x') / 3) with b by lia. replace ((3 * b + x) / 3) with b by lia.
      destruct P as [P | P]; [left; rewrite J4 by exact P; reflexivity | right; right; pose proof (proj2 J3 P) as Q3; clear - Q3 L1 L2 L3 L4; lia].
Qed.

Lemma firstn_nth (l : list nat) n i : i < n -> nth i (firstn n l) 0 = nth i l 0.
Proof.
  revert l i. induction n as [ | n IH]; intros l i H; [lia | ]. destruct l as [ | x l]; [rewrite firstn_nil; destruct i; reflexivity | ].
  cbn [firstn]. destruct i as [ | i]; [reflexivity | ]. cbn [nth]. apply IH. lia.
Qed.

Lemma skipn_nth (l : list nat) n i : nth i (skipn n l) 0 = nth (n + i) l 0.
Proof.
  revert l. induction n as [ | n IH]; intros l; [reflexivity | ]. destruct l as [ | x l]; [cbn [skipn]; destruct i; reflexivity | ].
  cbn [skipn Nat.add nth]. apply IH.
Qed.

Lemma row1_perm E : length E = 27 -> bvalid E -> Permutation (firstn 9 E) (seq 1 9).
Proof.
  intros L [R V]. assert (L9 : length (firstn 9 E) = 9) by (rewrite firstn_length, L; reflexivity).
  apply NoDup_Permutation_bis.
  - apply (NoDup_nth _ 0). rewrite L9. intros i j Hi Hj Eq. rewrite !firstn_nth in Eq by assumption.
    destruct (Nat.eq_dec i j) as [H | N]; [exact H | exfalso]. revert Eq. apply V; lia.
  - rewrite L9, seq_length. lia.
  - intros x Hx. apply (In_nth _ _ 0) in Hx. destruct Hx as [i [Hi <-]]. rewrite L9 in Hi. rewrite firstn_nth by exact Hi. apply in_seq.
    specialize (R i ltac:(lia)). lia.
Qed.

(** ** Operations on bands *)

Lemma CB_col_op op l h b rp k : natural op -> line_perm l ->
  op (seq 0 27) = Ok (map (fun c => 9 * (c / 9) + nth (c mod 9) l 0) (seq 0 27)) ->
  op (CB h b rp k) = Ok (CB h b rp (comp_l k l)).
Proof.
  intros N Hl E. rewrite (natural_apply 27 op _ _ N E) by apply CB_length. f_equal. unfold CB at 2. rewrite map_map. apply map_ext_in.
  intros c Hc. apply in_seq in Hc. pose proof (line_lt l (c mod 9) Hl). rewrite nth_CB by lia.
  rewrite nth_comp by (rewrite ?(line_length l Hl); lia). generalize dependent (nth (c mod 9) l 0). intros y Hy.
  replace ((9 * (c / 9) + y) / 9) with (c / 9) by lia. replace ((9 * (c / 9) + y) mod 9) with y by lia. reflexivity.
Qed.

Lemma CB_row_op op rp h b k : natural op -> p3ok rp ->
  op (seq 0 27) = Ok (map (fun c => 9 * nth (c / 9) (p3l rp) 0 + c mod 9) (seq 0 27)) ->
  op (CB h b id3 k) = Ok (CB h b rp k).
Proof.
  intros N Hr E. rewrite (natural_apply 27 op _ _ N E) by apply CB_length. f_equal. unfold CB at 2. rewrite map_map. apply map_ext_in.
  intros c Hc. apply in_seq in Hc. pose proof (p3l_lt rp (c / 9) Hr ltac:(lia)) as L. rewrite nth_CB by lia.
  assert (E1 : (9 * nth (c / 9) (p3l rp) 0 + c mod 9) / 9 = nth (c / 9) (p3l rp) 0) by lia.
  assert (E2 : (9 * nth (c / 9) (p3l rp) 0 + c mod 9) mod 9 = c mod 9) by lia. rewrite E1, E2.
  destruct (nth (c / 9) (p3l rp) 0) as [ | [ | [ | x]]]; [reflexivity | reflexivity | reflexivity | lia].
Qed.

Definition colmap (l : list nat) : res (list nat) := Ok (map (fun c => 9 * (c / 9) + nth (c mod 9) l 0) (seq 0 27)).

Lemma stack0_op fb h b rp k : fb < 3 -> swap_stack_in_band (CB h b rp k) 0 fb = Ok (CB h b rp (comp_l k (lp3 (fb, 0) id3 id3 id3))).
Proof.
  intros H. apply (CB_col_op (fun l => swap_stack_in_band l 0 fb)); [apply natural_stack_in_band | apply lp_line1; split; cbn; lia | ].
  apply res_eqb_ok. apply (sweep1 3 (fun fb => res_eqb (swap_stack_in_band (seq 0 27) 0 fb) (colmap (lp3 (fb, 0) id3 id3 id3)))); [vm_compute; reflexivity | exact H].
Qed.

Lemma stack1_op x h b rp k : x < 2 -> swap_stack_in_band (CB h b rp k) 1 (1 + x) = Ok (CB h b rp (comp_l k (lp3 (0, x) id3 id3 id3))).
Proof.
  intros H. apply (CB_col_op (fun l => swap_stack_in_band l 1 (1 + x))); [apply natural_stack_in_band | apply lp_line1; split; cbn; lia | ].
  apply res_eqb_ok. apply (sweep1 2 (fun x => res_eqb (swap_stack_in_band (seq 0 27) 1 (1 + x)) (colmap (lp3 (0, x) id3 id3 id3)))); [vm_compute; reflexivity | exact H].
Qed.

Lemma col3_op u h b rp k : u < 3 -> swap_cols_in_band (CB h b rp k) 3 (3 + u) = Ok (CB h b rp (comp_l k (lp3 id3 id3 (u, 0) id3))).
Proof.
  intros H. apply (CB_col_op (fun l => swap_cols_in_band l 3 (3 + u))); [apply natural_cols_in_band | apply lp_line3; try apply id3_ok; split; cbn; lia | ].
  apply res_eqb_ok. apply (sweep1 3 (fun u => res_eqb (swap_cols_in_band (seq 0 27) 3 (3 + u)) (colmap (lp3 id3 id3 (u, 0) id3)))); [vm_compute; reflexivity | exact H].
Qed.

Lemma col4_op v h b rp k : v < 2 -> swap_cols_in_band (CB h b rp k) 4 (4 + v) = Ok (CB h b rp (comp_l k (lp3 id3 id3 (0, v) id3))).
Proof.
  intros H. apply (CB_col_op (fun l => swap_cols_in_band l 4 (4 + v))); [apply natural_cols_in_band | apply lp_line3; try apply id3_ok; split; cbn; lia | ].
  apply res_eqb_ok. apply (sweep1 2 (fun v => res_eqb (swap_cols_in_band (seq 0 27) 4 (4 + v)) (colmap (lp3 id3 id3 (0, v) id3)))); [vm_compute; reflexivity | exact H].
Qed.

Lemma cols0_op p h b rp k : p3ok p -> permute (CB h b rp k) p 0 swap_cols_in_band = Ok (CB h b rp (comp_l k (lp3 id3 p id3 id3))).
Proof.
  intros H. apply (CB_col_op (fun l => permute l p 0 swap_cols_in_band)); [apply natural_permute, natural_cols_in_band | apply lp_line3; try apply id3_ok; exact H | ].
  apply res_eqb_ok. apply (p3_sweep (fun p => res_eqb (permute (seq 0 27) p 0 swap_cols_in_band) (colmap (lp3 id3 p id3 id3)))); [vm_compute; reflexivity | exact H].
Qed.

Lemma cols6_op p h b rp k : p3ok p -> permute (CB h b rp k) p 6 swap_cols_in_band = Ok (CB h b rp (comp_l k (lp3 id3 id3 id3 p))).
Proof.
  intros H. apply (CB_col_op (fun l => permute l p 6 swap_cols_in_band)); [apply natural_permute, natural_cols_in_band | apply lp_line3; try apply id3_ok; exact H | ].
  apply res_eqb_ok. apply (p3_sweep (fun p => res_eqb (permute (seq 0 27) p 6 swap_cols_in_band) (colmap (lp3 id3 id3 id3 p)))); [vm_compute; reflexivity | exact H].
Qed.

Lemma bandrows_op p h b k : p3ok p -> permute (CB h b id3 k) p 0 swap_rows_in_band = Ok (CB h b p k).
Proof.
  intros H. apply (CB_row_op (fun l => permute l p 0 swap_rows_in_band)); [apply natural_permute, natural_rows_in_band | exact H | ].
  apply res_eqb_ok. apply (p3_sweep (fun p => res_eqb (permute (seq 0 27) p 0 swap_rows_in_band)
    (Ok (map (fun c => 9 * nth (c / 9) (p3l p) 0 + c mod 9) (seq 0 27))))); [vm_compute; reflexivity | exact H].
Qed.

(** ** Compositions of column permutations *)

Lemma lp4_sweep (P : nat * nat -> nat * nat -> nat * nat -> nat * nat -> bool) :
  forallb (fun '(b, r0, r1, r2) => P b r0 r1 r2) all_lp = true ->
  forall b r0 r1 r2, p3ok b -> p3ok r0 -> p3ok r1 -> p3ok r2 -> P b r0 r1 r2 = true.
Proof.
  intros H b r0 r1 r2 Hb H0 H1 H2. rewrite forallb_forall in H. apply (H (b, r0, r1, r2)). apply in_all_lp. auto.
Qed.

Lemma comp_c1 fb x c0 : fb < 3 -> x < 2 -> p3ok c0 -> comp_l (lp3 (fb, 0) c0 id3 id3) (lp3 (0, x) id3 id3 id3) = lp3 (fb, x) c0 id3 id3.
Proof.
  intros Hf Hx H0. apply listb_eq_iff.
  apply (lp4_sweep (fun s c0 _ _ => listb_eq (comp_l (lp3 (fst s, 0) c0 id3 id3) (lp3 (0, snd s) id3 id3 id3)) (lp3 s c0 id3 id3)) ltac:(vm_compute; reflexivity)
    (fb, x) c0 id3 id3); try assumption; try apply id3_ok; split; assumption.
Qed.

Lemma comp_c2 s c0 u : p3ok s -> p3ok c0 -> u < 3 -> comp_l (lp3 s c0 id3 id3) (lp3 id3 id3 (u, 0) id3) = lp3 s c0 (u, 0) id3.
Proof.
  intros Hs H0 Hu. apply listb_eq_iff.
  apply (lp4_sweep (fun s c0 c1 _ => listb_eq (comp_l (lp3 s c0 id3 id3) (lp3 id3 id3 (fst c1, 0) id3)) (lp3 s c0 (fst c1, 0) id3)) ltac:(vm_compute; reflexivity)
    s c0 (u, 0) id3); try assumption; try apply id3_ok; split; cbn; lia.
Qed.

Lemma comp_c3 s c0 u v : p3ok s -> p3ok c0 -> u < 3 -> v < 2 -> comp_l (lp3 s c0 (u, 0) id3) (lp3 id3 id3 (0, v) id3) = lp3 s c0 (u, v) id3.
Proof.
  intros Hs H0 Hu Hv. apply listb_eq_iff.
  apply (lp4_sweep (fun s c0 c1 _ => listb_eq (comp_l (lp3 s c0 (fst c1, 0) id3) (lp3 id3 id3 (0, snd c1) id3)) (lp3 s c0 c1 id3)) ltac:(vm_compute; reflexivity)
    s c0 (u, v) id3); try assumption; try apply id3_ok; split; cbn; lia.
Qed.

Lemma comp_c4 s c0 c1 c2 : p3ok s -> p3ok c0 -> p3ok c1 -> p3ok c2 -> comp_l (lp3 s c0 c1 id3) (lp3 id3 id3 id3 c2) = lp3 s c0 c1 c2.
Proof.
  intros Hs H0 H1 H2. apply listb_eq_iff.
  apply (lp4_sweep (fun s c0 c1 c2 => listb_eq (comp_l (lp3 s c0 c1 id3) (lp3 id3 id3 id3 c2)) (lp3 s c0 c1 c2)) ltac:(vm_compute; reflexivity)
    s c0 c1 c2); assumption.
Qed.

(** Where the first columns come from *)
Lemma lp_facts s c0 c1 c2 : p3ok s -> p3ok c0 -> p3ok c1 -> p3ok c2 ->
  (forall k, k < 3 -> nth k (lp3 s c0 c1 c2) 0 = nth k (lp3 (fst s, 0) c0 id3 id3) 0) /\
  nth 3 (lp3 s c0 c1 c2) 0 = nth (3 + 3 * snd s + fst c1) (lp3 (fst s, 0) c0 id3 id3) 0 /\
  nth 4 (lp3 s c0 c1 c2) 0 = nth (4 + snd c1) (lp3 s c0 (fst c1, 0) id3) 0 /\
  (forall k, k < 6 -> nth k (lp3 s c0 c1 c2) 0 = nth k (lp3 s c0 c1 id3) 0).
Proof.
  intros Hs H0 H1 H2.
  pose proof (lp4_sweep (fun s c0 c1 c2 =>
    forallb (fun k => nth k (lp3 s c0 c1 c2) 0 =? nth k (lp3 (fst s, 0) c0 id3 id3) 0) (seq 0 3) &&
    (nth 3 (lp3 s c0 c1 c2) 0 =? nth (3 + 3 * snd s + fst c1) (lp3 (fst s, 0) c0 id3 id3) 0) &&
    (nth 4 (lp3 s c0 c1 c2) 0 =? nth (4 + snd c1) (lp3 s c0 (fst c1, 0) id3) 0) &&
    forallb (fun k => nth k (lp3 s c0 c1 c2) 0 =? nth k (lp3 s c0 c1 id3) 0) (seq 0 6)) ltac:(vm_compute; reflexivity) s c0 c1 c2 Hs H0 H1 H2) as E.
  cbv beta in E. rewrite !andb_true_iff, !Nat.eqb_eq in E. destruct E as [[[E1 E2] E3] E4]. split; [ | split; [exact E2 | split; [exact E3 | ]]].
  - intros k Hk. apply Nat.eqb_eq. apply (sweep1 3 _ E1 k Hk).
  - intros k Hk. apply Nat.eqb_eq. apply (sweep1 6 _ E4 k Hk).
Qed.

(** * Candidates *)

Definition params (m : min_band) : Prop :=
  m_band m < 3 /\ p3ok (m_row m) /\ p3ok (m_stack m) /\ exists c0 c1 c2, m_cols m = [c0; c1; c2] /\ p3ok c0 /\ p3ok c1 /\ p3ok c2.

Definition cells (g : grid) (m : min_band) : list nat := CB (base (m_transposed m) g) (m_band m) (m_row m) (mcols m).
Definition mdig (g : grid) (m : min_band) : list nat := inv_d (firstn 9 (cells g m)).
Definition norm (g : grid) (m : min_band) : list nat := map (rename (mdig g m)) (cells g m).
Definition value (g : grid) (m : min_band) : list nat := skipn 11 (norm g m).
Definition good (g : grid) (m : min_band) : Prop :=
  nth 9 (cells g m) 0 = nth 3 (cells g m) 0 /\ nth 10 (cells g m) 0 = nth 4 (cells g m) 0.
Definition wfm (g : grid) (m : min_band) : Prop := params m /\ m_digits m = mdig g m.

Lemma params_cols m : params m -> line_perm (mcols m).
Proof.
  intros [_ [_ [Hs [c0 [c1 [c2 [E [C0 [C1 C2]]]]]]]]]. unfold mcols, lp. rewrite E. cbn [nth]. apply lp3_line; assumption.
Qed.

Lemma cells_valid g m : solved g -> params m -> bvalid (cells g m).
Proof. intros S P. apply CB_valid; [apply base_solved; exact S | apply P | apply P | apply params_cols; exact P]. Qed.

Lemma row1_cells g m : solved g -> params m -> Permutation (firstn 9 (cells g m)) (seq 1 9).
Proof. intros S P. apply row1_perm; [apply CB_length | apply cells_valid; assumption]. Qed.

Lemma mdig_perm g m : solved g -> params m -> Permutation (mdig g m) (seq 1 9).
Proof. intros S P. apply inv_digits. apply row1_cells; assumption. Qed.

Lemma wfm_wfm0 g m : solved g -> wfm g m -> wfm0 m.
Proof.
  intros S [P E]. pose proof (mdig_perm g m S P) as D. rewrite <- E in D. destruct P as [H1 [H2 [H3 H4]]]. repeat (split; [assumption | ]). exact D.
Qed.

Lemma norm_length g m : length (norm g m) = 27.
Proof. unfold norm. rewrite map_length. apply CB_length. Qed.

Lemma value_length g m : length (value g m) = 16.
Proof. unfold value. rewrite skipn_length, norm_length. reflexivity. Qed.

Lemma nth_norm g m i : i < 27 -> nth i (norm g m) 0 = rename (mdig g m) (nth i (cells g m) 0).
Proof.
  intros H. unfold norm. rewrite (nth_indep _ 0 (rename (mdig g m) 0)) by (rewrite map_length; unfold cells; rewrite CB_length; exact H). apply map_nth.
Qed.

Lemma rename_inv_nth l i : Permutation l (seq 1 9) -> i < 9 -> rename (inv_d l) (nth i l 0) = S i.
Proof.
  intros P H. destruct (digits_facts l P) as [L [N R]]. unfold rename.
  assert (B : 1 <= nth i l 0 <= 9) by (apply R, nth_In; lia). replace (nth i l 0 =? 0) with false by lia.
  unfold inv_d. rewrite nth_map_seq1 by exact B. rewrite index_nth by (lia || assumption). reflexivity.
Qed.

Lemma norm_row1 g m i : solved g -> params m -> i < 9 -> nth i (norm g m) 0 = S i.
Proof.
  intros S P H. rewrite nth_norm by lia. unfold mdig. rewrite <- (firstn_nth (cells g m) 9 i H). apply rename_inv_nth; [apply row1_cells; assumption | exact H].
Qed.

Lemma good_norm g m : solved g -> params m -> good g m -> nth 9 (norm g m) 0 = 4 /\ nth 10 (norm g m) 0 = 5.
Proof.
  intros S P [G1 G2]. rewrite !nth_norm by lia. rewrite G1, G2. rewrite <- !nth_norm by lia. rewrite !norm_row1 by (assumption || lia). auto.
Qed.

Definition form : list nat := [1; 2; 3; 4; 5; 6; 7; 8; 9; 4; 5].

Lemma list_ext_n (a b : list nat) n : length a = n -> length b = n -> (forall i, i < n -> nth i a 0 = nth i b 0) -> a = b.
Proof. intros La Lb H. apply (nth_ext _ _ 0 0); [lia | ]. intros i Hi. apply H. lia. Qed.

Lemma good_form g m : solved g -> params m -> good g m -> norm g m = form ++ value g m.
Proof.
  intros S P G. unfold value. rewrite <- (firstn_skipn 11 (norm g m)) at 1. f_equal.
  destruct (good_norm g m S P G) as [G1 G2].
  apply (list_ext_n _ _ 11); [rewrite firstn_length, norm_length; reflexivity | reflexivity | ].
  intros i Hi. rewrite firstn_nth by exact Hi. destruct (Nat.lt_ge_cases i 9) as [H | H].
  - rewrite norm_row1 by assumption. do 9 (destruct i as [ | i]; [reflexivity | ]). lia.
  - assert (i = 9 \/ i = 10) as [-> | ->] by lia; [exact G1 | exact G2].
Qed.

(** * The state of the search *)

Definition inv (g : grid) (V : min_band -> Prop) (st : best) : Prop :=
  length (fst st) = 16 /\ NoDup (snd st) /\
  (forall m, In m (snd st) <-> V m /\ good g m /\ value g m = fst st) /\
  (forall m, V m -> good g m -> le_l (fst st) (value g m)) /\
  (fst st = repeat 9 16 \/ snd st <> []).

Lemma inv_ext g (V V' : min_band -> Prop) st : (forall m, V m <-> V' m) -> inv g V st -> inv g V' st.
Proof.
  intros H [I1 [I2 [I3 [I4 I5]]]]. split; [exact I1 | split; [exact I2 | split; [ | split; [ | exact I5]]]].
  - intros m. rewrite I3, H. reflexivity.
  - intros m Hm. apply I4, H, Hm.
Qed.

Lemma inv_skip g (V R : min_band -> Prop) st : inv g V st -> (forall m, R m -> good g m -> lex_nat (fst st) (value g m) = Lt) ->
  inv g (fun m => V m \/ R m) st.
Proof.
  intros [I1 [I2 [I3 [I4 I5]]]] H. split; [exact I1 | split; [exact I2 | split; [ | split; [ | exact I5]]]].
  - intros m. rewrite I3. split; [tauto | ]. intros [[Hm | Hm] [G E]]; [tauto | exfalso].
    specialize (H m Hm G). rewrite E, lex_refl in H. discriminate H.
  - intros m [Hm | Hm] G; [apply I4; assumption | apply lt_le_l, H; assumption].
Qed.

Definition add (g : grid) (st : best) (m : min_band) : best :=
  if slice_le (value g m) (fst st) then
    if slice_lt (value g m) (fst st) then (value g m, [m]) else (fst st, snd st ++ [m])
  else st.

Lemma inv_add g (V : min_band -> Prop) st m : inv g V st -> ~ V m -> good g m -> inv g (fun x => V x \/ x = m) (add g st m).
Proof.
  intros [I1 [I2 [I3 [I4 I5]]]] N G. unfold add, slice_le, slice_lt. destruct (lex_nat (value g m) (fst st)) eqn:E.
  - apply lex_eq in E. cbn [fst snd]. split; [exact I1 | split; [ | split; [ | split]]]; cbn [fst snd].
    + assert (X : NoDup (m :: snd st)) by (constructor; [rewrite I3; tauto | exact I2]).
      apply (Permutation_NoDup (l := m :: snd st)); [apply Permutation_cons_append | exact X].
    + intros x. rewrite in_app_iff, I3. cbn [In]. split.
      * intros [[Hx [Gx Ex]] | [<- | []]]; [tauto | ]. split; [right; reflexivity | split; [exact G | exact E]].
      * intros [[Hx | ->] [Gx Ex]]; [left; tauto | right; left; reflexivity].
    + intros x [Hx | ->] Gx; [apply I4; assumption | rewrite E; apply le_refl_l].
    + right. intros X. destruct (snd st); discriminate X.
  - cbn [fst snd]. split; [apply value_length | split; [constructor; [intros [] | constructor] | split; [ | split]]]; cbn [fst snd].
    + intros x. split.
      * intros [<- | []]. auto.
      * intros [[Hx | ->] [Gx Ex]]; [exfalso | left; reflexivity]. specialize (I4 x Hx Gx). rewrite Ex in I4. unfold le_l in I4.
        rewrite lex_anti, E in I4. cbn in I4. congruence.
    + intros x [Hx | ->] Gx; [ | apply le_refl_l]. apply (le_trans_l _ (fst st)); [apply lt_le_l; exact E | apply I4; assumption].
    + right. discriminate.
  - apply (inv_skip g V (fun x => x = m) st); [repeat (split; try assumption) | ]. intros x -> _. apply gt_lt. exact E.
Qed.

(** Loops over [0..n] *)
Lemma for_seq {S : Type} (f : nat -> S -> res S) (I : nat -> S -> Prop) n : forall a s,
  I a s -> (forall k s, a <= k < a + n -> I k s -> post (f k s) (I (Datatypes.S k)) False) -> post (for_each (seq a n) f s) (I (a + n)) False.
Proof.
  induction n as [ | n IH]; intros a s H Hf.
  - cbn. rewrite Nat.add_0_r. exact H.
  - cbn [seq for_each]. eapply post_bind; [apply Hf; [lia | exact H] | auto | ]. intros s' _ Hs'.
    replace (a + Datatypes.S n) with (Datatypes.S a + n) by lia. apply IH; [exact Hs' | ]. intros k s0 Hk. apply Hf. lia.
Qed.

Definition code (p : p3) : nat := fst p + 3 * snd p.

Lemma code_eq p k : p3ok p -> k < 6 -> (code p = k <-> p = (k mod 3, k / 3)).
Proof.
  intros [H1 H2] H. unfold code. destruct p as [a b]. cbn [fst snd] in *. split; [intros <-; f_equal; lia | intros [= -> ->]; lia].
Qed.

Lemma code_lt p : p3ok p -> code p < 6.
Proof. intros [H1 H2]. unfold code. lia. Qed.

(** * One arrangement of the first box *)

Lemma position_index x l : In x l -> position x l = Ok (index x l).
Proof.
  induction l as [ | y l IH]; [intros [] | ]. intros H. cbn [position index]. destruct (y =? x) eqn:E; [reflexivity | ].
  destruct H as [-> | H]; [rewrite Nat.eqb_refl in E; discriminate | ]. rewrite IH by exact H. reflexivity.
Qed.

Lemma map_set_ok mp d v : length mp = 9 -> 1 <= d <= 9 -> map_set mp d v = Ok (lset mp (d - 1) v).
Proof. intros L H. unfold map_set, dec. replace (d =? 0) with false by lia. cbn [bind]. apply aset_ok. lia. Qed.

Lemma map_cells_ok ds l : length ds = 9 -> Forall (fun d => 1 <= d <= 9) l -> map_cells ds l = Ok (map (rename ds) l).
Proof.
  intros L F. induction F as [ | d l Hd F IH]; [reflexivity | ]. cbn [map_cells map]. rewrite IH.
  unfold dec, rename. replace (d =? 0) with false by lia. cbn [bind]. rewrite (aget_ok ds (d - 1) 0) by lia. reflexivity.
Qed.

Lemma map_sets ps : forall mp, length mp = 9 -> NoDup (map snd ps) -> Forall (fun p => 1 <= snd p <= 9) ps ->
  exists mp', for_each ps (fun '(new, old) mapping => map_set mapping old new) mp = Ok mp' /\ length mp' = 9 /\
    (forall new old, In (new, old) ps -> nth (old - 1) mp' 0 = new) /\
    (forall d, 1 <= d -> ~ In d (map snd ps) -> nth (d - 1) mp' 0 = nth (d - 1) mp 0).
Proof.
  induction ps as [ | [n o] ps IH]; intros mp L N F.
  - exists mp. cbn. split; [reflexivity | ]. split; [exact L | ]. split; [intros ? ? [] | auto].
  - cbn [map snd] in N. apply NoDup_cons_iff in N. destruct N as [No N]. apply Forall_cons_iff in F. destruct F as [Fo F]. cbn [snd] in Fo.
    cbn [for_each]. rewrite map_set_ok by assumption. cbn [bind].
    destruct (IH (lset mp (o - 1) n)) as [mp' [E [L' [A B]]]]; [rewrite lset_length; exact L | exact N | exact F | ].
    exists mp'. split; [exact E | ]. split; [exact L' | ]. split.
    + intros new old [[= -> ->] | H]; [ | apply A; exact H]. rewrite B by (lia || exact No). rewrite nth_lset by lia. rewrite Nat.eqb_refl. reflexivity.
    + intros d Hd Hn. cbn [map snd In] in Hn. rewrite B by (try assumption; tauto). rewrite nth_lset by lia.
      replace (d - 1 =? o - 1) with false by lia. reflexivity.
Qed.

(** The relabelling array for a band *)
Lemma mapping_is_inv mp E : length mp = 9 -> length E = 27 -> bvalid E -> (forall i, i < 9 -> nth (nth i E 0 - 1) mp 0 = S i) -> mp = inv_d (firstn 9 E).
Proof.
  intros L LE V H. pose proof (row1_perm E LE V) as P. destruct (digits_facts _ P) as [L9 [N R]].
  apply list9_ext; [exact L | unfold inv_d; rewrite map_length; apply seq_length | ]. intros j Hj.
  assert (I : In (S j) (firstn 9 E)) by (apply R; lia). destruct (index_in _ _ I) as [I1 I2].
  replace j with (S j - 1) by lia. unfold inv_d. rewrite nth_map_seq1 by lia.
  rewrite <- (H (index (S j) (firstn 9 E))) by lia. f_equal. rewrite <- (firstn_nth E 9) by lia. rewrite I2. reflexivity.
Qed.

Section Arrangement.
Variable g : grid.
Hypothesis S_g : solved g.
Variable tr : bool.
Variable b fb : nat.
Variable rp cp0 : p3.
Hypothesis Hb : b < 3.
Hypothesis Hfb : fb < 3.
Hypothesis Hrp : p3ok rp.
Hypothesis Hcp0 : p3ok cp0.
Let h := base tr g.

(** the candidates with this arrangement *)
Definition reg0 (m : min_band) : Prop :=
  wfm g m /\ m_transposed m = tr /\ m_band m = b /\ fst (m_stack m) = fb /\ m_row m = rp /\ nth 0 (m_cols m) id3 = cp0.

Definition Ek (k : list nat) : list nat := CB h b rp k.
Definition k0 : list nat := lp3 (fb, 0) cp0 id3 id3.

Lemma S_h : solved h.
Proof. apply base_solved. exact S_g. Qed.

Lemma Ek_valid k : line_perm k -> bvalid (Ek k).
Proof. intros H. apply CB_valid; try assumption. apply S_h. Qed.

Lemma fb0_ok : p3ok (fb, 0).
Proof. split; cbn; lia. Qed.

Lemma k0_line : line_perm k0.
Proof. apply lp3_line; try assumption; try apply id3_ok. apply fb0_ok. Qed.

(** cells of a band in terms of another column order *)
Lemma Ek_move k k' c c' : c < 27 -> c' < 27 -> c / 9 = c' / 9 -> nth (c mod 9) k 0 = nth (c' mod 9) k' 0 -> nth c (Ek k) 0 = nth c' (Ek k') 0.
Proof. intros Hc Hc' E1 E2. unfold Ek. rewrite !nth_CB by assumption. rewrite E1, E2. reflexivity. Qed.

Definition pos4 : nat := index (nth 9 (Ek k0) 0) (firstn 6 (skipn 3 (Ek k0))).

Lemma pos4_spec : position (nth 9 (Ek k0) 0) (firstn 6 (skipn 3 (Ek k0))) = Ok pos4 /\ pos4 < 6 /\
  nth (3 + pos4) (Ek k0) 0 = nth 9 (Ek k0) 0.
Proof.
  destruct (Ek_valid k0 k0_line) as [R V].
  assert (I : In (nth 9 (Ek k0) 0) (firstn 6 (skipn 3 (Ek k0)))).
  { pose proof (row1_perm (Ek k0) (CB_length _ _ _ _) (Ek_valid k0 k0_line)) as P. destruct (digits_facts _ P) as [L9 [N D]].
    assert (J : In (nth 9 (Ek k0) 0) (firstn 9 (Ek k0))) by (apply D, R; lia).
    apply (In_nth _ _ 0) in J. destruct J as [i [Hi E]]. rewrite L9 in Hi. rewrite firstn_nth in E by exact Hi.
    assert (3 <= i). { destruct (Nat.lt_ge_cases i 3) as [H | H]; [exfalso | exact H]. revert E. apply V; lia. }
    rewrite <- E. replace (nth i (Ek k0) 0) with (nth (i - 3) (firstn 6 (skipn 3 (Ek k0))) 0).
    - apply nth_In. rewrite firstn_length, skipn_length. unfold Ek. rewrite CB_length. lia.
    - rewrite firstn_nth by lia. rewrite skipn_nth. f_equal. lia. }
  split; [apply position_index; exact I | ]. destruct (index_in _ _ I) as [I1 I2]. fold pos4 in I1, I2.
  rewrite firstn_length, skipn_length in I1. unfold Ek in I1 at 1. rewrite CB_length in I1. split; [lia | ].
  rewrite firstn_nth in I2 by lia. rewrite skipn_nth in I2. exact I2.
Qed.

Definition xs : nat := pos4 / 3.
Definition us : nat := pos4 mod 3.
Definition k1 : list nat := lp3 (fb, xs) cp0 (us, 0) id3.
Definition vs : nat := if negb (nth 4 (Ek k1) 0 =? nth 10 (Ek k1) 0) then 1 else 0.
Definition k2 : list nat := lp3 (fb, xs) cp0 (us, vs) id3.
Definition k3 (c2 : p3) : list nat := lp3 (fb, xs) cp0 (us, vs) c2.

Lemma xs_ok : p3ok (fb, xs).
Proof. pose proof (proj1 (proj2 pos4_spec)). split; cbn; unfold xs; lia. Qed.
Lemma us_lt : us < 3.
Proof. unfold us. lia. Qed.
Lemma vs_lt : vs < 2.
Proof. unfold vs. destruct (negb _); lia. Qed.
Lemma us0_ok : p3ok (us, 0).
Proof. pose proof us_lt. split; cbn; lia. Qed.
Lemma usvs_ok : p3ok (us, vs).
Proof. pose proof us_lt. pose proof vs_lt. split; cbn; lia. Qed.
Lemma k1_line : line_perm k1.
Proof. apply lp3_line; [apply xs_ok | exact Hcp0 | apply us0_ok | apply id3_ok]. Qed.
Lemma k2_line : line_perm k2.
Proof. apply lp3_line; [apply xs_ok | exact Hcp0 | apply usvs_ok | apply id3_ok]. Qed.
Lemma k3_line c2 : p3ok c2 -> line_perm (k3 c2).
Proof. intros H. apply lp3_line; [apply xs_ok | exact Hcp0 | apply usvs_ok | exact H]. Qed.

(** the candidate for a column order of the third box *)
Definition cand0 (c2 : p3) : min_band := mkMinBand b tr rp (fb, xs) [cp0; (us, vs); c2] (inv_d (firstn 9 (Ek (k3 c2)))).

Lemma cand0_cells c2 : cells g (cand0 c2) = Ek (k3 c2).
Proof. reflexivity. Qed.

Lemma cand0_wf c2 : p3ok c2 -> wfm g (cand0 c2) /\ reg0 (cand0 c2).
Proof.
  intros H. assert (W : wfm g (cand0 c2)).
  { split; [ | reflexivity]. split; [exact Hb | split; [exact Hrp | split; [apply xs_ok | ]]].
    exists cp0, (us, vs), c2. split; [reflexivity | ]. split; [exact Hcp0 | split; [apply usvs_ok | exact H]]. }
  split; [exact W | ]. split; [exact W | ]. auto.
Qed.

Lemma reg0_cells m : reg0 m -> exists s c1 c2, p3ok s /\ p3ok c1 /\ p3ok c2 /\ fst s = fb /\ m_stack m = s /\ m_cols m = [cp0; c1; c2] /\
  cells g m = Ek (lp3 s cp0 c1 c2).
Proof.
  intros [[[P1 [P2 [P3 [c0 [c1 [c2 [E [C0 [C1 C2]]]]]]]]] Ed] [E1 [E2 [E3 [E4 E5]]]]]. rewrite E in E5. cbn [nth] in E5. subst c0.
  exists (m_stack m), c1, c2. split; [exact P3 | split; [exact C1 | split; [exact C2 | split; [exact E3 | split; [reflexivity | split; [exact E | ]]]]]].
  unfold cells, mcols, lp, Ek, h. rewrite E, E1, E2, E4. reflexivity.
Qed.

Lemma first_cells s c1 c2 k : p3ok s -> p3ok c1 -> p3ok c2 -> fst s = fb -> k < 27 -> k mod 9 < 3 ->
  nth k (Ek (lp3 s cp0 c1 c2)) 0 = nth k (Ek k0) 0.
Proof.
  intros Hs H1 H2 Es Hk Hm. apply Ek_move; try assumption; [reflexivity | ]. unfold k0. rewrite <- Es.
  apply (lp_facts s cp0 c1 c2); assumption.
Qed.

(** good candidates are the ones the loop looks at *)
Lemma reg0_good m : reg0 m -> good g m -> nth 4 (Ek k2) 0 = nth 10 (Ek k1) 0 /\ exists c2, p3ok c2 /\ m = cand0 c2.
Proof.
  intros Hm [G1 G2]. destruct (reg0_cells m Hm) as [s [c1 [c2 [Hs [H1 [H2 [Es [Em [Ec E]]]]]]]]]. rewrite E in G1, G2.
  destruct pos4_spec as [_ [B4 P4]]. destruct (Ek_valid k0 k0_line) as [R V]. destruct (Ek_valid k1 k1_line) as [R1 V1].
  destruct (lp_facts s cp0 c1 c2 Hs Hcp0 H1 H2) as [F1 [F2 [F3 F4]]]. destruct Hs as [Hs1 Hs2]. destruct H1 as [H11 H12].
  assert (X3 : nth 3 (Ek (lp3 s cp0 c1 c2)) 0 = nth (3 + 3 * snd s + fst c1) (Ek k0) 0).
  { apply Ek_move; try lia. replace ((3 + 3 * snd s + fst c1) mod 9) with (3 + 3 * snd s + fst c1) by lia. change (3 mod 9) with 3.
    unfold k0. rewrite <- Es. exact F2. }
  assert (X9 : nth 9 (Ek (lp3 s cp0 c1 c2)) 0 = nth 9 (Ek k0) 0) by (apply first_cells; try assumption; try (split; assumption); cbn; lia).
  assert (Q : 3 * snd s + fst c1 = pos4).
  { destruct (Nat.eq_dec (3 * snd s + fst c1) pos4) as [Q | Q]; [exact Q | exfalso].
    assert (Ne : nth (3 + 3 * snd s + fst c1) (Ek k0) 0 <> nth (3 + pos4) (Ek k0) 0) by (apply V; lia).
    apply Ne. rewrite <- X3, P4, <- X9, G1. reflexivity. }
  assert (Qs : s = (fb, xs)) by (destruct s as [s1 s2]; cbn [fst snd] in *; unfold xs; f_equal; lia).
  assert (Qu : fst c1 = us) by (unfold us; lia).
  assert (X4 : nth 4 (Ek (lp3 s cp0 c1 c2)) 0 = nth (4 + snd c1) (Ek k1) 0).
  { apply Ek_move; try lia. replace ((4 + snd c1) mod 9) with (4 + snd c1) by lia. change (4 mod 9) with 4. unfold k1. rewrite <- Qs, <- Qu. exact F3. }
  assert (X10 : nth 10 (Ek (lp3 s cp0 c1 c2)) 0 = nth 10 (Ek k1) 0).
  { rewrite (first_cells s c1 c2 10) by (try assumption; try (split; assumption); cbn; lia). symmetry.
    apply first_cells; [apply xs_ok | apply us0_ok | apply id3_ok | reflexivity | lia | cbn; lia]. }
  assert (Qv : snd c1 = vs).
  { unfold vs. destruct (snd c1) as [ | [ | n]]; [ | | lia].
    - cbn [Nat.add] in X4. replace (nth 4 (Ek k1) 0) with (nth 10 (Ek k1) 0) by congruence. rewrite Nat.eqb_refl. reflexivity.
    - cbn [Nat.add] in X4. assert (nth 4 (Ek k1) 0 <> nth 5 (Ek k1) 0) by (apply V1; cbn; lia).
      replace (nth 4 (Ek k1) 0 =? nth 10 (Ek k1) 0) with false by (symmetry; apply Nat.eqb_neq; congruence). reflexivity. }
  assert (Qc : c1 = (us, vs)) by (destruct c1; cbn [fst snd] in *; congruence).
  split.
  - rewrite <- X10, G2. symmetry. apply Ek_move; try lia. change (4 mod 9) with 4. unfold k2. rewrite <- Qs, <- Qc. apply F4. lia.
  - exists c2. split; [exact H2 | ]. destruct Hm as [[P Ed] [E1 [E2 [E3 [E4 E5]]]]]. unfold mdig in Ed. rewrite E in Ed.
    unfold cand0, k3. rewrite <- Qs, <- Qc. destruct m as [mb mt mr ms mc md]. cbn in *. subst. reflexivity.
Qed.

Lemma cand0_good c2 : p3ok c2 -> nth 4 (Ek k2) 0 = nth 10 (Ek k1) 0 -> good g (cand0 c2).
Proof.
  intros H2 E. unfold good. rewrite cand0_cells. unfold k3.
  destruct (lp_facts (fb, xs) cp0 (us, vs) c2 xs_ok Hcp0 usvs_ok H2) as [F1 [F2 [F3 F4]]]. cbn [fst snd] in *.
  destruct pos4_spec as [_ [B4 P4]]. split.
  - rewrite (first_cells (fb, xs) (us, vs) c2 9) by (try assumption; try apply xs_ok; try apply usvs_ok; try reflexivity; cbn; lia).
    rewrite <- P4. symmetry. apply Ek_move; try lia. replace ((3 + pos4) mod 9) with (3 + pos4) by lia. change (3 mod 9) with 3.
    rewrite F2. f_equal. unfold xs, us. lia.
  - rewrite (first_cells (fb, xs) (us, vs) c2 10) by (try assumption; try apply xs_ok; try apply usvs_ok; try reflexivity; cbn; lia).
    rewrite <- (first_cells (fb, xs) (us, 0) id3 10) by (try assumption; try apply xs_ok; try apply us0_ok; try apply id3_ok; try reflexivity; cbn; lia).
    fold k1. rewrite <- E. symmetry. apply Ek_move; try lia. change (4 mod 9) with 4. apply F4. lia.
Qed.

Lemma cand0_inj c2 c2' : cand0 c2 = cand0 c2' -> c2 = c2'.
Proof. unfold cand0. intros E. congruence. Qed.

(** the value of a candidate starts above 6 unless the third cell of the second row is the sixth of the first *)
Lemma cand0_value_big c2 : p3ok c2 -> good g (cand0 c2) -> nth 11 (Ek k2) 0 <> nth 5 (Ek k2) 0 -> 6 < nth 0 (value g (cand0 c2)) 0.
Proof.
  intros H2 [G1 G2] N. unfold value. rewrite skipn_nth. cbn [Nat.add]. rewrite nth_norm by lia.
  destruct (cand0_wf c2 H2) as [[P _] _]. rewrite cand0_cells in *.
  pose proof (row1_cells g (cand0 c2) S_g P) as Pm. rewrite cand0_cells in Pm. destruct (digits_facts _ Pm) as [L9 [Nd D]].
  destruct (Ek_valid (k3 c2) (k3_line c2 H2)) as [R V].
  assert (I : In (nth 11 (Ek (k3 c2)) 0) (firstn 9 (Ek (k3 c2)))) by (apply D, R; lia).
  apply (In_nth _ _ 0) in I. destruct I as [i [Hi Ei]]. rewrite L9 in Hi.
  assert (Er : rename (mdig g (cand0 c2)) (nth 11 (Ek (k3 c2)) 0) = S i).
  { rewrite <- Ei. unfold mdig. rewrite cand0_cells. apply rename_inv_nth; assumption. }
  rewrite Er. rewrite firstn_nth in Ei by exact Hi.
  destruct (lp_facts (fb, xs) cp0 (us, vs) c2 xs_ok Hcp0 usvs_ok H2) as [F1 [F2 [F3 F4]]].
  destruct (Nat.lt_ge_cases i 6) as [H | H]; [exfalso | lia].
  assert (X : nth i (Ek (k3 c2)) 0 <> nth 11 (Ek (k3 c2)) 0); [ | contradiction].
  destruct (Nat.lt_ge_cases i 3) as [H3 | H3]; [apply V; lia | ].
  assert (i = 3 \/ i = 4 \/ i = 5) as [-> | [-> | ->]] by lia.
  - rewrite <- G1. apply V; lia.
  - rewrite <- G2. apply V; lia.
  - intros X. apply N. transitivity (nth 11 (Ek (k3 c2)) 0); [apply Ek_move; try lia; change (11 mod 9) with 2; symmetry; apply F4; lia | ].
    rewrite <- X. apply Ek_move; try lia. change (5 mod 9) with 5. apply F4. lia.
Qed.

(** ** The loop over the third box *)

Definition mp_ok (mp : list nat) : Prop := length mp = 9 /\ forall i, i < 6 -> nth (nth i (Ek k2) 0 - 1) mp 0 = S i.

Lemma lt6 k : k < 6 -> p3ok (k mod 3, k / 3).
Proof. intros H. split; cbn; lia. Qed.

Lemma last_box_spec (V : min_band -> Prop) st mp k : k < 6 -> mp_ok mp -> good g (cand0 (k mod 3, k / 3)) -> inv g V st -> ~ V (cand0 (k mod 3, k / 3)) ->
  post (last_box_loop b tr rp cp0 (fb, xs) (us, vs) (Ek k2) k (st, mp))
    (fun sm => inv g (fun m => V m \/ m = cand0 (k mod 3, k / 3)) (fst sm) /\ mp_ok (snd sm)) False.
Proof.
  intros Hk [Lm Hm] G I N. set (c2 := (k mod 3, k / 3)) in *. assert (H2 : p3ok c2) by (apply lt6; exact Hk).
  unfold last_box_loop. destruct st as [bm trs]. rewrite (proj1 (p3_new_ok k Hk)). cbn [bind]. fold c2.
  unfold Ek at 1. rewrite cols6_op by exact H2. cbn [bind]. replace (comp_l k2 (lp3 id3 id3 id3 c2)) with (k3 c2) by (symmetry; apply comp_c4; try assumption; try apply xs_ok; apply usvs_ok).
  fold (Ek (k3 c2)). set (E := Ek (k3 c2)).
  assert (LE : length E = 27) by apply CB_length. pose proof (Ek_valid (k3 c2) (k3_line c2 H2)) as VE. fold E in VE. pose proof VE as [R V'].
  destruct (lp_facts (fb, xs) cp0 (us, vs) c2 xs_ok Hcp0 usvs_ok H2) as [_ [_ [_ F4]]].
  assert (E6 : forall i, i < 6 -> nth i E 0 = nth i (Ek k2) 0).
  { intros i Hi. apply Ek_move; try lia. replace (i mod 9) with i by lia. apply F4. exact Hi. }
  rewrite (aget_ok E 6 0) by lia. cbn [bind]. rewrite map_set_ok by (try assumption; apply R; lia). cbn [bind].
  rewrite (aget_ok E 7 0) by lia. cbn [bind]. rewrite map_set_ok by (rewrite ?lset_length; try assumption; apply R; lia). cbn [bind].
  rewrite (aget_ok E 8 0) by lia. cbn [bind]. rewrite map_set_ok by (rewrite ?lset_length; try assumption; apply R; lia). cbn [bind].
  set (mp' := lset (lset (lset mp (nth 6 E 0 - 1) 7) (nth 7 E 0 - 1) 8) (nth 8 E 0 - 1) 9).
  assert (Lm' : length mp' = 9) by (unfold mp'; rewrite !lset_length; exact Lm).
  assert (Nth : forall i, i < 9 -> nth (nth i E 0 - 1) mp' 0 = S i).
  { intros i Hi. unfold mp'. pose proof (R i ltac:(lia)) as Bi. pose proof (R 6 ltac:(lia)) as B6. pose proof (R 7 ltac:(lia)) as B7. pose proof (R 8 ltac:(lia)) as B8.
    rewrite nth_lset by (rewrite !lset_length; lia). rewrite nth_lset by (rewrite !lset_length; lia). rewrite nth_lset by lia.
    assert (Ne : forall j, j < 9 -> i <> j -> nth i E 0 <> nth j E 0) by (intros j Hj Nij; apply V'; lia).
    destruct (Nat.eq_dec i 8) as [-> | N8]; [rewrite Nat.eqb_refl; reflexivity | ].
    pose proof (Ne 8 ltac:(lia) N8). replace (nth i E 0 - 1 =? nth 8 E 0 - 1) with false by lia.
    destruct (Nat.eq_dec i 7) as [-> | N7]; [rewrite Nat.eqb_refl; reflexivity | ].
    pose proof (Ne 7 ltac:(lia) N7). replace (nth i E 0 - 1 =? nth 7 E 0 - 1) with false by lia.
    destruct (Nat.eq_dec i 6) as [-> | N6]; [rewrite Nat.eqb_refl; reflexivity | ].
    pose proof (Ne 6 ltac:(lia) N6). replace (nth i E 0 - 1 =? nth 6 E 0 - 1) with false by lia.
    rewrite E6 by lia. apply Hm. lia. }
  assert (Emp : mp' = inv_d (firstn 9 E)) by (apply mapping_is_inv; assumption).
  assert (Mok : mp_ok mp').
  { split; [exact Lm' | ]. intros i Hi. rewrite <- E6 by exact Hi. apply Nth. lia. }
  rewrite map_cells_ok; [ | exact Lm' | ].
  2: { apply Forall_forall. intros x Hx. apply (In_nth _ _ 0) in Hx. destruct Hx as [i [Hi <-]]. rewrite skipn_length, LE in Hi. rewrite skipn_nth. apply R. lia. }
  cbn [bind]. assert (Ev : map (rename mp') (skipn 11 E) = value g (cand0 c2)).
  { unfold value, norm, mdig. rewrite cand0_cells. fold E. rewrite <- Emp. symmetry. apply skipn_map. }
  rewrite Ev. assert (Ec : cand0 c2 = mkMinBand b tr rp (fb, xs) [cp0; (us, vs); c2] mp') by (unfold cand0; fold E; rewrite <- Emp; reflexivity).
  pose proof (inv_add g V (bm, trs) (cand0 c2) I N G) as A. unfold add in A. cbn [fst snd] in A.
  match goal with |- context [mkMinBand ?a1 ?a2 ?a3 ?a4 ?a5 mp'] => replace (mkMinBand a1 a2 a3 a4 a5 mp') with (cand0 c2) by exact Ec end.
  destruct (slice_le (value g (cand0 c2)) bm).
  - destruct (slice_lt (value g (cand0 c2)) bm); cbn [post fst snd app]; (split; [exact A | exact Mok]).
  - cbn [post fst snd]. split; [exact A | exact Mok].
Qed.

Lemma cols_loop_spec (V : min_band -> Prop) st k : k < 6 -> cp0 = (k mod 3, k / 3) -> inv g V st -> (forall m, reg0 m -> ~ V m) ->
  post (cols_loop b tr fb rp (Ek (lp3 (fb, 0) id3 id3 id3)) k st) (inv g (fun m => V m \/ reg0 m)) False.
Proof.
  intros Hk Ecp I D. unfold cols_loop. rewrite (proj1 (p3_new_ok k Hk)), <- Ecp. cbn [bind].
  unfold Ek at 1. rewrite cols0_op by exact Hcp0. cbn [bind]. rewrite comp_lp by (try assumption; try apply id3_ok; apply fb0_ok).
  fold k0. fold (Ek k0). rewrite (aget_ok (Ek k0) 9 0) by (unfold Ek; rewrite CB_length; lia). cbn [bind].
  destruct pos4_spec as [E4 [B4 P4]]. rewrite E4. cbn [bind]. fold xs us.
  unfold Ek at 1. rewrite stack1_op by (apply xs_ok). cbn [bind]. replace (comp_l k0 (lp3 (0, xs) id3 id3 id3)) with (lp3 (fb, xs) cp0 id3 id3) by (symmetry; apply comp_c1; try assumption; apply xs_ok).
  rewrite col3_op by apply us_lt. cbn [bind]. rewrite comp_c2 by (try assumption; try apply xs_ok; apply us_lt). fold k1. fold (Ek k1).
  rewrite (aget_ok (Ek k1) 10 0) by (unfold Ek; rewrite CB_length; lia). cbn [bind].
  rewrite (aget_ok (Ek k1) 4 0) by (unfold Ek; rewrite CB_length; lia). cbn [bind]. fold vs.
  unfold Ek at 1. rewrite col4_op by apply vs_lt. cbn [bind]. replace (comp_l k1 (lp3 id3 id3 (0, vs) id3)) with k2 by (symmetry; apply comp_c3; try assumption; try apply xs_ok; try apply us_lt; apply vs_lt).
  fold (Ek k2). rewrite (aget_ok (Ek k2) 4 0) by (unfold Ek; rewrite CB_length; lia). cbn [bind].
  destruct (nth 4 (Ek k2) 0 =? nth 10 (Ek k1) 0) eqn:T; cbn [negb].
  2: { (* impossible to be minimal *) cbn [post]. apply inv_skip; [exact I | ]. intros m Hm G. exfalso.
       destruct (reg0_good m Hm G) as [E _]. rewrite E, Nat.eqb_refl in T. discriminate T. }
  apply Nat.eqb_eq in T.
  rewrite (aget_ok (fst st) 0 0) by (rewrite (proj1 I); lia). cbn [bind].
  rewrite (aget_ok (Ek k2) 11 0) by (unfold Ek; rewrite CB_length; lia). cbn [bind].
  rewrite (aget_ok (Ek k2) 5 0) by (unfold Ek; rewrite CB_length; lia). cbn [bind].
  destruct ((nth 0 (fst st) 0 =? 6) && negb (nth 11 (Ek k2) 0 =? nth 5 (Ek k2) 0)) eqn:Pr.
  { (* pruned *) cbn [post]. apply inv_skip; [exact I | ]. intros m Hm G. destruct (reg0_good m Hm G) as [_ [c2 [H2 ->]]].
    apply andb_true_iff in Pr. destruct Pr as [P1 P2]. apply Nat.eqb_eq in P1. rewrite negb_true_iff, Nat.eqb_neq in P2.
    pose proof (cand0_value_big c2 H2 G P2) as Bg. pose proof (value_length g (cand0 c2)) as Lv. pose proof (proj1 I) as Lb.
    destruct (fst st) as [ | x bm]; [discriminate Lb | ]. destruct (value g (cand0 c2)) as [ | y v]; [discriminate Lv | ]. cbn [nth] in *. cbn [lex_nat].
    replace (x ?= y) with Lt by (symmetry; apply Nat.compare_lt_iff; lia). reflexivity. }
  clear Pr.
  (* the relabelling of the first six digits *)
  destruct (Ek_valid k2 k2_line) as [R V2].
  assert (Len : length (Ek k2) = 27) by apply CB_length.
  destruct (map_sets (combine (seq 1 6) (Ek k2)) (repeat 0 9)) as [mp [Em [Lm [A _]]]]; [reflexivity | | | ].
  { assert (X : map snd (combine (seq 1 6) (Ek k2)) = firstn 6 (Ek k2)).
    { destruct (Ek k2) as [ | e0 [ | e1 [ | e2 [ | e3 [ | e4 [ | e5 t]]]]]]; try discriminate Len. reflexivity. }
    rewrite X. apply (NoDup_nth _ 0). rewrite firstn_length, Len. intros i j Hi Hj Eq. cbn [Nat.min] in Hi, Hj. rewrite !firstn_nth in Eq by lia.
    destruct (Nat.eq_dec i j) as [Q | Q]; [exact Q | exfalso]. revert Eq. apply V2; lia. }
  { apply Forall_forall. intros [a o] H. cbn [snd]. apply in_combine_r in H. apply (In_nth _ _ 0) in H. destruct H as [i [Hi <-]]. apply R. lia. }
  rewrite Em. cbn [bind].
  assert (Mok : mp_ok mp).
  { split; [exact Lm | ]. intros i Hi. apply A. destruct (Ek k2) as [ | e0 [ | e1 [ | e2 [ | e3 [ | e4 [ | e5 t]]]]]]; try discriminate Len.
    do 6 (destruct i as [ | i]; [cbn; tauto | ]). lia. }
  unfold p3_from_choices at 1, assert_. replace (fb <? 3) with true by lia. pose proof xs_ok as [_ Hxs]. cbn [snd] in Hxs. replace (xs <? 2) with true by lia. cbn [bind].
  unfold p3_from_choices at 1, assert_. pose proof us_lt. pose proof vs_lt. replace (us <? 3) with true by lia. replace (vs <? 2) with true by lia. cbn [bind].
  eapply post_bind with (E0 := False) (Q0 := fun sm => inv g (fun m => V m \/ exists k, k < 6 /\ m = cand0 (k mod 3, k / 3)) (fst sm) /\ mp_ok (snd sm)); [ | auto | ].
  - apply (for_seq (last_box_loop b tr rp cp0 (fb, xs) (us, vs) (Ek k2))
      (fun n sm => inv g (fun m => V m \/ exists k, k < n /\ m = cand0 (k mod 3, k / 3)) (fst sm) /\ mp_ok (snd sm)) 6 0 (st, mp)).
    + cbn [fst snd]. split; [ | exact Mok]. apply (inv_ext g V); [ | exact I]. intros m. split; [tauto | ]. intros [Hm | [k' [Hk' _]]]; [exact Hm | lia].
    + intros k' [st' mp'] Hk' [I' M']. cbn [fst snd] in I', M'. assert (Hk6 : k' < 6) by lia.
      eapply post_impl; [apply (last_box_spec _ st' mp' k' Hk6 M' (cand0_good _ (lt6 k' Hk6) T) I') | | auto].
      * intros [Hv | [j [Hj Ej]]].
        -- exact (D _ (proj2 (cand0_wf _ (lt6 k' Hk6))) Hv).
        -- apply cand0_inj in Ej. injection Ej as E1 E2. lia.
      * intros [st'' mp''] [I'' M'']. cbn [fst snd] in *. split; [ | exact M'']. eapply inv_ext; [ | exact I'']. intros m. cbv beta. split.
        -- intros [[Hv | [j [Hj Ej]]] | ->]; [left; exact Hv | right; exists j; split; [lia | exact Ej] | right; exists k'; split; [lia | reflexivity]].
        -- intros [Hv | [j [Hj Ej]]]; [left; left; exact Hv | ]. destruct (Nat.eq_dec j k') as [-> | Nj]; [right; exact Ej | left; right; exists j; split; [lia | exact Ej]].
  - intros [st' mp'] _ [I' _]. cbn [post fst]. cbn [fst] in I'.
    (* the rest of the region is not good *)
    apply (inv_ext g (fun m => (V m \/ exists k, k < 6 /\ m = cand0 (k mod 3, k / 3)) \/ (reg0 m /\ ~ good g m))).
    + intros m. split.
      * intros [[Hv | [j [Hj ->]]] | [Hr _]]; [left; exact Hv | right; apply cand0_wf, lt6; exact Hj | right; exact Hr].
      * intros [Hv | Hr]; [left; left; exact Hv | ].
        assert (Dg : good g m \/ ~ good g m) by (unfold good; destruct (Nat.eq_dec (nth 9 (cells g m) 0) (nth 3 (cells g m) 0)), (Nat.eq_dec (nth 10 (cells g m) 0) (nth 4 (cells g m) 0)); tauto).
        destruct Dg as [Gm | Gm]; [left; right | right; auto]. destruct (reg0_good m Hr Gm) as [_ [c2 [H2 ->]]]. exists (code c2).
        split; [apply code_lt; exact H2 | ]. f_equal. apply code_eq; [exact H2 | apply code_lt; exact H2 | reflexivity].
    + apply inv_skip; [exact I' | ]. intros m [_ Gm] G. contradiction.
Qed.
End Arrangement.
