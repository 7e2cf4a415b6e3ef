(** Proofs about the transformations of Canon: applying one is a sudoku symmetry; random ones are all symmetries. *)
From Coq Require Import List Arith NArith ZArith ZifyNat ZifyN ZifyBool Lia Bool Permutation.
From Verif Require Import Spec CanonSpec Solver Canon BitLemmas GridProofs GenProofs EquivProofs.
Import ListNotations.
Ltac Zify.zify_post_hook ::= Z.to_euclidean_division_equations.

(** * Operations that only move cells *)

Definition rmap (f : nat -> nat) (r : res (list nat)) : res (list nat) := bind r (fun l => Ok (map f l)).
Definition natural (op : list nat -> res (list nat)) : Prop := forall f l, op (map f l) = rmap f (op l).

Lemma natural_ok : natural (fun l => Ok l).
Proof. intros f l. reflexivity. Qed.

Lemma natural_bind op1 op2 : natural op1 -> natural op2 -> natural (fun l => bind (op1 l) op2).
Proof. intros H1 H2 f l. rewrite H1. destruct (op1 l); cbn; [apply H2 | | | ]; reflexivity. Qed.

Lemma natural_const (r : res unit) op : natural op -> natural (fun l => bind r (fun _ => op l)).
Proof. intros H f l. destruct r; cbn; [apply H | | | ]; reflexivity. Qed.

Lemma natural_if (b : bool) op1 op2 : natural op1 -> natural op2 -> natural (fun l => if b then op1 l else op2 l).
Proof. intros H1 H2. destruct b; assumption. Qed.

Lemma natural_for {A} (xs : list A) (f : A -> list nat -> res (list nat)) :
  (forall x, natural (f x)) -> natural (for_each xs f).
Proof.
  intros H. induction xs as [ | x xs IH]; [apply natural_ok | ]. cbn [for_each].
  apply (natural_bind (f x) (for_each xs f)); auto.
Qed.

Lemma aget_map (f : nat -> nat) l i : aget (map f l) i = bind (aget l i) (fun x => Ok (f x)).
Proof. unfold aget. rewrite nth_error_map. destruct (nth_error l i); reflexivity. Qed.

Lemma lset_map (f : nat -> nat) l : forall i x, lset (map f l) i (f x) = map f (lset l i x).
Proof. induction l as [ | h t IH]; intros [ | i] x; cbn; try reflexivity. rewrite IH. reflexivity. Qed.

Lemma aset_map (f : nat -> nat) l i x : aset (map f l) i (f x) = rmap f (aset l i x).
Proof. unfold aset. rewrite map_length. destruct (i <? length l); cbn; [rewrite lset_map | ]; reflexivity. Qed.

Lemma natural_swap ps : natural (fun l => swap_cells l ps).
Proof.
  apply (natural_for ps). intros [i j]. apply natural_const. intros f l. rewrite !aget_map.
  destruct (aget l i) as [a | | | ]; cbn; try reflexivity. destruct (aget l j) as [b | | | ]; cbn; try reflexivity.
  rewrite aset_map. destruct (aset l i b) as [l1 | | | ]; cbn; try reflexivity. apply aset_map.
Qed.

Lemma natural_transpose : natural transpose.
Proof. apply natural_swap. Qed.

Ltac nat_tac := repeat first
  [ apply natural_ok | apply natural_swap | apply natural_transpose
  | apply natural_if | apply natural_const | apply natural_for; intros ].

Lemma natural_rows r r' : natural (fun l => swap_rows l r r').
Proof. unfold swap_rows. nat_tac. Qed.
Lemma natural_cols r r' : natural (fun l => swap_cols l r r').
Proof. unfold swap_cols. nat_tac. Qed.
Lemma natural_stacks r r' : natural (fun l => swap_stacks l r r').
Proof. unfold swap_stacks. nat_tac; apply natural_cols. Qed.
Lemma natural_bands r r' : natural (fun l => swap_bands l r r').
Proof. unfold swap_bands. nat_tac; apply natural_rows. Qed.
Lemma natural_cols_in_band r r' : natural (fun l => swap_cols_in_band l r r').
Proof. unfold swap_cols_in_band. nat_tac. Qed.
Lemma natural_stack_in_band r r' : natural (fun l => swap_stack_in_band l r r').
Proof. unfold swap_stack_in_band. nat_tac; apply natural_cols_in_band. Qed.
Lemma natural_rows_in_band r r' : natural (fun l => swap_rows_in_band l r r').
Proof. unfold swap_rows_in_band. nat_tac; apply natural_rows. Qed.

Lemma natural_permute p o sw : (forall i j, natural (fun l => sw l i j)) -> natural (fun l => permute l p o sw).
Proof. intros H. unfold permute. apply (natural_bind (fun l => sw l _ _) (fun l => sw l _ _)); apply H. Qed.

Lemma natural_chutes ps sw : (forall i j, natural (fun l => sw l i j)) -> natural (fun l => chutes_apply ps l sw).
Proof. intros H. unfold chutes_apply. apply natural_for. intros [c p]. apply natural_permute. exact H. Qed.

Lemma self_map (g : list nat) n : length g = n -> g = map (fun i => nth i g 0) (seq 0 n).
Proof.
  intros <-. apply (nth_ext _ _ 0 0); [rewrite map_length, seq_length; reflexivity | ].
  intros i Hi. rewrite nth_map_seq by exact Hi. reflexivity.
Qed.

Lemma natural_apply n op l0 g : natural op -> op (seq 0 n) = Ok l0 -> length g = n -> op g = Ok (map (fun i => nth i g 0) l0).
Proof. intros H E L. rewrite (self_map g n L) at 1. rewrite H, E. reflexivity. Qed.

(** * Rows and columns from elsewhere *)

Definition RC (rows cols : list nat) (g : grid) : grid :=
  map (fun c => at_ g (9 * nth (c / 9) rows 0 + nth (c mod 9) cols 0)) (seq 0 81).
Definition tpose (g : grid) : grid := map (fun c => at_ g (9 * (c mod 9) + c / 9)) (seq 0 81).

Definition idl : list nat := seq 0 9.

Lemma RC_length r k g : length (RC r k g) = 81.
Proof. unfold RC. rewrite map_length. apply seq_length. Qed.
Lemma tpose_length g : length (tpose g) = 81.
Proof. unfold tpose. rewrite map_length. apply seq_length. Qed.

Lemma at_RC r k g c : c < 81 -> at_ (RC r k g) c = at_ g (9 * nth (c / 9) r 0 + nth (c mod 9) k 0).
Proof. intros H. apply (nth_map_seq (fun c => at_ g (9 * nth (c / 9) r 0 + nth (c mod 9) k 0)) 81 c 0 H). Qed.

Lemma at_tpose g c : c < 81 -> at_ (tpose g) c = at_ g (9 * (c mod 9) + c / 9).
Proof. intros H. apply (nth_map_seq (fun c => at_ g (9 * (c mod 9) + c / 9)) 81 c 0 H). Qed.

Lemma RC_id g : length g = 81 -> RC idl idl g = g.
Proof.
  intros L. apply grid_ext; [apply RC_length | exact L | ]. intros c Hc. rewrite at_RC by exact Hc. unfold idl. rewrite !seq_nth by lia.
  f_equal. lia.
Qed.

Lemma RC_comp a b r k g : line_perm a -> line_perm b ->
  RC a b (RC r k g) = RC (comp_l r a) (comp_l k b) g.
Proof.
  intros Ha Hb. apply grid_ext; try apply RC_length. intros c Hc.
  pose proof (line_lt a (c / 9) Ha). pose proof (line_lt b (c mod 9) Hb). pose proof (line_length a Ha). pose proof (line_length b Hb).
  rewrite at_RC by exact Hc. rewrite !at_RC by lia. rewrite !nth_comp by lia. repeat f_equal; lia.
Qed.

Lemma comp_id_r l : length l = 9 -> comp_l l idl = l.
Proof.
  intros H. apply list9_ext; [unfold comp_l; rewrite map_length; apply seq_length | exact H | ]. intros i Hi.
  unfold idl. rewrite nth_comp by (rewrite seq_length; exact Hi). rewrite seq_nth by exact Hi. reflexivity.
Qed.

Lemma idl_lp : lp3 id3 id3 id3 id3 = idl.
Proof. reflexivity. Qed.

Lemma id3_ok : p3ok id3.
Proof. unfold p3ok, id3; cbn; lia. Qed.

Lemma comp_lp b r0 r1 r2 : p3ok b -> p3ok r0 -> p3ok r1 -> p3ok r2 ->
  comp_l (lp3 b id3 id3 id3) (lp3 id3 r0 r1 r2) = lp3 b r0 r1 r2.
Proof.
  intros Hb H0 H1 H2.
  assert (S : forallb (fun '(b, r0, r1, r2) => listb_eq (comp_l (lp3 b id3 id3 id3) (lp3 id3 r0 r1 r2)) (lp3 b r0 r1 r2)) all_lp = true)
    by (vm_compute; reflexivity).
  rewrite forallb_forall in S. apply listb_eq_iff. apply (S (b, r0, r1, r2)). apply in_all_lp. auto.
Qed.

(** Sources of the cells under the model's operations, for each of their finitely many parameters *)
Definition RCl (r k : list nat) : list nat := map (fun c => 9 * nth (c / 9) r 0 + nth (c mod 9) k 0) (seq 0 81).

Lemma RC_RCl op r k g : natural op -> op (seq 0 81) = Ok (RCl r k) -> length g = 81 -> op g = Ok (RC r k g).
Proof.
  intros N E L. rewrite (natural_apply 81 op _ g N E L). unfold RC, RCl. rewrite map_map. reflexivity.
Qed.

Definition res_eqb (a b : res (list nat)) : bool :=
  match a, b with Ok x, Ok y => listb_eq x y | _, _ => false end.
Lemma res_eqb_ok a l : res_eqb a (Ok l) = true -> a = Ok l.
Proof. destruct a; cbn; try discriminate. intros H. apply listb_eq_iff in H. subst. reflexivity. Qed.

Lemma transpose_op g : length g = 81 -> transpose g = Ok (tpose g).
Proof.
  intros L. rewrite (natural_apply 81 transpose (map (fun c => 9 * (c mod 9) + c / 9) (seq 0 81)) g natural_transpose); [ | | exact L].
  - rewrite map_map. reflexivity.
  - apply res_eqb_ok. vm_compute. reflexivity.
Qed.

Ltac p3_op P0 := intros; eapply RC_RCl; [ | apply res_eqb_ok; apply (p3_sweep P0); [vm_compute; reflexivity | assumption] | assumption].

Lemma bands_op p g : p3ok p -> length g = 81 -> permute g p 0 swap_bands = Ok (RC (lp3 p id3 id3 id3) idl g).
Proof.
  intros Hp L. apply (RC_RCl (fun l => permute l p 0 swap_bands)); [apply natural_permute, natural_bands | | exact L].
  apply res_eqb_ok. apply (p3_sweep (fun p => res_eqb (permute (seq 0 81) p 0 swap_bands) (Ok (RCl (lp3 p id3 id3 id3) idl)))); [vm_compute; reflexivity | exact Hp].
Qed.

Lemma stacks_op p g : p3ok p -> length g = 81 -> permute g p 0 swap_stacks = Ok (RC idl (lp3 p id3 id3 id3) g).
Proof.
  intros Hp L. apply (RC_RCl (fun l => permute l p 0 swap_stacks)); [apply natural_permute, natural_stacks | | exact L].
  apply res_eqb_ok. apply (p3_sweep (fun p => res_eqb (permute (seq 0 81) p 0 swap_stacks) (Ok (RCl idl (lp3 p id3 id3 id3))))); [vm_compute; reflexivity | exact Hp].
Qed.

Lemma row0_op p g : p3ok p -> length g = 81 -> permute g p 0 swap_rows = Ok (RC (lp3 id3 p id3 id3) idl g).
Proof.
  intros Hp L. apply (RC_RCl (fun l => permute l p 0 swap_rows)); [apply natural_permute, natural_rows | | exact L].
  apply res_eqb_ok. apply (p3_sweep (fun p => res_eqb (permute (seq 0 81) p 0 swap_rows) (Ok (RCl (lp3 id3 p id3 id3) idl)))); [vm_compute; reflexivity | exact Hp].
Qed.

Lemma band0_op b g : b < 3 -> length g = 81 -> swap_bands g 0 b = Ok (RC (lp3 (b, 0) id3 id3 id3) idl g).
Proof.
  intros Hb L. apply (RC_RCl (fun l => swap_bands l 0 b)); [apply natural_bands | | exact L].
  apply res_eqb_ok. apply (sweep1 3 (fun b => res_eqb (swap_bands (seq 0 81) 0 b) (Ok (RCl (lp3 (b, 0) id3 id3 id3) idl)))); [vm_compute; reflexivity | exact Hb].
Qed.

Lemma band1_op x g : x < 2 -> length g = 81 -> swap_bands g 1 (1 + x) = Ok (RC (lp3 (0, x) id3 id3 id3) idl g).
Proof.
  intros Hb L. apply (RC_RCl (fun l => swap_bands l 1 (1 + x))); [apply natural_bands | | exact L].
  apply res_eqb_ok. apply (sweep1 2 (fun x => res_eqb (swap_bands (seq 0 81) 1 (1 + x)) (Ok (RCl (lp3 (0, x) id3 id3 id3) idl)))); [vm_compute; reflexivity | exact Hb].
Qed.

Lemma in_p3_3 r0 r1 r2 : p3ok r0 -> p3ok r1 -> p3ok r2 -> In (r0, r1, r2) (list_prod (list_prod all_p3 all_p3) all_p3).
Proof. intros H0 H1 H2. rewrite !in_prod_iff, <- !p3_all. tauto. Qed.

Lemma rows_op r0 r1 r2 g : p3ok r0 -> p3ok r1 -> p3ok r2 -> length g = 81 ->
  chutes_apply [r0; r1; r2] g swap_rows = Ok (RC (lp3 id3 r0 r1 r2) idl g).
Proof.
  intros H0 H1 H2 L. apply (RC_RCl (fun l => chutes_apply [r0; r1; r2] l swap_rows)); [apply natural_chutes, natural_rows | | exact L].
  apply res_eqb_ok.
  assert (S : forallb (fun '(r0, r1, r2) => res_eqb (chutes_apply [r0; r1; r2] (seq 0 81) swap_rows) (Ok (RCl (lp3 id3 r0 r1 r2) idl)))
    (list_prod (list_prod all_p3 all_p3) all_p3) = true) by (vm_compute; reflexivity).
  rewrite forallb_forall in S. apply (S (r0, r1, r2)). apply in_p3_3; assumption.
Qed.

Lemma cols_op r0 r1 r2 g : p3ok r0 -> p3ok r1 -> p3ok r2 -> length g = 81 ->
  chutes_apply [r0; r1; r2] g swap_cols = Ok (RC idl (lp3 id3 r0 r1 r2) g).
Proof.
  intros H0 H1 H2 L. apply (RC_RCl (fun l => chutes_apply [r0; r1; r2] l swap_cols)); [apply natural_chutes, natural_cols | | exact L].
  apply res_eqb_ok.
  assert (S : forallb (fun '(r0, r1, r2) => res_eqb (chutes_apply [r0; r1; r2] (seq 0 81) swap_cols) (Ok (RCl idl (lp3 id3 r0 r1 r2))))
    (list_prod (list_prod all_p3 all_p3) all_p3) = true) by (vm_compute; reflexivity).
  rewrite forallb_forall in S. apply (S (r0, r1, r2)). apply in_p3_3; assumption.
Qed.

(** * Relabelling *)

Lemma mapping_op ds l : length ds = 9 -> Forall (fun d => d <= 9) l -> apply_digit_mapping ds l = Ok (map (rename ds) l).
Proof.
  intros L F. induction F as [ | d l Hd F IH]; [reflexivity | ]. cbn [apply_digit_mapping map]. rewrite IH.
  unfold rename, dec. destruct (d =? 0) eqn:E; cbn [bind]; [reflexivity | ].
  rewrite (aget_ok ds (d - 1) 0) by lia. reflexivity.
Qed.

Definition base (tr : bool) (g : grid) : grid := if tr then tpose g else g.

Lemma base_length tr g : length g = 81 -> length (base tr g) = 81.
Proof. intros H. destruct tr; [apply tpose_length | exact H]. Qed.

Lemma base_wf tr g : wf_grid g -> wf_grid (base tr g).
Proof.
  intros H. destruct tr; [ | exact H]. split; [apply tpose_length | ]. apply Forall_forall. intros x Hx. unfold tpose in Hx. cbn [base] in Hx.
  apply in_map_iff in Hx. destruct Hx as [c [<- _]]. apply wf_le. exact H.
Qed.

Lemma act_RC s g : sym_ok s -> act s g = map (rename (s_digits s)) (RC (s_rows s) (s_cols s) (base (s_tr s) g)).
Proof.
  intros [Hr [Hc _]]. unfold act, RC. rewrite map_map. apply map_ext_in. intros c Hi. apply in_seq in Hi. f_equal.
  pose proof (line_lt _ (c / 9) Hr). pose proof (line_lt _ (c mod 9) Hc).
  unfold source, base. destruct (s_tr s); [ | reflexivity]. rewrite at_tpose by lia. f_equal. lia.
Qed.

Lemma base_act tr g : wf_grid g -> base tr g = act (Sym tr idl idl (seq 1 9)) g.
Proof.
  intros H. assert (O : sym_ok (Sym tr idl idl (seq 1 9))) by (split; [apply seq_line | split; [apply seq_line | apply Permutation_refl]]).
  rewrite act_RC by exact O. cbn [s_digits s_rows s_cols s_tr]. rewrite RC_id by (apply base_length, H).
  rewrite <- (map_id (base tr g)) at 1. apply map_ext_in. intros d Hd. pose proof (proj2 (base_wf tr g H)) as F.
  rewrite Forall_forall in F. specialize (F d Hd). unfold rename. destruct (d =? 0) eqn:E; [lia | ]. rewrite seq_nth by lia. lia.
Qed.

Lemma base_solved tr g : solved g -> solved (base tr g).
Proof.
  intros H. assert (wf_grid g) by (split; [apply H | ]; apply Forall_forall; intros x Hx; apply (In_nth _ _ 0) in Hx;
    destruct Hx as [c [Hc <-]]; apply H; rewrite <- (proj1 H); exact Hc).
  rewrite base_act by assumption. apply act_solved; [ | exact H]. split; [apply seq_line | split; [apply seq_line | apply Permutation_refl]].
Qed.

Lemma RC_wf r k g : wf_grid g -> wf_grid (RC r k g).
Proof.
  intros H. split; [apply RC_length | ]. apply Forall_forall. intros x Hx. unfold RC in Hx. apply in_map_iff in Hx.
  destruct Hx as [c [<- _]]. apply wf_le. exact H.
Qed.

(** * Applying a transformation *)

Definition trans_ok (t : transformation) : Prop :=
  p3ok (t_band t) /\ p3ok (t_stack t) /\
  (exists r0 r1 r2, t_rows t = [r0; r1; r2] /\ p3ok r0 /\ p3ok r1 /\ p3ok r2) /\
  (exists c0 c1 c2, t_cols t = [c0; c1; c2] /\ p3ok c0 /\ p3ok c1 /\ p3ok c2) /\
  Permutation (t_digits t) (seq 1 9).

Definition sym_of (t : transformation) : sym :=
  Sym (t_transpose t) (lp (t_band t) (t_rows t)) (lp (t_stack t) (t_cols t)) (t_digits t).

Lemma sym_of_ok t : trans_ok t -> sym_ok (sym_of t).
Proof.
  intros [Hb [Hs [[r0 [r1 [r2 [Er [R0 [R1 R2]]]]]] [[c0 [c1 [c2 [Ec [C0 [C1 C2]]]]]] Hd]]]]. unfold sym_of, lp. rewrite Er, Ec.
  cbn [nth]. split; [apply lp3_line; assumption | split; [apply lp3_line; assumption | exact Hd]].
Qed.

Lemma lp_line1 b : p3ok b -> line_perm (lp3 b id3 id3 id3).
Proof. intros H. apply lp3_line; try assumption; apply id3_ok. Qed.

Lemma lp_line3 r0 r1 r2 : p3ok r0 -> p3ok r1 -> p3ok r2 -> line_perm (lp3 id3 r0 r1 r2).
Proof. intros H. apply lp3_line; try assumption; apply id3_ok. Qed.

Lemma trans_apply_act t g : trans_ok t -> wf_grid g -> trans_apply t g = Ok (act (sym_of t) g).
Proof.
  intros Ht Hg. rewrite (act_RC _ _ (sym_of_ok t Ht)). destruct Ht as [Hb [Hs [[r0 [r1 [r2 [Er [R0 [R1 R2]]]]]] [[c0 [c1 [c2 [Ec [C0 [C1 C2]]]]]] Hd]]]].
  unfold trans_apply, sym_of, lp. rewrite Er, Ec. cbn [nth s_rows s_cols s_tr s_digits].
  assert (E0 : (if t_transpose t then transpose g else @Ok (list nat) g) = Ok (base (t_transpose t) g)).
  { unfold base. destruct (t_transpose t); [apply transpose_op, Hg | reflexivity]. }
  rewrite E0. cbn [bind]. pose proof (base_wf (t_transpose t) g Hg) as Hw. destruct Hw as [L F]. clear E0.
  set (h := base (t_transpose t) g) in *. rewrite <- (RC_id h L) at 1.
  rewrite bands_op by (try apply RC_length; assumption). cbn [bind].
  pose proof seq_line as I. fold idl in I.
  assert (L1 : forall b, p3ok b -> length (lp3 b id3 id3 id3) = 9) by (intros b Hbb; apply line_length, lp_line1, Hbb).
  assert (C3 : forall l, length l = 9 -> comp_l idl l = map (fun i => nth i idl 0) l) by reflexivity.
  assert (CI : forall l, line_perm l -> comp_l idl l = l).
  { intros l Hl. rewrite <- (map_id l) at 2. apply map_ext_in. intros i Hi. unfold idl. apply seq_nth.
    destruct Hl as [P _]. apply (Permutation_in _ P), in_seq in Hi. lia. }
  rewrite RC_comp by (try apply lp_line1; assumption).
  rewrite stacks_op by (try apply RC_length; assumption). cbn [bind].
  rewrite RC_comp by (try apply lp_line1; assumption).
  rewrite cols_op by (try apply RC_length; assumption). cbn [bind].
  rewrite RC_comp by (try apply lp_line3; assumption).
  rewrite rows_op by (try apply RC_length; assumption). cbn [bind].
  rewrite RC_comp by (try apply lp_line3; assumption).
  rewrite !CI by (assumption || apply lp_line1; assumption).
  rewrite !comp_id_r by (try apply L1; assumption || reflexivity).
  rewrite !comp_id_r.
  - rewrite !comp_lp by assumption. apply mapping_op; [apply digits_facts; exact Hd | ].
    apply RC_wf. split; assumption.
  - rewrite comp_lp by assumption. apply line_length. apply lp3_line; assumption.
Qed.

(** * Random transformations *)

Lemma slice_swap_ok l i j : i < length l -> j < length l ->
  slice_swap l i j = Ok (lset (lset l i (nth j l 0)) j (nth i l 0)).
Proof.
  intros Hi Hj. unfold slice_swap. rewrite (aget_ok l i 0), (aget_ok l j 0) by assumption. cbn [bind].
  rewrite aset_ok by exact Hi. cbn [bind]. apply aset_ok. rewrite lset_length. exact Hj.
Qed.

Definition swapped (l : list nat) (i j : nat) : list nat := lset (lset l i (nth j l 0)) j (nth i l 0).

Lemma nth_swapped l i j k : i < length l -> j < length l ->
  nth k (swapped l i j) 0 = nth (if k =? j then i else if k =? i then j else k) l 0.
Proof.
  intros Hi Hj. unfold swapped. rewrite nth_lset by (rewrite lset_length; exact Hj). rewrite nth_lset by exact Hi.
  destruct (k =? j); [reflexivity | ]. destruct (k =? i); reflexivity.
Qed.

Lemma swapped_length l i j : length (swapped l i j) = length l.
Proof. unfold swapped. rewrite !lset_length. reflexivity. Qed.

Lemma swapped_perm l i j : i < length l -> j < length l -> Permutation (swapped l i j) l.
Proof.
  intros Hi Hj. apply (Permutation_nth _ _ 0). split; [rewrite swapped_length; reflexivity | ].
  exists (fun k => if k =? j then i else if k =? i then j else k). split; [ | split].
  - intros k Hk. rewrite swapped_length in *. destruct (k =? j), (k =? i); lia.
  - intros a b Ha Hb E. destruct (a =? j) eqn:E1, (b =? j) eqn:E2, (a =? i) eqn:E3, (b =? i) eqn:E4; lia.
  - intros k Hk. rewrite swapped_length in Hk. rewrite nth_swapped by assumption.
    destruct (k =? j) eqn:E1; [ | destruct (k =? i) eqn:E2].
    + destruct (i =? j) eqn:E3; [ | rewrite Nat.eqb_refl]; f_equal; lia.
    + rewrite Nat.eqb_refl. f_equal. lia.
    + rewrite E1, E2. reflexivity.
Qed.

Definition fy_step (n : nat) (s : list nat * N) : res (list nat * N) :=
  let '(digits, permutation) := s in
  let num := N.to_nat (permutation mod N.of_nat n)%N in
  digits' <- slice_swap digits (n - 1) num; Ok (digits', (permutation / N.of_nat n)%N).

Fixpoint fact_N (n : nat) : N := match n with O => 1%N | S k => (N.of_nat n * fact_N k)%N end.

Lemma fy_step_ok n l p : 0 < n -> n <= length l ->
  fy_step n (l, p) = Ok (swapped l (n - 1) (N.to_nat (p mod N.of_nat n)), (p / N.of_nat n)%N) /\ N.to_nat (p mod N.of_nat n)%N < n.
Proof.
  intros H L. assert (N.to_nat (p mod N.of_nat n)%N < n) by (pose proof (N.mod_lt p (N.of_nat n) ltac:(lia)); lia).
  split; [ | assumption]. unfold fy_step. rewrite slice_swap_ok by lia. reflexivity.
Qed.

(** The loop from [n] down to 2 permutes the first [n] places in exactly one way for each number below [n!]. *)
Lemma fy_total k : forall l p, S k <= length l ->
  exists t q, for_each (rev (seq 2 k)) fy_step (l, p) = Ok (t, q) /\ Permutation t l /\ length t = length l /\
    (forall i, S k <= i -> nth i t 0 = nth i l 0).
Proof.
  induction k as [ | k IH]; intros l p L.
  - exists l, p. split; [reflexivity | ]. split; [apply Permutation_refl | auto].
  - replace (rev (seq 2 (S k))) with (S (S k) :: rev (seq 2 k)) by (rewrite seq_S, rev_unit; reflexivity). cbn [for_each].
    destruct (fy_step_ok (S (S k)) l p ltac:(lia) ltac:(lia)) as [E B]. rewrite E. cbn [bind].
    set (j := N.to_nat _) in *. destruct (IH (swapped l (S (S k) - 1) j) (p / N.of_nat (S (S k)))%N) as [t [q [E1 [P1 [L1 A1]]]]]; [rewrite swapped_length; lia | ].
    exists t, q. split; [exact E1 | ]. rewrite swapped_length in L1. split; [ | split; [exact L1 | ]].
    + eapply Permutation_trans; [exact P1 | ]. apply swapped_perm; lia.
    + intros i Hi. rewrite A1 by lia. rewrite nth_swapped by lia. replace (i =? j) with false by lia.
      replace (i =? S (S k) - 1) with false by lia. reflexivity.
Qed.

Lemma fy_reach k : forall l t, S k <= length l -> NoDup l -> Permutation t l ->
  (forall i, S k <= i -> nth i t 0 = nth i l 0) ->
  exists p, (p < fact_N (S k))%N /\ exists q, for_each (rev (seq 2 k)) fy_step (l, p) = Ok (t, q).
Proof.
  induction k as [ | k IH]; intros l t L N P A.
  - exists 0%N. split; [cbn; lia | ]. exists 0%N. cbn [seq rev for_each]. f_equal. f_equal.
    pose proof (Permutation_length P) as Lt. apply (nth_ext _ _ 0 0); [lia | ]. intros i Hi.
    destruct (Nat.eq_dec i 0) as [-> | Hi0]; [ | symmetry; apply A; lia].
    assert (I : In (nth 0 l 0) t) by (apply (Permutation_in _ (Permutation_sym P)), nth_In; lia).
    apply (In_nth _ _ 0) in I. destruct I as [j [Hj E]]. destruct (Nat.eq_dec j 0) as [-> | Hj0]; [congruence | ].
    rewrite A in E by lia. apply (proj1 (NoDup_nth l 0) N) in E; lia.
  - pose proof (Permutation_length P) as Lt.
    replace (rev (seq 2 (S k))) with (S (S k) :: rev (seq 2 k)) by (rewrite seq_S, rev_unit; reflexivity). cbn [for_each].
    assert (I : In (nth (S k) t 0) l) by (apply (Permutation_in _ P), nth_In; lia).
    apply (In_nth _ _ 0) in I. destruct I as [j [Hj E]].
    assert (Nt : NoDup t) by (apply (Permutation_NoDup (Permutation_sym P)), N).
    assert (Hjk : j < S (S k)).
    { destruct (Nat.lt_ge_cases j (S (S k))) as [H | H]; [exact H | ]. rewrite <- A in E by exact H.
      apply (proj1 (NoDup_nth t 0) Nt) in E; lia. }
    destruct (IH (swapped l (S (S k) - 1) j) t) as [p [Hp [q Eq]]].
    + rewrite swapped_length. lia.
    + apply (Permutation_NoDup (Permutation_sym (swapped_perm l (S (S k) - 1) j ltac:(lia) ltac:(lia)))). exact N.
    + eapply Permutation_trans; [exact P | ]. apply Permutation_sym, swapped_perm; lia.
    + intros i Hi. rewrite nth_swapped by lia. destruct (i =? j) eqn:E1.
      * assert (i = S k) by lia. subst i. rewrite <- E. f_equal. lia.
      * destruct (i =? S (S k) - 1) eqn:E2; [assert (i = S k) by lia; subst i; symmetry; exact E | ]. apply A. lia.
    + exists (N.of_nat j + N.of_nat (S (S k)) * p)%N. split.
      * cbn [fact_N] in *. nia.
      * destruct (fy_step_ok (S (S k)) l (N.of_nat j + N.of_nat (S (S k)) * p)%N ltac:(lia) ltac:(lia)) as [Es _].
        rewrite Es. cbn [bind]. exists q. rewrite <- Eq. f_equal. f_equal.
        -- f_equal. replace (N.of_nat j + N.of_nat (S (S k)) * p)%N with (N.of_nat j + p * N.of_nat (S (S k)))%N by lia.
           rewrite N.mod_add by lia. rewrite N.mod_small by lia. lia.
        -- replace (N.of_nat j + N.of_nat (S (S k)) * p)%N with (N.of_nat j + p * N.of_nat (S (S k)))%N by lia.
           rewrite N.div_add by lia. rewrite N.div_small by lia. lia.
Qed.

Lemma fy_inj k : forall l t p p' q q', S k <= length l -> NoDup l -> (p < fact_N (S k))%N -> (p' < fact_N (S k))%N ->
  for_each (rev (seq 2 k)) fy_step (l, p) = Ok (t, q) -> for_each (rev (seq 2 k)) fy_step (l, p') = Ok (t, q') -> p = p'.
Proof.
  induction k as [ | k IH]; intros l t p p' q q' L N Hp Hp'.
  - cbn in Hp, Hp'. intros _ _. lia.
  - replace (rev (seq 2 (S k))) with (S (S k) :: rev (seq 2 k)) by (rewrite seq_S, rev_unit; reflexivity). cbn [for_each].
    destruct (fy_step_ok (S (S k)) l p ltac:(lia) ltac:(lia)) as [E B]. rewrite E. cbn [bind].
    destruct (fy_step_ok (S (S k)) l p' ltac:(lia) ltac:(lia)) as [E' B']. rewrite E'. cbn [bind]. clear E E'.
    set (j := N.to_nat (p mod _)) in *. set (j' := N.to_nat (p' mod _)) in *. intros R R'.
    destruct (fy_total k (swapped l (S (S k) - 1) j) (p / N.of_nat (S (S k)))%N) as [t1 [q1 [E1 [_ [_ A1]]]]]; [rewrite swapped_length; lia | ].
    destruct (fy_total k (swapped l (S (S k) - 1) j') (p' / N.of_nat (S (S k)))%N) as [t2 [q2 [E2 [_ [_ A2]]]]]; [rewrite swapped_length; lia | ].
    rewrite E1 in R. injection R as -> ->. rewrite E2 in R'. injection R' as -> ->.
    pose proof (A1 (S k) ltac:(lia)) as X1. pose proof (A2 (S k) ltac:(lia)) as X2. rewrite X1 in X2.
    rewrite !nth_swapped in X2 by lia.
    assert (Ej : j = j').
    { apply (proj1 (NoDup_nth l 0) N) in X2; [ | destruct (S k =? j), (S k =? S (S k) - 1); lia | destruct (S k =? j'), (S k =? S (S k) - 1); lia].
      destruct (S k =? j) eqn:J1, (S k =? j') eqn:J2, (S k =? S (S k) - 1) eqn:J3; lia. }
    rewrite <- Ej in E2.
    assert (Nd : NoDup (swapped l (S (S k) - 1) j)) by (apply (Permutation_NoDup (Permutation_sym (swapped_perm l (S (S k) - 1) j ltac:(lia) ltac:(lia)))), N).
    assert (D : (p / N.of_nat (S (S k)) = p' / N.of_nat (S (S k)))%N).
    { cbn [fact_N] in Hp, Hp', IH. eapply (IH _ t _ _ q q'); [ | exact Nd | | | exact E1 | exact E2].
      - rewrite swapped_length. lia.
      - apply N.div_lt_upper_bound; [lia | exact Hp].
      - apply N.div_lt_upper_bound; [lia | exact Hp']. }
    rewrite (N.div_mod p (N.of_nat (S (S k)))) by lia. rewrite (N.div_mod p' (N.of_nat (S (S k)))) by lia.
    rewrite D. f_equal. unfold j, j' in Ej. lia.
Qed.

Lemma fisher_yates_eq p : fisher_yates p = bind (for_each (rev (seq 2 8)) fy_step (seq 1 9, p)) (fun r => Ok (fst r)).
Proof. reflexivity. Qed.

Lemma fisher_yates_perm p : exists l, fisher_yates p = Ok l /\ Permutation l (seq 1 9).
Proof.
  rewrite fisher_yates_eq. destruct (fy_total 8 (seq 1 9) p) as [t [q [E [P _]]]]; [rewrite seq_length; lia | ].
  exists t. rewrite E. auto.
Qed.

Lemma fisher_yates_bijective l : Permutation l (seq 1 9) -> exists! p, (p < 362880)%N /\ fisher_yates p = Ok l.
Proof.
  intros P. assert (F : fact_N 9 = 362880%N) by reflexivity.
  destruct (fy_reach 8 (seq 1 9) l) as [p [Hp [q E]]]; [rewrite seq_length; lia | apply seq_NoDup | exact P | | ].
  { intros i Hi. rewrite !nth_overflow; [reflexivity | rewrite seq_length; lia | rewrite (Permutation_length P), seq_length; lia]. }
  exists p. split.
  - rewrite <- F. split; [exact Hp | ]. rewrite fisher_yates_eq, E. reflexivity.
  - intros p' [Hp' E']. rewrite fisher_yates_eq in E'.
    destruct (fy_total 8 (seq 1 9) p') as [t [q' [E1 _]]]; [rewrite seq_length; lia | ]. rewrite E1 in E'. cbn in E'. injection E' as ->.
    rewrite <- F in Hp'. apply (fy_inj 8 (seq 1 9) l p p' q q'); try assumption; [rewrite seq_length; lia | apply seq_NoDup].
Qed.

Lemma p3_new_ok k : k < 6 -> p3_new k = Ok (k mod 3, k / 3) /\ p3ok (k mod 3, k / 3).
Proof.
  intros H. unfold p3_new, assert_. replace (k <? 6) with true by lia. split; [reflexivity | ]. unfold p3ok. cbn [fst snd]. lia.
Qed.

Lemma p3_new_bij p : p3ok p -> exists k, k < 6 /\ p3_new k = Ok p.
Proof.
  destruct p as [a b]. intros [H1 H2]. cbn [fst snd] in *. exists (a + 3 * b). split; [lia | ].
  assert (H : a + 3 * b < 6) by lia. rewrite (proj1 (p3_new_ok _ H)). f_equal. f_equal; lia.
Qed.

Lemma p3_new_inj k k' p : k < 6 -> k' < 6 -> p3_new k = Ok p -> p3_new k' = Ok p -> k = k'.
Proof.
  intros H H'. rewrite (proj1 (p3_new_ok k H)), (proj1 (p3_new_ok k' H')). intros E E'. rewrite <- E in E'. injection E' as E1 E2. lia.
Qed.

Lemma random_ok perm tr rng : exists t, trans_random perm tr rng = Ok t /\ trans_ok t.
Proof.
  unfold trans_random. destruct (fisher_yates_perm (perm mod 362880)) as [l [-> P]]. cbn [bind].
  assert (H : forall i, p3_new (rng i mod 6) = Ok ((rng i mod 6) mod 3, (rng i mod 6) / 3) /\ p3ok ((rng i mod 6) mod 3, (rng i mod 6) / 3)).
  { intros i. apply p3_new_ok. apply Nat.mod_upper_bound. discriminate. }
  rewrite !(fun i => proj1 (H i)). cbn [bind]. eexists. split; [reflexivity | ].
  split; [apply H | split; [apply H | split; [ | split; [ | exact P]]]]; cbn [t_rows t_cols];
    (eexists; eexists; eexists; split; [reflexivity | repeat split; apply H]).
Qed.

Lemma shuffle_ok g perm tr rng : wf_grid g -> exists s, sym_ok s /\ shuffle g perm tr rng = Ok (act s g).
Proof.
  intros Hg. unfold shuffle. destruct (random_ok perm tr rng) as [t [E Ht]]. rewrite E. cbn [bind]. exists (sym_of t).
  split; [apply sym_of_ok; exact Ht | apply trans_apply_act; assumption].
Qed.

(** Every symmetry is [sym_of] of exactly one transformation. *)
Lemma sym_of_surj s : sym_ok s -> exists t, trans_ok t /\ sym_of t = s.
Proof.
  intros [Hr [Hc Hd]]. destruct (line_lp _ Hr) as [b [r0 [r1 [r2 [B [R0 [R1 [R2 Er]]]]]]]].
  destruct (line_lp _ Hc) as [k [c0 [c1 [c2 [K [C0 [C1 [C2 Ec]]]]]]]].
  exists (mkTrans (s_tr s) b k [r0; r1; r2] [c0; c1; c2] (s_digits s)). split.
  - split; [exact B | split; [exact K | split; [ | split; [ | exact Hd]]]]; eexists; eexists; eexists; (split; [reflexivity | auto]).
  - unfold sym_of, lp. cbn [t_transpose t_band t_stack t_rows t_cols t_digits nth]. rewrite <- Er, <- Ec. destruct s; reflexivity.
Qed.

Lemma sym_of_inj t t' : trans_ok t -> trans_ok t' -> sym_of t = sym_of t' -> t = t'.
Proof.
  intros [Hb [Hs [[r0 [r1 [r2 [Er [R0 [R1 R2]]]]]] [[c0 [c1 [c2 [Ec [C0 [C1 C2]]]]]] Hd]]]].
  intros [Hb' [Hs' [[r0' [r1' [r2' [Er' [R0' [R1' R2']]]]]] [[c0' [c1' [c2' [Ec' [C0' [C1' C2']]]]]] Hd']]]].
  unfold sym_of, lp. rewrite Er, Ec, Er', Ec'. cbn [nth]. intros E. injection E as E1 E2 E3 E4.
  apply lp3_inj in E2; try assumption. apply lp3_inj in E3; try assumption.
  destruct t, t'. cbn in *. destruct E2 as [-> [-> [-> ->]]], E3 as [-> [-> [-> ->]]]. subst. reflexivity.
Qed.

(** The random choices: a number below 9!, a bit, eight numbers below 6; each symmetry comes from exactly one. *)
Definition nth_rng (l : list nat) (i : nat) : nat := nth i l 0.

Lemma random_bijective s : sym_ok s ->
  exists perm tr draws, ((perm < 362880)%N /\ length draws = 8 /\ Forall (fun x => x < 6) draws /\
    exists t, trans_random perm tr (nth_rng draws) = Ok t /\ sym_of t = s) /\
  forall perm' tr' draws', (perm' < 362880)%N -> length draws' = 8 -> Forall (fun x => x < 6) draws' ->
    (exists t, trans_random perm' tr' (nth_rng draws') = Ok t /\ sym_of t = s) -> perm' = perm /\ tr' = tr /\ draws' = draws.
Proof.
  intros Hs. destruct (sym_of_surj s Hs) as [t [Ht Es]].
  pose proof Ht as [Hb [Hk [[r0 [r1 [r2 [Er [R0 [R1 R2]]]]]] [[c0 [c1 [c2 [Ec [C0 [C1 C2]]]]]] Hd]]]].
  destruct (fisher_yates_bijective _ Hd) as [perm [[Hp Ep] Up]].
  destruct (p3_new_bij _ Hb) as [xb [Bb Eb]]. destruct (p3_new_bij _ Hk) as [xk [Bk Ek]].
  destruct (p3_new_bij _ R0) as [x0 [B0 E0]]. destruct (p3_new_bij _ R1) as [x1 [B1 E1]]. destruct (p3_new_bij _ R2) as [x2 [B2 E2]].
  destruct (p3_new_bij _ C0) as [y0 [D0 F0]]. destruct (p3_new_bij _ C1) as [y1 [D1 F1]]. destruct (p3_new_bij _ C2) as [y2 [D2 F2]].
  exists perm, (t_transpose t), [xb; xk; x0; x1; x2; y0; y1; y2]. split.
  - split; [exact Hp | ]. split; [reflexivity | ]. split; [repeat (apply Forall_cons; [assumption | ]); apply Forall_nil | ]. exists t. split; [ | exact Es].
    unfold trans_random. rewrite N.mod_small by exact Hp. rewrite Ep. unfold nth_rng. cbn [bind nth].
    rewrite !Nat.mod_small by assumption. rewrite Eb, Ek, E0, E1, E2, F0, F1, F2. cbn [bind]. rewrite <- Er, <- Ec. destruct t; reflexivity.
  - intros perm' tr' draws' Hp' L' F' [t' [E' Es']].
    destruct (random_ok perm' tr' (nth_rng draws')) as [t1 [E1' Ht']]. rewrite E1' in E'. injection E' as ->.
    assert (t' = t) by (apply sym_of_inj; [exact Ht' | exact Ht | congruence]). subst t'. clear Es' Ht'. rename E1' into E'.
    do 9 (destruct draws' as [ | ? draws']; try discriminate L').
    repeat match goal with H : Forall _ (_ :: _) |- _ => apply Forall_cons_iff in H; destruct H as [? H] end.
    unfold trans_random in E'. rewrite N.mod_small in E' by exact Hp'. unfold nth_rng in E'. cbn [nth] in E'.
    rewrite !Nat.mod_small in E' by assumption.
    destruct (fisher_yates perm') as [l' | | | ] eqn:El; try discriminate E'. cbn [bind] in E'.
    destruct (p3_new n) as [p0 | | | ] eqn:P0; try discriminate E'. cbn [bind] in E'.
    destruct (p3_new n0) as [p1 | | | ] eqn:P1; try discriminate E'. cbn [bind] in E'.
    destruct (p3_new n1) as [p2 | | | ] eqn:P2; try discriminate E'. cbn [bind] in E'.
    destruct (p3_new n2) as [p3' | | | ] eqn:P3; try discriminate E'. cbn [bind] in E'.
    destruct (p3_new n3) as [p4 | | | ] eqn:P4; try discriminate E'. cbn [bind] in E'.
    destruct (p3_new n4) as [p5 | | | ] eqn:P5; try discriminate E'. cbn [bind] in E'.
    destruct (p3_new n5) as [p6 | | | ] eqn:P6; try discriminate E'. cbn [bind] in E'.
    destruct (p3_new n6) as [p7 | | | ] eqn:P7; try discriminate E'. cbn [bind] in E'.
    injection E' as <-. cbn [t_transpose t_band t_stack t_rows t_cols t_digits] in *. injection Er as -> -> ->. injection Ec as -> -> ->.
    split; [symmetry; apply Up; split; [exact Hp' | exact El] | ]. split; [reflexivity | ].
    repeat (f_equal; [eapply p3_new_inj; eassumption | ]). f_equal. eapply p3_new_inj; eassumption.
Qed.

Lemma shuffle_reach g g' : wf_grid g -> equivalent g g' -> exists perm tr rng, shuffle g perm tr rng = Ok g'.
Proof.
  intros Hg [s [Hs <-]]. destruct (random_bijective s Hs) as [perm [tr [draws [[_ [_ [_ [t [E Es]]]]] _]]]].
  exists perm, tr, (nth_rng draws). unfold shuffle. rewrite E. cbn [bind]. rewrite <- Es.
  destruct (random_ok perm tr (nth_rng draws)) as [t' [E' Ht]]. rewrite E in E'. injection E' as <-. apply trans_apply_act; assumption.
Qed.
