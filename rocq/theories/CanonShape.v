(** What the canonical form of a grid looks like *)
From Coq Require Import List Arith NArith ZArith Lia Bool Permutation.
From Verif Require Import Spec CanonSpec Solver Api Parse Canon GridProofs GenProofs ApiProofs EquivProofs MinlexProofs CanonProofs CanonMain CanonApi RelateProofs CanonIdem.
Import ListNotations.

(** The smaller of two lists is smaller at the first difference. *)
Lemma le_next i : forall a b, le_l a b -> length a = length b -> (forall j, j < i -> nth j a 0 = nth j b 0) -> nth i a 0 <= nth i b 0.
Proof.
  induction i as [ | i IH]; intros [ | x a] [ | y b] L E H; try discriminate E; try (cbn; lia).
  - cbn [nth]. unfold le_l in L. cbn [lex_nat] in L. destruct (Nat.compare_spec x y); [lia | lia | contradiction].
  - cbn [nth]. assert (H0 := H 0 ltac:(lia)). cbn [nth] in H0. subst y. apply IH; [ | injection E as E; exact E | intros j Hj; apply (H (S j)); lia].
    unfold le_l in *. cbn [lex_nat] in L. rewrite Nat.compare_refl in L. exact L.
Qed.
Lemma least_next g s i : length g = 81 -> least g -> sym_ok s -> (forall j, j < i -> at_ (act s g) j = at_ g j) -> at_ g i <= at_ (act s g) i.
Proof. intros L M Hs H. apply le_next; [apply M, Hs | rewrite act_length; exact L | ]. intros j Hj. symmetry. apply H, Hj. Qed.

(** Rows in another order *)
Definition row_order (l : list nat) : sym := Sym false l (seq 0 9) (seq 1 9).
Lemma at_row_order l g c : solved g -> c < 81 -> Forall (fun i => i < 9) l -> at_ (act (row_order l) g) c = at_ g (9 * nth (c / 9) l 0 + c mod 9).
Proof.
  intros S Hc Fl. rewrite at_act by exact Hc. unfold source, row_order. cbn [s_tr s_rows s_cols s_digits].
  assert (M := Nat.mod_upper_bound c 9 ltac:(discriminate)). rewrite seq_nth by exact M. cbn [Nat.add]. apply rename_id. apply (proj1 (proj2 S)).
  assert (nth (c / 9) l 0 < 9). { destruct (nth_in_or_default (c / 9) l 0) as [Q | ->]; [rewrite Forall_forall in Fl; apply Fl, Q | lia]. } lia.
Qed.

(** The first row that another order changes begins with a smaller digit. *)
Lemma least_rows g l i : solved g -> least g -> sym_okb (row_order l) = true -> forallb (fun x => x <? 9) l = true ->
  i < 9 -> forallb (fun j => nth j l 0 =? j) (seq 0 i) = true -> nth i l 0 <> i -> at_ g (9 * i) < at_ g (9 * nth i l 0).
Proof.
  intros S M Hs Fl Hi H N. assert (Fl' : Forall (fun x => x < 9) l). { rewrite Forall_forall. rewrite forallb_forall in Fl. intros x Hx. apply Nat.ltb_lt, Fl, Hx. }
  assert (Hn : nth i l 0 < 9). { destruct (nth_in_or_default i l 0) as [Q | ->]; [rewrite Forall_forall in Fl'; apply Fl', Q | lia]. }
  assert (Q : at_ g (9 * i) <= at_ (act (row_order l) g) (9 * i)).
  { apply least_next; [apply S | exact M | apply sym_okb_ok, Hs | ]. intros j Hj. rewrite at_row_order; [ | exact S | lia | exact Fl'].
    rewrite forallb_forall in H. assert (J : nth (j / 9) l 0 = j / 9). { apply Nat.eqb_eq, H, in_seq. assert (j / 9 < i) by (apply Nat.div_lt_upper_bound; lia). lia. }
    rewrite J. f_equal. symmetry. apply Nat.div_mod. discriminate. }
  rewrite at_row_order in Q; [ | exact S | lia | exact Fl']. replace (9 * i / 9) with i in Q by (rewrite Nat.mul_comm, Nat.div_mul; [reflexivity | discriminate]).
  replace (9 * i mod 9) with 0 in Q by (rewrite Nat.mul_comm, Nat.mod_mul; [reflexivity | discriminate]). rewrite Nat.add_0_r in Q.
  enough (at_ g (9 * i) <> at_ g (9 * nth i l 0)) by lia. apply (proj2 (proj2 S)); [lia | lia | ].
  split; [lia | ]. right. left. unfold col_of. rewrite !(Nat.mul_comm 9), !Nat.mod_mul by discriminate. reflexivity.
Qed.

(** The third digit of the second row *)
Definition two_columns (v : nat) : sym :=
  if v =? 8 then Sym false (seq 0 9) [0; 1; 2; 3; 4; 5; 7; 6; 8] [1; 2; 3; 4; 5; 6; 8; 7; 9]
  else Sym false (seq 0 9) [0; 1; 2; 3; 4; 5; 8; 7; 6] [1; 2; 3; 4; 5; 6; 9; 8; 7].
Lemma least_twelfth g : solved g -> least g -> at_ g 11 = 6 \/ at_ g 11 = 7.
Proof.
  intros S M. assert (F := least_form g S M). assert (X : forall j, j < 11 -> at_ g j = nth j form 0).
  { intros j Hj. unfold at_. rewrite <- F, <- (firstn_skipn 11 g) at 1. rewrite app_nth1; [reflexivity | rewrite F; exact Hj]. }
  assert (R := proj1 (proj2 S) 11 ltac:(lia)).
  assert (D : forall c, In c [0; 1; 2; 9; 10] -> at_ g 11 <> at_ g c).
  { intros c Hc. apply (proj2 (proj2 S)); [lia | cbn in Hc; lia | ]. apply peersb_spec. cbn in Hc. destruct Hc as [<- | [<- | [<- | [<- | [<- | []]]]]]; reflexivity. }
  assert (D0 := D 0 ltac:(cbn; tauto)). assert (D1 := D 1 ltac:(cbn; tauto)). assert (D2 := D 2 ltac:(cbn; tauto)). assert (D9 := D 9 ltac:(cbn; tauto)). assert (D10 := D 10 ltac:(cbn; tauto)).
  rewrite (X 0) in D0 by lia. rewrite (X 1) in D1 by lia. rewrite (X 2) in D2 by lia. rewrite (X 9) in D9 by lia. rewrite (X 10) in D10 by lia. cbn [form nth] in D0, D1, D2, D9, D10. clear D.
  assert (K : forall v, v = 8 \/ v = 9 -> at_ g 11 <> v).
  { intros v Hv E. assert (Q : at_ g 11 <= at_ (act (two_columns v) g) 11).
    - apply least_next; [apply S | exact M | apply sym_okb_ok; destruct Hv as [-> | ->]; vm_compute; reflexivity | ].
      intros j Hj. rewrite at_act by lia. rewrite (X j Hj).
      destruct Hv as [-> | ->]; do 11 (destruct j as [ | j]; [match goal with |- rename ?d (at_ g ?c) = ?r => let e := eval vm_compute in c in change (rename d (at_ g e) = r) end; rewrite X by lia; vm_compute; reflexivity | ]); lia.
    - rewrite at_act in Q by lia. assert (Es : source (two_columns v) 11 = 11) by (destruct Hv as [-> | ->]; reflexivity). rewrite Es, E in Q.
      destruct Hv as [-> | ->]; vm_compute in Q; lia. }
  assert (K8 := K 8 (or_introl eq_refl)). assert (K9 := K 9 (or_intror eq_refl)). clear - R D0 D1 D2 D9 D10 K8 K9. lia.
Qed.

Lemma least_bands g i j b : solved g -> least g -> b < 3 -> i < j -> j < 3 -> at_ g (9 * (3 * b + i)) < at_ g (9 * (3 * b + j)).
Proof.
  intros S M Hb Hi Hj. set (l := map (fun r => if r =? 3 * b + i then 3 * b + j else if r =? 3 * b + j then 3 * b + i else r) (seq 0 9)).
  assert (B : forallb (fun b => forallb (fun j => forallb (fun i =>
    let l := map (fun r => if r =? 3 * b + i then 3 * b + j else if r =? 3 * b + j then 3 * b + i else r) (seq 0 9) in
    sym_okb (row_order l) && (forallb (fun x => x <? 9) l && (forallb (fun r => nth r l 0 =? r) (seq 0 (3 * b + i)) && (nth (3 * b + i) l 0 =? 3 * b + j)))) (seq 0 j)) (seq 0 3)) (seq 0 3) = true)
    by (vm_compute; reflexivity).
  rewrite forallb_forall in B. specialize (B b ltac:(apply in_seq; lia)). rewrite forallb_forall in B. specialize (B j ltac:(apply in_seq; lia)). rewrite forallb_forall in B.
  specialize (B i ltac:(apply in_seq; lia)). cbv zeta in B. fold l in B. rewrite !andb_true_iff, Nat.eqb_eq in B. destruct B as [B1 [B2 [B3 B4]]].
  assert (Q : nth (3 * b + i) l 0 <> 3 * b + i) by lia. assert (Q9 : 3 * b + i < 9) by lia. assert (Z := least_rows g l (3 * b + i) S M B1 B2 Q9 B3 Q). rewrite B4 in Z. exact Z.
Qed.

Definition shape (m : grid) : Prop := firstn 11 m = [1; 2; 3; 4; 5; 6; 7; 8; 9; 4; 5] /\ (at_ m 11 = 6 \/ at_ m 11 = 7) /\
  (forall b i j, b < 3 -> i < j -> j < 3 -> at_ m (9 * (3 * b + i)) < at_ m (9 * (3 * b + j))) /\ at_ m 27 < at_ m 54.
Lemma least_shape g : solved g -> least g -> shape g.
Proof.
  intros S M. split; [exact (least_form g S M) | ]. split; [exact (least_twelfth g S M) | ]. split; [intros b i j; apply least_bands; assumption | ].
  apply (least_rows g [0; 1; 2; 6; 7; 8; 3; 4; 5] 3 S M); [vm_compute; reflexivity | reflexivity | lia | reflexivity | discriminate].
Qed.

Lemma canonicalized_shape p q n : wf_grid p -> canonicalized p = Ok (Some (q, n)) -> exists m, (forall s, solution_of q s <-> s = m) /\ shape m.
Proof.
  intros W E. destruct (canonicalized_facts p q n W E) as [s [a [Ha [-> [Es [Ea [M [L _]]]]]]]]. assert (Wq := act_wf a p Ha W).
  exists (act a s). destruct (proj1 (solution_iff _ _ Wq) Ea) as [_ [So U]]. split; [intros s'; split; [apply U | intros ->; exact So] | ].
  apply least_shape; [apply So | exact L].
Qed.
Lemma canonicalized_shape_solved s m n : solved s -> canonicalized s = Ok (Some (m, n)) -> shape m.
Proof.
  intros S E. assert (W := solved_wf s S). destruct (canonicalized_facts s m n W E) as [s' [a [Ha [-> [Es [Ea [M [L _]]]]]]]].
  destruct (proj1 (solution_iff _ _ W) Es) as [_ [So U]]. assert (Q : s = s') by (apply U; split; [exact S | intros c Hc _; reflexivity]). subst s'. apply least_shape; [ | exact L].
  destruct (proj1 (solution_iff _ _ (act_wf a s Ha W)) Ea) as [_ [So' _]]. apply So'.
Qed.
