(** Facts about solved grids and the geometry of the board. *)
From Coq Require Import List Arith Lia Bool.
From Verif Require Import Spec BitLemmas.
Import ListNotations.

Definition row_cells (r : nat) : list nat := map (fun i => 9 * r + i) (seq 0 9).
Definition col_cells (k : nat) : list nat := map (fun i => 9 * i + k) (seq 0 9).
Definition block_cells (b : nat) : list nat :=
  map (fun i => 27 * (b / 3) + 3 * (b mod 3) + 9 * (i / 3) + i mod 3) (seq 0 9).

Definition peersb (c c' : nat) : bool :=
  negb (c =? c') &&
  ((row_of c =? row_of c') || (col_of c =? col_of c') || (block_of c =? block_of c')).

Lemma peersb_spec c c' : peersb c c' = true <-> peers c c'.
Proof.
  unfold peersb, peers. rewrite andb_true_iff, negb_true_iff, !orb_true_iff, Nat.eqb_neq, !Nat.eqb_eq.
  tauto.
Qed.

Lemma peers_sym c c' : peers c c' -> peers c' c.
Proof. unfold peers. intros [H [H1 | [H1 | H1]]]; split; auto. Qed.

Lemma row_lt c : c < 81 -> row_of c < 9.
Proof. unfold row_of. intros. apply Nat.div_lt_upper_bound; lia. Qed.
Lemma col_lt c : col_of c < 9.
Proof. unfold col_of. apply Nat.mod_upper_bound. lia. Qed.
Lemma block_lt c : c < 81 -> block_of c < 9.
Proof.
  intros H. apply Nat.ltb_lt.
  apply (sweep1 81 (fun c => block_of c <? 9)); [vm_compute; reflexivity | exact H].
Qed.

Lemma existsb_nat_eq (l : list nat) x : existsb (Nat.eqb x) l = true <-> In x l.
Proof.
  rewrite existsb_exists. split.
  - intros [y [Hy E]]. apply Nat.eqb_eq in E. subst. exact Hy.
  - intros H. exists x. split; [exact H | apply Nat.eqb_refl].
Qed.

Lemma in_row_cells c r : c < 81 -> r < 9 -> (In c (row_cells r) <-> row_of c = r).
Proof.
  intros Hc Hr.
  assert (H : eqb (existsb (Nat.eqb c) (row_cells r)) (row_of c =? r) = true).
  { apply (sweep2 81 9 (fun c r => eqb (existsb (Nat.eqb c) (row_cells r)) (row_of c =? r)));
      [vm_compute; reflexivity | exact Hc | exact Hr]. }
  apply eqb_prop in H. rewrite <- existsb_nat_eq, H. apply Nat.eqb_eq.
Qed.

Lemma in_col_cells c r : c < 81 -> r < 9 -> (In c (col_cells r) <-> col_of c = r).
Proof.
  intros Hc Hr.
  assert (H : eqb (existsb (Nat.eqb c) (col_cells r)) (col_of c =? r) = true).
  { apply (sweep2 81 9 (fun c r => eqb (existsb (Nat.eqb c) (col_cells r)) (col_of c =? r)));
      [vm_compute; reflexivity | exact Hc | exact Hr]. }
  apply eqb_prop in H. rewrite <- existsb_nat_eq, H. apply Nat.eqb_eq.
Qed.

Lemma in_block_cells c r : c < 81 -> r < 9 -> (In c (block_cells r) <-> block_of c = r).
Proof.
  intros Hc Hr.
  assert (H : eqb (existsb (Nat.eqb c) (block_cells r)) (block_of c =? r) = true).
  { apply (sweep2 81 9 (fun c r => eqb (existsb (Nat.eqb c) (block_cells r)) (block_of c =? r)));
      [vm_compute; reflexivity | exact Hc | exact Hr]. }
  apply eqb_prop in H. rewrite <- existsb_nat_eq, H. apply Nat.eqb_eq.
Qed.

Fixpoint nodupb (l : list nat) : bool :=
  match l with [] => true | a :: t => negb (existsb (Nat.eqb a) t) && nodupb t end.
Lemma nodupb_spec l : nodupb l = true -> NoDup l.
Proof.
  induction l as [ | a t IH]; simpl; intros H; [constructor | ].
  apply andb_true_iff in H. destruct H as [H1 H2]. apply negb_true_iff in H1.
  constructor; [ | auto]. intros Hin. apply existsb_nat_eq in Hin. congruence.
Qed.

Definition is_houseb (l : list nat) : bool :=
  (length l =? 9) && forallb (fun c => c <? 81) l &&
  forallb (fun c => forallb (fun c' => (c =? c') || peersb c c') l) l &&
  nodupb l.

Definition is_house (l : list nat) : Prop :=
  length l = 9 /\ NoDup l /\ (forall c, In c l -> c < 81) /\
  (forall c c', In c l -> In c' l -> c <> c' -> peers c c').

Lemma is_houseb_spec l : is_houseb l = true -> is_house l.
Proof.
  unfold is_houseb, is_house. rewrite !andb_true_iff. intros [[[H1 H2] H3] H4].
  apply Nat.eqb_eq in H1. rewrite forallb_forall in H2. rewrite forallb_forall in H3.
  apply nodupb_spec in H4.
  split; [auto | ]. split; [auto | ]. split.
  - intros c Hc. apply Nat.ltb_lt. auto.
  - intros c c' H H0 Hne. specialize (H3 c H). rewrite forallb_forall in H3. specialize (H3 c' H0).
    apply orb_true_iff in H3. destruct H3 as [E | E]; [apply Nat.eqb_eq in E; congruence | ].
    apply peersb_spec in E. apply E.
Qed.

Lemma row_is_house r : r < 9 -> is_house (row_cells r).
Proof.
  intros H. apply is_houseb_spec.
  apply (sweep1 9 (fun r => is_houseb (row_cells r))); [vm_compute; reflexivity | exact H].
Qed.
Lemma col_is_house r : r < 9 -> is_house (col_cells r).
Proof.
  intros H. apply is_houseb_spec.
  apply (sweep1 9 (fun r => is_houseb (col_cells r))); [vm_compute; reflexivity | exact H].
Qed.
Lemma block_is_house r : r < 9 -> is_house (block_cells r).
Proof.
  intros H. apply is_houseb_spec.
  apply (sweep1 9 (fun r => is_houseb (block_cells r))); [vm_compute; reflexivity | exact H].
Qed.

(** Nine different values in 1..9 are all of 1..9. *)
Lemma nine_values l v : length l = 9 -> NoDup l -> (forall x, In x l -> 1 <= x <= 9) ->
  1 <= v <= 9 -> In v l.
Proof.
  intros Hlen Hnd Hr Hv.
  apply (NoDup_length_incl (l := l) (l' := seq 1 9)).
  - exact Hnd.
  - rewrite seq_length. lia.
  - intros x Hx. apply in_seq. specialize (Hr x Hx). lia.
  - apply in_seq. lia.
Qed.

Lemma NoDup_map_on {A B} (f : A -> B) l :
  NoDup l -> (forall x y, In x l -> In y l -> x <> y -> f x <> f y) -> NoDup (map f l).
Proof.
  induction l as [ | a t IH]; intros Hnd H; simpl; [constructor | ].
  inversion Hnd; subst. constructor.
  - intros Hin. apply in_map_iff in Hin. destruct Hin as [b [E Hb]].
    apply (H b a); [right; exact Hb | left; reflexivity | congruence | exact E].
  - apply IH; [assumption | ]. intros x y Hx Hy. apply H; right; assumption.
Qed.

Lemma house_has_digit s l v : solved s -> is_house l -> 1 <= v <= 9 ->
  exists c, In c l /\ at_ s c = v.
Proof.
  intros [Hlen [Hr Hp]] [H9 [Hnd [Hlt Hpeer]]] Hv.
  assert (Hin : In v (map (at_ s) l)).
  { apply nine_values; [rewrite map_length; exact H9 | | | exact Hv].
    - apply NoDup_map_on; [exact Hnd | ]. intros x y Hx Hy Hne.
      apply Hp; auto.
    - intros x Hx. apply in_map_iff in Hx. destruct Hx as [c [<- Hc]]. apply Hr. auto. }
  apply in_map_iff in Hin. destruct Hin as [c [E Hc]]. exists c. auto.
Qed.

Lemma row_has_digit s r v : solved s -> r < 9 -> 1 <= v <= 9 ->
  exists c, c < 81 /\ row_of c = r /\ at_ s c = v.
Proof.
  intros Hs Hr Hv. destruct (house_has_digit s (row_cells r) v Hs (row_is_house r Hr) Hv) as [c [Hc E]].
  assert (c < 81) by (apply (row_is_house r Hr); exact Hc).
  exists c. split; [assumption | ]. split; [apply in_row_cells; assumption | exact E].
Qed.
Lemma col_has_digit s r v : solved s -> r < 9 -> 1 <= v <= 9 ->
  exists c, c < 81 /\ col_of c = r /\ at_ s c = v.
Proof.
  intros Hs Hr Hv. destruct (house_has_digit s (col_cells r) v Hs (col_is_house r Hr) Hv) as [c [Hc E]].
  assert (c < 81) by (apply (col_is_house r Hr); exact Hc).
  exists c. split; [assumption | ]. split; [apply in_col_cells; assumption | exact E].
Qed.
Lemma block_has_digit s r v : solved s -> r < 9 -> 1 <= v <= 9 ->
  exists c, c < 81 /\ block_of c = r /\ at_ s c = v.
Proof.
  intros Hs Hr Hv. destruct (house_has_digit s (block_cells r) v Hs (block_is_house r Hr) Hv) as [c [Hc E]].
  assert (c < 81) by (apply (block_is_house r Hr); exact Hc).
  exists c. split; [assumption | ]. split; [apply in_block_cells; assumption | exact E].
Qed.

Lemma solved_same s c c' : solved s -> c < 81 -> c' < 81 -> at_ s c = at_ s c' ->
  row_of c = row_of c' \/ col_of c = col_of c' \/ block_of c = block_of c' -> c = c'.
Proof.
  intros [_ [_ Hp]] Hc Hc' E H. destruct (Nat.eq_dec c c') as [ | Hne]; [assumption | ].
  exfalso. apply (Hp c c' Hc Hc'); [split; assumption | exact E].
Qed.

Lemma grid_ext (g g' : grid) : length g = 81 -> length g' = 81 ->
  (forall c, c < 81 -> at_ g c = at_ g' c) -> g = g'.
Proof.
  intros H H' E. apply (nth_ext _ _ 0 0); [lia | ]. intros c Hc. apply E. lia.
Qed.

(** The grid with content [f c] in cell [c]. *)
Definition of_fun (f : nat -> nat) : grid := map f (seq 0 81).
Lemma of_fun_length f : length (of_fun f) = 81.
Proof. unfold of_fun. rewrite map_length, seq_length. reflexivity. Qed.
Lemma at_of_fun f c : c < 81 -> at_ (of_fun f) c = f c.
Proof.
  intros H. unfold at_, of_fun. rewrite (nth_indep _ 0 (f 0)) by (rewrite map_length, seq_length; exact H).
  rewrite map_nth. rewrite seq_nth by exact H. reflexivity.
Qed.

Lemma wf_at g c : wf_grid g -> at_ g c <= 9.
Proof.
  intros [Hlen Hall]. unfold at_. destruct (Nat.lt_ge_cases c (length g)) as [H | H].
  - rewrite Forall_forall in Hall. apply Hall. apply nth_In. exact H.
  - rewrite nth_overflow by exact H. lia.
Qed.

Lemma solved_wf g : solved g -> wf_grid g.
Proof.
  intros [Hlen [Hr _]]. split; [exact Hlen | ]. apply Forall_forall. intros x Hx.
  apply (In_nth _ _ 0) in Hx. destruct Hx as [c [Hc E]]. rewrite Hlen in Hc.
  specialize (Hr c Hc). unfold at_ in Hr. lia.
Qed.
