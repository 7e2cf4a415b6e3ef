(** The position types agree with the geometry of the grid. *)
From Coq Require Import List Arith NArith ZArith ZifyNat Lia Bool FinFun.
From Verif Require Import Spec GeomSpec TableSpec Solver Bits Geom BitLemmas BitsProofs.
Import ListNotations.
Ltac Zify.zify_post_hook ::= Z.to_euclidean_division_equations.

(** Boolean forms of the specification, for the sweeps *)
Definition in_houseb (h c : nat) : bool :=
  if h <? 9 then row_of c =? h else if h <? 18 then col_of c =? h - 9 else block_of c =? h - 18.
Lemma in_houseb_iff h c : in_houseb h c = true <-> in_house h c.
Proof. unfold in_houseb, in_house. destruct (h <? 9), (h <? 18); apply Nat.eqb_eq. Qed.
Definition in_chuteb (k c : nat) : bool := if k <? 3 then row_of c / 3 =? k else col_of c / 3 =? k - 3.
Lemma in_chuteb_iff h c : in_chuteb h c = true <-> in_chute h c.
Proof. unfold in_chuteb, in_chute. destruct (h <? 3); apply Nat.eqb_eq. Qed.
Definition in_minilineb (m c : nat) : bool := in_houseb (miniline_line m) c && in_houseb (miniline_block m) c.
Lemma in_minilineb_iff m c : in_minilineb m c = true <-> in_miniline m c.
Proof. unfold in_minilineb, in_miniline. rewrite andb_true_iff, !in_houseb_iff. reflexivity. Qed.
Definition peersb (c c' : nat) : bool :=
  negb (c =? c') && ((row_of c =? row_of c') || (col_of c =? col_of c') || (block_of c =? block_of c')).
Lemma peersb_iff c c' : peersb c c' = true <-> peers c c'.
Proof.
  unfold peersb, peers. rewrite andb_true_iff, !orb_true_iff, negb_true_iff, !Nat.eqb_eq, Nat.eqb_neq. tauto.
Qed.

Definition good_mask (P : nat -> bool) (m : N) : bool :=
  (m <? 2 ^ 81)%N && forallb (fun c => Bool.eqb (N.testbit m (N.of_nat c)) (P c)) (seq 0 81).
Lemma good_mask_ok P m : good_mask P m = true -> is_set ECell m /\ forall c, mem m c <-> c < 81 /\ P c = true.
Proof.
  unfold good_mask. rewrite andb_true_iff. intros [H1 H2]. apply N.ltb_lt in H1.
  assert (S : is_set ECell m) by (apply is_set_lt; exact H1). split; [exact S | ]. intros c.
  assert (E : c < 81 -> N.testbit m (N.of_nat c) = P c) by (intros Hc; apply eqb_prop, (sweep1 81 _ H2 c Hc)).
  unfold mem. split.
  - intros Hm. assert (Hc : c < 81) by (apply S; exact Hm). split; [exact Hc | ]. rewrite <- E; auto.
  - intros [Hc HP]. rewrite E; auto.
Qed.

Definition ok_mask (P : nat -> bool) (r : res N) : bool := match r with Ok m => good_mask P m | _ => false end.
Lemma ok_mask_ok P r : ok_mask P r = true -> exists m, r = Ok m /\ is_set ECell m /\ forall c, mem m c <-> c < 81 /\ P c = true.
Proof. destruct r as [m | | | ]; try discriminate. intros H. exists m. split; [reflexivity | ]. apply good_mask_ok. exact H. Qed.

Lemma sw_house : forallb (fun h => ok_mask (in_houseb h) (cells_of_house h)) (seq 0 27) = true.
Proof. vm_compute. reflexivity. Qed.
Lemma sw_line : forallb (fun h => ok_mask (in_houseb h) (cells_of_line h)) (seq 0 18) = true.
Proof. vm_compute. reflexivity. Qed.
Lemma sw_chute : forallb (fun h => ok_mask (in_chuteb h) (cells_of_chute h)) (seq 0 6) = true.
Proof. vm_compute. reflexivity. Qed.
Lemma sw_mini : forallb (fun h => ok_mask (in_minilineb h) (cells_of_miniline h)) (seq 0 54) = true.
Proof. vm_compute. reflexivity. Qed.
Lemma sw_cell : forallb (fun c => good_mask (Nat.eqb c) (cells_of_cell c)) (seq 0 81) = true.
Proof. vm_compute. reflexivity. Qed.
Lemma sw_rcb : forallb (fun r => good_mask (fun c => row_of c =? r) (cells_of_row r) &&
  good_mask (fun c => col_of c =? r) (cells_of_col r) && good_mask (fun c => block_of c =? r) (cells_of_block r))
  (seq 0 9) = true.
Proof. vm_compute. reflexivity. Qed.
Lemma sw_nbset : forallb (fun c => ok_mask (peersb c) (neighbors_set c)) (seq 0 81) = true.
Proof. vm_compute. reflexivity. Qed.

Lemma house_cells_exact h : h < 27 -> exists m, cells_of_house h = Ok m /\ is_set ECell m /\
  forall c, mem m c <-> c < 81 /\ in_house h c.
Proof.
  intros H. destruct (ok_mask_ok _ _ (sweep1 27 _ sw_house h H)) as [m [E [S I]]]. exists m. split; [exact E | ].
  split; [exact S | ]. intros c. rewrite I, in_houseb_iff. reflexivity.
Qed.
Lemma line_cells_exact h : h < 18 -> exists m, cells_of_line h = Ok m /\ is_set ECell m /\
  forall c, mem m c <-> c < 81 /\ in_house h c.
Proof.
  intros H. destruct (ok_mask_ok _ _ (sweep1 18 _ sw_line h H)) as [m [E [S I]]]. exists m. split; [exact E | ].
  split; [exact S | ]. intros c. rewrite I, in_houseb_iff. reflexivity.
Qed.
Lemma chute_cells_exact h : h < 6 -> exists m, cells_of_chute h = Ok m /\ is_set ECell m /\
  forall c, mem m c <-> c < 81 /\ in_chute h c.
Proof.
  intros H. destruct (ok_mask_ok _ _ (sweep1 6 _ sw_chute h H)) as [m [E [S I]]]. exists m. split; [exact E | ].
  split; [exact S | ]. intros c. rewrite I, in_chuteb_iff. reflexivity.
Qed.
Lemma miniline_cells_exact h : h < 54 -> exists m, cells_of_miniline h = Ok m /\ is_set ECell m /\
  forall c, mem m c <-> c < 81 /\ in_miniline h c.
Proof.
  intros H. destruct (ok_mask_ok _ _ (sweep1 54 _ sw_mini h H)) as [m [E [S I]]]. exists m. split; [exact E | ].
  split; [exact S | ]. intros c. rewrite I, in_minilineb_iff. reflexivity.
Qed.
Lemma neighbors_set_exact h : h < 81 -> exists m, neighbors_set h = Ok m /\ is_set ECell m /\
  forall c, mem m c <-> c < 81 /\ peers h c.
Proof.
  intros H. destruct (ok_mask_ok _ _ (sweep1 81 _ sw_nbset h H)) as [m [E [S I]]]. exists m. split; [exact E | ].
  split; [exact S | ]. intros c. rewrite I, peersb_iff. reflexivity.
Qed.
Lemma rcb_cells_exact r : r < 9 ->
  (is_set ECell (cells_of_row r) /\ forall c, mem (cells_of_row r) c <-> c < 81 /\ row_of c = r) /\
  (is_set ECell (cells_of_col r) /\ forall c, mem (cells_of_col r) c <-> c < 81 /\ col_of c = r) /\
  (is_set ECell (cells_of_block r) /\ forall c, mem (cells_of_block r) c <-> c < 81 /\ block_of c = r).
Proof.
  intros H. pose proof (sweep1 9 _ sw_rcb r H) as X. apply andb_true_iff in X. destruct X as [X X3].
  apply andb_true_iff in X. destruct X as [X1 X2].
  apply good_mask_ok in X1, X2, X3.
  destruct X1 as [A1 B1], X2 as [A2 B2], X3 as [A3 B3].
  split; [ | split]; (split; [assumption | ]); intros c; [rewrite B1 | rewrite B2 | rewrite B3]; rewrite Nat.eqb_eq; reflexivity.
Qed.
Lemma cell_cells_exact c : c < 81 -> is_set ECell (cells_of_cell c) /\ forall i, mem (cells_of_cell c) i <-> i = c.
Proof.
  intros H. destruct (good_mask_ok _ _ (sweep1 81 _ sw_cell c H)) as [S I]. split; [exact S | ]. intros i.
  rewrite I, Nat.eqb_eq. lia.
Qed.

Lemma chk_ok n x : x < n -> chk n x = Ok x.
Proof. intros H. unfold chk. replace (x <? n) with true by (symmetry; apply Nat.ltb_lt; lia). reflexivity. Qed.

Lemma cell_conversions c : c < 81 ->
  row_of_cell c = Ok (row_of c) /\ col_of_cell c = Ok (col_of c) /\ block_of_cell c = Ok (block_of c) /\
  band_of_cell c = Ok (row_of c / 3) /\ stack_of_cell c = Ok (col_of c / 3) /\ p_block c = Ok (block_of c) /\
  cell_houses c = Ok [row_of c; 9 + col_of c; 18 + block_of c].
Proof.
  intros H.
  assert (E1 : row_of_cell c = Ok (row_of c)) by (apply chk_ok; unfold row_of, p_row; lia).
  assert (E2 : col_of_cell c = Ok (col_of c)) by (apply chk_ok; unfold col_of, p_col; lia).
  assert (Eb : 3 * p_band c + p_stack c = block_of c)
    by (unfold p_band, p_stack, p_col, block_of, row_of, col_of; lia).
  assert (Hb : block_of c < 9) by (unfold block_of, row_of, col_of; lia).
  assert (E3 : block_of_cell c = Ok (block_of c)) by (unfold block_of_cell; rewrite Eb; apply chk_ok; exact Hb).
  repeat apply conj; auto.
  - unfold band_of_cell, p_band. rewrite chk_ok by lia. f_equal. unfold row_of. lia.
  - unfold stack_of_cell, p_stack, p_col. rewrite chk_ok by lia. reflexivity.
  - assert (S : forallb (fun c => match p_block c with Ok b => b =? block_of c | _ => false end) (seq 0 81) = true)
      by (vm_compute; reflexivity).
    pose proof (sweep1 81 _ S c H) as X. cbv beta in X. destruct (p_block c) as [b | | | ]; try discriminate.
    apply Nat.eqb_eq in X. subst. reflexivity.
  - unfold cell_houses. rewrite E1, E2, E3. cbn [bind]. unfold house_of_row, house_of_col, house_of_block.
    rewrite !chk_ok by (unfold COL_OFFSET, BLOCK_OFFSET, row_of, col_of; lia). cbn [bind]. f_equal.
    unfold COL_OFFSET, BLOCK_OFFSET. f_equal. f_equal; [lia | ]. f_equal. lia.
Qed.

Lemma positions_exact c : c < 81 ->
  row_pos c = pos_in_house (row_of c) c /\ col_pos c = pos_in_house (9 + col_of c) c /\
  block_pos c = pos_in_house (18 + block_of c) c.
Proof.
  intros H. unfold pos_in_house.
  assert (row_of c < 9 /\ col_of c < 9 /\ block_of c < 9) as [H1 [H2 H3]] by (unfold block_of, row_of, col_of; lia).
  replace (row_of c <? 9) with true by (symmetry; apply Nat.ltb_lt; lia).
  replace (9 + col_of c <? 9) with false by (symmetry; apply Nat.ltb_ge; lia).
  replace (9 + col_of c <? 18) with true by (symmetry; apply Nat.ltb_lt; lia).
  replace (18 + block_of c <? 9) with false by (symmetry; apply Nat.ltb_ge; lia).
  replace (18 + block_of c <? 18) with false by (symmetry; apply Nat.ltb_ge; lia).
  unfold row_pos, col_pos, block_pos, p_col, p_row, row_of, col_of. lia.
Qed.

Lemma sw_at : forallb (fun h => forallb (fun p =>
  match house_cell_at h p with
  | Ok c => (c <? 81) && in_houseb h c && (pos_in_house h c =? p) &&
            match nth_error CELLS_BY_HOUSE h with
            | Some l => match nth_error l p with Some c' => c =? c' | None => false end
            | None => false end
  | _ => false end) (seq 0 9)) (seq 0 27) = true.
Proof. vm_compute. reflexivity. Qed.
Lemma sw_at2 : forallb (fun h => forallb (fun c => implb (in_houseb h c)
  ((pos_in_house h c <? 9) && match house_cell_at h (pos_in_house h c) with Ok c' => c =? c' | _ => false end))
  (seq 0 81)) (seq 0 27) = true.
Proof. vm_compute. reflexivity. Qed.

Lemma house_cell_at_exact h p : h < 27 -> p < 9 ->
  exists c, house_cell_at h p = Ok c /\ c < 81 /\ in_house h c /\ pos_in_house h c = p /\
  nth_error (nth h CELLS_BY_HOUSE []) p = Some c.
Proof.
  intros H Hp. pose proof (sweep2 27 9 _ sw_at h p H Hp) as X. cbv beta in X.
  destruct (house_cell_at h p) as [c | | | ]; try discriminate. exists c. split; [reflexivity | ].
  rewrite !andb_true_iff, in_houseb_iff, Nat.eqb_eq, Nat.ltb_lt in X. destruct X as [[[X1 X2] X3] X4].
  repeat (split; [assumption | ]). destruct (nth_error CELLS_BY_HOUSE h) as [l | ] eqn:E; [ | discriminate].
  apply (nth_error_nth _ _ (@nil nat)) in E. rewrite E. destruct (nth_error l p); [ | discriminate].
  apply Nat.eqb_eq in X4. subst. reflexivity.
Qed.
Lemma house_cell_at_inv h c : h < 27 -> c < 81 -> in_house h c ->
  pos_in_house h c < 9 /\ house_cell_at h (pos_in_house h c) = Ok c.
Proof.
  intros H Hc Hi. pose proof (sweep2 27 81 _ sw_at2 h c H Hc) as X. cbv beta in X.
  apply in_houseb_iff in Hi. rewrite Hi in X. cbn [implb] in X. apply andb_true_iff in X. destruct X as [X1 X2].
  apply Nat.ltb_lt in X1. split; [exact X1 | ].
  destruct (house_cell_at h (pos_in_house h c)); try discriminate. apply Nat.eqb_eq in X2. subst. reflexivity.
Qed.

Lemma line_house_cell_at l p : l < 18 -> line_cell_at l p = house_cell_at l p.
Proof.
  intros H. unfold line_cell_at, house_cell_at, line_categorize, house_categorize, BLOCK_OFFSET, COL_OFFSET.
  replace (l <? 18) with true by (symmetry; apply Nat.ltb_lt; lia).
  replace (l <? 27) with true by (symmetry; apply Nat.ltb_lt; lia).
  destruct (Nat.ltb_spec l 9) as [L | L].
  - replace (l <=? 8) with true by (symmetry; apply Nat.leb_le; lia). rewrite chk_ok by lia. reflexivity.
  - replace (l <=? 8) with false by (symmetry; apply Nat.leb_gt; lia).
    replace (l <=? 17) with true by (symmetry; apply Nat.leb_le; lia). rewrite chk_ok by lia. reflexivity.
Qed.

Lemma cells_at_loop_ok f : forall l acc, (forall p, In p l -> exists c, f p = Ok c /\ c < 81) -> is_set ECell acc ->
  exists m, cells_at_loop f l acc = Ok m /\ is_set ECell m /\
  forall c, mem m c <-> mem acc c \/ exists p, In p l /\ f p = Ok c.
Proof.
  induction l as [ | p t IH]; intros acc H S.
  - exists acc. split; [reflexivity | ]. split; [exact S | ]. intros c. split; [auto | ]. intros [X | [p [[] _]]]. exact X.
  - destruct (H p (or_introl eq_refl)) as [c0 [E Hc0]]. destruct (as_set_total ECell c0 Hc0) as [s Es].
    cbn [cells_at_loop]. rewrite E. cbn [bind]. rewrite Es. cbn [bind].
    destruct (IH (set_or acc s)) as [m [Em [Sm I]]].
    + intros q Hq. apply H. right. exact Hq.
    + intros i Hi. apply mem_or in Hi. destruct Hi as [Hi | Hi]; [apply S; exact Hi | ].
      apply (mem_single _ _ _ _ Es) in Hi. subst. exact Hc0.
    + exists m. split; [exact Em | ]. split; [exact Sm | ]. intros c. rewrite I, mem_or, (mem_single _ _ _ _ Es). split.
      * intros [[X | ->] | [q [Hq Eq]]]; [auto | right; exists p; simpl; auto | right; exists q; simpl; auto].
      * intros [X | [q [[<- | Hq] Eq]]]; [auto | left; right; congruence | right; exists q; auto].
Qed.

Lemma house_cells_at_exact h m : h < 27 -> is_set EPosHouse m -> exists s, house_cells_at h m = Ok s /\
  is_set ECell s /\ forall c, mem s c <-> c < 81 /\ in_house h c /\ mem m (pos_in_house h c).
Proof.
  intros H Hm. unfold house_cells_at. rewrite iter_exact by exact Hm. cbn [bind].
  destruct (cells_at_loop_ok (house_cell_at h) (members EPosHouse m) 0%N) as [s [E [S I]]].
  - intros p Hp. apply members_in in Hp; [ | exact Hm]. apply Hm in Hp.
    destruct (house_cell_at_exact h p H Hp) as [c [Ec [Hc _]]]. exists c. auto.
  - intros i Hi. destruct (mem_none ECell i Hi).
  - exists s. split; [exact E | ]. split; [exact S | ]. intros c. rewrite I. split.
    + intros [X | [p [Hp Ep]]]; [destruct (mem_none ECell c X) | ]. apply members_in in Hp; [ | exact Hm].
      destruct (house_cell_at_exact h p H (Hm _ Hp)) as [c' [Ec [Hc [Hi [Hpos _]]]]].
      rewrite Ep in Ec. injection Ec as <-. rewrite Hpos. auto.
    + intros [Hc [Hi Hp]]. right. exists (pos_in_house h c). split; [apply members_in; assumption | ].
      apply house_cell_at_inv; assumption.
Qed.

Lemma neighbors_exact c : c < 81 -> exists l, neighbors c = Ok l /\ NoDup l /\ length l = 20 /\
  forall c', In c' l <-> c' < 81 /\ peers c c'.
Proof.
  intros H.
  assert (S : forallb (fun c => match neighbors c with
     | Ok l => if list_eq_dec Nat.eq_dec l (filter (peersb c) (seq 0 81)) then length l =? 20 else false
     | _ => false end) (seq 0 81) = true) by (vm_compute; reflexivity).
  pose proof (sweep1 81 _ S c H) as X. cbv beta in X. destruct (neighbors c) as [l | | | ]; try discriminate.
  exists l. split; [reflexivity | ]. destruct (list_eq_dec _ _ _) as [E | E]; [ | discriminate].
  apply Nat.eqb_eq in X. subst l. split; [apply NoDup_filter, seq_NoDup | ]. split; [exact X | ].
  intros c'. rewrite filter_In, in_seq, peersb_iff. split; intros [? ?]; split; auto; lia.
Qed.

Lemma miniline_neighbors_exact m : m < 54 -> exists l b, miniline_neighbors m = Ok (l, b) /\ NoDup l /\ NoDup b /\
  (forall x, In x l <-> x < 54 /\ x <> m /\ x / 27 = m / 27 /\ miniline_line x = miniline_line m) /\
  (forall x, In x b <-> x < 54 /\ x <> m /\ x / 27 = m / 27 /\ miniline_block x = miniline_block m).
Proof.
  intros H.
  set (pl := fun m x => negb (x =? m) && (x / 27 =? m / 27) && (miniline_line x =? miniline_line m)).
  set (pb := fun m x => negb (x =? m) && (x / 27 =? m / 27) && (miniline_block x =? miniline_block m)).
  assert (S : forallb (fun m => match miniline_neighbors m with
     | Ok (l, b) => forallb (fun x => x <? 54) (l ++ b) &&
         forallb (fun x => Bool.eqb (existsb (Nat.eqb x) l) (pl m x) && Bool.eqb (existsb (Nat.eqb x) b) (pb m x)) (seq 0 54) &&
         (length (nodup Nat.eq_dec l) =? length l) && (length (nodup Nat.eq_dec b) =? length b)
     | _ => false end) (seq 0 54) = true) by (vm_compute; reflexivity).
  pose proof (sweep1 54 _ S m H) as X. cbv beta in X. destruct (miniline_neighbors m) as [[l b] | | | ]; try discriminate.
  exists l, b. split; [reflexivity | ]. rewrite !andb_true_iff, !Nat.eqb_eq in X. destruct X as [[[X1 X2] X3] X4].
  rewrite forallb_forall in X1.
  assert (ND : forall l : list nat, length (nodup Nat.eq_dec l) = length l -> NoDup l).
  { clear. intros l. induction l as [ | a t IH]; [constructor | ]. cbn [nodup]. destruct (in_dec Nat.eq_dec a t) as [i | i].
    - assert (length (nodup Nat.eq_dec t) <= length t).
      { clear. induction t as [ | a t IH]; [simpl; lia | ]. cbn [nodup]. destruct (in_dec Nat.eq_dec a t); simpl; lia. }
      simpl. lia.
    - simpl. intros E. constructor; auto. }
  split; [apply ND; exact X3 | ]. split; [apply ND; exact X4 | ].
  assert (EX : forall x l, existsb (Nat.eqb x) l = true <-> In x l).
  { intros x l0. rewrite existsb_exists. split; [intros [y [Hy E]]; apply Nat.eqb_eq in E; subst; exact Hy | ].
    intros Hx. exists x. split; [exact Hx | apply Nat.eqb_refl]. }
  split; intros x; split.
  - intros Hx. assert (L : x < 54) by (apply Nat.ltb_lt, X1, in_or_app; auto). split; [exact L | ].
    pose proof (sweep1 54 _ X2 x L) as Y. apply andb_true_iff in Y. destruct Y as [Y _]. apply eqb_prop in Y.
    apply EX in Hx. rewrite Hx in Y. symmetry in Y. unfold pl in Y.
    rewrite !andb_true_iff, negb_true_iff, Nat.eqb_neq, !Nat.eqb_eq in Y. tauto.
  - intros [L P]. pose proof (sweep1 54 _ X2 x L) as Y. apply andb_true_iff in Y. destruct Y as [Y _]. apply eqb_prop in Y.
    apply EX. rewrite Y. unfold pl. rewrite !andb_true_iff, negb_true_iff, Nat.eqb_neq, !Nat.eqb_eq. tauto.
  - intros Hx. assert (L : x < 54) by (apply Nat.ltb_lt, X1, in_or_app; auto). split; [exact L | ].
    pose proof (sweep1 54 _ X2 x L) as Y. apply andb_true_iff in Y. destruct Y as [_ Y]. apply eqb_prop in Y.
    apply EX in Hx. rewrite Hx in Y. symmetry in Y. unfold pb in Y.
    rewrite !andb_true_iff, negb_true_iff, Nat.eqb_neq, !Nat.eqb_eq in Y. tauto.
  - intros [L P]. pose proof (sweep1 54 _ X2 x L) as Y. apply andb_true_iff in Y. destruct Y as [_ Y]. apply eqb_prop in Y.
    apply EX. rewrite Y. unfold pb. rewrite !andb_true_iff, negb_true_iff, Nat.eqb_neq, !Nat.eqb_eq. tauto.
Qed.

Lemma chute_minilines_exact k : k < 6 ->
  (forall m, In m (chute_minilines k) <-> m < 54 /\ miniline_chute m = Ok k) /\ NoDup (chute_minilines k) /\
  forall m c, In m (chute_minilines k) -> c < 81 -> in_miniline m c -> in_chute k c.
Proof.
  intros H.
  assert (I : forall m, In m (chute_minilines k) <-> 9 * k <= m < 9 * k + 9).
  { intros m. unfold chute_minilines. rewrite in_map_iff. split.
    - intros [i [<- Hi]]. apply in_seq in Hi. lia.
    - intros Hm. exists (m - k * 9). split; [lia | ]. apply in_seq. lia. }
  split; [ | split].
  - intros m. rewrite I. unfold miniline_chute, chk. split.
    + intros Hm. replace (m / 9) with k by lia. replace (k <? 6) with true by (symmetry; apply Nat.ltb_lt; lia).
      split; [lia | reflexivity].
    + intros [Hm E]. destruct (m / 9 <? 6); [ | discriminate]. injection E as E. lia.
  - unfold chute_minilines. apply Injective_map_NoDup; [intros x y; lia | apply seq_NoDup].
  - intros m c Hm Hc Hi. apply I in Hm.
    assert (S : forallb (fun m => forallb (fun c => implb (in_minilineb m c) (in_chuteb (m / 9) c)) (seq 0 81)) (seq 0 54) = true)
      by (vm_compute; reflexivity).
    pose proof (sweep2 54 81 _ S m c ltac:(lia) Hc) as X. cbv beta in X. apply in_minilineb_iff in Hi. rewrite Hi in X.
    replace (m / 9) with k in X by lia. apply in_chuteb_iff. exact X.
Qed.

Lemma new_checked_exact limit x y : new_checked limit x = Some y <-> x < limit /\ y = x.
Proof.
  unfold new_checked. destruct (Nat.ltb_spec x limit); split; [intros [= <-]; auto | intros [_ ->]; reflexivity | discriminate | lia].
Qed.
Lemma digit_new_exact d : (1 <= d <= 9 -> digit_new d = Ok d /\ digit_from_index (digit_as_index d) = Ok d) /\
  (~ 1 <= d <= 9 -> digit_new d = Panic).
Proof.
  unfold digit_new, digit_from_index, digit_as_index, digit_new_checked. split; intros H.
  - replace (d - 1 + 1) with d by lia. destruct (Nat.ltb_spec 9 d); [lia | ]. destruct (Nat.eqb_spec d 0); [lia | auto].
  - destruct (Nat.ltb_spec 9 d); [reflexivity | ]. destruct (Nat.eqb_spec d 0); [reflexivity | lia].
Qed.
Lemma candidate_new_exact c d : (c < 81 /\ 1 <= d <= 9 -> candidate_new c d = Ok (c, d)) /\
  (~ (c < 81 /\ 1 <= d <= 9) -> candidate_new c d = Panic).
Proof.
  unfold candidate_new, pos_new. split; intros H.
  - destruct (Nat.ltb_spec c 81); [ | lia]. destruct (Nat.ltb_spec 0 d); [ | lia]. destruct (Nat.ltb_spec d 10); [ | lia].
    cbn [negb andb bind]. rewrite (proj1 (proj1 (digit_new_exact d) ltac:(lia))). reflexivity.
  - destruct (Nat.ltb_spec c 81); cbn [andb]; [ | reflexivity].
    destruct (Nat.ltb_spec 0 d); cbn [andb]; [ | reflexivity]. destruct (Nat.ltb_spec d 10); [lia | reflexivity].
Qed.
Lemma pos_new_debug limit x : (x < limit -> pos_new true limit x = Ok x) /\ (limit <= x -> pos_new true limit x = Panic).
Proof.
  unfold pos_new. split; intros H; destruct (Nat.ltb_spec x limit); try lia; reflexivity.
Qed.
Lemma pos_new_release_accepts : forall limit, In limit pos_limits -> exists x, limit <= x < 256 /\ pos_new false limit x = Ok x.
Proof.
  intros limit H. exists limit. split; [ | reflexivity]. simpl in H.
  repeat (destruct H as [<- | H]; [lia | ]). destruct H.
Qed.
