(** The remaining small functions of the geometry, of the deductions and of the parse errors. *)
From Coq Require Import String Ascii List Arith NArith ZArith ZifyNat ZifyN ZifyBool Lia Bool.
From Verif Require Import Spec GeomSpec TableSpec Solver Bits Geom BitsProofs GeomProofs ParseSpec Parse BlockProofs Show ShowSpec Errors ErrorProofs
  Strat StratSolve StratUse StratApi.
Import ListNotations.
Local Open Scope nat_scope.
Ltac Zify.zify_post_hook ::= Z.to_euclidean_division_equations.

Lemma line_cells_at_exact l m : l < 18 -> is_set EPosLine m -> exists s, line_cells_at l m = Ok s /\
  is_set ECell s /\ forall c, mem s c <-> c < 81 /\ in_house l c /\ mem m (pos_in_house l c).
Proof.
  intros H Hm. assert (H27 : l < 27) by lia. unfold line_cells_at. rewrite iter_exact by exact Hm. cbn [bind].
  destruct (cells_at_loop_ok (line_cell_at l) (members EPosLine m) 0%N) as [s [E [S0 I0]]].
  - intros p Hp. apply members_in in Hp; [ | exact Hm]. apply Hm in Hp. rewrite (line_house_cell_at l p H).
    destruct (house_cell_at_exact l p H27 Hp) as [c [Ec [Hc _]]]. exists c. auto.
  - intros i Hi. destruct (mem_none ECell i Hi).
  - exists s. split; [exact E | ]. split; [exact S0 | ]. intros c. rewrite I0. split.
    + intros [X | [p [Hp Ep]]]; [destruct (mem_none ECell c X) | ]. apply members_in in Hp; [ | exact Hm].
      destruct (house_cell_at_exact l p H27 (Hm _ Hp)) as [c' [Ec [Hc [Hi [Hpos _]]]]].
      rewrite (line_house_cell_at l p H), Ec in Ep. injection Ep as <-. rewrite Hpos. auto.
    + intros [Hc [Hi Hp]]. right. exists (pos_in_house l c). split; [apply members_in; assumption | ].
      rewrite (line_house_cell_at l _ H). apply house_cell_at_inv; assumption.
Qed.

Lemma band_pos_exact c c' : c < 81 -> c' < 81 -> band_pos c < 27 /\
  (row_of c / 3 = row_of c' / 3 -> (band_pos c < band_pos c' <-> c < c')).
Proof. intros H H'. unfold band_pos, p_row, p_col, row_of. lia. Qed.

Lemma chute_of_exact b : b < 3 -> exists k k', chute_of_band b = Ok k /\ chute_of_stack b = Ok k' /\
  forall c, c < 81 -> (in_chute k c <-> row_of c / 3 = b) /\ (in_chute k' c <-> col_of c / 3 = b).
Proof.
  intros H. exists b, (b + 3). unfold chute_of_band, chute_of_stack. rewrite !chk_ok by lia.
  split; [reflexivity | ]. split; [reflexivity | ]. intros c Hc. unfold in_chute.
  replace (b <? 3) with true by (symmetry; apply Nat.ltb_lt; lia).
  replace (b + 3 <? 3) with false by (symmetry; apply Nat.ltb_ge; lia).
  split; [reflexivity | ]. replace (b + 3 - 3) with b by lia. reflexivity.
Qed.

Lemma lax_message_inj s s' e e' : from_str_block_permissive s = PErr e -> from_str_block_permissive s' = PErr e' ->
  lax_message e = lax_message e' -> e = e'.
Proof.
  destruct e as [n], e' as [n']. intros E E' M.
  destruct (proj1 (proj1 (proj2 (permissive_exact s)) n) E) as [ls [rows [_ [_ [_ Hn]]]]].
  destruct (proj1 (proj1 (proj2 (permissive_exact s')) n') E') as [ls' [rows' [_ [_ [_ Hn']]]]].
  cbn [lax_message] in M. apply app_inv_head in M.
  change (lit " valid rows") with (32%N :: lit "valid rows") in M.
  apply split_space in M; [ | apply show_u8_value; lia | apply show_u8_value; lia]. destruct M as [M _].
  apply show_u8_inj in M; [subst; reflexivity | lia | lia].
Qed.

Lemma all_strategies S0 : In S0 STRATEGY_ALL <-> S0 <> MutantSwordfish /\ S0 <> MutantJellyfish /\ S0 <> AvoidableRectangles.
Proof.
  split.
  - intros H. unfold STRATEGY_ALL in H. cbn [In] in H.
    repeat (destruct H as [<- | H]; [repeat split; discriminate | ]). destruct H.
  - intros [H1 [H2 H3]]. unfold STRATEGY_ALL. destruct S0; cbn [In]; try (repeat ((left; reflexivity) || right); fail); contradiction.
Qed.

Lemma all_strategies_once : NoDup STRATEGY_ALL /\ implemented STRATEGY_ALL.
Proof.
  split.
  - unfold STRATEGY_ALL. repeat (constructor; [cbn [In]; intros H; repeat (destruct H as [H | H]; [discriminate | ]); destruct H | ]). constructor.
  - intros S0 H. apply (all_strategies S0), H.
Qed.

Lemma deds_empty l st pl el ok g ds : implemented l -> api st pl el -> strat_solve l st = Ok (ok, g, ds) ->
  (deds_is_empty ds = true <-> deds_iter ds = Ok []) /\ (deds_is_empty ds = true <-> deds_get ds 0 = Ok None).
Proof.
  intros Hl A E. destruct (solve_deds l st pl el ok g ds Hl A E) as [r [E1 [E2 [E3 _]]]].
  unfold deds_is_empty. rewrite E3, E1, E2, Nat.eqb_eq. destruct r as [ | y r]; cbn [length nth_error].
  - split; split; reflexivity.
  - split; split; intros X; discriminate X.
Qed.

Lemma house_of_exact i : i < 9 -> exists hr hk hb lr lk, house_of_row i = Ok hr /\ house_of_col i = Ok hk /\ house_of_block i = Ok hb /\
  line_of_row i = Ok lr /\ line_of_col i = Ok lk /\ hr < 27 /\ hk < 27 /\ hb < 27 /\ lr < 18 /\ lk < 18 /\
  forall c, (in_house hr c <-> row_of c = i) /\ (in_house hk c <-> col_of c = i) /\ (in_house hb c <-> block_of c = i) /\
    (in_house lr c <-> row_of c = i) /\ (in_house lk c <-> col_of c = i).
Proof.
  intros H. exists i, (i + 9), (i + 18), i, (i + 9).
  unfold house_of_row, house_of_col, house_of_block, line_of_row, line_of_col, COL_OFFSET, BLOCK_OFFSET. rewrite !chk_ok by lia.
  repeat (split; [reflexivity || lia | ]). intros c. unfold in_house.
  rewrite (proj2 (Nat.ltb_lt i 9) H), (proj2 (Nat.ltb_ge (i + 9) 9)), (proj2 (Nat.ltb_lt (i + 9) 18)),
    (proj2 (Nat.ltb_ge (i + 18) 9)), (proj2 (Nat.ltb_ge (i + 18) 18)) by lia.
  rewrite !Nat.add_sub. repeat split; auto.
Qed.

Lemma house_of_line_exact l : l < 18 -> exists h, house_of_line l = Ok h /\ h < 27 /\
  forall c, (in_house h c <-> in_house l c) /\ pos_in_house h c = pos_in_house l c.
Proof.
  intros H. exists l. unfold house_of_line. rewrite chk_ok by lia. split; [reflexivity | ]. split; [lia | ].
  intros c. split; reflexivity.
Qed.

Lemma as_line_set_exact m :
  (is_set EPosHouse m -> exists m', as_line_set m = Ok m' /\ is_set EPosLine m' /\ forall i, mem m' i <-> mem m i) /\
  (~ is_set EPosHouse m -> as_line_set m = Panic).
Proof.
  assert (Q : is_set EPosHouse m <-> is_set EPosLine m) by (rewrite !is_set_lt; reflexivity).
  unfold as_line_set. split; intros Hm.
  - exists m. apply Q in Hm. split; [ | split; [exact Hm | reflexivity]].
    destruct (m <=? set_all EPosLine)%N eqn:L; [apply from_bits_meaning; exact Hm | ].
    assert (F := proj1 (from_bits_meaning EPosLine m) Hm). unfold from_bits in F. rewrite L in F. discriminate F.
  - destruct (m <=? set_all EPosLine)%N; [ | reflexivity]. apply from_bits_meaning. intros X. apply Hm, Q, X.
Qed.
