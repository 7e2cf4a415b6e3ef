(** Proofs about the example programs. *)
From Coq Require Import List Arith NArith ZArith ZifyNat ZifyN ZifyBool Lia Bool.
From Verif Require Import Spec ParseSpec ProgramSpec Solver Api ApiProofs Parse ParseProofs BlockProofs Errors ErrorProofs ShowSpec RelateProofs Programs ProgramSamples.
Import ListNotations.
Local Open Scope N_scope.

(** * Splitting *)

Lemma starts_with_spec p : forall s, starts_with p s = true <-> exists t, s = p ++ t.
Proof.
  induction p as [ | a p IH]; intros s; cbn [starts_with app]; [split; [intros _; exists s; reflexivity | reflexivity] | ].
  destruct s as [ | b s]; [split; [discriminate | intros [t E]; discriminate] | ].
  rewrite andb_true_iff, N.eqb_eq, IH. split.
  - intros [-> [t ->]]. exists t. reflexivity.
  - intros [t E]. injection E as -> ->. split; [reflexivity | exists t; reflexivity].
Qed.

Lemma split_found cur t : split_aux GRID 0 cur (GRID ++ t) = rev cur :: split_aux GRID 0 [] t.
Proof.
  change (GRID ++ t) with (71 :: 114 :: 105 :: 100 :: t). cbn [split_aux].
  replace (starts_with GRID (71 :: 114 :: 105 :: 100 :: t)) with true; [reflexivity | ].
  symmetry. apply starts_with_spec. exists t. reflexivity.
Qed.

Lemma split_not_found cur c t : starts_with GRID (c :: t) = false -> split_aux GRID 0 cur (c :: t) = split_aux GRID 0 (c :: cur) t.
Proof. intros H. cbn [split_aux]. rewrite H. reflexivity. Qed.

(** Pieces without the word are found again. *)
Lemma split_piece : forall x cur rest, ~ occurs grid_word (rev cur ++ x) ->
  split_aux GRID 0 cur (x ++ GRID ++ rest) = (rev cur ++ x) :: split_aux GRID 0 [] rest.
Proof.
  induction x as [ | c x IH]; intros cur rest H.
  - cbn [app]. rewrite split_found, app_nil_r. reflexivity.
  - cbn [app]. rewrite split_not_found.
    + rewrite IH; cbn [rev]; [rewrite <- app_assoc; reflexivity | ]. rewrite <- app_assoc. exact H.
    + destruct (starts_with GRID (c :: x ++ GRID ++ rest)) eqn:E; [ | reflexivity]. exfalso.
      apply starts_with_spec in E. destruct E as [t E].
      assert (L : (length (c :: x) < 4)%nat \/ (4 <= length (c :: x))%nat) by lia. destruct L as [L | L].
      * destruct x as [ | x0 [ | x1 [ | x2 x]]]; cbn [length] in L; try lia; unfold GRID in E; cbn [app] in E; discriminate.
      * apply H. exists (rev cur), (skipn 4 (c :: x)).
        f_equal. rewrite <- (firstn_skipn 4 (c :: x)) at 1. f_equal.
        assert (F := f_equal (firstn 4) E). change (c :: x ++ GRID ++ rest) with ((c :: x) ++ GRID ++ rest) in F.
        rewrite firstn_app in F. replace (4 - length (c :: x))%nat with 0%nat in F by lia. rewrite firstn_O, app_nil_r in F.
        rewrite F. reflexivity.
Qed.

Lemma split_last : forall x cur, ~ occurs grid_word (rev cur ++ x) -> split_aux GRID 0 cur x = [rev cur ++ x].
Proof.
  induction x as [ | c x IH]; intros cur H; [cbn [split_aux]; rewrite app_nil_r; reflexivity | ].
  rewrite split_not_found.
  - rewrite IH; cbn [rev]; [rewrite <- app_assoc; reflexivity | ]. rewrite <- app_assoc. exact H.
  - destruct (starts_with GRID (c :: x)) eqn:E; [ | reflexivity]. exfalso. apply starts_with_spec in E. destruct E as [t E].
    apply H. exists (rev cur), t. rewrite E. reflexivity.
Qed.

Lemma split_joined : forall ps, ps <> [] -> Forall (fun p => ~ occurs grid_word p) ps -> split GRID (joined grid_word ps) = ps.
Proof.
  unfold split. induction ps as [ | x t IH]; intros N F; [congruence | ]. inversion F as [ | ? ? Fx Ft]; subst.
  destruct t as [ | y t]; [apply (split_last x []); exact Fx | ].
  change (joined grid_word (x :: y :: t)) with (x ++ GRID ++ joined grid_word (y :: t)).
  rewrite (split_piece x []); [ | exact Fx]. cbn [rev app]. f_equal. apply IH; [discriminate | exact Ft].
Qed.

(** Every text has such pieces. *)
Lemma joined_cons x t : t <> [] -> joined grid_word (x :: t) = x ++ grid_word ++ joined grid_word t.
Proof. destruct t; [congruence | reflexivity]. Qed.

Lemma occurs_dec p s : {occurs p s} + {~ occurs p s}.
Proof.
  induction s as [ | c s IH].
  - destruct p as [ | a p]; [left; exists [], []; reflexivity | right]. intros [x [y E]]. destruct x; discriminate.
  - destruct IH as [O | O].
    + left. destruct O as [x [y ->]]. exists (c :: x), y. reflexivity.
    + destruct (starts_with p (c :: s)) eqn:E.
      * left. apply starts_with_spec in E. destruct E as [t E]. exists [], t. exact E.
      * right. intros [x [y F]]. destruct x as [ | x0 x].
        -- assert (T : starts_with p (c :: s) = true) by (apply starts_with_spec; exists y; exact F). congruence.
        -- injection F as _ F. apply O. exists x, y. exact F.
Qed.

Lemma pieces_exist : forall n s, (length s <= n)%nat ->
  exists ps, ps <> [] /\ joined grid_word ps = s /\ Forall (fun p => ~ occurs grid_word p) ps.
Proof.
  induction n as [ | n IH]; intros s L.
  - destruct s; [ | cbn [length] in L; lia]. exists [[]]. repeat split; [discriminate | ]. constructor; [ | constructor].
    intros [a [b E]]. destruct a; discriminate.
  - destruct (occurs_dec grid_word s) as [O | O]; [ | exists [s]; repeat split; [discriminate | constructor; [exact O | constructor]]].
    (* leftmost occurrence *)
    assert (X : exists a b, s = a ++ grid_word ++ b /\ ~ occurs grid_word a).
    { clear - O. induction s as [ | c s IH]; [destruct O as [a [b E]]; destruct a; discriminate | ].
      destruct (starts_with grid_word (c :: s)) eqn:E.
      - apply starts_with_spec in E. destruct E as [t E]. exists [], t. split; [exact E | ].
        intros [x [y F]]. destruct x; discriminate.
      - assert (O' : occurs grid_word s).
        { destruct O as [x [y F]]. destruct x as [ | x0 x].
          - assert (T : starts_with grid_word (c :: s) = true) by (apply starts_with_spec; exists y; exact F). congruence.
          - injection F as _ F. exists x, y. exact F. }
        destruct (IH O') as [a [b [-> Na]]]. exists (c :: a), b. split; [reflexivity | ].
        intros [x [y F]]. destruct x as [ | x0 x].
        + cbn [app] in F. assert (T : starts_with grid_word (c :: a ++ grid_word ++ b) = true).
          { apply starts_with_spec. exists (y ++ grid_word ++ b). change (c :: a ++ grid_word ++ b) with ((c :: a) ++ grid_word ++ b).
            rewrite F, <- app_assoc. reflexivity. }
          congruence.
        + injection F as _ F. apply Na. exists x, y. exact F. }
    destruct X as [a [b [-> Na]]]. rewrite !app_length in L. cbn [grid_word length] in L.
    destruct (IH b) as [ps [N [J F]]]; [unfold grid_word in L; cbn [length] in L; lia | ].
    exists (a :: ps). repeat split; [discriminate | rewrite joined_cons, J; [reflexivity | exact N] | constructor; assumption].
Qed.

Lemma split_exact s ps : split GRID s = ps <-> ps <> [] /\ joined grid_word ps = s /\ Forall (fun p => ~ occurs grid_word p) ps.
Proof.
  split.
  - intros E. destruct (pieces_exist (length s) s (le_n _)) as [qs [N [J F]]].
    assert (Q : split GRID s = qs) by (rewrite <- J; apply split_joined; assumption).
    rewrite E in Q. subst qs. repeat split; assumption.
  - intros [N [J F]]. subst s. apply split_joined; assumption.
Qed.

Lemma boards_exact file ps : boards_text file ps <-> skipn 1 (split GRID file) = ps.
Proof.
  split.
  - intros [b [-> F]]. rewrite split_joined; [reflexivity | discriminate | exact F].
  - intros E. destruct (split GRID file) as [ | b t] eqn:S; [apply split_exact in S; destruct S; congruence | ].
    cbn [skipn] in E. subst t. apply split_exact in S. destruct S as [_ [J F]]. exists b. split; [symmetry; exact J | exact F].
Qed.

(** * The sum *)

Lemma board_read piece g : board_of piece g <-> from_str_block_permissive piece = POk g.
Proof. symmetry. apply (permissive_exact piece). Qed.

Lemma lax_row_wf l n row : lax_row l n row -> length row = n /\ Forall (fun d => (d <= 9)%nat) row.
Proof.
  induction 1 as [s | c s n row C L [IL IF] | c s n row C L [IL IF]]; [split; [reflexivity | constructor] | | split; assumption].
  split; [cbn [length]; congruence | ]. constructor; [ | exact IF]. clear - C. unfold cell_char in C. unfold cell_digit.
  destruct ((48 <=? c) && (c <=? 57)) eqn:E; lia.
Qed.

Lemma lax_rows_wf ls rows : lax_rows ls rows -> Forall (fun row => length row = 9%nat /\ Forall (fun d => (d <= 9)%nat) row) rows.
Proof. induction 1; [constructor | constructor; [eapply lax_row_wf; eassumption | assumption] | assumption]. Qed.

Lemma concat_wf rows : Forall (fun row => length row = 9%nat /\ Forall (fun d => (d <= 9)%nat) row) rows ->
  length (concat rows) = (9 * length rows)%nat /\ Forall (fun d => (d <= 9)%nat) (concat rows).
Proof.
  induction 1 as [ | r rows [Lr Fr] _ [IL IF]]; [split; [reflexivity | constructor] | ].
  cbn [concat]. split; [rewrite app_length; cbn [length]; lia | apply Forall_app; split; assumption].
Qed.

Lemma board_wf piece g : board_of piece g -> wf_grid g.
Proof.
  intros [ls [rows [_ [R [L ->]]]]]. apply lax_rows_wf in R.
  assert (F : Forall (fun row => length row = 9%nat /\ Forall (fun d => (d <= 9)%nat) row) (firstn 9 rows)).
  { apply Forall_forall. intros x I. rewrite Forall_forall in R. apply R.
    rewrite <- (firstn_skipn 9 rows). apply in_or_app. left. exact I. }
  destruct (concat_wf _ F) as [C D]. split; [ | exact D]. rewrite C, firstn_length. lia.
Qed.

Lemma solved_shape s : solved s -> wf_grid s.
Proof.
  intros [L [P _]]. split; [exact L | ]. apply Forall_forall. intros d I. apply In_nth with (d := 0%nat) in I.
  destruct I as [c [C <-]]. rewrite L in C. exact (proj2 (P c C)).
Qed.

Lemma corner_value s : wf_grid s -> corner_number s = Ok (corner s) /\ corner s <= 999.
Proof.
  intros [L F]. destruct s as [ | a [ | b [ | c s]]]; cbn [length] in L; try lia.
  inversion F as [ | ? ? A F1]; subst. inversion F1 as [ | ? ? B F2]; subst. inversion F2 as [ | ? ? C F3]; subst.
  unfold corner_number. cbn [length Nat.leb firstn fold_number].
  unfold corner, at_. cbn [nth]. clear - A B C.
  change (u32_mul 0 10) with (@Ok N 0). cbn [bind].
  unfold u32_add at 1. replace (0 + N.of_nat a <? 2 ^ 32) with true by (symmetry; apply N.ltb_lt; change (2 ^ 32) with 4294967296; lia).
  cbn [bind].
  unfold u32_mul at 1. replace ((0 + N.of_nat a) * 10 <? 2 ^ 32) with true by (symmetry; apply N.ltb_lt; change (2 ^ 32) with 4294967296; lia).
  cbn [bind].
  unfold u32_add at 1. replace ((0 + N.of_nat a) * 10 + N.of_nat b <? 2 ^ 32) with true by (symmetry; apply N.ltb_lt; change (2 ^ 32) with 4294967296; lia).
  cbn [bind].
  unfold u32_mul at 1. replace (((0 + N.of_nat a) * 10 + N.of_nat b) * 10 <? 2 ^ 32) with true by (symmetry; apply N.ltb_lt; change (2 ^ 32) with 4294967296; lia).
  cbn [bind].
  unfold u32_add at 1. replace (((0 + N.of_nat a) * 10 + N.of_nat b) * 10 + N.of_nat c <? 2 ^ 32) with true by (symmetry; apply N.ltb_lt; change (2 ^ 32) with 4294967296; lia).
  cbn [bind].
  split; [f_equal; lia | lia].
Qed.

(** The loop adds the corners of one solution of each board, or panics at the first board it cannot read or solve, or when
    the sum does not fit. *)
Lemma euler_loop_ok : forall pieces boards sum, Forall2 board_of pieces boards ->
  Forall (fun g => exists s, solution_of g s) boards ->
  exists sols, Forall2 solution_of boards sols /\
    (sum < 2 ^ 32 -> euler_loop pieces sum = if sum + total (map corner sols) <? 2 ^ 32 then Ok (sum + total (map corner sols)) else Panic).
Proof.
  intros pieces boards sum B. revert sum. induction B as [ | piece g pieces boards B Bs IH]; intros sum F.
  - exists []. split; [constructor | ]. intros L. cbn [euler_loop map total fold_right]. rewrite N.add_0_r.
    rewrite (proj2 (N.ltb_lt _ _) L). reflexivity.
  - inversion F as [ | ? ? [s0 S0] Fs]; subst.
    assert (W := board_wf _ _ B). apply board_read in B.
    destruct (some_solution_exact g W) as [[s [E S]] | [_ N]]; [ | destruct (N s0 S0)].
    destruct (corner_value s (solved_shape s (proj1 S))) as [C C9].
    destruct (IH (sum + corner s) Fs) as [sols [SS R]].
    exists (s :: sols). split; [constructor; assumption | ]. intros L.
    cbn [euler_loop]. rewrite B, E. cbn [bind]. unfold to_bytes. rewrite C. cbn [bind]. unfold u32_add at 1.
    assert (T : total (map corner (s :: sols)) = corner s + total (map corner sols)) by reflexivity.
    rewrite T, N.add_assoc. destruct (sum + corner s <? 2 ^ 32) eqn:Q.
    + cbn [bind]. apply R. apply N.ltb_lt. exact Q.
    + cbn [bind]. replace (sum + corner s + total (map corner sols) <? 2 ^ 32) with false; [reflexivity | ].
      symmetry. apply N.ltb_ge. apply N.ltb_ge in Q. clear - Q. set (x := total _) in *. clearbody x. lia.
Qed.

Lemma euler_loop_panics : forall pieces sum piece, In piece pieces ->
  (forall g s, board_of piece g -> ~ solution_of g s) -> euler_loop pieces sum = Panic.
Proof.
  induction pieces as [ | p pieces IH]; intros sum piece I N; [destruct I | ].
  cbn [euler_loop]. destruct (from_str_block_permissive p) as [g | | ] eqn:P; [ | reflexivity | reflexivity].
  assert (B := proj2 (board_read p g) P). assert (W := board_wf _ _ B).
  destruct (some_solution_exact g W) as [[s [E S]] | [E _]]; rewrite E; cbn [bind]; [ | reflexivity].
  destruct I as [-> | I]; [destruct (N g s B S) | ].
  destruct (corner_value s (solved_shape s (proj1 S))) as [C _]. unfold to_bytes. rewrite C. cbn [bind].
  unfold u32_add at 1. destruct (sum + corner s <? 2 ^ 32); cbn [bind]; [ | reflexivity]. eapply IH; eassumption.
Qed.

(** * Decimal notation *)

Lemma show_digits : forall fuel n acc, Forall (fun c => 48 <= c <= 57) acc -> Forall (fun c => 48 <= c <= 57) (show_usize_from fuel n acc).
Proof.
  induction fuel as [ | f IH]; intros n acc F; cbn [show_usize_from]; [exact F | ].
  assert (D : 48 <= n mod 10 + 48 <= 57) by (assert (H := N.mod_lt n 10 ltac:(lia)); lia).
  destruct (n <? 10); [constructor; assumption | apply IH; constructor; assumption].
Qed.

Lemma show_head : forall fuel n acc, 0 < n -> n < 10 ^ N.of_nat fuel -> hd 0 (show_usize_from fuel n acc) <> 48 /\ show_usize_from fuel n acc <> [].
Proof.
  induction fuel as [ | f IH]; intros n acc P L; cbn [show_usize_from].
  - cbn [N.of_nat] in L. rewrite N.pow_0_r in L. lia.
  - destruct (n <? 10) eqn:E.
    + split; [ | discriminate]. cbn [hd]. apply N.ltb_lt in E. rewrite N.mod_small by exact E. lia.
    + apply N.ltb_ge in E. apply IH.
      * assert (1 <= n / 10) by (apply N.div_le_lower_bound; lia). lia.
      * apply N.div_lt_upper_bound; [lia | ]. rewrite Nat2N.inj_succ, N.pow_succ_r' in L. exact L.
Qed.

Lemma show_notation n : n < 2 ^ 32 -> notation n (show_usize n).
Proof.
  intros H. assert (H64 : n < 2 ^ 64) by (change (2 ^ 64) with 18446744073709551616; change (2 ^ 32) with 4294967296 in H; lia).
  unfold notation. destruct (N.eq_dec n 0) as [-> | Z].
  - change (show_usize 0) with [48]. split; [discriminate | ]. split; [constructor; [lia | constructor] | ]. split; reflexivity.
  - destruct (show_head 20 n []) as [A B]; [lia | change (10 ^ N.of_nat 20) with 100000000000000000000; change (2 ^ 64) with 18446744073709551616 in H64; lia | ].
    fold (show_usize n) in A, B. split; [exact B | ]. split; [apply show_digits; constructor | ].
    split; [exact (show_usize_decimal n H64) | ]. intros E. congruence.
Qed.

(** A number has one notation. *)
Lemma decimal_snoc t c : decimal_value (t ++ [c]) = 10 * decimal_value t + (c - 48).
Proof. unfold decimal_value. rewrite fold_left_app. reflexivity. Qed.

Lemma notation_unique : forall t t' n, notation n t -> notation n t' -> t = t'.
Proof.
  assert (Z : forall t, Forall (fun c => 48 <= c <= 57) t -> t <> [] -> decimal_value t = 0 -> hd 0 t = 48).
  { induction t as [ | c t IH] using rev_ind; intros F N D; [congruence | ]. rewrite decimal_snoc in D.
    apply Forall_app in F. destruct F as [F Fc]. inversion Fc as [ | ? ? C _]; subst.
    destruct t as [ | c0 t]; [cbn [app hd]; unfold decimal_value in D; cbn [fold_left] in D; lia | ].
    cbn [app hd]. apply IH; [exact F | discriminate | lia]. }
  induction t as [ | c t IH] using rev_ind; intros t' n [N [F [V H]]] [N' [F' [V' H']]]; [congruence | ].
  destruct (exists_last N') as [u [c' ->]]. rewrite decimal_snoc in V, V'.
  apply Forall_app in F. destruct F as [F Fc]. inversion Fc as [ | ? ? C _]; subst.
  apply Forall_app in F'. destruct F' as [F' Fc']. inversion Fc' as [ | ? ? C' _]; subst.
  assert (E : c = c' /\ decimal_value t = decimal_value u) by lia. destruct E as [-> E]. f_equal.
  destruct t as [ | a t]; destruct u as [ | b u]; [reflexivity | | | ].
  - exfalso. assert (X := Z (b :: u) F' ltac:(discriminate) (eq_sym E)). cbn [hd app] in X, H'. specialize (H' X).
    rewrite app_comm_cons, app_length in H'. cbn [length] in H'. lia.
  - exfalso. assert (X := Z (a :: t) F ltac:(discriminate) E). cbn [hd app] in X, H. specialize (H X).
    rewrite app_comm_cons, app_length in H. cbn [length] in H. lia.
  - apply (IH (b :: u) (decimal_value (a :: t))); split; [discriminate | | discriminate | ]; (split; [assumption | split]); try reflexivity.
    + intros X. exfalso. cbn [hd app] in X, H. specialize (H X). rewrite app_comm_cons, app_length in H. cbn [length] in H. lia.
    + symmetry. exact E.
    + intros X. exfalso. cbn [hd app] in X, H'. specialize (H' X). rewrite app_comm_cons, app_length in H'. cbn [length] in H'. lia.
Qed.

(** * The programs *)

Lemma euler_prints file pieces boards : boards_text file pieces -> Forall2 board_of pieces boards ->
  Forall (fun g => exists s, solution_of g s) boards ->
  exists sols, Forall2 solution_of boards sols /\
    (total (map corner sols) < 2 ^ 32 -> exists t, project_euler file = Ok (t ++ [10]) /\ notation (total (map corner sols)) t) /\
    (2 ^ 32 <= total (map corner sols) -> project_euler file = Panic).
Proof.
  intros T B F. destruct (euler_loop_ok pieces boards 0 B F) as [sols [S R]]. exists sols. split; [exact S | ].
  apply boards_exact in T. unfold project_euler. rewrite T, R by (change (2 ^ 32) with 4294967296; lia). rewrite N.add_0_l. split.
  - intros L. rewrite (proj2 (N.ltb_lt _ _) L). cbn [bind]. exists (show_usize (total (map corner sols))).
    split; [reflexivity | apply show_notation; exact L].
  - intros L. rewrite (proj2 (N.ltb_ge _ _) L). reflexivity.
Qed.

Lemma unique_sols boards sols sols' : Forall2 the_solution boards sols -> Forall2 solution_of boards sols' -> sols' = sols.
Proof.
  intros H. revert sols'. induction H as [ | g s boards sols [S U] _ IH]; intros sols' H'; inversion H' as [ | ? ? ? ? A B]; subst; [reflexivity | ].
  f_equal; [apply U; exact A | apply IH; exact B].
Qed.

Lemma solvable_boards boards sols : Forall2 the_solution boards sols -> Forall (fun g => exists s, solution_of g s) boards.
Proof. induction 1 as [ | g s boards sols [S U] _ IH]; constructor; [exists s; exact S | exact IH]. Qed.

Lemma euler_unique file pieces boards sols t : boards_text file pieces -> Forall2 board_of pieces boards -> Forall2 the_solution boards sols ->
  total (map corner sols) < 2 ^ 32 -> notation (total (map corner sols)) t -> project_euler file = Ok (t ++ [10]).
Proof.
  intros T B S L N. destruct (euler_prints file pieces boards T B (solvable_boards _ _ S)) as [sols' [S' [P _]]].
  assert (E := unique_sols _ _ _ S S'). subst sols'. destruct (P L) as [t' [R N']]. rewrite R.
  rewrite (notation_unique t t' _ N N'). reflexivity.
Qed.

Lemma total_bound sols : Forall (fun s => solved s) sols -> total (map corner sols) <= 999 * N.of_nat (length sols).
Proof.
  induction 1 as [ | s sols S _ IH]; [cbn; lia | ].
  change (total (map corner (s :: sols))) with (corner s + total (map corner sols)).
  destruct (corner_value s (solved_shape s S)) as [_ C]. cbn [length]. rewrite Nat2N.inj_succ. lia.
Qed.

Lemma find_bad pieces : (exists boards, Forall2 board_of pieces boards /\ Forall (fun g => exists s, solution_of g s) boards) \/
  exists piece, In piece pieces /\ forall g s, board_of piece g -> ~ solution_of g s.
Proof.
  induction pieces as [ | p pieces [[boards [B F]] | [q [I Q]]]].
  - left. exists []. split; constructor.
  - destruct (from_str_block_permissive p) as [g | e | ] eqn:P.
    + assert (Bp := proj2 (board_read p g) P). destruct (some_solution_exact g (board_wf _ _ Bp)) as [[s [_ S]] | [_ N]].
      * left. exists (g :: boards). split; constructor; try assumption. exists s. exact S.
      * right. exists p. split; [left; reflexivity | ]. intros g' s B'. apply board_read in B'. rewrite P in B'. injection B' as <-. apply N.
    + right. exists p. split; [left; reflexivity | ]. intros g' s B'. apply board_read in B'. congruence.
    + right. exists p. split; [left; reflexivity | ]. intros g' s B'. apply board_read in B'. congruence.
  - right. exists q. split; [right; exact I | exact Q].
Qed.

Lemma euler_panics file pieces : boards_text file pieces -> 999 * N.of_nat (length pieces) < 2 ^ 32 ->
  (project_euler file = Panic <-> exists piece, In piece pieces /\ forall g s, board_of piece g -> ~ solution_of g s).
Proof.
  intros T L. split.
  - intros P. destruct (find_bad pieces) as [[boards [B F]] | X]; [exfalso | exact X].
    destruct (euler_prints file pieces boards T B F) as [sols [S [A _]]].
    assert (S2 : Forall (fun s => solved s) sols).
    { clear - S. induction S as [ | g s gs ss X _ IH]; constructor; [apply X | exact IH]. }
    assert (LS : length sols = length pieces).
    { rewrite <- (Forall2_length S), <- (Forall2_length B). reflexivity. }
    assert (Tb := total_bound sols S2). rewrite LS in Tb.
    destruct A as [t [R _]]; [clear - Tb L; set (x := total _) in *; clearbody x; lia | congruence].
  - intros [piece [I N]]. apply boards_exact in T. unfold project_euler. rewrite T.
    rewrite (euler_loop_panics pieces 0 piece I N). reflexivity.
Qed.

Lemma euler_returns file : exists pieces, boards_text file pieces /\ (project_euler file = Panic \/ exists t, project_euler file = Ok t).
Proof.
  exists (skipn 1 (split GRID file)). split; [apply boards_exact; reflexivity | ].
  assert (T : boards_text file (skipn 1 (split GRID file))) by (apply boards_exact; reflexivity).
  destruct (find_bad (skipn 1 (split GRID file))) as [[boards [B F]] | [piece [I N]]].
  - destruct (euler_prints file _ boards T B F) as [sols [S [P Q]]].
    destruct (N.lt_ge_cases (total (map corner sols)) (2 ^ 32)) as [L | L].
    + right. destruct (P L) as [t [R _]]. eexists. exact R.
    + left. exact (Q L).
  - left. unfold project_euler. rewrite (euler_loop_panics _ 0 piece I N). reflexivity.
Qed.

(** A solved grid as a line *)
Lemma solved_line s : solved s -> to_str_line s = digits_line s.
Proof.
  intros S. unfold to_str_line, digits_line, grid_iter. rewrite map_map. apply map_ext_in. intros d I.
  unfold num_to_opt. destruct (d =? 0)%nat eqn:E; [exfalso | reflexivity]. apply Nat.eqb_eq in E. subst d.
  apply In_nth with (d := 0%nat) in I. destruct I as [c [C E]].
  destruct S as [L [P _]]. rewrite L in C. specialize (P c C). unfold at_ in P. lia.
Qed.

Lemma print_exact g out : wf_grid g ->
  (print_solution g = Ok out <->
   (exists s, (17 <= clue_count g)%nat /\ the_solution g s /\ out = digits_line s ++ [10]) \/
   (out = [] /\ ~ exists s, (17 <= clue_count g)%nat /\ the_solution g s)).
Proof.
  intros W. unfold print_solution. destruct (solution_exact g W) as [o [E _]]. rewrite E. cbn [bind]. split.
  - intros Q. injection Q as <-. destruct o as [s | ].
    + left. exists s. apply (solution_iff g s W) in E. destruct E as [C [S U]]. split; [exact C | ]. split; [split; assumption | ].
      rewrite (solved_line s (proj1 S)). reflexivity.
    + right. split; [reflexivity | ]. intros [s [C [S U]]].
      assert (X : api_solution g = Ok (Some s)) by (apply (solution_iff g s W); split; [exact C | split; assumption]). congruence.
  - intros [[s [C [[S U] ->]]] | [-> N]].
    + assert (X : api_solution g = Ok (Some s)) by (apply (solution_iff g s W); split; [exact C | split; assumption]).
      rewrite X in E. injection E as <-. rewrite (solved_line s (proj1 S)). reflexivity.
    + destruct o as [s | ]; [exfalso | reflexivity]. apply N. exists s. apply (solution_iff g s W) in E.
      destruct E as [C [S U]]. split; [exact C | split; assumption].
Qed.

Lemma block_wf s g : block_format s g -> wf_grid g.
Proof. apply block_format_wf. Qed.

Lemma example_block_exact text : 
  (forall g out, block_format text g -> (example_block text = Ok out <->
   (exists s, (17 <= clue_count g)%nat /\ the_solution g s /\ out = digits_line s ++ [10]) \/
   (out = [] /\ ~ exists s, (17 <= clue_count g)%nat /\ the_solution g s))) /\
  (example_block text = Panic <-> ~ exists g, block_format text g).
Proof.
  split.
  - intros g out B. unfold example_block. rewrite (proj2 (block_accepts text g) B). apply print_exact. apply (block_wf text). exact B.
  - unfold example_block. destruct (from_str_block text) as [g | e | ] eqn:E.
    + assert (B := proj1 (block_accepts text g) E). split; [ | intros N; exfalso; apply N; exists g; exact B].
      intros P. exfalso. unfold print_solution in P. destruct (solution_exact g (block_wf _ _ B)) as [o [Q _]]. rewrite Q in P. discriminate.
    + split; [ | reflexivity]. intros _ [g B]. apply block_accepts in B. congruence.
    + split; [ | reflexivity]. intros _ [g B]. apply block_accepts in B. congruence.
Qed.

Lemma line_wf s g : line_format s g -> wf_grid g.
Proof.
  intros [cs [rest [_ [L [F [_ ->]]]]]]. split; [rewrite map_length; exact L | ].
  apply Forall_forall. intros d I. apply in_map_iff in I. destruct I as [c [<- I]]. rewrite Forall_forall in F. specialize (F c I).
  clear - F. unfold cell_char in F. unfold cell_digit. destruct ((48 <=? c) && (c <=? 57)) eqn:E; lia.
Qed.

Lemma example_line_exact text : Forall scalar text ->
  (forall g out, line_format text g -> (example_line text = Ok out <->
   (exists s, (17 <= clue_count g)%nat /\ the_solution g s /\ out = digits_line s ++ [10]) \/
   (out = [] /\ ~ exists s, (17 <= clue_count g)%nat /\ the_solution g s))) /\
  (example_line text = Panic <-> ~ exists g, line_format text g).
Proof.
  intros Sc. split.
  - intros g out B. unfold example_line. rewrite (proj2 (line_accepts text g Sc) B). apply print_exact. apply (line_wf text). exact B.
  - unfold example_line. destruct (from_str_line text) as [g | e | ] eqn:E.
    + assert (B := proj1 (line_accepts text g Sc) E). split; [ | intros N; exfalso; apply N; exists g; exact B].
      intros P. exfalso. unfold print_solution in P. destruct (solution_exact g (line_wf _ _ B)) as [o [Q _]]. rewrite Q in P. discriminate.
    + split; [ | reflexivity]. intros _ [g B]. apply (line_accepts text g Sc) in B. congruence.
    + split; [ | reflexivity]. intros _ [g B]. apply (line_accepts text g Sc) in B. congruence.
Qed.

(** Bars between the boxes are only read together with lines of dashes. *)
Lemma bars_need_dashes text ls rows : lines_of text ls -> Forall2 delimited_row ls rows -> (4 <= length ls)%nat ->
  forall g, ~ block_format text g.
Proof.
  intros L R N g [ls' [rows' [L' [_ B]]]].
  assert (E : ls' = ls) by (rewrite <- (lines_of_det _ _ L'); apply lines_of_det; exact L). subst ls'.
  destruct R as [ | l0 r0 ls rows R0 R]; [cbn [length] in N; lia | ]. destruct R as [ | l1 r1 ls rows R1 R]; [cbn [length] in N; lia | ].
  destruct R as [ | l2 r2 ls rows R2 R]; [cbn [length] in N; lia | ]. destruct R as [ | l3 r3 ls rows R3 R]; [cbn [length] in N; lia | ].
  clear L L' N R R1 R2. destruct B as [B | B].
  - destruct B as [gl [tail [E [Lg [F _]]]]]. destruct gl as [ | x gl]; [discriminate | ]. injection E as <- _.
    inversion F as [ | ? y ? ? [cs [rest [E2 [Lc [Fc _]]]]] _]; clear F.
    destruct R0 as [a [b [c [rest' [E3 [La [_ [_ [_ _]]]]]]]]]. rewrite E3 in E2. clear E3.
    assert (X : nth_error (a ++ 124 :: b ++ 124 :: c ++ rest') 3 = Some 124) by (rewrite nth_error_app2, La by lia; reflexivity).
    rewrite E2, nth_error_app1 in X by lia. apply nth_error_In in X. rewrite Forall_forall in Fc. specialize (Fc 124 X).
    clear - Fc. unfold cell_char in Fc. lia.
  - destruct B as [g1 [g2 [g3 [s1 [s2 [tail [E [L1 [_ [_ [_ [D _]]]]]]]]]]]].
    destruct g1 as [ | x [ | y [ | z [ | ? ?]]]]; try discriminate L1. injection E as _ _ _ <- _.
    destruct R3 as [a [b [c [rest' [E3 [La [_ [_ [F _]]]]]]]]]. destruct a as [ | a0 a]; [discriminate La | ].
    inversion F as [ | ? ? C _]; subst. assert (X : a0 = 45); [ | clear - C X; unfold cell_char in C; lia].
    destruct D as [[[t D] _] | [[t D] _]]; unfold dashes, dashes_plus in D; cbn [repeat app] in D; injection D; intros; congruence.
Qed.

Lemma bars_panic text ls rows : lines_of text ls -> Forall2 delimited_row ls rows -> (4 <= length ls)%nat -> example_block text = Panic.
Proof. intros L R N. apply example_block_exact. intros [g B]. exact (bars_need_dashes text ls rows L R N g B). Qed.

Lemma shipped_example : exists ls rows s, lines_of example_text ls /\ Forall2 delimited_row ls rows /\ length rows = 9%nat /\
  the_solution (concat rows) s /\ example_block example_text = Panic /\
  example_block (filter (fun c => negb (c =? 124)) example_text) = Ok (digits_line s ++ [10]).
Proof.
  pose (row := fun line : text => firstn 3 line ++ firstn 3 (skipn 4 line) ++ skipn 8 line).
  exists (lines example_text), (map (fun line => map cell_digit (row line)) (lines example_text)), doc_solved.
  split; [apply lines_exact; reflexivity | ]. split.
  - assert (F : Forall (fun line : text => line = firstn 3 line ++ 124 :: firstn 3 (skipn 4 line) ++ 124 :: skipn 8 line ++ [] /\
        length (skipn 8 line) = 3%nat /\ forallb (fun c => ((48 <=? c) && (c <=? 57)) || (c =? 46) || (c =? 95)) (row line) = true)
        (lines example_text)).
    { let x := eval vm_compute in (lines example_text) in replace (lines example_text) with x by (vm_compute; reflexivity).
      repeat (constructor; [repeat split; vm_compute; reflexivity | ]). constructor. }
    induction F as [ | line ls [E [L C]] _ IH]; constructor; [ | exact IH].
    exists (firstn 3 line), (firstn 3 (skipn 4 line)), (skipn 8 line), [].
    split; [exact E | ]. assert (LL : length line = 11%nat) by (rewrite skipn_length in L; lia).
    split; [rewrite firstn_length; lia | ]. split; [rewrite firstn_length, skipn_length; lia | ]. split; [exact L | ].
    split; [ | split; [left; reflexivity | reflexivity]]. apply Forall_forall. intros c I. rewrite forallb_forall in C.
    specialize (C c I). clear - C. unfold cell_char. lia.
  - split; [vm_compute; reflexivity | ]. split; [ | split; vm_compute; reflexivity].
    replace (concat _) with doc_board by (vm_compute; reflexivity).
    apply solution_sound; [ | vm_compute; reflexivity]. split; [reflexivity | ]. apply Forall_forall. intros d I.
    assert (X : forallb (fun d => (d <=? 9)%nat) doc_board = true) by (vm_compute; reflexivity).
    rewrite forallb_forall in X. apply Nat.leb_le. exact (X d I).
Qed.
