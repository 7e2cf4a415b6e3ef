(** The parse errors: positions and messages. *)
From Coq Require Import String Ascii List Arith NArith ZArith ZifyNat ZifyN ZifyBool Lia Bool.
From Verif Require Import Spec Solver ParseSpec Parse GeomSpec Geom BlockErrSpec ParseProofs BlockProofs BlockErr Show ShowSpec Errors.
Import ListNotations.
Local Open Scope nat_scope.
Ltac Zify.zify_post_hook ::= Z.to_euclidean_division_equations.

(** * Positions *)

Lemma entry_block_ok c : c < 81 -> entry_block c = Ok (block_of c).
Proof.
  intros H. assert (X : forallb (fun c => match entry_block c with Ok b => b =? block_of c | _ => false end) (seq 0 81) = true) by (vm_compute; reflexivity).
  rewrite forallb_forall in X. specialize (X c ltac:(apply in_seq; lia)). destruct (entry_block c) as [b | | | ]; try discriminate. apply Nat.eqb_eq in X. rewrite X. reflexivity.
Qed.

Lemma line_entry_position s n ch : Forall scalar s -> from_str_line s = PErr (LInvalidEntry n ch) ->
  nth_error s n = Some ch /\ n < 81 /\ n = 9 * entry_row n + entry_col n /\ entry_col n < 9 /\ entry_block n = Ok (3 * (entry_row n / 3) + entry_col n / 3).
Proof.
  intros Sc E. apply (line_errors s Sc) in E. destruct E as [cs [rest [-> [<- [L _]]]]]. split; [rewrite nth_error_app2, Nat.sub_diag by lia; reflexivity | ]. split; [exact L | ].
  rewrite entry_block_ok by exact L. unfold entry_row, entry_col, p_row, p_col, block_of, row_of, col_of. split; [lia | ]. split; [lia | reflexivity].
Qed.

Lemma block_entry_position s cell ch : from_str_block s = PErr (BInvalidEntry cell ch) ->
  exists ls i line k, lines_of s ls /\ nth_error ls i = Some line /\ nth_error line k = Some ch /\
    delimiter_at (has_bars ls) i = false /\ delimiter_at (has_bars ls) k = false /\
    entry_row cell = before (has_bars ls) i /\ entry_col cell = before (has_bars ls) k /\ entry_row cell < 9 /\ entry_col cell < 9 /\
    entry_block cell = Ok (3 * (entry_row cell / 3) + entry_col cell / 3).
Proof.
  intros E. apply block_errors in E. destruct E as [ls [Hl F]]. exists ls. destruct F as [[i [line [Hn [F _]]]] | [_ [X _]]]; [ | discriminate].
  unfold line_fault in F. destruct (i <? width (has_bars ls)) eqn:Li; [ | destruct F as [_ [_ X]]; discriminate].
  destruct (delimiter_at (has_bars ls) i) eqn:Di; [destruct F as [_ X]; discriminate | ]. destruct F as [k [_ [_ [F _]]]]. exists i, line, k. split; [exact Hl | ]. split; [exact Hn | ].
  unfold char_fault in F. destruct (nth_error line k) as [c | ]; [ | destruct F as [_ X]; discriminate]. destruct (k <? width (has_bars ls)) eqn:Lk.
  - destruct (delimiter_at (has_bars ls) k) eqn:Dk; [destruct F as [_ X]; discriminate | ]. destruct F as [_ [= -> ->]].
    assert (B1 := before_lt (has_bars ls) i ltac:(lia)). assert (B2 := before_lt (has_bars ls) k ltac:(lia)). set (r := before _ i) in *. set (q := before _ k) in *.
    assert (E1 : entry_row (r * 9 + q) = r) by (unfold entry_row, p_row; lia). assert (E2 : entry_col (r * 9 + q) = q) by (unfold entry_col, p_col; lia).
    rewrite entry_block_ok by lia. unfold block_of. change (row_of (r * 9 + q)) with (entry_row (r * 9 + q)). change (col_of (r * 9 + q)) with (entry_col (r * 9 + q)). rewrite E1, E2. auto 12.
  - destruct F as [[_ X] | [_ [_ X]]]; discriminate.
Qed.

(** * Messages *)

Lemma show_u8_value n : n < 256 -> decimal (show_u8 n) = N.of_nat n /\ Forall (fun c => c <> 32%N) (show_u8 n).
Proof.
  intros H. assert (X : forallb (fun n => (decimal (show_u8 n) =? N.of_nat n)%N && forallb (fun c => negb (c =? 32)%N) (show_u8 n)) (seq 0 256) = true) by (vm_compute; reflexivity).
  rewrite forallb_forall in X. specialize (X n ltac:(apply in_seq; lia)). apply andb_true_iff in X. destruct X as [X Y]. split; [apply N.eqb_eq, X | ].
  rewrite forallb_forall in Y. apply Forall_forall. intros c Hc. specialize (Y c Hc). lia.
Qed.
Lemma show_u8_inj n m : n < 256 -> m < 256 -> show_u8 n = show_u8 m -> n = m.
Proof. intros Hn Hm E. assert (A := proj1 (show_u8_value n Hn)). assert (B := proj1 (show_u8_value m Hm)). rewrite E in A. lia. Qed.

Lemma split_space a b x y : Forall (fun c => c <> 32%N) a -> Forall (fun c => c <> 32%N) b -> a ++ 32%N :: x = b ++ 32%N :: y -> a = b /\ x = y.
Proof.
  revert b. induction a as [ | c a IH]; intros [ | d b] Fa Fb E; cbn [app] in E.
  - injection E as ->. auto.
  - injection E as <- _. inversion Fb. congruence.
  - injection E as -> _. inversion Fa. congruence.
  - injection E as -> E. inversion Fa; inversion Fb; subst. destruct (IH b) as [-> ->]; auto.
Qed.

Lemma entry_message_inj c ch c' ch' : c < 256 -> c' < 256 -> entry_message c ch = entry_message c' ch' -> c = c' /\ ch = ch'.
Proof.
  intros H H' E. unfold entry_message in E. apply app_inv_head in E.
  change (lit " contains invalid character '") with (32%N :: lit "contains invalid character '") in E. cbn [app] in E.
  apply split_space in E; [ | apply show_u8_value, H | apply show_u8_value, H']. destruct E as [E1 E2]. apply app_inv_head in E2. injection E2 as ->. split; [apply show_u8_inj; assumption | reflexivity].
Qed.

Definition block_u8 (e : block_err) : Prop :=
  match e with BInvalidEntry n _ | BInvalidLineLength n | BNotEnoughRows n | BMissingCommentDelimiter n => n < 256 | _ => True end.
Definition line_u8 (e : line_err) : Prop := match e with LInvalidEntry n _ | LNotEnoughCells n => n < 256 | _ => True end.

Lemma block_message_inj e e' : block_u8 e -> block_u8 e' -> block_message e = block_message e' -> e = e'.
Proof.
  destruct e as [c ch | r | n | | | r], e' as [c' ch' | r' | n' | | | r']; cbn [block_u8 block_message]; intros H H' E; try reflexivity; try discriminate E;
    try (apply app_inv_head in E; apply show_u8_inj in E; [rewrite E; reflexivity | assumption | assumption]).
  - apply entry_message_inj in E; [ | assumption | assumption]. destruct E as [-> ->]. reflexivity.
Qed.

Lemma line_message_inj e e' : line_u8 e -> line_u8 e' -> line_message e = line_message e' -> e = e'.
Proof.
  assert (D : forall n x, n < 256 -> lit "sudoku contains " ++ show_u8 n ++ x <> lit "sudoku contains more than 81 cells or is missing comment delimiter").
  { intros n x Hn E. assert (X : forallb (fun n => match show_u8 n with c :: _ => (48 <=? c)%N && (c <=? 57)%N | [] => false end) (seq 0 256) = true) by (vm_compute; reflexivity).
    rewrite forallb_forall in X. specialize (X n ltac:(apply in_seq; lia)).
    change (lit "sudoku contains more than 81 cells or is missing comment delimiter") with (lit "sudoku contains " ++ lit "more than 81 cells or is missing comment delimiter") in E.
    apply app_inv_head in E. destruct (show_u8 n) as [ | c t]; [discriminate | ]. cbn [app] in E. assert (Ec : c = 109%N) by (change (lit "more than 81 cells or is missing comment delimiter") with (109%N :: lit "ore than 81 cells or is missing comment delimiter") in E; congruence).
    rewrite Ec in X. discriminate. }
  destruct e as [c ch | n | | ], e' as [c' ch' | n' | | ]; cbn [line_u8 line_message]; intros H H' E; try reflexivity; try discriminate E.
  - apply entry_message_inj in E; [ | assumption | assumption]. destruct E as [-> ->]. reflexivity.
  - apply app_inv_head in E. change (lit " cells instead of required 81") with (32%N :: lit "cells instead of required 81") in E.
    apply split_space in E; [ | apply show_u8_value, H | apply show_u8_value, H']. destruct E as [E _]. apply show_u8_inj in E; [rewrite E; reflexivity | assumption | assumption].
  - destruct (D n _ H E).
  - symmetry in E. destruct (D n' _ H' E).
Qed.

(** The decimal digits of a [usize] *)
Lemma show_usize_value : forall fuel n acc, (n < 10 ^ N.of_nat fuel)%N -> decimal (show_usize_from fuel n acc) = (n * 10 ^ N.of_nat (List.length acc) + decimal acc)%N.
Proof.
  assert (Dc : forall t v, fold_left (fun v c => 10 * v + (c - 48))%N t v = (v * 10 ^ N.of_nat (List.length t) + decimal t)%N).
  { induction t as [ | c t IH]; intros v; unfold decimal; cbn [fold_left List.length]; [rewrite N.pow_0_r; lia | ]. rewrite (IH (10 * v + (c - 48))%N), (IH (10 * 0 + (c - 48))%N).
    rewrite Nat2N.inj_succ, N.pow_succ_r'. nia. }
  assert (Dk : forall k t, decimal ((k + 48)%N :: t) = (k * 10 ^ N.of_nat (List.length t) + decimal t)%N).
  { intros k t. unfold decimal at 1. cbn [fold_left]. rewrite Dc. f_equal. f_equal. lia. }
  induction fuel as [ | f IH]; intros n acc H; cbn [show_usize_from].
  - cbn [N.of_nat] in H. rewrite N.pow_0_r in H. replace n with 0%N by lia. lia.
  - destruct (n <? 10)%N eqn:L.
    + rewrite Dk. rewrite N.mod_small by lia. reflexivity.
    + rewrite IH.
      * cbn [List.length]. rewrite Dk, Nat2N.inj_succ, N.pow_succ_r'. assert (E := N.div_mod n 10 ltac:(lia)). set (q := (n / 10)%N) in *. set (r := (n mod 10)%N) in *. clearbody q r. rewrite E. clear. nia.
      * rewrite Nat2N.inj_succ, N.pow_succ_r' in H. apply N.div_lt_upper_bound; [lia | exact H].
Qed.
Lemma show_usize_decimal n : (n < 2 ^ 64)%N -> decimal (show_usize n) = n.
Proof.
  intros H. unfold show_usize. rewrite show_usize_value; [cbn [List.length N.of_nat]; rewrite N.pow_0_r; change (decimal []) with 0%N; lia | ].
  apply (N.lt_trans _ _ _ H). reflexivity.
Qed.

Lemma slice_message_inj e e' : (forall n, e = WrongLength n \/ e' = WrongLength n -> (N.of_nat n < 2 ^ 64)%N) -> slice_message e = slice_message e' -> e = e'.
Proof.
  destruct e as [n | ], e' as [n' | ]; cbn [slice_message]; intros H E; try reflexivity; try discriminate E. apply app_inv_head in E.
  assert (A := show_usize_decimal _ (H n (or_introl eq_refl))). assert (B := show_usize_decimal _ (H n' (or_intror eq_refl))). rewrite E in A. f_equal. lia.
Qed.

(** * Wrong numbers *)

(** Ten entries: "found 0" *)
Lemma length_message_wrong : exists s ls line e k, lines_of s ls /\ nth_error ls 0 = Some line /\ Forall cell_char line /\
  from_str_block s = PErr e /\ block_message e = lit "a sudoku line should have 9 entries, found " ++ show_u8 k /\ k <> List.length line.
Proof.
  exists (repeat 49%N 10), [repeat 49%N 10], (repeat 49%N 10), (BInvalidLineLength 0), 0. split; [apply lines_last; [discriminate | cbn; lia] | ]. split; [reflexivity | ].
  split; [apply Forall_forall; intros c Hc; apply repeat_spec in Hc; left; lia | ]. split; [vm_compute; reflexivity | ]. split; [reflexivity | ]. rewrite repeat_length. lia.
Qed.

(** A missing delimiter in the ninth line of a text with field delimiters: "in line 6" *)
Definition bar_row (c : N) : text := [c; c; c; 124; c; c; c; 124; c; c; c]%N.
Definition bar_text : list text := [bar_row 49; bar_row 50; bar_row 51; dashes; bar_row 52; bar_row 53; bar_row 54; dashes; bar_row 55 ++ [97%N]].
Lemma line_message_wrong : exists s ls i line e r, lines_of s ls /\ nth_error ls i = Some line /\ line_fault ls i line e /\
  from_str_block s = PErr e /\ block_message e = lit "missing comment delimiter in line " ++ show_u8 r /\ r <> i /\ r <> i + 1.
Proof.
  set (s := flat_map (fun l => l ++ [10%N]) bar_text). exists s, bar_text, 8, (bar_row 55 ++ [97%N]), (BMissingCommentDelimiter 6), 6.
  assert (Hl : lines_of s bar_text) by (apply lines_exact; vm_compute; reflexivity). assert (E : from_str_block s = PErr (BMissingCommentDelimiter 6)) by (vm_compute; reflexivity).
  split; [exact Hl | ]. split; [reflexivity | ]. split; [ | split; [exact E | split; [reflexivity | lia]]].
  apply block_errors in E. destruct E as [ls [Hl' F]]. apply lines_exact in Hl. apply lines_exact in Hl'. rewrite <- Hl in Hl'. subst ls.
  destruct F as [[i [line [Hn [F _]]]] | [_ [X _]]]; [ | discriminate]. assert (F' := F). unfold line_fault in F'. change (has_bars bar_text) with true in F'. destruct (i <? width true); [ | destruct F' as [_ [_ X]]; discriminate].
  destruct (delimiter_at true i) eqn:D; [destruct F' as [_ X]; discriminate | ]. destruct F' as [k [_ [_ [F' _]]]]. unfold char_fault in F'. destruct (nth_error line k); [ | destruct F' as [_ X]; discriminate].
  destruct (k <? width true); [destruct (delimiter_at true k); destruct F' as [_ X]; discriminate | ]. destruct F' as [[_ X] | [_ [_ X]]]; [discriminate | ]. injection X as X.
  assert (Li : i < 9) by (apply (nth_error_Some bar_text i); rewrite Hn; discriminate). do 9 (destruct i as [ | i]; [cbn [nth_error bar_text] in Hn; first [discriminate X | discriminate D | injection Hn as <-; exact F] | ]). lia.
Qed.
