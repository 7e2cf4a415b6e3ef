(** Texts with candidates: what is printed, and reading it back. *)
From Coq Require Import List Arith NArith ZArith ZifyNat ZifyN ZifyBool Lia Bool.
From Verif Require Import Spec ParseSpec TableSpec Solver Bits Geom Gen Parse Strat StratUse StratSolve Show ShowSpec BitLemmas GridProofs BitsProofs GeomProofs GenProofs BlockProofs.
Import ListNotations.
Ltac Zify.zify_post_hook ::= Z.to_euclidean_division_equations.

(** * Single cells: all 521 states *)

Definition state_eqb (x y : cell_state) : bool :=
  match x, y with CDigit a, CDigit b => a =? b | CCands a, CCands b => (a =? b)%N | _, _ => false end.
Lemma state_eqb_eq x y : state_eqb x y = true -> x = y.
Proof. destruct x, y; cbn [state_eqb]; try discriminate; intros H; [apply Nat.eqb_eq in H | apply N.eqb_eq in H]; congruence. Qed.
Definition text_eqb (a b : list N) : bool := if list_eq_dec N.eq_dec a b then true else false.
Lemma text_eqb_eq a b : text_eqb a b = true -> a = b.
Proof. unfold text_eqb. destruct (list_eq_dec N.eq_dec a b); [auto | discriminate]. Qed.
Definition is_word (t : list N) : bool := negb (length t =? 0) && forallb (fun c => negb (is_white c)) t.

Definition all_states : list cell_state := map CDigit (seq 1 9) ++ map (fun n => CCands (N.of_nat n)) (seq 0 512).
Lemma all_states_in x : ok_state x -> In x all_states.
Proof.
  intros H. apply in_app_iff. destruct x as [d | m]; [left; apply in_map, in_seq; cbn in H; lia | right].
  assert (S : is_set EDigit m) by (intros i Hi; apply (H i Hi)). apply (is_set_lt EDigit) in S. change (m < 512)%N in S.
  apply in_map_iff. exists (N.to_nat m). split; [rewrite N2Nat.id; reflexivity | apply in_seq; lia].
Qed.

Definition state_check (x : cell_state) : bool :=
  is_word (word_of x) && (length (word_of x) <=? 9) && (state_width x =? length (word_of x)) && is_entry (word_of x) &&
  (match entry_state (word_of x) with Ok y => state_eqb y (plain_state x) | _ => false end) &&
  match x with
  | CDigit d => text_eqb (show_u8 d) (word_of x)
  | CCands m => match cands_text m with Ok t => text_eqb t (word_of x) | _ => false end
  end.
Lemma state_sweep : forallb state_check all_states = true.
Proof. vm_compute. reflexivity. Qed.

Record state_facts (x : cell_state) : Prop := {
  sf_word : is_word (word_of x) = true;
  sf_le : length (word_of x) <= 9;
  sf_width : state_width x = length (word_of x);
  sf_entry : is_entry (word_of x) = true;
  sf_read : entry_state (word_of x) = Ok (plain_state x);
  sf_text : match x with CDigit d => show_u8 d = word_of x | CCands m => cands_text m = Ok (word_of x) end
}.
Lemma state_ok x : ok_state x -> state_facts x.
Proof.
  intros H. assert (X := proj1 (forallb_forall _ _) state_sweep x (all_states_in x H)). unfold state_check in X.
  apply andb_true_iff in X. destruct X as [X X6]. apply andb_true_iff in X. destruct X as [X X5]. apply andb_true_iff in X. destruct X as [X X4].
  apply andb_true_iff in X. destruct X as [X X3]. apply andb_true_iff in X. destruct X as [X1 X2]. constructor.
  - exact X1.
  - apply Nat.leb_le, X2.
  - apply Nat.eqb_eq, X3.
  - exact X4.
  - destruct (entry_state (word_of x)) as [y | | | ]; try discriminate. rewrite (state_eqb_eq _ _ X5). reflexivity.
  - destruct x as [d | m]; [apply text_eqb_eq, X6 | ]. destruct (cands_text m) as [t | | | ]; try discriminate. rewrite (text_eqb_eq _ _ X6). reflexivity.
Qed.

Lemma word_length x : ok_state x -> 1 <= length (word_of x).
Proof. intros H. assert (X := sf_word _ (state_ok x H)). unfold is_word in X. apply andb_true_iff in X. destruct X as [X _]. apply negb_true_iff, Nat.eqb_neq in X. lia. Qed.

Lemma cell_text w x : ok_state x -> cell_state_text w x = Ok (padded w (word_of x)).
Proof.
  intros H. assert (F := state_ok x H). assert (T := sf_text x F). assert (Wd := sf_width x F). destruct x as [d | m]; unfold cell_state_text.
  - rewrite T. reflexivity.
  - rewrite T. cbn [bind]. cbn [state_width] in Wd. rewrite Wd. unfold padded, pad_right. set (k := w - length (word_of (CCands m))).
    destruct (Nat.ltb_spec 0 k) as [Lt | Ge]; [ | replace k with 0 by lia; reflexivity]. destruct k as [ | k]; [lia | ].
    cbn [length]. replace (S k - 1) with k by lia. reflexivity.
Qed.

(** * Printing *)

Lemma rmap_ok {A B} (f : A -> res B) (h : A -> B) : forall l, (forall x, In x l -> f x = Ok (h x)) -> rmap f l = Ok (map h l).
Proof. induction l as [ | x l IH]; intros H; cbn [rmap map]; [reflexivity | ]. rewrite (H x (or_introl eq_refl)). cbn [bind]. rewrite IH by (intros y Hy; apply H; right; exact Hy). reflexivity. Qed.
Lemma rflat_ok {A B} (f : A -> res (list B)) (h : A -> list B) l : (forall x, In x l -> f x = Ok (h x)) -> rflat f l = Ok (concat (map h l)).
Proof. intros H. unfold rflat. rewrite (rmap_ok f h l H). reflexivity. Qed.

Lemma fold_max : forall t x, fold_left Nat.max t x = Nat.max x (list_max t).
Proof. induction t as [ | y t IH]; intros x; cbn [fold_left list_max fold_right]; [lia | ]. rewrite IH. change (fold_right Nat.max 0 t) with (list_max t). lia. Qed.

Section Table.
Variable g : list cell_state.
Hypothesis Og : ok_states g.

Lemma cell_at r k : r < 9 -> k < 9 -> aget g (r * 9 + k) = Ok (nth (9 * r + k) g (CCands 0)).
Proof. intros Hr Hk. destruct Og as [L _]. rewrite (aget_ok g _ (CCands 0)) by lia. rewrite (Nat.mul_comm r 9). reflexivity. Qed.
Lemma cell_ok r k : r < 9 -> k < 9 -> ok_state (nth (9 * r + k) g (CCands 0)).
Proof. intros Hr Hk. destruct Og as [L F]. rewrite Forall_forall in F. apply F, nth_In. lia. Qed.

Lemma widths_ok : column_widths g = Ok (map (width_at g) (seq 0 9)).
Proof.
  unfold column_widths. apply rmap_ok. intros k Hk. apply in_seq in Hk.
  rewrite (rmap_ok _ (fun r => length (word_at g r k))).
  - cbn [bind]. unfold width_at. change (seq 0 9) with (0 :: seq 1 8). cbn [map max_unwrap]. rewrite fold_max. reflexivity.
  - intros r Hr. apply in_seq in Hr. rewrite cell_at by lia. cbn [bind]. rewrite (sf_width _ (state_ok _ (cell_ok r k ltac:(lia) ltac:(lia)))). reflexivity.
Qed.

Lemma list_max_in l : forall x, In x l -> x <= list_max l.
Proof. intros x Hx. assert (X := proj1 (list_max_le l (list_max l)) (Nat.le_refl _)). rewrite Forall_forall in X. apply X, Hx. Qed.
Lemma width_ge r k : r < 9 -> length (word_at g r k) <= width_at g k.
Proof. intros Hr. apply list_max_in. apply (in_map (fun r => length (word_at g r k))), in_seq. lia. Qed.
Lemma width_range k : k < 9 -> 1 <= width_at g k <= 9.
Proof.
  intros Hk. split.
  - pose proof (width_ge 0 k ltac:(lia)). pose proof (word_length _ (cell_ok 0 k ltac:(lia) Hk)). unfold word_at in *. lia.
  - apply list_max_le. rewrite Forall_forall. intros n Hn. apply in_map_iff in Hn. destruct Hn as [r [<- Hr]]. apply in_seq in Hr. apply (sf_le _ (state_ok _ (cell_ok r k ltac:(lia) Hk))).
Qed.

Definition wid (s : nat) : nat := width_at g (3 * s) + width_at g (3 * s + 1) + width_at g (3 * s + 2).

Lemma lengths_ok : stack_lengths (map (width_at g) (seq 0 9)) = Ok [wid 0; wid 1; wid 2].
Proof.
  assert (X := fun k => width_range k). unfold stack_lengths, wid, Strat.slice_from, slice_to, sum_u8, U8_MAX. cbn [seq map rmap length Nat.mul Nat.add Nat.leb bind skipn firstn list_sum fold_right].
  pose proof (X 0 ltac:(lia)). pose proof (X 1 ltac:(lia)). pose proof (X 2 ltac:(lia)). pose proof (X 3 ltac:(lia)). pose proof (X 4 ltac:(lia)). pose proof (X 5 ltac:(lia)).
  pose proof (X 6 ltac:(lia)). pose proof (X 7 ltac:(lia)). pose proof (X 8 ltac:(lia)).
  rewrite !Nat.add_0_r, !Nat.add_assoc.
  repeat match goal with |- context [if ?a <=? 255 then _ else _] => rewrite (proj2 (Nat.leb_le a 255)) by lia; cbn [bind] end. reflexivity.
Qed.

Lemma concat_bars n : concat (repeat [9472%N] n) = repeat 9472%N n.
Proof. induction n as [ | n IH]; cbn [repeat concat app]; [reflexivity | rewrite IH; reflexivity]. Qed.
Lemma separator_ok a b c : print_separator [a] [b] [c] [9472%N] [wid 0; wid 1; wid 2] = Ok (border g a b c ++ [10%N]).
Proof.
  unfold print_separator. cbn [aget nth_error bind]. rewrite !concat_bars. unfold border, wid. rewrite <- !app_assoc. reflexivity.
Qed.

Lemma print_cell_ok w x : ok_state x -> length (word_of x) <= w -> print_cell w x = Ok ([32%N] ++ padded w (word_of x) ++ [32%N]).
Proof.
  intros H L. assert (F := state_ok x H). assert (T := sf_text x F). assert (Wd := sf_width x F). destruct x as [d | m]; unfold print_cell.
  - rewrite T. reflexivity.
  - rewrite T. cbn [bind]. cbn [state_width] in Wd. rewrite Wd. unfold usub. rewrite (proj2 (Nat.leb_le _ _)) by lia. cbn [bind]. do 2 f_equal. unfold padded, pad_right. rewrite <- app_assoc. f_equal.
    replace (1 + w - length (word_of (CCands m))) with (S (w - length (word_of (CCands m)))) by lia. set (k := w - _). cbn [length].
    replace (S k - 1) with k by lia. change ([32%N] ++ repeat 32%N k) with (32%N :: repeat 32%N k). rewrite (repeat_cons k 32%N). reflexivity.
Qed.

Definition cell_piece (r k : nat) : text := [32%N] ++ padded (width_at g k) (word_at g r k) ++ [32%N].
Lemma width_get k : k < 9 -> aget (map (width_at g) (seq 0 9)) k = Ok (width_at g k).
Proof. intros Hk. rewrite (aget_ok _ _ (width_at g 0)) by (rewrite map_length, seq_length; lia). rewrite map_nth, seq_nth by lia. reflexivity. Qed.

Lemma print_row_ok r : r < 9 -> print_row g (map (width_at g) (seq 0 9)) [9474%N] r = Ok (row_line g r ++ [10%N]).
Proof.
  intros Hr. unfold print_row.
  rewrite (rflat_ok _ (fun s => (cell_piece r (3 * s) ++ cell_piece r (3 * s + 1) ++ cell_piece r (3 * s + 2)) ++ [9474%N])).
  - cbn [bind]. unfold row_line. cbn [seq map concat]. fold (cell_piece r 0) (cell_piece r 1) (cell_piece r 2) (cell_piece r 3) (cell_piece r 4) (cell_piece r 5) (cell_piece r 6) (cell_piece r 7) (cell_piece r 8).
    cbn [Nat.mul Nat.add]. rewrite app_nil_r, <- !app_assoc. reflexivity.
  - intros s Hs. apply in_seq in Hs. rewrite (rflat_ok _ (fun k => cell_piece r (3 * s + k))).
    + cbn [bind seq map concat]. rewrite Nat.add_0_r, app_nil_r. reflexivity.
    + intros k Hk. apply in_seq in Hk. rewrite (Nat.mul_comm s 3). rewrite cell_at by lia. cbn [bind]. rewrite width_get by lia. cbn [bind].
      apply print_cell_ok; [apply cell_ok; lia | apply (width_ge r (3 * s + k) Hr)].
Qed.

Lemma print_table : print_grid_state g box_frame = Ok (unlines (table g)).
Proof.
  unfold print_grid_state. rewrite widths_ok. cbn [bind]. rewrite lengths_ok. cbn [bind box_frame upper_left upper_right lower_left lower_right left_junction right_junction upper_junction lower_junction middle_junction horizontal_bar vertical_bar].
  rewrite (separator_ok 9484 9516 9488), (separator_ok 9492 9524 9496). cbn [bind].
  rewrite (rflat_ok _ (fun band => (row_line g (band * 3 + 0) ++ [10%N]) ++ (row_line g (band * 3 + 1) ++ [10%N]) ++ (row_line g (band * 3 + 2) ++ [10%N]) ++ (if negb (band =? 2) then border g 9500 9532 9508 ++ [10%N] else []))).
  - cbn [bind]. unfold unlines, table. cbn [seq map concat flat_map Nat.mul Nat.add Nat.eqb negb]. rewrite !app_nil_r, <- !app_assoc. reflexivity.
  - intros band Hb. apply in_seq in Hb. rewrite (rflat_ok _ (fun row => row_line g (band * 3 + row) ++ [10%N])).
    + cbn [bind]. destruct (negb (band =? 2)); [rewrite separator_ok | ]; cbn [bind seq map concat]; rewrite ?app_nil_r, <- ?app_assoc; reflexivity.
    + intros row Hw. apply in_seq in Hw. apply print_row_ok. lia.
Qed.

(** * The other printer *)

Lemma stack_width_ok s : s < 3 -> stack_width (map (width_at g) (seq 0 9)) s = Ok (wid s + 6).
Proof.
  intros Hs. unfold stack_width, wid, Strat.slice_from, slice_to. destruct s as [ | [ | [ | s]]]; [ | | | lia];
    cbn [seq map length Nat.mul Nat.add Nat.leb bind skipn firstn list_sum fold_right]; rewrite !Nat.add_0_r, !Nat.add_assoc; reflexivity.
Qed.
Lemma delimiter_ok a b c : horizontal_delimiter (map (width_at g) (seq 0 9)) a b c = Ok ([a] ++ repeat 9472%N (wid 0 + 6) ++ [b] ++ repeat 9472%N (wid 1 + 6) ++ [b] ++ repeat 9472%N (wid 2 + 6) ++ c).
Proof. unfold horizontal_delimiter. rewrite !stack_width_ok by lia. reflexivity. Qed.
Lemma minirow_ok r s : r < 9 -> s < 3 -> minirow g (map (width_at g) (seq 0 9)) r s = Ok ((cell_piece r (3 * s) ++ cell_piece r (3 * s + 1) ++ cell_piece r (3 * s + 2)) ++ [9474%N]).
Proof.
  intros Hr Hs. unfold minirow. assert (X : forall k, k < 3 -> (x <- aget g (r * 9 + s * 3 + k); w <- aget (map (width_at g) (seq 0 9)) (s * 3 + k); cell_state_text w x) = Ok (padded (width_at g (3 * s + k)) (word_at g r (3 * s + k)))).
  { intros k Hk. replace (r * 9 + s * 3 + k) with (r * 9 + (3 * s + k)) by lia. rewrite cell_at by lia. cbn [bind]. rewrite (Nat.mul_comm s 3), width_get by lia. cbn [bind]. apply cell_text, cell_ok; lia. }
  rewrite (X 0), (X 1), (X 2) by lia. cbn [bind]. unfold cell_piece. rewrite (Nat.add_0_r (3 * s)). rewrite <- !app_assoc. reflexivity.
Qed.
Lemma band_ok b : b < 3 -> band_text g (map (width_at g) (seq 0 9)) b = Ok ((row_line g (3 * b) ++ [10%N]) ++ (row_line g (3 * b + 1) ++ [10%N]) ++ (row_line g (3 * b + 2) ++ [10%N])).
Proof.
  intros Hb. unfold band_text. rewrite (rflat_ok _ (fun row => row_line g (3 * b + row) ++ [10%N])).
  - cbn [seq map concat]. rewrite Nat.add_0_r, app_nil_r. reflexivity.
  - intros row Hw. apply in_seq in Hw. rewrite (Nat.mul_comm b 3). set (r := 3 * b + row). assert (Hr : r < 9) by (unfold r; lia).
    rewrite (rflat_ok _ (fun s => (cell_piece r (3 * s) ++ cell_piece r (3 * s + 1) ++ cell_piece r (3 * s + 2)) ++ [9474%N])) by (intros s Hs; apply in_seq in Hs; apply minirow_ok; lia).
    cbn [bind]. unfold row_line. fold (cell_piece r 0) (cell_piece r 1) (cell_piece r 2) (cell_piece r 3) (cell_piece r 4) (cell_piece r 5) (cell_piece r 6) (cell_piece r 7) (cell_piece r 8).
    cbn [seq map concat Nat.mul Nat.add]. rewrite app_nil_r, <- !app_assoc. reflexivity.
Qed.

Lemma grid_state_table : exists t, grid_state_text g = Ok t /\ t ++ [10%N] = unlines (table g).
Proof.
  unfold grid_state_text. rewrite widths_ok. cbn [bind].
  assert (X : rmap (fun w => if (1 <=? w) && (w <=? 9) then Ok w else Panic) (map (width_at g) (seq 0 9)) = Ok (map (width_at g) (seq 0 9))).
  { rewrite (rmap_ok _ (fun w => w)), map_id; [reflexivity | ]. intros w Hw. apply in_map_iff in Hw. destruct Hw as [k [<- Hk]]. apply in_seq in Hk. destruct (width_range k ltac:(lia)).
    rewrite (proj2 (Nat.leb_le 1 _)), (proj2 (Nat.leb_le _ 9)) by assumption. reflexivity. }
  rewrite X. cbn [bind]. rewrite !delimiter_ok, !band_ok by lia. cbn [bind]. eexists. split; [reflexivity | ].
  unfold unlines, table, border. fold (wid 0) (wid 1) (wid 2). cbn [flat_map Nat.mul Nat.add]. rewrite !app_nil_r, <- !app_assoc. reflexivity.
Qed.

(** * Shape *)

Lemma padded_length w t : length t <= w -> length (padded w t) = w.
Proof. intros L. unfold padded. rewrite app_length, repeat_length. lia. Qed.
Lemma piece_length r k : r < 9 -> length (cell_piece r k) = width_at g k + 2.
Proof. intros Hr. unfold cell_piece. rewrite !app_length, padded_length by (apply width_ge, Hr). cbn [length]. lia. Qed.
Definition total : nat := wid 0 + wid 1 + wid 2 + 22.
Lemma row_length r : r < 9 -> length (row_line g r) = total.
Proof.
  intros Hr. unfold row_line. fold (cell_piece r 0) (cell_piece r 1) (cell_piece r 2) (cell_piece r 3) (cell_piece r 4) (cell_piece r 5) (cell_piece r 6) (cell_piece r 7) (cell_piece r 8).
  rewrite !app_length, !piece_length by exact Hr. cbn [length]. unfold total, wid. cbn [Nat.mul Nat.add]. lia.
Qed.
Lemma border_length a b c : length (border g a b c) = total.
Proof. unfold border. rewrite !app_length, !repeat_length. cbn [length]. unfold total, wid. lia. Qed.
Lemma table_rectangular l : In l (table g) -> length l = total.
Proof. unfold table. intros Hl. repeat (destruct Hl as [<- | Hl]; [solve [apply border_length | apply row_length; lia] | ]). destruct Hl. Qed.

(** * Reading back *)

Lemma words_white c s : is_white c = true -> forall a cur, words_aux cur (a ++ c :: s) = words_aux cur a ++ words_aux [] s.
Proof.
  intros Wc. induction a as [ | x a IH]; intros cur; cbn [app words_aux].
  - rewrite Wc. destruct cur; reflexivity.
  - destruct (is_white x); [ | apply IH]. destruct cur; [apply IH | rewrite IH; reflexivity].
Qed.
Lemma split_white c a s : is_white c = true -> split_whitespace (a ++ c :: s) = split_whitespace a ++ split_whitespace s.
Proof. intros Wc. apply (words_white c s Wc a []). Qed.
Lemma words_word : forall t cur, forallb (fun c => negb (is_white c)) t = true -> words_aux cur t = match rev t ++ cur with [] => [] | x => [rev x] end.
Proof.
  induction t as [ | c t IH]; intros cur H; cbn [words_aux rev app]; [destruct cur; reflexivity | ]. cbn [forallb] in H. apply andb_true_iff in H. destruct H as [H1 H2].
  apply negb_true_iff in H1. rewrite H1, (IH _ H2), <- app_assoc. reflexivity.
Qed.
Lemma split_word t : is_word t = true -> split_whitespace t = [t].
Proof.
  intros H. unfold is_word in H. apply andb_true_iff in H. destruct H as [H1 H2]. unfold split_whitespace. rewrite (words_word t [] H2), app_nil_r.
  destruct (rev t) as [ | c r] eqn:E; [ | rewrite <- E, rev_involutive; reflexivity]. destruct t; [discriminate | ]. assert (X := f_equal (@length N) E). rewrite rev_length in X. discriminate.
Qed.
Lemma split_nil : split_whitespace [] = [].
Proof. reflexivity. Qed.

Lemma split_lines : forall s cur, flat_map split_whitespace (lines_aux cur s) = split_whitespace (rev cur ++ s).
Proof.
  induction s as [ | c s IH]; intros cur; cbn [lines_aux].
  - destruct cur as [ | x cur]; [reflexivity | ]. cbn [flat_map]. rewrite !app_nil_r. reflexivity.
  - destruct (N.eqb_spec c 10) as [-> | Nc].
    + cbn [flat_map]. rewrite IH. rewrite (split_white 10) by reflexivity. f_equal. unfold strip_cr. destruct cur as [ | x cur]; [reflexivity | ].
      destruct (N.eqb_spec x 13) as [-> | _]; [ | reflexivity]. cbn [rev]. change [13%N] with (13%N :: []). rewrite (split_white 13) by reflexivity. rewrite split_nil, app_nil_r. reflexivity.
    + rewrite IH. cbn [rev]. rewrite <- app_assoc. reflexivity.
Qed.
Lemma split_unlines ls : split_whitespace (unlines ls) = flat_map split_whitespace ls.
Proof.
  unfold unlines. induction ls as [ | l ls IH]; cbn [flat_map]; [reflexivity | ]. rewrite <- app_assoc. change ([10%N] ++ ?x) with (10%N :: x). rewrite (split_white 10) by reflexivity. rewrite IH. reflexivity.
Qed.

Lemma split_spaces n : forall s, split_whitespace (repeat 32%N n ++ s) = split_whitespace s.
Proof. induction n as [ | n IH]; intros s; cbn [repeat app]; [reflexivity | ]. change (32%N :: ?x) with ([] ++ 32%N :: x). rewrite (split_white 32) by reflexivity. apply IH. Qed.
Lemma split_piece r k s : r < 9 -> k < 9 -> split_whitespace (cell_piece r k ++ s) = word_at g r k :: split_whitespace s.
Proof.
  intros Hr Hk. unfold cell_piece, padded. rewrite <- !app_assoc. change ([32%N] ++ ?x) with ([] ++ 32%N :: x). rewrite (split_white 32) by reflexivity. cbn [split_whitespace words_aux app].
  set (n := width_at g k - length (word_at g r k)). replace (word_at g r k ++ repeat 32%N n ++ 32%N :: s) with (word_at g r k ++ 32%N :: (repeat 32%N n ++ s)).
  - rewrite (split_white 32) by reflexivity. rewrite split_word by apply (sf_word _ (state_ok _ (cell_ok r k Hr Hk))). rewrite split_spaces. reflexivity.
  - f_equal. change (32%N :: repeat 32%N n ++ s) with ((32%N :: repeat 32%N n) ++ s). rewrite repeat_cons, <- app_assoc. reflexivity.
Qed.
Lemma split_bar r k s : split_whitespace ([9474%N] ++ cell_piece r k ++ s) = [9474%N] :: split_whitespace (cell_piece r k ++ s).
Proof.
  assert (E : cell_piece r k ++ s = 32%N :: padded (width_at g k) (word_at g r k) ++ [32%N] ++ s) by (unfold cell_piece; rewrite <- !app_assoc; reflexivity).
  rewrite E. set (u := padded _ _ ++ _). rewrite (split_white 32 [9474%N] u) by reflexivity. change (split_whitespace (32%N :: u)) with (split_whitespace ([] ++ 32%N :: u)). rewrite (split_white 32 [] u) by reflexivity. reflexivity.
Qed.
Lemma split_row r : r < 9 -> split_whitespace (row_line g r) =
  [9474%N] :: [word_at g r 0; word_at g r 1; word_at g r 2] ++ [9474%N] :: [word_at g r 3; word_at g r 4; word_at g r 5] ++ [9474%N] :: [word_at g r 6; word_at g r 7; word_at g r 8] ++ [[9474%N]].
Proof.
  intros Hr. unfold row_line. fold (cell_piece r 0) (cell_piece r 1) (cell_piece r 2) (cell_piece r 3) (cell_piece r 4) (cell_piece r 5) (cell_piece r 6) (cell_piece r 7) (cell_piece r 8).
  rewrite split_bar, !split_piece by lia. rewrite split_bar, !split_piece by lia. rewrite split_bar, !split_piece by lia. reflexivity.
Qed.

Lemma white_bars n : forallb (fun c => negb (is_white c)) (repeat 9472%N n) = true.
Proof. induction n as [ | n IH]; cbn [repeat forallb]; [reflexivity | rewrite IH; reflexivity]. Qed.
Lemma border_word a b c : is_white a = false -> is_white b = false -> is_white c = false -> is_word (border g a b c) = true.
Proof.
  intros Wa Wb Wc. unfold is_word, border. rewrite !forallb_app, !white_bars. cbn [app length forallb]. rewrite Wa, Wb, Wc. reflexivity.
Qed.
Lemma is_entry_other t : t <> [95%N] -> is_entry t = parses_u32 t.
Proof.
  intros H. destruct t as [ | c t]; [reflexivity | ]. destruct c as [ | p]; [reflexivity | ]. unfold is_entry. do 7 (destruct p as [p | p | ]; try reflexivity). destruct t; [congruence | reflexivity].
Qed.
Lemma border_entry a b c : is_dec a = false -> a <> 95%N -> a <> 43%N -> is_entry (border g a b c) = false.
Proof.
  intros Da Na Pa. unfold border. cbn [app]. rewrite is_entry_other by congruence. unfold parses_u32. rewrite (proj2 (N.eqb_neq a 43) Pa). cbn [forallb]. rewrite Da. cbn [andb]. rewrite andb_false_r. reflexivity.
Qed.

Lemma grid_list {A} (d : A) : forall l n, length l = n -> map (fun i => nth i l d) (seq 0 n) = l.
Proof. intros l n <-. apply (nth_ext _ _ d d); [rewrite map_length, seq_length; reflexivity | ]. intros i Hi. rewrite map_length, seq_length in Hi. rewrite (nth_indep _ d (nth 0 l d)) by (rewrite map_length, seq_length; exact Hi). rewrite (map_nth (fun i => nth i l d)), seq_nth by exact Hi. reflexivity. Qed.

Lemma table_entries : filter is_entry (flat_map split_whitespace (table g)) = map word_of g.
Proof.
  assert (Wn : forall r k, r < 9 -> k < 9 -> is_entry (word_at g r k) = true) by (intros r k Hr Hk; apply (sf_entry _ (state_ok _ (cell_ok r k Hr Hk)))).
  assert (Rw : forall r, r < 9 -> filter is_entry (split_whitespace (row_line g r)) = map (word_at g r) (seq 0 9)).
  { intros r Hr. rewrite split_row by exact Hr. cbn [app filter]. rewrite !Wn by lia. change (is_entry [9474%N]) with false. reflexivity. }
  assert (Bd : forall a b c, is_white a = false -> is_white b = false -> is_white c = false -> is_dec a = false -> a <> 95%N -> a <> 43%N -> filter is_entry (split_whitespace (border g a b c)) = []).
  { intros a b c Wa Wb Wc Da Na Pa. rewrite split_word by (apply border_word; assumption). cbn [filter]. rewrite border_entry by assumption. reflexivity. }
  unfold table. cbn [flat_map]. rewrite !filter_app, !Rw by lia. rewrite !Bd by (try reflexivity; discriminate).
  transitivity (map word_of (map (fun i => nth i g (CCands 0)) (seq 0 81))).
  - rewrite map_map. reflexivity.
  - rewrite grid_list by apply Og. reflexivity.
Qed.

Lemma entries_ok : forall l, Forall ok_state l -> entry_states (length l) (map word_of l) = Ok (map plain_state l).
Proof.
  induction l as [ | x l IH]; intros F; cbn [length map entry_states]; [reflexivity | ]. apply Forall_cons_iff in F. destruct F as [F1 F2].
  rewrite (sf_read _ (state_ok x F1)). cbn [bind]. rewrite (IH F2). reflexivity.
Qed.
Lemma read_words s : split_whitespace s = flat_map split_whitespace (table g) -> read_grid_state s = Ok (map plain_state g).
Proof.
  intros E. unfold read_grid_state, lines. rewrite (split_lines s []). cbn [rev app]. rewrite E, table_entries. destruct Og as [L F]. rewrite <- L at 1. apply entries_ok, F.
Qed.
Lemma read_table : read_grid_state (unlines (table g)) = Ok (map plain_state g).
Proof. apply read_words, split_unlines. Qed.
Lemma read_cut t : t ++ [10%N] = unlines (table g) -> read_grid_state t = Ok (map plain_state g).
Proof. intros E. apply read_words. rewrite <- split_unlines, <- E. rewrite (split_white 10 t []) by reflexivity. rewrite split_nil, app_nil_r. reflexivity. Qed.

Lemma plain_ok : ok_states (map plain_state g).
Proof.
  destruct Og as [L F]. split; [rewrite map_length; exact L | ]. rewrite Forall_forall in *. intros y Hy. apply in_map_iff in Hy. destruct Hy as [x [<- Hx]]. specialize (F x Hx).
  destruct x as [d | m]; [exact F | ]. unfold plain_state. destruct (set_digits m) as [ | d [ | e l]] eqn:E; [exact F | | exact F].
  assert (X : In d (set_digits m)) by (rewrite E; left; reflexivity). apply filter_In in X. destruct X as [X _]. apply in_seq in X. cbn [ok_state]. lia.
Qed.
End Table.
(** * Reading other texts *)

Lemma white_word w : w <> [] -> Forall (fun c => ~ white c) w -> is_word w = true.
Proof.
  intros N F. unfold is_word. destruct w as [ | c w]; [congruence | ]. cbn [length Nat.eqb negb andb]. apply forallb_forall. intros x Hx. rewrite Forall_forall in F. specialize (F x Hx). rewrite <- is_white_iff in F. destruct (is_white x); [destruct F; reflexivity | reflexivity].
Qed.
Lemma split_skip sp s : Forall white sp -> split_whitespace (sp ++ s) = split_whitespace s.
Proof. induction 1 as [ | c sp Hc _ IH]; [reflexivity | ]. cbn [app]. change (c :: sp ++ s) with ([] ++ c :: sp ++ s). rewrite (split_white c [] _) by (apply is_white_iff; exact Hc). exact IH. Qed.
Lemma split_worded s ws : worded s ws -> split_whitespace s = ws.
Proof.
  induction 1 as [sp Hs | sp w Hs Hn Hw | sp w c s ws Hs Hn Hw Hc _ IH].
  - rewrite <- (app_nil_r sp), split_skip by exact Hs. reflexivity.
  - rewrite split_skip by exact Hs. apply split_word, white_word; assumption.
  - rewrite split_skip by exact Hs. rewrite (split_white c) by (apply is_white_iff; exact Hc). rewrite IH, split_word by (apply white_word; assumption). reflexivity.
Qed.
Lemma worded_total : forall s, exists ws, worded s ws.
Proof.
  assert (X : forall n s, length s <= n -> exists ws, worded s ws).
  { induction n as [ | n IH]; intros s L; [destruct s; [exists []; apply worded_end; constructor | cbn in L; lia] | ].
    assert (Sp : forall f : N -> bool, forall l, exists a b, l = a ++ b /\ forallb f a = true /\ (b = [] \/ exists c t, b = c :: t /\ f c = false)).
    { intros f. induction l as [ | c l [a [b [E [Fa Fb]]]]]; [exists [], []; auto | ]. destruct (f c) eqn:Fc.
      - exists (c :: a), b. split; [rewrite E; reflexivity | ]. split; [cbn [forallb]; rewrite Fc, Fa; reflexivity | exact Fb].
      - exists [], (c :: l). split; [reflexivity | ]. split; [reflexivity | ]. right. exists c, l. auto. }
    assert (Wt : forall l, forallb is_white l = true -> Forall white l) by (intros l F; rewrite Forall_forall; rewrite forallb_forall in F; intros x Hx; apply is_white_iff, F, Hx).
    assert (Nw : forall l, forallb (fun c => negb (is_white c)) l = true -> Forall (fun c => ~ white c) l).
    { intros l F. rewrite Forall_forall. rewrite forallb_forall in F. intros x Hx Wx. specialize (F x Hx). apply is_white_iff in Wx. rewrite Wx in F. discriminate. }
    destruct (Sp is_white s) as [sp [r [E [F1 F2]]]]. destruct (Sp (fun c => negb (is_white c)) r) as [w [r' [E' [F3 F4]]]]. subst r s.
    destruct w as [ | c w].
    - destruct F2 as [F2 | [x [t [F2 Fx]]]]; [cbn [app] in F2; subst r'; exists []; cbn [app]; rewrite app_nil_r; apply worded_end, Wt, F1 | ].
      cbn [app] in F2. subst r'. destruct F4 as [F4 | [y [u [F4 Fy]]]]; [discriminate | ]. injection F4 as -> ->. rewrite Fx in Fy. discriminate.
    - destruct F4 as [-> | [y [u [-> Fy]]]].
      + rewrite app_nil_r. exists [c :: w]. apply worded_last; [apply Wt, F1 | discriminate | apply Nw, F3].
      + destruct (IH u) as [ws Hu]; [rewrite !app_length in L; cbn [length] in L; rewrite ?app_length in L; cbn [length] in L; lia | ]. exists ((c :: w) :: ws). apply worded_cons; [apply Wt, F1 | discriminate | apply Nw, F3 | | exact Hu].
        apply is_white_iff. apply negb_false_iff, Fy. }
  intros s. apply (X (length s) s). lia.
Qed.
Lemma worded_chars s ws c : worded s ws -> forall w, In w ws -> In c w -> In c s.
Proof.
  induction 1 as [sp Hs | sp w Hs Hn Hw | sp w x s ws Hs Hn Hw Hc _ IH]; intros t Ht Hi; [destruct Ht | destruct Ht as [<- | []]; apply in_app_iff; auto | ].
  apply in_app_iff. right. apply in_app_iff. destruct Ht as [<- | Ht]; [left; exact Hi | right; right; apply (IH t Ht Hi)].
Qed.

Lemma decimal_value t : forall v, fold_left (fun v c => v * 10 + (c - 48))%N t v = fold_left (fun v c => 10 * v + (c - 48))%N t v.
Proof. induction t as [ | c t IH]; intros v; [reflexivity | ]. cbn [fold_left]. rewrite IH. f_equal. lia. Qed.
Lemma entry_word t : ~ In 43%N t -> is_entry t = cell_word t.
Proof.
  intros N. unfold cell_word. destruct (list_eq_dec N.eq_dec t [95%N]) as [-> | Ne]; [reflexivity | ]. rewrite is_entry_other by exact Ne. unfold parses_u32, dec_value, decimal.
  destruct t as [ | c t]; [reflexivity | ]. rewrite (proj2 (N.eqb_neq c 43)) by (intros ->; apply N; left; reflexivity). rewrite decimal_value. reflexivity.
Qed.

Lemma cell_word_chars t c : cell_word t = true -> In c t -> (48 <= c <= 57 \/ c = 95)%N.
Proof.
  unfold cell_word. destruct (list_eq_dec N.eq_dec t [95%N]) as [-> | _]; [intros _ [<- | []]; right; reflexivity | ]. cbn [orb]. intros H Hi.
  apply andb_true_iff in H. destruct H as [H _]. apply andb_true_iff in H. destruct H as [_ H]. rewrite forallb_forall in H. specialize (H c Hi). cbv beta in H. lia.
Qed.
Lemma ascii_bytes : forall t, (forall c, In c t -> c < 128)%N -> as_bytes t = t.
Proof.
  induction t as [ | c t IH]; intros H; [reflexivity | ]. cbn [as_bytes flat_map]. unfold as_bytes in IH. rewrite IH by (intros x Hx; apply H; right; exact Hx).
  unfold utf8. rewrite (proj2 (N.ltb_lt c 128)) by (apply H; left; reflexivity). reflexivity.
Qed.

Lemma entry_digit_ok c : (48 <= c <= 57 \/ c = 95)%N -> exists o, entry_digit c = Ok o /\ forall d, o = Some d <-> 1 <= d <= 9 /\ c = digit_text d.
Proof.
  intros H. unfold entry_digit. rewrite (proj2 (N.leb_le 48 c)) by lia. eexists. split; [reflexivity | ]. intros d. unfold digit_new_checked, digit_text.
  destruct H as [H | ->].
  - assert (X : exists n, n <= 9 /\ c = N.of_nat (n + 48)) by (exists (N.to_nat (c - 48)); lia). destruct X as [n [Hn ->]]. replace (N.to_nat (N.of_nat (n + 48) - 48)) with n by lia.
    destruct (Nat.ltb_spec 9 n); [lia | ]. destruct (Nat.eqb_spec n 0) as [Z | Nz].
    + split; [discriminate | intros [Hd E]; exfalso; lia].
    + split; [intros [= <-]; lia | intros [Hd E]; f_equal; lia].
  - split; [discriminate | intros [Hd E]; exfalso; lia].
Qed.
Lemma entry_cands_ok t : cell_word t = true -> exists m, entry_cands t = Ok m /\ forall i, mem m i <-> i < 9 /\ In (digit_text (S i)) t.
Proof.
  intros H. unfold entry_cands. rewrite ascii_bytes by (intros c Hi; pose proof (cell_word_chars t c H Hi); lia).
  assert (Ch : forall c, In c t -> (48 <= c <= 57 \/ c = 95)%N) by (intros c; apply (cell_word_chars t c H)). clear H.
  assert (X : exists ds, rmap entry_digit t = Ok ds /\ forall d, In (Some d) ds <-> 1 <= d <= 9 /\ In (digit_text d) t).
  { induction t as [ | c t IH]; cbn [rmap]; [exists []; split; [reflexivity | intros d; split; [intros [] | intros [_ []]]] | ].
    destruct (entry_digit_ok c (Ch c (or_introl eq_refl))) as [o [E O]]. rewrite E. cbn [bind]. destruct IH as [ds [Ed Q]]; [intros x Hx; apply Ch; right; exact Hx | ]. rewrite Ed. cbn [bind]. exists (o :: ds). split; [reflexivity | ].
    intros d. cbn [In]. specialize (O d). specialize (Q d). split.
    - intros [A | A]; [apply O in A; destruct A as [A ->] | apply Q in A; destruct A as [A B]]; auto.
    - intros [A [-> | B]]; [left; apply O; auto | right; apply Q; auto]. }
  destruct X as [ds [Ed Q]]. rewrite Ed. cbn [bind].
  assert (Y : forall l m0, (forall d, In (Some d) l -> 1 <= d <= 9) -> exists m, rfold (fun d m => match d with Some d => x <- digit_set d; Ok (set_or m x) | None => Ok m end) l m0 = Ok m /\ forall i, mem m i <-> mem m0 i \/ In (Some (S i)) l).
  { induction l as [ | o l IH]; intros m0 R; cbn [rfold]; [exists m0; split; [reflexivity | intros i; cbn [In]; tauto] | ]. destruct o as [d | ].
    - destruct (digit_set_ok d (R d (or_introl eq_refl))) as [x [Ex [_ M]]]. rewrite Ex. cbn [bind]. destruct (IH (set_or m0 x)) as [m [Em Qm]]; [intros e He; apply R; right; exact He | ]. exists m. split; [exact Em | ].
      intros i. rewrite Qm, mem_or, M. cbn [In]. pose proof (R d (or_introl eq_refl)). split.
      + intros [[A | ->] | A]; auto. right. left. f_equal. lia.
      + intros [A | [[= ->] | A]]; auto. left. right. lia.
    - cbn [bind]. destruct (IH m0) as [m [Em Qm]]; [intros e He; apply R; right; exact He | ]. exists m. split; [exact Em | ]. intros i. rewrite Qm. cbn [In]. intuition discriminate. }
  destruct (Y ds (set_none EDigit)) as [m [Em Qm]]; [intros d Hd; apply Q, Hd | ]. exists m. split; [exact Em | ]. intros i. rewrite Qm, Q. split.
  - intros [A | [A B]]; [destruct (mem0 i A) | split; [lia | exact B]].
  - intros [A B]. right. split; [lia | exact B].
Qed.
Lemma entry_state_ok t : cell_word t = true -> exists x, entry_state t = Ok x /\ ok_state x /\ describes t x.
Proof.
  intros H. destruct (entry_cands_ok t H) as [m [E M]]. unfold entry_state. rewrite E. cbn [bind]. assert (S : is_set EDigit m) by (intros i Hi; apply M in Hi; apply Hi).
  assert (D : forall d, only_digit t d -> forall i, mem m i <-> i = d - 1).
  { intros d [R O] i. rewrite M. split; [intros [A B]; apply O in B; lia | intros ->; split; [lia | apply O; lia]]. }
  destruct (unique_cases EDigit m S) as [[U Em] | [[x [U Em]] | [U [i [j [Hi [Hj Nj]]]]]]]; rewrite U; cbn [bind].
  - exists (CCands m). split; [reflexivity | ]. split; [intros i Hi; apply (S i Hi) | ]. split; [exact M | ]. intros d O. apply (Em (d - 1)), (D d O). reflexivity.
  - assert (Hx : x < 9) by (apply S, Em; reflexivity). rewrite from_index_ok by exact Hx. cbn [bind]. exists (CDigit (Datatypes.S x)). split; [reflexivity | ]. split; [cbn [ok_state]; lia | ]. split; [lia | ].
    intros e He. split.
    + intros Hi. assert (mem m (e - 1)) as Q by (apply M; replace (Datatypes.S (e - 1)) with e by lia; split; [lia | exact Hi]). apply Em in Q. lia.
    + intros ->. apply (M x), Em. reflexivity.
  - exists (CCands m). split; [reflexivity | ]. split; [intros k Hk; apply (S k Hk) | ]. split; [exact M | ]. intros d O. apply (D d O) in Hi. apply (D d O) in Hj. congruence.
Qed.
Lemma entry_states_ok : forall n ws, Forall (fun t => cell_word t = true) ws -> exists g, entry_states n ws = Ok g /\ length g = n /\ Forall ok_state g /\
  forall i x, nth_error g i = Some x -> match nth_error ws i with Some t => describes t x | None => x = CCands 0 end.
Proof.
  induction n as [ | n IH]; intros ws F; [exists []; cbn [entry_states]; split; [reflexivity | ]; split; [reflexivity | ]; split; [constructor | intros [ | i] x; discriminate] | ]. destruct ws as [ | t ws].
  - exists (repeat (CCands 0) (S n)). cbn [entry_states]. split; [reflexivity | ]. split; [apply repeat_length | ]. split; [rewrite Forall_forall; intros x Hx; apply repeat_spec in Hx; subst x; intros i Hi; destruct (mem0 i Hi) | ].
    intros i x Hn. apply nth_error_In, repeat_spec in Hn. destruct i; exact Hn.
  - apply Forall_cons_iff in F. destruct F as [F1 F2]. cbn [entry_states]. destruct (entry_state_ok t F1) as [x [E [Ox Dx]]]. rewrite E. cbn [bind]. destruct (IH ws F2) as [g [Eg [L [Og Q]]]]. rewrite Eg. cbn [bind].
    exists (x :: g). split; [reflexivity | ]. split; [cbn [length]; lia | ]. split; [constructor; assumption | ]. intros [ | i] y Hn; cbn [nth_error] in *; [injection Hn as <-; exact Dx | apply Q, Hn].
Qed.
Lemma read_ok s ws : worded s ws -> ~ In 43%N s -> exists g, read_grid_state s = Ok g /\ ok_states g /\
  forall i x, nth_error g i = Some x -> match nth_error (filter cell_word ws) i with Some t => describes t x | None => x = CCands 0 end.
Proof.
  intros Ws N. unfold read_grid_state, lines. rewrite (split_lines s []). cbn [rev app]. rewrite (split_worded s ws Ws).
  replace (filter is_entry ws) with (filter cell_word ws).
  - destruct (entry_states_ok 81 (filter cell_word ws)) as [g [E [L [F Q]]]]; [rewrite Forall_forall; intros t Ht; apply filter_In in Ht; apply Ht | ]. exists g. split; [exact E | ]. split; [split; assumption | exact Q].
  - apply filter_ext_in. intros t Ht. symmetry. apply entry_word. intros Hi. apply N, (worded_chars s ws _ Ws t Ht Hi).
Qed.
