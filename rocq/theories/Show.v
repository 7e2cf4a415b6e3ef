(** Model of the texts with candidates: [Display for CellState] (/repo/src/board/cell_state.rs), [Display for GridState]
    (/repo/src/board/grid_state.rs), [Display for StrategySolver] and [from_grid_state_str] (/repo/src/strategy/solver.rs).

    A [&str] is the list of its code points, as in Parse.v. *)
From Coq Require Import List Arith NArith Bool.
From Verif Require Import Solver Bits Geom Gen Parse Strat StratSolve.
Import ListNotations.

(** [{}] of a [u8]: decimal digits; e.g. src/board/cell_state.rs:16 *)
Definition show_u8 (n : nat) : list N :=
  let ch k := (N.of_nat (k mod 10) + 48)%N in
  if n <? 10 then [ch n] else if n <? 100 then [ch (n / 10); ch n] else [ch (n / 100); ch (n / 10); ch n].
(** [{:<width$}]: spaces up to the width; e.g. src/board/cell_state.rs:16, 28 *)
Definition pad_right (width : nat) (s : list N) : list N := s ++ repeat 32%N (width - length s).

(** src/board/cell_state.rs:18-24, src/strategy/solver.rs:1356-1362: the candidates of a cell *)
Definition cands_text (m : N) : res (list N) :=
  l <- digits_of m; Ok (if set_is_empty m then [95%N] else flat_map show_u8 l).

(** src/board/cell_state.rs:12-33 [Display for CellState]; [width] is the requested width, 0 if there is none *)
Definition cell_state_text (width : nat) (x : cell_state) : res (list N) :=
  match x with
  | CDigit d => Ok (pad_right width (show_u8 d))
  | CCands m =>
      t <- cands_text m;
      let required_padding := width - Nat.max (set_len m) 1 in
      Ok (t ++ if 0 <? required_padding then pad_right required_padding [32%N] else [])
  end.

(** src/strategy/solver.rs:1320-1323, src/board/grid_state.rs:28-31: the width of a cell *)
Definition state_width (x : cell_state) : nat := match x with CDigit _ => 1 | CCands m => Nat.max (set_len m) 1 end.
(** [.max().unwrap()], src/strategy/solver.rs:1324-1325, src/board/grid_state.rs:32-33 *)
Definition max_unwrap (l : list nat) : res nat := match l with [] => Panic | x :: t => Ok (fold_left Nat.max t x) end.
(** src/strategy/solver.rs:1316-1328, src/board/grid_state.rs:24-36 *)
Definition column_widths (g : list cell_state) : res (list nat) :=
  rmap (fun col => ws <- rmap (fun row => x <- aget g (row * 9 + col); Ok (state_width x)) (seq 0 9); max_unwrap ws) (seq 0 9).

(** [&v[..n]], src/strategy/solver.rs:1332 *)
Definition slice_to {A} (l : list A) (n : nat) : res (list A) := if n <=? length l then Ok (firstn n l) else Panic.
(** [.sum::<u8>()]: overflow panics, src/strategy/solver.rs:1332 *)
Definition sum_u8 (l : list nat) : res nat := let n := list_sum l in if n <=? U8_MAX then Ok n else Panic.
(** src/strategy/solver.rs:1330-1333 *)
Definition stack_lengths (widths : list nat) : res (list nat) :=
  rmap (fun stack => l <- Strat.slice_from widths (stack * 3); l <- slice_to l 3; sum_u8 l) (seq 0 3).

(** src/strategy/solver.rs:1397-1415 [_print_separator] *)
Definition print_separator (left middle right bar : list N) (lengths : list nat) : res (list N) :=
  l0 <- aget lengths 0; l1 <- aget lengths 1; l2 <- aget lengths 2;
  let line n := concat (repeat bar (n + 6)) in
  Ok (left ++ line l0 ++ middle ++ line l1 ++ middle ++ line l2 ++ right ++ [10%N]).

(** The strings given to [print_grid_state], in the order of its parameters: src/strategy/solver.rs:1299-1311 *)
Record frame := mkFrame {
  upper_left : list N; upper_right : list N; lower_left : list N; lower_right : list N;
  left_junction : list N; right_junction : list N; upper_junction : list N; lower_junction : list N; middle_junction : list N;
  horizontal_bar : list N; vertical_bar : list N }.

(** src/strategy/solver.rs:1350-1370: the text of one cell; the padding is a [u8] difference *)
Definition print_cell (width : nat) (x : cell_state) : res (list N) :=
  match x with
  | CDigit d => Ok ([32%N] ++ pad_right width (show_u8 d) ++ [32%N])
  | CCands m =>
      t <- cands_text m;
      k <- usub (1 + width) (Nat.max (set_len m) 1);
      Ok ([32%N] ++ t ++ pad_right k [32%N])
  end.

(** src/strategy/solver.rs:1344-1374: one line of cells *)
Definition print_row (g : list cell_state) (widths : list nat) (bar : list N) (full_row : nat) : res (list N) :=
  cells <- rflat (fun stack =>
    c <- rflat (fun col =>
      let full_col := stack * 3 + col in
      x <- aget g (full_row * 9 + full_col);
      w <- aget widths full_col;
      print_cell w x) (seq 0 3);
    Ok (c ++ bar)) (seq 0 3);
  Ok (bar ++ cells ++ [10%N]).

(** src/strategy/solver.rs:1296-1395 [print_grid_state] *)
Definition print_grid_state (g : list cell_state) (f : frame) : res (list N) :=
  widths <- column_widths g;
  lengths <- stack_lengths widths;
  top <- print_separator (upper_left f) (upper_junction f) (upper_right f) (horizontal_bar f) lengths;
  bands <- rflat (fun band =>
    rows <- rflat (fun row => print_row g widths (vertical_bar f) (band * 3 + row)) (seq 0 3);
    sep <- (if negb (band =? 2)
            then print_separator (left_junction f) (middle_junction f) (right_junction f) (horizontal_bar f) lengths
            else Ok []);
    Ok (rows ++ sep)) (seq 0 3);
  bottom <- print_separator (lower_left f) (lower_junction f) (lower_right f) (horizontal_bar f) lengths;
  Ok (top ++ bands ++ bottom).

(** src/strategy/solver.rs:1123-1133: box drawing characters *)
Definition box_frame : frame :=
  mkFrame [9484%N] [9488%N] [9492%N] [9496%N] [9500%N] [9508%N] [9516%N] [9524%N] [9532%N] [9472%N] [9474%N].

(** src/board/grid_state.rs:38-44: [stack_width] *)
Definition stack_width (widths : list nat) (stack_nr : nat) : res nat :=
  l <- Strat.slice_from widths (stack_nr * 3); l <- slice_to l 3; Ok (list_sum l + 6).
(** src/board/grid_state.rs:46-59: [print_horizontal_delimiter]; the empty string is filled up with bars *)
Definition horizontal_delimiter (widths : list nat) (leftmost middle : N) (rightmost : list N) : res (list N) :=
  w0 <- stack_width widths 0; w1 <- stack_width widths 1; w2 <- stack_width widths 2;
  Ok ([leftmost] ++ repeat 9472%N w0 ++ [middle] ++ repeat 9472%N w1 ++ [middle] ++ repeat 9472%N w2 ++ rightmost).
(** src/board/grid_state.rs:60-74: [print_minirow] *)
Definition minirow (g : list cell_state) (widths : list nat) (row stack : nat) : res (list N) :=
  let base_col := stack * 3 in
  let base_idx := row * 9 + stack * 3 in
  let cell k := (x <- aget g (base_idx + k); w <- aget widths (base_col + k); cell_state_text w x) in
  t0 <- cell 0; t1 <- cell 1; t2 <- cell 2;
  Ok ([32%N] ++ t0 ++ [32%N; 32%N] ++ t1 ++ [32%N; 32%N] ++ t2 ++ [32%N; 9474%N]).
(** src/board/grid_state.rs:76-85: [print_band] *)
Definition band_text (g : list cell_state) (widths : list nat) (band : nat) : res (list N) :=
  rflat (fun row => t <- rflat (minirow g widths (band * 3 + row)) (seq 0 3); Ok ([9474%N] ++ t ++ [10%N])) (seq 0 3).
(** src/board/grid_state.rs:22-95 [Display for GridState] *)
Definition grid_state_text (g : list cell_state) : res (list N) :=
  widths <- column_widths g;
  widths <- rmap (fun w => if (1 <=? w) && (w <=? 9) then Ok w else Panic) widths; (* debug_assert of line 34 *)
  t0 <- horizontal_delimiter widths 9484 9516 [9488%N; 10%N];
  b0 <- band_text g widths 0;
  t1 <- horizontal_delimiter widths 9500 9532 [9508%N; 10%N];
  b1 <- band_text g widths 1;
  t2 <- horizontal_delimiter widths 9500 9532 [9508%N; 10%N];
  b2 <- band_text g widths 2;
  t3 <- horizontal_delimiter widths 9492 9524 [9496%N];
  Ok (t0 ++ b0 ++ t1 ++ b1 ++ t2 ++ b2 ++ t3).

(** [str::split_whitespace], src/strategy/solver.rs:140; [cur] is the current word reversed *)
Fixpoint words_aux (cur s : list N) : list (list N) :=
  match s with
  | [] => match cur with [] => [] | _ => [rev cur] end
  | c :: t => if is_white c then match cur with [] => words_aux [] t | _ => rev cur :: words_aux [] t end else words_aux (c :: cur) t
  end.
Definition split_whitespace (s : list N) : list (list N) := words_aux [] s.

(** [str::parse::<u32>().is_ok()], src/strategy/solver.rs:141: an optional plus sign and at least one decimal digit; the value
    must fit *)
Definition is_dec (c : N) : bool := ((48 <=? c) && (c <=? 57))%N.
Definition dec_value (s : list N) : N := fold_left (fun v c => v * 10 + (c - 48))%N s 0%N.
Definition parses_u32 (s : list N) : bool :=
  let digits := match s with c :: t => if (c =? 43)%N then t else s | [] => [] end in
  negb (length digits =? 0) && forallb is_dec digits && (dec_value digits <? 2 ^ 32)%N.
(** src/strategy/solver.rs:141 *)
Definition is_entry (s : list N) : bool := match s with [95%N] => true | _ => parses_u32 s end.

(** src/strategy/solver.rs:144-150: the digits of an entry; [byte - b'0'] panics on underflow *)
Definition entry_digit (byte : N) : res (option nat) :=
  if (48 <=? byte)%N then Ok (digit_new_checked (N.to_nat (byte - 48))) else Panic.
Definition entry_cands (entry : list N) : res N :=
  ds <- rmap entry_digit (as_bytes entry);
  rfold (fun d m => match d with Some d => x <- digit_set d; Ok (set_or m x) | None => Ok m end) ds (set_none EDigit).
(** src/strategy/solver.rs:151-154 *)
Definition entry_state (entry : list N) : res cell_state :=
  m <- entry_cands entry;
  u <- set_unique EDigit m;
  match u with
  | UOk (Some x) => d <- digit_from_index x; Ok (CDigit d)
  | UOk None | UEmpty => Ok (CCands m)
  end.
(** src/strategy/solver.rs:143-156: [iter_mut().zip(entries)] over the [n] cells that are left *)
Fixpoint entry_states (n : nat) (entries : list (list N)) : res (list cell_state) :=
  match n, entries with
  | O, _ => Ok []
  | _, [] => Ok (repeat (CCands (set_none EDigit)) n)
  | S n', e :: t => x <- entry_state e; r <- entry_states n' t; Ok (x :: r)
  end.
(** src/strategy/solver.rs:136-156: the first part of [from_grid_state_str] *)
Definition read_grid_state (s : list N) : res (list cell_state) :=
  entry_states 81 (filter is_entry (flat_map split_whitespace (lines s))).
(** src/strategy/solver.rs:136-159 [from_grid_state_str] *)
Definition from_grid_state_str (s : list N) : res strat := g <- read_grid_state s; strat_from_grid_state g.

(** src/strategy/solver.rs:552-570 [_batch_remove_conflicts_no_check] *)
Definition remove_conflicts_no_check (st : strat) : res strat :=
  rfold (fun cell st =>
    m <- aget (s_cell st) cell;
    if set_is_empty m then Ok st
    else
      hm <- house_masks st cell;
      let '(mr, mk, mb) := hm in
      cp <- aset (s_cell st) cell (set_without EDigit m (set_or (set_or mr mk) mb));
      Ok (set_cell st cp)) (seq 0 81) st.
(** src/strategy/solver.rs:539-549 [update_for_grid_state_str] *)
Definition update_for_grid_state_str (st : strat) : res strat :=
  st <- try_solve [NakedSingles] st; remove_conflicts_no_check st.
(** src/strategy/solver.rs:1114-1148 [Display for StrategySolver], which works on a clone *)
Definition strat_text (st : strat) : res (list N) :=
  st <- update_for_grid_state_str st; g <- strat_grid_state st; print_grid_state g box_frame.
