(** Model of /repo/src/strategy/strategies/*.rs: the searches for the patterns.

    The searches receive the callback of the caller as a function [on] on a state of arbitrary type [S]; its boolean is the
    value returned by the Rust closure.  A [SetIter] that is cloned and advanced is the list of the elements that it would
    still yield ([set_iter], src/bitset.rs:309-322). *)
From Coq Require Import List Arith NArith Bool.
From Verif Require Import Spec Solver Bits Geom Gen Strat.
Import ListNotations.

(** How a search goes on: with the next item, with [return Ok(())], with [return Err(Unsolvable)] *)
Inductive ctl := Cont | Stop | Fail.

(** A [for] loop with [return]; [src/strategy/strategies/hidden_singles.rs:10-56] and others *)
Fixpoint for_ctl {A S} (l : list A) (f : A -> S -> res (S * ctl)) (s : S) : res (S * ctl) :=
  match l with
  | [] => Ok (s, Cont)
  | x :: t => r <- f x s; match snd r with Cont => for_ctl t f (fst r) | c => Ok (fst r, c) end
  end.

(** [Result<(), Unsolvable>] of a search from its loop *)
Definition ctl_ok (c : ctl) : bool := match c with Fail => false | _ => true end.
Definition finish {S} (r : res (S * ctl)) : res (S * bool) := x <- r; Ok (fst x, ctl_ok (snd x)).

(** [if found_conflicts && stop_after_first { return Ok(()) }] *)
Definition stop_if (b : bool) : ctl := if b then Stop else Cont.

(** src/strategy/strategies/naked_singles.rs:3-21 [find_naked_singles]; the callback returns a [Result] *)
Definition find_naked {S} (poss : list N) (stop : bool) (on : cand -> S -> res (S * bool)) (s : S) : res (S * bool) :=
  finish (for_ctl (seq 0 81) (fun cell s =>
    m <- aget poss cell;
    u <- set_unique EDigit m;
    match u with
    | UOk (Some x) =>
        d <- digit_from_index x;
        r <- on (cell, d) s;
        Ok (fst r, if snd r then stop_if stop else Fail)
    | _ => Ok (s, Cont)
    end) s).

(** src/strategy/strategies/hidden_singles.rs:34-54: the loop over the cells of a house *)
Fixpoint hidden_cells {S} (cells : list nat) (poss : list N) (house : nat) (stop : bool)
    (on : cand -> nat -> S -> res (S * bool)) (singles : N) (s : S) : res (S * ctl) :=
  match cells with
  | [] => Ok (s, Cont)
  | cell :: t =>
      mask <- aget poss cell;
      u <- set_unique EDigit (set_and mask singles);
      match u with
      | UEmpty => hidden_cells t poss house stop on singles s
      | UOk None => Ok (s, Fail)
      | UOk (Some x) =>
          d <- digit_from_index x;
          r <- on (cell, d) house s;
          if snd r then
            m <- digit_set d;
            let singles := set_without EDigit singles m in
            if stop then Ok (fst r, Stop)
            else if set_is_empty singles then Ok (fst r, Cont)
            else hidden_cells t poss house stop on singles (fst r)
          else Ok (fst r, Fail)
      end
  end.

(** src/strategy/strategies/hidden_singles.rs:10-14: the houses visited, beginning after the last one visited before *)
Definition houses_from (last : nat) : list nat := firstn 27 (skipn last (seq 0 27 ++ seq 0 27)).

(** src/strategy/strategies/hidden_singles.rs:3-57 [find_hidden_singles]; [next_house] updates [last_house] *)
Definition find_hidden {S} (last : nat) (next_house : S -> S) (poss house_solved : list N) (stop : bool)
    (on : cand -> nat -> S -> res (S * bool)) (s : S) : res (S * bool) :=
  finish (for_ctl (houses_from last) (fun house s =>
    let s := next_house s in
    cm <- cells_of_house house;
    cells <- set_iter ECell cm;
    um <- occurrences cells poss (set_none EDigit) (set_none EDigit);
    let '(unsolved, multiple) := um in
    hm <- house_get house_solved house;
    if negb (N.eqb (set_or unsolved hm) (set_all EDigit)) then Ok (s, Fail)
    else
      let singles := set_without EDigit unsolved multiple in
      if set_is_empty singles then Ok (s, Cont)
      else hidden_cells cells poss house stop on singles s) s).

(** src/strategy/strategies/locked_candidates.rs:84-94 [find_unique]: the digits in exactly one of the sets.  The loop is the
    same as the one of hidden singles. *)
Fixpoint find_unique (l : list N) (unsolved multiple : N) : N :=
  match l with
  | [] => set_without EDigit unsolved multiple
  | p :: t => find_unique t (set_or unsolved p) (set_or multiple (set_and unsolved p))
  end.

(** src/strategy/strategies/locked_candidates.rs:22-26: the possible digits of a miniline *)
Definition miniline_digits (poss : list N) (miniline : nat) : res N :=
  cm <- cells_of_miniline miniline;
  cells <- set_iter ECell cm;
  rfold (fun cell acc => m <- aget poss cell; Ok (set_or acc m)) cells (set_none EDigit).

(** src/strategy/strategies/locked_candidates.rs:5-81 [find_locked_candidates].  The third argument of the closure (the
    candidates of all minilines) is not used by the caller and left out. *)
Definition find_locked {S} (poss : list N) (stop : bool)
    (on : nat -> nat -> list nat -> bool -> S -> res (S * bool)) (s : S) : res (S * bool) :=
  finish (for_ctl (seq 0 6) (fun chute s =>
    let minilines := chute_minilines chute in
    mpd <- rmap (miniline_digits poss) minilines;
    line_unique <- rmap (fun l => a <- aget mpd (l * 3 + 0); b <- aget mpd (l * 3 + 1); c <- aget mpd (l * 3 + 2);
                           Ok (find_unique [a; b; c] (set_none EDigit) (set_none EDigit))) (seq 0 3);
    block_unique <- rmap (fun f => a <- aget mpd (0 * 3 + f); b <- aget mpd (1 * 3 + f); c <- aget mpd (2 * 3 + f);
                           Ok (find_unique [a; b; c] (set_none EDigit) (set_none EDigit))) (seq 0 3);
    for_ctl (seq 0 9) (fun i s =>
      miniline <- aget minilines i;
      poss_digits <- aget mpd i;
      lu <- aget line_unique (i / 3);
      bu <- aget block_unique (i mod 3);
      nb <- miniline_neighbors miniline;
      let '(line_neighbors, field_neighbors) := nb in
      for_ctl [(set_and poss_digits lu, field_neighbors, false); (set_and poss_digits bu, line_neighbors, true)]
        (fun x s =>
          let '(uniques, neighbors, is_pointing) := x in
          if set_is_empty uniques then Ok (s, Cont)
          else
            l <- digits_of uniques;
            for_ctl l (fun digit s =>
              r <- on miniline digit neighbors is_pointing s;
              Ok (fst r, stop_if (stop && snd r))) s) s) s) s).

(** src/strategy/strategies/naked_subsets.rs:22-32: the test at the begin of [walk_combinations]; [rest] is the remainder *)
Definition naked_enter {S} (house size : nat) (stop : bool) (on : nat -> N -> N -> S -> res (S * bool))
    (pset total : N) (rest : S -> res (S * bool)) (s : S) : res (S * bool) :=
  if size <? set_len pset then Ok (s, false)
  else if (set_len pset =? size) && (set_len total =? set_len pset) then
    r <- on house pset total s;
    if snd r && stop then Ok (fst r, true) else rest (fst r)
  else rest s.

(** src/strategy/strategies/naked_subsets.rs:34-60: the loop of [walk_combinations] over the remaining positions *)
Fixpoint naked_walk {S} (poss : list N) (house size : nat) (stop : bool) (on : nat -> N -> N -> S -> res (S * bool))
    (positions : list nat) (pset total : N) (s : S) : res (S * bool) :=
  match positions with
  | [] => Ok (s, false)
  | p :: t =>
      cell <- house_cell_at house p;
      m <- aget poss cell;
      if set_is_empty m then naked_walk poss house size stop on t pset total s
      else
        ps <- as_set EPosHouse p;
        let pset' := set_or pset ps in
        let total' := set_or total m in
        r <- naked_enter house size stop on pset' total' (naked_walk poss house size stop on t pset' total') s;
        if snd r then Ok (fst r, true) else naked_walk poss house size stop on t pset total (fst r)
  end.

(** src/strategy/strategies/naked_subsets.rs:3-83 [find_naked_subsets]; it always returns [Ok(())] *)
Definition find_naked_sub {S} (poss house_solved : list N) (size : nat) (stop : bool)
    (on : nat -> N -> N -> S -> res (S * bool)) (s : S) : res (S * bool) :=
  finish (for_ctl (seq 0 27) (fun house s =>
    hm <- house_get house_solved house;
    if set_is_full EDigit hm then Ok (s, Cont)
    else
      l <- set_iter EPosHouse (set_all EPosHouse);
      r <- naked_enter house size stop on (set_none EPosHouse) (set_none EDigit)
             (naked_walk poss house size stop on l (set_none EPosHouse) (set_none EDigit)) s;
      Ok (fst r, stop_if (snd r))) s).

(** src/strategy/strategies/hidden_subsets.rs:22-31: the test at the begin of [walk_combinations] *)
Definition hidden_enter {S} (house size : nat) (stop : bool) (on : nat -> N -> N -> S -> res (S * bool))
    (dset total : N) (rest : S -> res (S * bool)) (s : S) : res (S * bool) :=
  if size <? set_len dset then Ok (s, false)
  else if (set_len dset =? size) && (set_len total =? size) then
    r <- on house dset total s;
    if snd r && stop then Ok (fst r, true) else rest (fst r)
  else rest s.

(** src/strategy/strategies/hidden_subsets.rs:33-56: the loop of [walk_combinations]; [row] is [house_poss_positions[house]] *)
Fixpoint hidden_walk {S} (row : list N) (house size : nat) (stop : bool) (on : nat -> N -> N -> S -> res (S * bool))
    (digits : list nat) (dset total : N) (s : S) : res (S * bool) :=
  match digits with
  | [] => Ok (s, false)
  | d :: t =>
      m <- aget row (digit_as_index d);
      if set_is_empty m then hidden_walk row house size stop on t dset total s
      else
        ds <- digit_set d;
        let dset' := set_or dset ds in
        let total' := set_or total m in
        r <- hidden_enter house size stop on dset' total' (hidden_walk row house size stop on t dset' total') s;
        if snd r then Ok (fst r, true) else hidden_walk row house size stop on t dset total (fst r)
  end.

(** src/strategy/strategies/hidden_subsets.rs:3-76 [find_hidden_subsets]; it always returns [Ok(())] *)
Definition find_hidden_sub {S} (house_solved : list N) (pos : list (list N)) (size : nat) (stop : bool)
    (on : nat -> N -> N -> S -> res (S * bool)) (s : S) : res (S * bool) :=
  finish (for_ctl (seq 0 27) (fun house s =>
    hm <- house_get house_solved house;
    if set_is_full EDigit hm then Ok (s, Cont)
    else
      row <- aget pos house;
      l <- digits_of (set_all EDigit);
      r <- hidden_enter house size stop on (set_none EDigit) (set_none EPosHouse)
             (hidden_walk row house size stop on l (set_none EDigit) (set_none EPosHouse)) s;
      Ok (fst r, stop_if (snd r))) s).

(** src/board/positions.rs:565-566 [Line::ALL_ROWS], [Line::ALL_COLS]: 0o777 and 0o777000 *)
Definition LINE_ALL_ROWS : N := 511.
Definition LINE_ALL_COLS : N := 261632.

(** src/strategy/strategies/basic_fish.rs:51-61: the test at the begin of [basic_fish_walk_combinations] *)
Definition fish_enter {S} (digit size : nat) (all_lines : N) (stop : bool) (on : N -> nat -> N -> N -> S -> res (S * bool))
    (lset union : N) (rest : S -> res (S * bool)) (s : S) : res (S * bool) :=
  if set_len lset =? size then
    if negb (set_len union =? size) then Ok (s, false)
    else
      r <- on all_lines digit lset union s;
      if snd r then Ok (fst r, stop) else rest (fst r)
  else rest s.

(** src/strategy/strategies/basic_fish.rs:63-89: the loop of [basic_fish_walk_combinations] over the remaining lines *)
Fixpoint fish_walk {S} (pos : list (list N)) (digit size : nat) (all_lines : N) (stop : bool)
    (on : N -> nat -> N -> N -> S -> res (S * bool)) (lines : list nat) (lset union : N) (s : S) : res (S * bool) :=
  match lines with
  | [] => Ok (s, false)
  | line :: t =>
      h <- house_of_line line;
      possible <- pos_get pos h digit;
      lpos <- as_line_set possible;
      let union' := set_or union lpos in
      if (set_len possible <? 2) || (size <? set_len union') then fish_walk pos digit size all_lines stop on t lset union s
      else
        ls <- as_set ELine line;
        let lset' := set_or lset ls in
        r <- fish_enter digit size all_lines stop on lset' union'
               (fish_walk pos digit size all_lines stop on t lset' union') s;
        if snd r then Ok (fst r, true) else fish_walk pos digit size all_lines stop on t lset union (fst r)
  end.

(** src/strategy/strategies/basic_fish.rs:3-32 [find_fish]; it always returns [Ok(())] *)
Definition find_fish {S} (pos : list (list N)) (size : nat) (stop : bool)
    (on : N -> nat -> N -> N -> S -> res (S * bool)) (s : S) : res (S * bool) :=
  finish (for_ctl (seq 1 9) (fun digit s =>
    for_ctl [LINE_ALL_ROWS; LINE_ALL_COLS] (fun lines s =>
      l <- set_iter ELine lines;
      r <- fish_enter digit size lines stop on (set_none ELine) (set_none EPosLine)
             (fish_walk pos digit size lines stop on l (set_none ELine) (set_none EPosLine)) s;
      Ok (fst r, stop_if (snd r))) s) s).

(** src/board/positions.rs:310-312 [House::ALL_ROWS], [ALL_COLS], [ALL_BLOCKS]: 0o777, 0o777000, 0o777000000 *)
Definition HOUSE_ALL_ROWS : N := 511.
Definition HOUSE_ALL_COLS : N := 261632.
Definition HOUSE_ALL_BLOCKS : N := 133955584.

(** src/strategy/strategies/mutant_fish.rs:158-163 [is_mutant] *)
Definition is_mutant (houses : N) : bool :=
  set_contains HOUSE_ALL_ROWS houses || set_contains HOUSE_ALL_COLS houses || set_contains HOUSE_ALL_BLOCKS houses.

(** src/strategy/strategies/mutant_fish.rs:122-129: the test at the begin of [find_cover] *)
Definition cover_enter {S} (digit : nat) (base : N) (base_mutant : bool) (cands : N) (stop : bool)
    (on : nat -> N -> N -> N -> S -> res (S * bool)) (covered chosen : N) (rest : S -> res (S * bool)) (s : S)
    : res (S * bool) :=
  if (set_len chosen =? set_len base) && N.eqb cands covered && (base_mutant || is_mutant chosen) then
    r <- on digit cands base chosen s; Ok (fst r, snd r && stop)
  else rest s.

(** src/strategy/strategies/mutant_fish.rs:131-155: the loop of [find_cover] over the eligible houses *)
Fixpoint cover_walk {S} (digit : nat) (base : N) (base_mutant : bool) (cands : N) (stop : bool)
    (on : nat -> N -> N -> N -> S -> res (S * bool)) (eligible : list nat) (covered chosen : N) (s : S)
    : res (S * bool) :=
  match eligible with
  | [] => Ok (s, false)
  | house :: t =>
      hc <- cells_of_house house;
      let hcov := set_and cands hc in
      if set_overlaps ECell hcov covered then cover_walk digit base base_mutant cands stop on t covered chosen s
      else
        hs <- as_set EHouse house;
        let covered' := set_or covered hcov in
        let chosen' := set_or chosen hs in
        r <- cover_enter digit base base_mutant cands stop on covered' chosen'
               (cover_walk digit base base_mutant cands stop on t covered' chosen') s;
        if snd r then Ok (fst r, true) else cover_walk digit base base_mutant cands stop on t covered chosen (fst r)
  end.

(** src/strategy/strategies/mutant_fish.rs:48-68: the test at the begin of [find_base] *)
Definition base_enter {S} (digit size : nat) (stop : bool) (on : nat -> N -> N -> N -> S -> res (S * bool))
    (base cands : N) (rest : S -> res (S * bool)) (s : S) : res (S * bool) :=
  if set_len base =? size then
    if negb (set_len cands =? size) then Ok (s, false)
    else
      l <- set_iter EHouse (set_xor (set_all EHouse) base);
      r <- cover_enter digit base (is_mutant base) cands stop on (set_none ECell) (set_none EHouse)
             (cover_walk digit base (is_mutant base) cands stop on l (set_none ECell) (set_none EHouse)) s;
      if snd r then Ok (fst r, true) else rest (fst r)
  else rest s.

(** src/strategy/strategies/mutant_fish.rs:70-103: the loop of [find_base] over the remaining houses *)
Fixpoint base_walk {S} (pos : list (list N)) (digit size : nat) (stop : bool)
    (on : nat -> N -> N -> N -> S -> res (S * bool)) (houses : list nat) (base cands : N) (s : S) : res (S * bool) :=
  match houses with
  | [] => Ok (s, false)
  | house :: t =>
      possible <- pos_get pos house digit;
      hc <- house_cells_at house possible;
      if (size <? set_len hc) || set_overlaps ECell hc cands then base_walk pos digit size stop on t base cands s
      else
        let cands' := set_or cands hc in
        if (set_len possible <? 2) || (size <? set_len cands') then base_walk pos digit size stop on t base cands s
        else
          hs <- as_set EHouse house;
          let base' := set_or base hs in
          r <- base_enter digit size stop on base' cands' (base_walk pos digit size stop on t base' cands') s;
          if snd r then Ok (fst r, true) else base_walk pos digit size stop on t base cands (fst r)
  end.

(** src/strategy/strategies/mutant_fish.rs:5-31 [find_mutant_fish]; it always returns [Ok(())] *)
Definition find_mutant {S} (pos : list (list N)) (size : nat) (stop : bool)
    (on : nat -> N -> N -> N -> S -> res (S * bool)) (s : S) : res (S * bool) :=
  finish (for_ctl (seq 1 9) (fun digit s =>
    l <- set_iter EHouse (set_all EHouse);
    r <- base_enter digit size stop on (set_none EHouse) (set_none ECell)
           (base_walk pos digit size stop on l (set_none EHouse) (set_none ECell)) s;
    Ok (fst r, stop_if (snd r))) s).

(** src/strategy/strategies/xy_wing.rs:28-35, xyz_wing.rs:30-37: the two-candidate cells of [cells] that share [common]
    candidates with the hinge *)
Definition bivalue_cells (poss : list N) (hinge_digits : N) (common : nat) (cells : N) : res (list (nat * N)) :=
  l <- set_iter ECell cells;
  r <- rmap (fun cell => m <- aget poss cell; Ok (cell, m)) l;
  Ok (filter (fun x => (set_len (snd x) =? 2) && (set_len (set_and hinge_digits (snd x)) =? common)) r).

(** src/strategy/strategies/xy_wing.rs:3-54 [find_xy_wing] (with [n] = 2 and [common] = 1) and
    src/strategy/strategies/xyz_wing.rs:5-56 [find_xyz_wing] (with [n] = 3 and [common] = 2): the two functions differ in
    these numbers and in the pairs of cell sets that are searched (xy_wing.rs:27, xyz_wing.rs:29), given by [with_lines]. *)
Definition find_wing {S} (n common : nat) (with_lines : bool) (poss : list N) (stop : bool)
    (on : nat -> N -> nat -> N -> nat -> N -> S -> res (S * bool)) (s : S) : res (S * bool) :=
  finish (for_ctl (seq 0 81) (fun cell s =>
    poss_digits <- aget poss cell;
    if negb (set_len poss_digits =? n) then Ok (s, Cont)
    else
      r <- row_of_cell cell; k <- col_of_cell cell; b <- block_of_cell cell;
      let row_cells := cells_of_row r in
      let col_cells := cells_of_col k in
      let block_cells := cells_of_block b in
      let row_dj := set_without ECell row_cells block_cells in
      let col_dj := set_without ECell col_cells block_cells in
      let block_row_dj := set_without ECell block_cells row_cells in
      let block_col_dj := set_without ECell block_cells col_cells in
      for_ctl ([(block_row_dj, row_dj); (block_col_dj, col_dj)] ++ (if with_lines then [(row_dj, col_dj)] else []))
        (fun x s =>
          l1 <- bivalue_cells poss poss_digits common (fst x);
          l2 <- bivalue_cells poss poss_digits common (snd x);
          for_ctl l1 (fun p1 s =>
            for_ctl l2 (fun p2 s =>
              let common_digits := set_and (snd p1) (snd p2) in
              if negb (set_len common_digits =? 1) || negb (set_len (set_or (set_or (snd p1) (snd p2)) poss_digits) =? 3)
              then Ok (s, Cont)
              else
                r <- on cell poss_digits (fst p1) (snd p1) (fst p2) (snd p2) s;
                Ok (fst r, stop_if (snd r && stop))) s) s) s) s).
