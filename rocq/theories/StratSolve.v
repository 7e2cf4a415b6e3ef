(** Model of /repo/src/strategy/solver.rs (the strategies, [solve] and the queries), /repo/src/strategy/strategies.rs and
    /repo/src/strategy/deduction.rs. *)
From Coq Require Import List Arith NArith Bool.
From Verif Require Import Spec Solver Bits Geom Gen Strat StratFind.
Import ListNotations.

(** The candidates of one cell whose digits are in [m]: [m.into_iter().map(|digit| Candidate { cell, digit })], e.g.
    src/strategy/solver.rs:727 *)
Definition cands_of (cell : nat) (m : N) : res (list cand) := l <- digits_of m; Ok (map (fun d => (cell, d)) l).

(** [.filter(|&cell| cell_poss_digits[cell].contains(digit)).map(|cell| Candidate { cell, digit })], e.g.
    src/strategy/solver.rs:848-849 *)
Definition with_digit (poss : list N) (digit : nat) (cells : list nat) : res (list cand) :=
  rflat (fun cell => m <- aget poss cell; d <- digit_set digit; Ok (if set_contains m d then [(cell, digit)] else [])) cells.

(** src/strategy/solver.rs:657-680 [find_naked_singles] *)
Definition s_find_naked (stop : bool) (st : strat) : res (strat * bool) :=
  st <! update_cell_house_solved st;
  st <! find_naked (s_cell st) stop
          (fun c st => push_new (set_entries st (s_entries st ++ [c])) c (DNaked c)) st;
  update_cell_house_solved st.

(** src/strategy/strategies/hidden_singles.rs:15 *)
Definition next_house (st : strat) : strat := set_last st (if s_last st <? 27 then s_last st + 1 else 0).

(** src/strategy/solver.rs:682-706 [find_hidden_singles] *)
Definition s_find_hidden (stop : bool) (st : strat) : res (strat * bool) :=
  st <! update_cell_house_solved st;
  st <! find_hidden (s_last st) next_house (s_cell st) (s_house st) stop
          (fun c house st => t <- house_categorize house; push_new st c (DHidden c t)) st;
  update_cell_house_solved st.

(** src/strategy/solver.rs:719-737: the closure of [find_locked_candidates] *)
Definition on_locked (poss : list N) (miniline digit : nat) (nbs : list nat) (is_pointing : bool) (st : strat) : res (strat * bool) :=
  conflicts <- rflat (fun nb =>
    cm <- cells_of_miniline nb;
    cells <- set_iter ECell cm;
    rflat (fun cell => m <- aget poss cell; d <- digit_set digit; cands_of cell (set_and m d)) cells) nbs;
  Ok (enter_conflicts st conflicts (DLocked digit miniline is_pointing)).

(** src/strategy/solver.rs:710-739 [find_locked_candidates] *)
Definition s_find_locked (stop : bool) (st : strat) : res (strat * bool) :=
  st <! update_cell_house_solved st; find_locked (s_cell st) stop (on_locked (s_cell st)) st.

(** src/strategy/solver.rs:757-774: the closure of [find_naked_subsets] *)
Definition on_naked_sub (poss : list N) (house : nat) (positions digits : N) (st : strat) : res (strat * bool) :=
  l <- set_iter EPosHouse (set_not EPosHouse positions);
  conflicts <- rflat (fun pos => cell <- house_cell_at house pos; m <- aget poss cell; cands_of cell (set_and m digits)) l;
  Ok (enter_conflicts st conflicts (DSubsets house positions digits)).

(** src/strategy/solver.rs:741-776 [find_naked_subsets] *)
Definition s_find_naked_sub (size : nat) (stop : bool) (st : strat) : res (strat * bool) :=
  st <! update_cell_house_solved st;
  find_naked_sub (s_cell st) (s_house st) size stop (on_naked_sub (s_cell st)) st.

(** src/strategy/solver.rs:795-814: the closure of [find_hidden_subsets] *)
Definition on_hidden_sub (pos : list (list N)) (house : nat) (digits positions : N) (st : strat) : res (strat * bool) :=
  row <- aget pos house;
  l <- digits_of (set_not EDigit digits);
  conflicts <- rflat (fun digit =>
    m <- aget row (digit_as_index digit);
    ps <- set_iter EPosHouse (set_and m positions);
    rmap (fun p => cell <- house_cell_at house p; Ok (cell, digit)) ps) l;
  Ok (enter_conflicts st conflicts (DSubsets house positions digits)).

(** src/strategy/solver.rs:778-816 [find_hidden_subsets] *)
Definition s_find_hidden_sub (size : nat) (stop : bool) (st : strat) : res (strat * bool) :=
  st <! update_cell_house_solved st;
  st <- update_pos st;
  find_hidden_sub (s_house st) (s_pos st) size stop (on_hidden_sub (s_pos st)) st.

(** src/strategy/solver.rs:843-859: the closure of [find_fish] *)
Definition on_fish (poss : list N) (all_lines : N) (digit : nat) (lines positions : N) (st : strat) : res (strat * bool) :=
  ls <- set_iter ELine (set_without ELine all_lines lines);
  cells <- rflat (fun line => ps <- set_iter EPosLine positions; rmap (line_cell_at line) ps) ls;
  conflicts <- with_digit poss digit cells;
  Ok (enter_conflicts st conflicts (DBasicFish digit lines positions)).

(** src/strategy/solver.rs:830-861 [find_fish] *)
Definition s_find_fish (size : nat) (stop : bool) (st : strat) : res (strat * bool) :=
  st <- update_pos st;
  st <! update_cell_house_solved st;
  find_fish (s_pos st) size stop (on_fish (s_cell st)) st.

(** src/strategy/solver.rs:880-901: the closure of [find_mutant_fish] *)
Definition on_mutant (poss : list N) (digit : nat) (cands base cover : N) (st : strat) : res (strat * bool) :=
  hs <- set_iter EHouse cover;
  cover_cells <- rfold (fun h acc => m <- cells_of_house h; Ok (set_or acc m)) hs (set_none ECell);
  cells <- set_iter ECell (set_xor cover_cells cands);
  conflicts <- with_digit poss digit cells;
  Ok (enter_conflicts st conflicts (DFish digit base cover)).

(** src/strategy/solver.rs:863-903 [find_mutant_fish] *)
Definition s_find_mutant (size : nat) (stop : bool) (st : strat) : res (strat * bool) :=
  st <- update_pos st;
  st <! update_cell_house_solved st;
  find_mutant (s_pos st) size stop (on_mutant (s_cell st)) st.

(** src/strategy/solver.rs:914-935 and 948-972: the closures of [find_xy_wing] and [find_xyz_wing]; [xyz] selects the second,
    which also intersects with the neighbors of the hinge and asserts that there are two common neighbors *)
Definition on_wing (xyz : bool) (poss : list N) (hinge : nat) (hinge_digits : N) (c1 : nat) (m1 : N) (c2 : nat) (m2 : N)
    (st : strat) : res (strat * bool) :=
  u <- set_unique EDigit (set_and m1 m2);
  match u with
  | UOk (Some x) =>
      digit <- digit_from_index x;
      n0 <- neighbors_set hinge;
      n1 <- neighbors_set c1;
      n2 <- neighbors_set c2;
      let common := if xyz then set_and (set_and n0 n1) n2 else set_and n1 n2 in
      if xyz && negb (set_len common =? 2) then Panic
      else
        cells <- set_iter ECell common;
        conflicts <- with_digit poss digit cells;
        s1 <- as_set ECell c1;
        s2 <- as_set ECell c2;
        Ok (enter_conflicts st conflicts (DWing hinge hinge_digits (set_or s1 s2)))
  | _ => Panic
  end.

(** src/strategy/solver.rs:905-937 [find_xy_wing] *)
Definition s_find_xy (stop : bool) (st : strat) : res (strat * bool) :=
  st <! update_cell_house_solved st; find_wing 2 1 true (s_cell st) stop (on_wing false (s_cell st)) st.

(** src/strategy/solver.rs:939-974 [find_xyz_wing] *)
Definition s_find_xyz (stop : bool) (st : strat) : res (strat * bool) :=
  st <! update_cell_house_solved st; find_wing 3 2 false (s_cell st) stop (on_wing true (s_cell st)) st.

(** src/strategy/strategies.rs:25-44 [Strategy] *)
Inductive strategy :=
| NakedSingles | HiddenSingles | LockedCandidates | NakedPairs | NakedTriples | NakedQuads | HiddenPairs | HiddenTriples
| HiddenQuads | XWing | Swordfish | Jellyfish | XyWing | XyzWing | MutantSwordfish | MutantJellyfish | AvoidableRectangles.

(** src/strategy/strategies.rs:50-68 [Strategy::ALL] *)
Definition STRATEGY_ALL : list strategy :=
  [NakedSingles; HiddenSingles; LockedCandidates; NakedPairs; XWing; HiddenPairs; NakedTriples; Swordfish; HiddenTriples;
   XyWing; XyzWing; NakedQuads; Jellyfish; HiddenQuads].

(** src/strategy/strategies.rs:72-102 [deduce]; [unimplemented!()] panics *)
Definition deduce (s : strategy) (stop is_first : bool) (st : strat) : res (strat * bool) :=
  match s with
  | NakedSingles => if negb stop && is_first then update_cell_house true true st else s_find_naked stop st
  | HiddenSingles => s_find_hidden stop st
  | LockedCandidates => s_find_locked stop st
  | NakedPairs => s_find_naked_sub 2 stop st
  | NakedTriples => s_find_naked_sub 3 stop st
  | NakedQuads => s_find_naked_sub 4 stop st
  | HiddenPairs => s_find_hidden_sub 2 stop st
  | HiddenTriples => s_find_hidden_sub 3 stop st
  | HiddenQuads => s_find_hidden_sub 4 stop st
  | XWing => s_find_fish 2 stop st
  | Swordfish => s_find_fish 3 stop st
  | Jellyfish => s_find_fish 4 stop st
  | XyWing => s_find_xy stop st
  | XyzWing => s_find_xyz stop st
  | MutantSwordfish => s_find_mutant 3 stop st
  | MutantJellyfish => s_find_mutant 4 stop st
  | AvoidableRectangles => Panic
  end.
(** src/strategy/strategies.rs:104-106 [deduce_one], 108-114 [deduce_all] *)
Definition deduce_one (s : strategy) (st : strat) : res (strat * bool) := deduce s true false st.
Definition deduce_all (s : strategy) (is_first : bool) (st : strat) : res (strat * bool) := deduce s false is_first st.

(** src/strategy/solver.rs:287-289 [is_solved] *)
Definition strat_is_solved (st : strat) : bool := s_n st =? 81.

(** src/strategy/solver.rs:273-280: the loop over the other strategies; [true] stands for [continue 'outer] *)
Fixpoint try_rest (rest : list strategy) (n_deductions n_eliminated : nat) (st : strat) : res (strat * bool) :=
  match rest with
  | [] => Ok (st, false)
  | s :: t =>
      r <- deduce_one s st;
      let '(st, ok) := r in
      if negb ok then Ok (st, false)
      else if (n_deductions <? length (s_entries st)) || (n_eliminated <? length (s_elims st)) then Ok (st, true)
      else try_rest t n_deductions n_eliminated st
  end.

(** src/strategy/solver.rs:259-282: the loop of [try_solve]; the result of the function is the new state only, as its
    return value is not used by [solve] *)
Fixpoint try_loop (fuel : nat) (first : strategy) (rest : list strategy) (st : strat) : res strat :=
  match fuel with
  | O => NoFuel
  | S f =>
      if strat_is_solved st then Ok st
      else
        let n_deductions := length (s_entries st) in
        let n_eliminated := length (s_elims st) in
        r <- deduce_all first true st;
        let '(st, ok) := r in
        if negb ok then Ok st
        else if n_deductions <? length (s_entries st) then try_loop f first rest st
        else
          r <- try_rest rest n_deductions n_eliminated st;
          let '(st, again) := r in
          if again then try_loop f first rest st else Ok st
  end.

(** Fuel of the loop above, which has no explicit bound: a round that is repeated sets a cell or eliminates one of the 729
    candidates for the first time *)
Definition solve_fuel : nat := 1000.

(** src/strategy/solver.rs:251-284 [try_solve] *)
Definition try_solve (strategies : list strategy) (st : strat) : res strat :=
  match strategies with
  | [] => Ok st
  | first :: rest => try_loop solve_fuel first rest st
  end.

(** src/strategy/deduction.rs:13-17 [Deductions] *)
Record deductions := mkDeds { d_deds : list (deduction range); d_entries : list cand; d_elims : list cand }.

(** src/strategy/solver.rs:240-247 [solve] with [into_deductions] (226-229); the boolean tells [Ok] from [Err] *)
Definition strat_solve (strategies : list strategy) (st : strat) : res (bool * grid * deductions) :=
  st <- try_solve strategies st;
  st <- update_grid st;
  Ok (strat_is_solved st, s_grid st, mkDeds (s_deds st) (s_entries st) (s_elims st)).

(** src/strategy/solver.rs:162-165 [to_sudoku] *)
Definition to_sudoku (st : strat) : res (strat * grid) := st <- update_grid st; Ok (st, s_grid st).

(** src/strategy/solver.rs:174-175, 195-196: both caches are brought up to date, errors are ignored *)
Definition query (st : strat) : res strat := st <- update_grid st; r <- update_cell_house false false st; Ok (fst r).

(** src/strategy/solver.rs:168-191 [grid_state], which works on a clone *)
Definition strat_grid_state (st : strat) : res (list cell_state) :=
  st <- query st;
  rmap (fun cell =>
    d <- aget (s_grid st) cell;
    if negb (d =? 0) then d <- digit_new d; Ok (CDigit d) else m <- aget (s_cell st) cell; Ok (CCands m)) (seq 0 81).

(** src/strategy/solver.rs:194-205 [cell_state] *)
Definition strat_cell_state (st : strat) (cell : nat) : res (strat * cell_state) :=
  st <- query st;
  d <- aget (s_grid st) cell;
  if negb (d =? 0) then d <- digit_new d; Ok (st, CDigit d) else m <- aget (s_cell st) cell; Ok (st, CCands m).

(** src/strategy/solver.rs:209-223 [insert_candidate]; [pop] removes the last element if there is one *)
Definition insert_candidate (st : strat) (c : cand) : res (strat * bool) :=
  st <- update_grid st;
  st <! push_new st c (DNaked c);
  Ok (set_deds st (removelast (s_deds st)), true).

(** src/strategy/deduction.rs:212 etc.: [&eliminated[range]] *)
Definition slice (l : list cand) (r : range) : res (list cand) :=
  if (fst r <=? snd r) && (snd r <=? length l) then Ok (firstn (snd r - fst r) (skipn (fst r) l)) else Panic.

(** src/strategy/deduction.rs:203-241 [with_slices] *)
Definition with_slices (elims : list cand) (x : deduction range) : res (deduction (list cand)) :=
  match x with
  | DNaked c => Ok (DNaked c)
  | DHidden c h => Ok (DHidden c h)
  | DLocked d m p r => l <- slice elims r; Ok (DLocked d m p l)
  | DSubsets h p d r => l <- slice elims r; Ok (DSubsets h p d l)
  | DBasicFish d ln p r => l <- slice elims r; Ok (DBasicFish d ln p l)
  | DFish d b c r => l <- slice elims r; Ok (DFish d b c l)
  | DWing h hd p r => l <- slice elims r; Ok (DWing h hd p l)
  | DAvoidable _ _ => Panic
  end.

(** src/strategy/deduction.rs:37-39 [len], 42-44 [is_empty], 47-51 [get] *)
Definition deds_len (ds : deductions) : nat := length (d_deds ds).
Definition deds_is_empty (ds : deductions) : bool := deds_len ds =? 0.
Definition deds_get (ds : deductions) (i : nat) : res (option (deduction (list cand))) :=
  match nth_error (d_deds ds) i with
  | None => Ok None
  | Some x => y <- with_slices (d_elims ds) x; Ok (Some y)
  end.

(** src/strategy/deduction.rs:54-59 [iter] with the iterator of lines 25-33, read to its end *)
Definition deds_iter (ds : deductions) : res (list (deduction (list cand))) := rmap (with_slices (d_elims ds)) (d_deds ds).

(** src/strategy/deduction.rs:132-196 [strategy] *)
Definition ded_strategy (x : deduction (list cand)) : res strategy :=
  match x with
  | DNaked _ => Ok NakedSingles
  | DHidden _ _ => Ok HiddenSingles
  | DLocked _ _ _ _ => Ok LockedCandidates
  | DBasicFish _ _ positions _ =>
      match set_len positions with 2 => Ok XWing | 3 => Ok Swordfish | 4 => Ok Jellyfish | _ => Panic end
  | DSubsets house positions _ conflicts =>
      c <- aget conflicts 0;
      t <- house_categorize house;
      let pos := match t with HRow _ => row_pos (fst c) | HCol _ => col_pos (fst c) | HBlock _ => block_pos (fst c) end in
      p <- as_set EPosHouse pos;
      match set_overlaps EPosHouse p positions, set_len positions with
      | false, 2 => Ok NakedPairs | false, 3 => Ok NakedTriples | false, 4 => Ok NakedQuads
      | true, 2 => Ok HiddenPairs | true, 3 => Ok HiddenTriples | true, 4 => Ok HiddenQuads
      | _, _ => Panic
      end
  | DFish _ base cover _ =>
      match is_mutant base || is_mutant cover, set_len base with
      | false, 2 => Ok XWing | false, 3 => Ok Swordfish | false, 4 => Ok Jellyfish
      | true, 3 => Ok MutantSwordfish | true, 4 => Ok MutantJellyfish
      | _, _ => Panic
      end
  | DWing _ hinge_digits _ _ =>
      match set_len hinge_digits with 2 => Ok XyWing | 3 => Ok XyzWing | _ => Panic end
  | DAvoidable _ _ => Panic
  end.
