(** Model of /repo/src/strategy/solver.rs: the state of the strategy solver, its constructors and the updates of its caches.

    Functions that return [Result<(), Unsolvable>] change the solver in place and keep the changes when they fail, so they
    are modelled as functions to [res (strat * bool)]: the state afterwards and whether the result is [Ok(())].
    Failed assertions, indexing out of bounds and arithmetic overflow (debug build) give [Panic]. *)
From Coq Require Import List Arith NArith Bool.
From Verif Require Import Spec Solver Bits Geom Gen.
Import ListNotations.

(** src/strategy/deduction.rs:68-131 [Deduction<T>] *)
Inductive deduction (T : Type) : Type :=
| DNaked (c : cand)
| DHidden (c : cand) (h : house_type)
| DLocked (digit miniline : nat) (is_pointing : bool) (conflicts : T)
| DSubsets (house : nat) (positions digits : N) (conflicts : T)
| DBasicFish (digit : nat) (lines positions : N) (conflicts : T)
| DFish (digit : nat) (base cover : N) (conflicts : T)
| DWing (hinge : nat) (hinge_digits pincers : N) (conflicts : T)
| DAvoidable (lines : N) (conflicts : T).
Arguments DNaked {T} _.
Arguments DHidden {T} _ _.
Arguments DLocked {T} _ _ _ _.
Arguments DSubsets {T} _ _ _ _.
Arguments DBasicFish {T} _ _ _ _.
Arguments DFish {T} _ _ _ _.
Arguments DWing {T} _ _ _ _.
Arguments DAvoidable {T} _ _.

(** src/strategy/solver.rs:11-12 [EliminationsRange], [_Deduction]: the range is [start..end] *)
Definition range : Type := (nat * nat)%type.

(** src/strategy/solver.rs:38-66 [StrategySolver], src/strategy/solver.rs:1150-1155 [State].  The counters that the code
    never reads or writes (those of [grid], the [last_eliminated] of [house_solved_digits]) are left out. *)
Record strat := mkStrat {
  s_deds : list (deduction range);  (* deductions *)
  s_entries : list cand;            (* deduced_entries *)
  s_elims : list cand;              (* eliminated_entries *)
  s_n : nat;                        (* n_solved, u8 *)
  s_last : nat;                     (* hidden_singles_last_house, u8 *)
  s_clues : option grid;            (* clues, never read *)
  s_grid : grid;                    (* grid.state *)
  s_cnd : nat;                      (* cell_poss_digits.next_deduced, u16 *)
  s_cle : nat;                      (* cell_poss_digits.last_eliminated, u16 *)
  s_cell : list N;                  (* cell_poss_digits.state *)
  s_hnd : nat;                      (* house_solved_digits.next_deduced, u16 *)
  s_house : list N;                 (* house_solved_digits.state *)
  s_pnd : nat;                      (* house_poss_positions.next_deduced, u16 *)
  s_ple : nat;                      (* house_poss_positions.last_eliminated, u16 *)
  s_pos : list (list N)             (* house_poss_positions.state *)
}.

(** Field assignments of src/strategy/solver.rs *)
Definition set_deds st x := mkStrat x (s_entries st) (s_elims st) (s_n st) (s_last st) (s_clues st) (s_grid st) (s_cnd st) (s_cle st) (s_cell st) (s_hnd st) (s_house st) (s_pnd st) (s_ple st) (s_pos st).
Definition set_entries st x := mkStrat (s_deds st) x (s_elims st) (s_n st) (s_last st) (s_clues st) (s_grid st) (s_cnd st) (s_cle st) (s_cell st) (s_hnd st) (s_house st) (s_pnd st) (s_ple st) (s_pos st).
Definition set_elims st x := mkStrat (s_deds st) (s_entries st) x (s_n st) (s_last st) (s_clues st) (s_grid st) (s_cnd st) (s_cle st) (s_cell st) (s_hnd st) (s_house st) (s_pnd st) (s_ple st) (s_pos st).
Definition set_n st x := mkStrat (s_deds st) (s_entries st) (s_elims st) x (s_last st) (s_clues st) (s_grid st) (s_cnd st) (s_cle st) (s_cell st) (s_hnd st) (s_house st) (s_pnd st) (s_ple st) (s_pos st).
Definition set_last st x := mkStrat (s_deds st) (s_entries st) (s_elims st) (s_n st) x (s_clues st) (s_grid st) (s_cnd st) (s_cle st) (s_cell st) (s_hnd st) (s_house st) (s_pnd st) (s_ple st) (s_pos st).
Definition set_clues st x := mkStrat (s_deds st) (s_entries st) (s_elims st) (s_n st) (s_last st) x (s_grid st) (s_cnd st) (s_cle st) (s_cell st) (s_hnd st) (s_house st) (s_pnd st) (s_ple st) (s_pos st).
Definition set_grid st x := mkStrat (s_deds st) (s_entries st) (s_elims st) (s_n st) (s_last st) (s_clues st) x (s_cnd st) (s_cle st) (s_cell st) (s_hnd st) (s_house st) (s_pnd st) (s_ple st) (s_pos st).
Definition set_cle st x := mkStrat (s_deds st) (s_entries st) (s_elims st) (s_n st) (s_last st) (s_clues st) (s_grid st) (s_cnd st) x (s_cell st) (s_hnd st) (s_house st) (s_pnd st) (s_ple st) (s_pos st).
Definition set_cell st x := mkStrat (s_deds st) (s_entries st) (s_elims st) (s_n st) (s_last st) (s_clues st) (s_grid st) (s_cnd st) (s_cle st) x (s_hnd st) (s_house st) (s_pnd st) (s_ple st) (s_pos st).
Definition set_nd st x y := mkStrat (s_deds st) (s_entries st) (s_elims st) (s_n st) (s_last st) (s_clues st) (s_grid st) x (s_cle st) (s_cell st) y (s_house st) (s_pnd st) (s_ple st) (s_pos st).
Definition set_house st x := mkStrat (s_deds st) (s_entries st) (s_elims st) (s_n st) (s_last st) (s_clues st) (s_grid st) (s_cnd st) (s_cle st) (s_cell st) (s_hnd st) x (s_pnd st) (s_ple st) (s_pos st).
Definition set_pos st x y z := mkStrat (s_deds st) (s_entries st) (s_elims st) (s_n st) (s_last st) (s_clues st) (s_grid st) (s_cnd st) (s_cle st) (s_cell st) (s_hnd st) (s_house st) x y z.

(** The largest values of the counters' types u8 and u16, src/strategy/solver.rs:42, 1152-1153 *)
Definition U8_MAX : nat := 255.
Definition U16_MAX : N := 65535.
(** [+= 1] on a u8 or u16 counter: overflow panics *)
Definition inc8 (x : nat) : res nat := if x <? U8_MAX then Ok (S x) else Panic.
Definition inc16 (x : nat) : res nat := if (N.of_nat x <? U16_MAX)%N then Ok (S x) else Panic.
(** [as u16] truncates, e.g. src/strategy/solver.rs:323 *)
Definition as_u16 (x : nat) : nat := N.to_nat (N.of_nat x mod (U16_MAX + 1)).
(** [usize] subtraction: underflow panics, e.g. src/strategy/solver.rs:397 *)
Definition usub (a b : nat) : res nat := if b <=? a then Ok (a - b) else Panic.
(** [&v[i..]]: panics if [i] is past the end, e.g. src/strategy/solver.rs:305 *)
Definition slice_from {A} (l : list A) (i : nat) : res (list A) := if i <=? length l then Ok (skipn i l) else Panic.

(** Sequencing with the [?] operator: stop at the first [Err(Unsolvable)], keeping the state. *)
Definition bindE {S} (r : res (S * bool)) (f : S -> res (S * bool)) : res (S * bool) :=
  x <- r; if snd x then f (fst x) else Ok (fst x, false).
Notation "x <! e1 ; e2" := (bindE e1 (fun x => e2)) (at level 100, e1 at next level, right associativity).

(** A [for] loop whose body may return [Err(Unsolvable)] *)
Fixpoint for_ok {A S} (l : list A) (f : A -> S -> res (S * bool)) (s : S) : res (S * bool) :=
  match l with
  | [] => Ok (s, true)
  | x :: t => s <! f x s; for_ok t f s
  end.

(** A [for] loop over a fallible computation, collecting the results ([map], [flat_map]) *)
Fixpoint rmap {A B} (f : A -> res B) (l : list A) : res (list B) :=
  match l with
  | [] => Ok []
  | x :: t => y <- f x; r <- rmap f t; Ok (y :: r)
  end.
Definition rflat {A B} (f : A -> res (list B)) (l : list A) : res (list B) := r <- rmap f l; Ok (concat r).

(** src/strategy/solver.rs:68-81 [empty] *)
Definition strat_empty : strat :=
  mkStrat [] [] [] 0 0 None (repeat 0 81) 0 0 (repeat (set_all EDigit) 81) 0 (repeat (set_none EDigit) 27)
          0 0 (repeat (repeat (set_all EPosHouse) 9) 27).

(** src/strategy/solver.rs:84-95 [from_sudoku]; [Sudoku::iter] (src/board/sudoku.rs:728-730) gives [None] for 0 *)
Fixpoint entries_from (cell : nat) (g : list nat) : res (list cand) :=
  match g with
  | [] => Ok []
  | d :: t =>
      r <- entries_from (S cell) t;
      if d =? 0 then Ok r else c <- candidate_new cell d; Ok (c :: r)
  end.
Definition strat_from_sudoku (sudoku : grid) : res strat :=
  l <- entries_from 0 sudoku; Ok (set_entries strat_empty l).

(** src/strategy/solver.rs:99-104 [from_sudoku_and_clues] *)
Definition strat_from_clues (sudoku clues : grid) : res strat :=
  st <- strat_from_sudoku sudoku; Ok (set_clues st (Some clues)).

(** src/board/cell_state.rs:7-10 [CellState] *)
Inductive cell_state := CDigit (d : nat) | CCands (m : N).

(** The digits a [Set<Digit>] iterates over: src/bitset.rs:309-330 with [Digit::from_index] (src/board/digit.rs:29-31) *)
Definition digits_of (m : N) : res (list nat) := l <- set_iter EDigit m; rmap digit_from_index l.

(** src/strategy/solver.rs:110-130 [from_grid_state] *)
Fixpoint from_states (cell : nat) (g : list cell_state) (entries elims : list cand) : res (list cand * list cand) :=
  match g with
  | [] => Ok (entries, elims)
  | CDigit d :: t => from_states (S cell) t (entries ++ [(cell, d)]) elims
  | CCands m :: t =>
      l <- digits_of (set_not EDigit m);
      from_states (S cell) t entries (elims ++ map (fun d => (cell, d)) l)
  end.
Definition strat_from_grid_state (g : list cell_state) : res strat :=
  r <- from_states 0 g [] [];
  Ok (set_elims (set_entries strat_empty (fst r)) (snd r)).

(** src/strategy/solver.rs:231-235 [update_grid] *)
Fixpoint write_entries (l : list cand) (g : grid) : res grid :=
  match l with
  | [] => Ok g
  | (c, d) :: t => g <- aset g c d; write_entries t g
  end.
Definition update_grid (st : strat) : res strat := g <- write_entries (s_entries st) (s_grid st); Ok (set_grid st g).

(** src/strategy/solver.rs:602-628 [push_new_candidate]; the kind of deduction is checked in debug builds *)
Definition push_new (st : strat) (c : cand) (ded : deduction range) : res (strat * bool) :=
  match ded with
  | DNaked _ | DHidden _ _ =>
      old <- aget (s_grid st) (fst c);
      if old =? snd c then Ok (st, true)
      else if old =? 0 then
        g <- aset (s_grid st) (fst c) (snd c);
        Ok (set_deds (set_entries (set_grid st g) (s_entries st ++ [c])) (s_deds st ++ [ded]), true)
      else Ok (st, false)
  | _ => Panic
  end.

(** src/strategy/solver.rs:573-600 [remove_impossibilities] *)
Definition remove_imp (st : strat) (cell : nat) (impossible : N) (naked : bool) : res (strat * bool) :=
  m <- aget (s_cell st) cell;
  let m' := set_without EDigit m impossible in
  cp <- aset (s_cell st) cell m';
  let st := set_cell st cp in
  if naked then
    u <- set_unique EDigit m';
    match u with
    | UEmpty => Ok (st, false)
    | UOk None => Ok (st, true)
    | UOk (Some x) => d <- digit_from_index x; push_new st (cell, d) (DNaked (cell, d))
    end
  else Ok (st, negb (set_is_empty m')).

(** src/strategy/solver.rs:460-471 [_insert_candidate_cp_zs] *)
Definition insert_cp_zs (st : strat) (c : cand) : res strat :=
  n <- inc8 (s_n st);
  cp <- aset (s_cell st) (fst c) (set_none EDigit);
  m <- digit_set (snd c);
  r <- row_of_cell (fst c); hr <- house_of_row r;
  h1 <- house_add (s_house st) hr m;
  k <- col_of_cell (fst c); hk <- house_of_col k;
  h2 <- house_add h1 hk m;
  b <- block_of_cell (fst c); hb <- house_of_block b;
  h3 <- house_add h2 hb m;
  Ok (set_house (set_cell (set_n st n) cp) h3).

(** src/strategy/solver.rs:437-449: the loop over the neighbors *)
Definition clear_neighbors (mask : N) (naked : bool) (cells : list nat) (st : strat) : res (strat * bool) :=
  for_ok cells (fun cell st =>
    m <- aget (s_cell st) cell;
    if set_overlaps EDigit mask m then remove_imp st cell mask naked else Ok (st, true)) st.

(** src/strategy/solver.rs:409-457 [insert_entries_singly] *)
Fixpoint insert_singly_f (fuel : nat) (naked : bool) (st : strat) : res (strat * bool) :=
  match fuel with
  | O => NoFuel
  | S f =>
      if length (s_entries st) <=? s_cnd st then Ok (st, true)
      else
        c <- aget (s_entries st) (s_cnd st);
        n1 <- inc16 (s_cnd st);
        n2 <- inc16 (s_hnd st);
        let st := set_nd st n1 n2 in
        mask <- digit_set (snd c);
        m <- aget (s_cell st) (fst c);
        if set_is_empty m then insert_singly_f f naked st
        else if set_is_empty (set_and m mask) then Ok (st, false)
        else
          st <- insert_cp_zs st c;
          nb <- neighbors (fst c);
          st <! clear_neighbors mask naked nb st;
          left <- usub (length (s_entries st)) (s_cnd st);
          if 4 <? left then Ok (st, true) else insert_singly_f f naked st
  end.

(** Fuel of the loops of src/strategy/solver.rs:396-402 and 413-455, which have no explicit bound *)
Definition insert_fuel (st : strat) : nat := length (s_entries st) + 200.

(** src/strategy/solver.rs:480-512 [_batch_insert_entries]: the loop over the outstanding entries.  The union of the three
    house masks of a cell is read with [house_masks]. *)
Definition house_masks (st : strat) (cell : nat) : res (N * N * N) :=
  r <- row_of_cell cell; hr <- house_of_row r; mr <- house_get (s_house st) hr;
  k <- col_of_cell cell; hk <- house_of_col k; mk <- house_get (s_house st) hk;
  b <- block_of_cell cell; hb <- house_of_block b; mb <- house_get (s_house st) hb;
  Ok (mr, mk, mb).
Definition batch_insert_one (c : cand) (st : strat) : res (strat * bool) :=
  n1 <- inc16 (s_cnd st);
  n2 <- inc16 (s_hnd st);
  let st := set_nd st n1 n2 in
  m <- aget (s_cell st) (fst c);
  if set_is_empty m then Ok (st, true)
  else
    mask <- digit_set (snd c);
    hm <- house_masks st (fst c);
    let '(mr, mk, mb) := hm in
    if set_overlaps EDigit mr mask || set_overlaps EDigit mk mask || set_overlaps EDigit mb mask then Ok (st, false)
    else st <- insert_cp_zs st c; Ok (st, true).
Definition batch_insert_pending (st : strat) : res (strat * bool) :=
  l <- slice_from (s_entries st) (s_cnd st);
  for_ok l batch_insert_one st.

(** src/strategy/solver.rs:514-537 [_batch_remove_conflicts] *)
Definition batch_remove_conflicts (naked : bool) (st : strat) : res (strat * bool) :=
  for_ok (seq 0 81) (fun cell st =>
    m <- aget (s_cell st) cell;
    if set_is_empty m then Ok (st, true)
    else
      hm <- house_masks st cell;
      let '(mr, mk, mb) := hm in
      remove_imp st cell (set_or (set_or mr mk) mb) naked) st.

(** src/strategy/solver.rs:473-476 [batch_insert_entries] *)
Definition batch_insert (naked : bool) (st : strat) : res (strat * bool) :=
  st <! batch_insert_pending st; batch_remove_conflicts naked st.

(** src/strategy/solver.rs:396-402: the loop of [insert_entries] *)
Fixpoint insert_loop (fuel : nat) (naked : bool) (st : strat) : res (strat * bool) :=
  match fuel with
  | O => NoFuel
  | S f =>
      left <- usub (length (s_entries st)) (s_cnd st);
      match left with
      | 0 => Ok (st, true)
      | 1 | 2 | 3 | 4 => st <! insert_singly_f (insert_fuel st) naked st; insert_loop f naked st
      | _ => st <! batch_insert naked st; insert_loop f naked st
      end
  end.

(** src/strategy/solver.rs:386-403 [insert_entries] *)
Definition insert_entries (naked new_eliminations : bool) (st : strat) : res (strat * bool) :=
  if s_cnd st =? s_hnd st then
    st <! (if new_eliminations then batch_insert naked st else Ok (st, true));
    insert_loop (insert_fuel st) naked st
  else Panic.

(** src/strategy/solver.rs:305-322: the loop over the new eliminations; with [early] unset, errors are ignored *)
Definition apply_elims (naked early : bool) (l : list cand) (st : strat) : res (strat * bool) :=
  for_ok l (fun c st =>
    im <- digit_set (snd c);
    r <- remove_imp st (fst c) im naked;
    if early then Ok r else Ok (fst r, true)) st.

(** src/strategy/solver.rs:295-327 [_update_cell_poss_house_solved] *)
Definition update_cell_house (naked early : bool) (st : strat) : res (strat * bool) :=
  let new_eliminations := length (s_elims st) <? s_cle st in
  l <- slice_from (s_elims st) (s_cle st);
  st <! apply_elims naked early l st;
  insert_entries naked new_eliminations (set_cle st (as_u16 (length (s_elims st)))).

(** src/strategy/solver.rs:291-293 [update_cell_poss_house_solved] *)
Definition update_cell_house_solved (st : strat) : res (strat * bool) := update_cell_house false true st.

(** [house_poss_positions[house][digit]] and [.remove(pos)] (src/helper.rs:54-86, src/bitset.rs:146-148) *)
Definition pos_get (p : list (list N)) (house digit : nat) : res N := r <- aget p house; aget r (digit - 1).
Definition pos_set (p : list (list N)) (house digit : nat) (m : N) : res (list (list N)) :=
  r <- aget p house; r <- aset r (digit - 1) m; aset p house r.
Definition pos_remove (p : list (list N)) (house digit pos : nat) : res (list (list N)) :=
  m <- pos_get p house digit; x <- as_set EPosHouse pos; pos_set p house digit (set_without EPosHouse m x).

(** src/strategy/solver.rs:343-345, 354-359, 369-373: remove the position of [cell] in its three houses *)
Definition pos_remove_cell (p : list (list N)) (cell digit : nat) : res (list (list N)) :=
  r <- row_of_cell cell; hr <- house_of_row r;
  k <- col_of_cell cell; hk <- house_of_col k;
  b <- block_of_cell cell; hb <- house_of_block b;
  p <- pos_remove p hr digit (row_pos cell);
  p <- pos_remove p hk digit (col_pos cell);
  pos_remove p hb digit (block_pos cell).

(** A [for] loop over a fallible computation that changes a state *)
Fixpoint rfold {A S} (f : A -> S -> res S) (l : list A) (s : S) : res S :=
  match l with
  | [] => Ok s
  | x :: t => s <- f x s; rfold f t s
  end.

(** src/strategy/solver.rs:349-380: the treatment of one entry *)
Definition pos_enter (c : cand) (p : list (list N)) : res (list (list N)) :=
  let '(cell, digit) := c in
  nb <- neighbors cell;
  p <- rfold (fun n p => pos_remove_cell p n digit) nb p;
  p <- rfold (fun d p => pos_remove_cell p cell d) (seq 1 9) p;
  r <- row_of_cell cell; hr <- house_of_row r;
  k <- col_of_cell cell; hk <- house_of_col k;
  b <- block_of_cell cell; hb <- house_of_block b;
  p <- pos_set p hr digit (set_none EPosHouse);
  p <- pos_set p hk digit (set_none EPosHouse);
  pos_set p hb digit (set_none EPosHouse).

(** src/strategy/solver.rs:329-382 [update_house_poss_positions] *)
Definition update_pos (st : strat) : res strat :=
  le <- slice_from (s_elims st) (s_ple st);
  p <- rfold (fun c p => pos_remove_cell p (fst c) (snd c)) le (s_pos st);
  ld <- slice_from (s_entries st) (s_pnd st);
  p <- rfold pos_enter ld p;
  Ok (set_pos st (as_u16 (length (s_entries st))) (as_u16 (length (s_elims st))) p).

(** src/strategy/solver.rs:632-651 [enter_conflicts] *)
Definition enter_conflicts (st : strat) (conflicts : list cand) (mk : range -> deduction range) : strat * bool :=
  let before := length (s_elims st) in
  let elims := s_elims st ++ conflicts in
  let rg := (before, length elims) in
  if 0 <? length elims - before then (set_deds (set_elims st elims) (s_deds st ++ [mk rg]), true)
  else (set_elims st elims, false).
