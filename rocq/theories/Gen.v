(** Model of /repo/src/generator.rs: generation of random solved grids. *)
From Coq Require Import List Arith NArith Bool.
From Verif Require Import Solver Bits Geom SymSpec SymGen.
Import ListNotations.

(** src/generator.rs:14-21 [SudokuGenerator].  [u8] counters are natural numbers (at most 81). *)
Record gen := mkGen {
  g_grid : list nat;
  g_solved : nat;
  g_poss : list N;
  g_houses : list N;
  g_last : nat
}.

(** src/board/candidate.rs:7-10 [Candidate]: a cell and a digit 1..9 *)
Definition cand : Type := (nat * nat)%type.

(** src/generator.rs:25-33 [new] *)
Definition gen_new : gen := mkGen (repeat 0 81) 0 (repeat (set_all EDigit) 81) (repeat (set_none EDigit) 27) 0.

(** src/board/candidate.rs:47-50 [Candidate::digit_set], src/board/digit.rs:44-46 [as_index] *)
Definition digit_set (d : nat) : res N := as_set EDigit (d - 1).

(** The field assignments of src/generator.rs:37-42, 207-209, 231-232 *)
Definition set_gposs (st : gen) (p : list N) : gen := mkGen (g_grid st) (g_solved st) p (g_houses st) (g_last st).
Definition set_glast (st : gen) (l : nat) : gen := mkGen (g_grid st) (g_solved st) (g_poss st) (g_houses st) l.

(** src/helper.rs:54-61 [HouseArray::index] on the row, column and block of a cell (src/board/candidate.rs:30-44) *)
Definition house_get (h : list N) (i : nat) : res N := aget h i.

(** src/generator.rs:40-42 [house_solved_digits[..] |= digit_set] *)
Definition house_add (h : list N) (i : nat) (m : N) : res (list N) :=
  x <- aget h i; aset h i (set_or x m).

(** src/generator.rs:36-43 [_insert_entry] *)
Definition insert_entry (st : gen) (e : cand) : res gen :=
  let '(cell, digit) := e in
  g <- aset (g_grid st) cell digit;
  p <- aset (g_poss st) cell (set_none EDigit);
  m <- digit_set digit;
  r <- row_of_cell cell; hr <- house_of_row r;
  h1 <- house_add (g_houses st) hr m;
  k <- col_of_cell cell; hk <- house_of_col k;
  h2 <- house_add h1 hk m;
  b <- block_of_cell cell; hb <- house_of_block b;
  h3 <- house_add h2 hb m;
  Ok (mkGen g (S (g_solved st)) p h3 (g_last st)).

(** src/generator.rs:224-236 [remove_impossibilities].  The stack is a list with its top first. *)
Definition remove_impossibilities (st : gen) (cell : nat) (impossible : N) (stack : list cand) : res (gen * list cand) :=
  m <- aget (g_poss st) cell;
  let m' := set_without EDigit m impossible in
  p <- aset (g_poss st) cell m';
  u <- set_unique EDigit m';
  match u with
  | UEmpty => Unsolv
  | UOk (Some x) => d <- digit_from_index x; Ok (set_gposs st p, (cell, d) :: stack)
  | UOk None => Ok (set_gposs st p, stack)
  end.

(** src/generator.rs:74-78: the loop over the neighbors *)
Fixpoint neighbors_loop (cells : list nat) (mask : N) (st : gen) (stack : list cand) : res (gen * list cand) :=
  match cells with
  | [] => Ok (st, stack)
  | cell :: t =>
      m <- aget (g_poss st) cell;
      if set_overlaps EDigit mask m then
        r <- remove_impossibilities st cell mask stack;
        let '(st, stack) := r in neighbors_loop t mask st stack
      else neighbors_loop t mask st stack
  end.

(** src/generator.rs:60-86 [insert_entries_singly] *)
Fixpoint insert_singly_f (fuel : nat) (st : gen) (stack : list cand) : res (gen * list cand) :=
  match fuel with
  | O => NoFuel
  | S f =>
      match stack with
      | [] => Ok (st, [])
      | (cell, digit) :: stack =>
          mask <- digit_set digit;
          m <- aget (g_poss st) cell;
          if set_is_empty m then insert_singly_f f st stack
          else if set_is_empty (set_and m mask) then Unsolv
          else
            st <- insert_entry st (cell, digit);
            nb <- neighbors cell;
            r <- neighbors_loop nb mask st stack;
            let '(st, stack) := r in
            if 4 <? length stack then Ok (st, stack) else insert_singly_f f st stack
      end
  end.

(** Number of candidates left, used for the fuel of the loops only (src/generator.rs:61, 47, 247 have no bound). *)
Definition n_poss (st : gen) : nat := list_sum (map set_len (g_poss st)).

(** src/generator.rs:60-86 [insert_entries_singly] with enough fuel *)
Definition insert_singly (st : gen) (stack : list cand) : res (gen * list cand) :=
  insert_singly_f (21 * n_poss st + length stack + 1) st stack.

(** src/generator.rs:89-112: the loop over the drained entries *)
Fixpoint batch_loop (entries : list cand) (st : gen) : res gen :=
  match entries with
  | [] => Ok st
  | (cell, digit) :: t =>
      m <- aget (g_poss st) cell;
      if set_is_empty m then batch_loop t st
      else
        mask <- digit_set digit;
        r <- row_of_cell cell; hr <- house_of_row r; mr <- house_get (g_houses st) hr;
        k <- col_of_cell cell; hk <- house_of_col k; mk <- house_get (g_houses st) hk;
        b <- block_of_cell cell; hb <- house_of_block b; mb <- house_get (g_houses st) hb;
        if set_overlaps EDigit mr mask || set_overlaps EDigit mk mask || set_overlaps EDigit mb mask then Unsolv
        else st <- insert_entry st (cell, digit); batch_loop t st
  end.

(** src/generator.rs:115-124: the update of the cell possibilities *)
Fixpoint update_loop (cells : list nat) (st : gen) (stack : list cand) : res (gen * list cand) :=
  match cells with
  | [] => Ok (st, stack)
  | cell :: t =>
      m <- aget (g_poss st) cell;
      if set_is_empty m then update_loop t st stack
      else
        r <- row_of_cell cell; hr <- house_of_row r; mr <- house_get (g_houses st) hr;
        k <- col_of_cell cell; hk <- house_of_col k; mk <- house_get (g_houses st) hk;
        b <- block_of_cell cell; hb <- house_of_block b; mb <- house_get (g_houses st) hb;
        x <- remove_impossibilities st cell (set_or (set_or mr mk) mb) stack;
        let '(st, stack) := x in update_loop t st stack
  end.

(** src/generator.rs:88-126 [batch_insert_entries]; [drain] goes from the bottom of the stack to the top and empties it *)
Definition batch_insert (st : gen) (stack : list cand) : res (gen * list cand) :=
  st <- batch_loop (rev stack) st;
  update_loop (seq 0 81) st [].

(** src/generator.rs:46-54 [insert_entries] *)
Fixpoint insert_entries_f (fuel : nat) (st : gen) (stack : list cand) : res gen :=
  match fuel with
  | O => NoFuel
  | S f =>
      match length stack with
      | 0 => Ok st
      | 1 | 2 | 3 | 4 => r <- insert_singly st stack; let '(st, stack) := r in insert_entries_f f st stack
      | _ => r <- batch_insert st stack; let '(st, stack) := r in insert_entries_f f st stack
      end
  end.
Definition insert_entries (st : gen) (stack : list cand) : res gen := insert_entries_f (2 * n_poss st + 3) st stack.

(** src/generator.rs:129-131 [is_solved] *)
Definition gen_is_solved (st : gen) : bool := g_solved st =? 81.

(** src/generator.rs:140-144: digits that occur in a house, and those that occur more than once *)
Fixpoint occurrences (cells : list nat) (poss : list N) (unsolved multiple : N) : res (N * N) :=
  match cells with
  | [] => Ok (unsolved, multiple)
  | cell :: t =>
      p <- aget poss cell;
      occurrences t poss (set_or unsolved p) (set_or multiple (set_and unsolved p))
  end.

(** src/generator.rs:154-170: the loop that pushes the singles of a house *)
Fixpoint singles_loop (cells : list nat) (poss : list N) (singles : N) (stack : list cand) : res (list cand) :=
  match cells with
  | [] => Ok stack
  | cell :: t =>
      mask <- aget poss cell;
      u <- set_unique EDigit (set_and mask singles);
      match u with
      | UEmpty => singles_loop t poss singles stack
      | UOk None => Unsolv
      | UOk (Some x) =>
          d <- digit_from_index x;
          m <- digit_set d;
          let singles' := set_without EDigit singles m in
          if set_is_empty singles' then Ok ((cell, d) :: stack)
          else singles_loop t poss singles' ((cell, d) :: stack)
      end
  end.

(** src/generator.rs:134-175 [find_hidden_singles]: the loop over the houses.  It never changes the state. *)
Fixpoint hidden_loop (hs : list nat) (st : gen) (stack : list cand) : res (list cand) :=
  match hs with
  | [] => Ok stack
  | house :: t =>
      m <- cells_of_house house;
      cells <- set_iter ECell m;
      um <- occurrences cells (g_poss st) (set_none EDigit) (set_none EDigit);
      let '(unsolved, multiple) := um in
      hm <- house_get (g_houses st) house;
      if negb (N.eqb (set_or unsolved hm) (set_all EDigit)) then Unsolv
      else
        let singles := set_without EDigit unsolved multiple in
        if set_is_empty singles then hidden_loop t st stack
        else singles_loop cells (g_poss st) singles stack
  end.
Definition find_hidden_singles (st : gen) (stack : list cand) : res (list cand) := hidden_loop (seq 0 27) st stack.

(** src/generator.rs:187-204: the loop of [find_cell_min_poss]; returns the best cell and the cell the search ended at *)
Fixpoint min_poss_f (fuel : nat) (poss : list N) (last cell min best : nat) : res (nat * nat) :=
  match fuel with
  | O => NoFuel
  | S f =>
      mask <- aget poss cell;
      let n := set_len mask in
      let better := (0 <? n) && (n <? min) in
      let best := if better then cell else best in
      let min := if better then n else min in
      if better && (n =? 2) then Ok (best, cell)
      else if cell =? last then Ok (best, cell)
      else min_poss_f f poss last (if cell =? 80 then 0 else cell + 1) min best
  end.

(** src/generator.rs:181-208 [find_cell_min_poss].  [Cell::new] (src/board/positions.rs:181-184) panics on 100 in debug
    builds, the following index in all builds. *)
Definition find_cell_min_poss (st : gen) : res (nat * gen) :=
  let cell := (g_last st + 1) mod 81 in
  r <- min_poss_f 82 (g_poss st) (g_last st) cell 10 100;
  let '(best, last) := r in
  c <- chk 81 best;
  Ok (c, set_glast st last).

(** The random number generator: the [i]-th call of [gen_range(0..n)] (src/generator.rs:214) returns [rng i mod n].  Since
    [rng] is arbitrary, so is the sequence of results.  [gen_range] panics on an empty range. *)
Definition gen_range (rng : nat -> nat) (i n : nat) : res nat := if n =? 0 then Panic else Ok (rng i mod n).

(** src/generator.rs:211-220 [find_good_random_guess] *)
Definition find_good_random_guess (st : gen) (rng : nat -> nat) (i : nat) : res (gen * cand) :=
  b <- find_cell_min_poss st;
  let '(cell, st) := b in
  p <- aget (g_poss st) cell;
  choice <- gen_range rng i (set_len p);
  l <- set_iter EDigit p;
  x <- aget l choice;
  d <- digit_from_index x;
  Ok (st, (cell, d)).

(** src/generator.rs:239-267 [randomized_solve_one].  The second component is the number of calls made to the random
    number generator so far, as calls of a failed guess are not undone. *)
Fixpoint randomized_solve_one_f (fuel : nat) (st : gen) (stack : list cand) (rng : nat -> nat) (i : nat)
  : res (list nat) * nat :=
  match fuel with
  | O => (NoFuel, i)
  | S f =>
      let step :=
        st <- insert_entries st stack;
        if gen_is_solved st then Ok (inl (g_grid st))
        else
          stack <- find_hidden_singles st [];
          match stack with
          | _ :: _ => Ok (inr (inl (st, stack)))
          | [] => r <- find_good_random_guess st rng i; Ok (inr (inr r))
          end in
      match step with
      | Unsolv => (Unsolv, i)
      | Panic => (Panic, i)
      | NoFuel => (NoFuel, i)
      | Ok (inl grid) => (Ok grid, i)
      | Ok (inr (inl (st, stack))) => randomized_solve_one_f f st stack rng i
      | Ok (inr (inr (st, (cell, digit)))) =>
          match randomized_solve_one_f f st [(cell, digit)] rng (S i) with
          | (Unsolv, i') =>
              match (m <- digit_set digit; remove_impossibilities st cell m []) with
              | Ok (st, stack) => randomized_solve_one_f f st stack rng i'
              | Unsolv => (Unsolv, i')
              | Panic => (Panic, i')
              | NoFuel => (NoFuel, i')
              end
          | other => other
          end
      end
  end.

(** src/generator.rs:276-280: [zip] of the first cells and the digits, as candidates pushed in turn *)
Fixpoint first_row (cells perm : list nat) (stack : list cand) : res (list cand) :=
  match cells, perm with
  | cell :: cs, digit :: ds => e <- candidate_new cell digit; first_row cs ds (e :: stack)
  | _, _ => Ok stack
  end.

(** src/generator.rs:269-283 [generate_solved], called by src/board/sudoku.rs:171-178 [generate_solved],
    [generate_solved_with_rng].  [perm] is the array 1..9 after [shuffle]: an arbitrary permutation.  The
    final [unwrap] panics on [Err]. *)
Definition generate_solved (perm : list nat) (rng : nat -> nat) : res (list nat) :=
  stack <- first_row (seq 0 9) perm [];
  match fst (randomized_solve_one_f (2 * n_poss gen_new + 2) gen_new stack rng 0) with
  | Unsolv => Panic
  | r => r
  end.

(** src/board/sudoku.rs:194-196 [generate_with_symmetry], with the randomness made explicit; src/board/sudoku.rs:185-187
    [generate] is the instance with [HalfRotation] *)
Definition generate_with_symmetry (s : symmetry) (perm : list nat) (rng : nat -> nat) (order : list nat) : res (list nat) :=
  g <- generate_solved perm rng; generate_with_symmetry_from g s order.
Definition generate (perm : list nat) (rng : nat -> nat) (order : list nat) : res (list nat) :=
  generate_with_symmetry HalfRotation perm rng order.

(** src/board/sudoku.rs:203-205 *)
Definition generate_from (sudoku : list nat) (order : list nat) : res (list nat) :=
  generate_with_symmetry_from sudoku NoSymmetry order.
