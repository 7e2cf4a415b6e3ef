(** Model of /repo/src/solver.rs (the JCZsolve port), function by function.

    Conventions: a [u32] mask is an [N]; [a & !b] is [N.ldiff a b]; arrays are lists with bounds-checked access
    ([Panic] when out of bounds, which is undefined behaviour under the feature [unchecked_indexing]);
    [debug_assert!] failures are also [Panic]; [Err(Unsolvable)] is [Unsolv]; loops without a structural bound
    take fuel and give [NoFuel] when it runs out. *)
From Coq Require Import List Arith NArith Lia Bool.
From Verif Require Import Tables.
Import ListNotations.
Local Open Scope N_scope.

(** Outcome of a function that may return Err(Unsolvable) (src/helper.rs:6-8), panic or loop. *)
Inductive res (A : Type) : Type :=
| Ok (a : A)
| Unsolv
| Panic
| NoFuel.
Arguments Ok {A} _.
Arguments Unsolv {A}.
Arguments Panic {A}.
Arguments NoFuel {A}.

(** The [?] operator of src/solver.rs (e.g. src/solver.rs:127). *)
Definition bind {A B} (r : res A) (f : A -> res B) : res B :=
  match r with Ok a => f a | Unsolv => Unsolv | Panic => Panic | NoFuel => NoFuel end.
Notation "x <- e1 ; e2" := (bind e1 (fun x => e2)) (at level 100, e1 at next level, right associativity).

(** src/solver.rs:899-909 [UncheckedIndexArray::index] *)
Definition aget {A} (l : list A) (i : nat) : res A :=
  match nth_error l i with Some x => Ok x | None => Panic end.

(** Replace position [i]; helper of [aset] (src/solver.rs:911-920). *)
Fixpoint lset {A} (l : list A) (i : nat) (x : A) : list A :=
  match l, i with
  | [], _ => []
  | _ :: t, O => x :: t
  | h :: t, S i' => h :: lset t i' x
  end.

(** src/solver.rs:911-920 [UncheckedIndexArray::index_mut] followed by an assignment *)
Definition aset {A} (l : list A) (i : nat) (x : A) : res (list A) :=
  if (i <? length l)%nat then Ok (lset l i x) else Panic.

(** src/solver.rs:46-48 *)
Definition NONE : N := 0.
Definition ALL : N := 134217727.
Definition LOW9 : N := 511.

(** src/solver.rs:103-113 [SudokuSolver].  The field [requirement_for_weird_optimization] is never assigned after
    construction; it is the constant [weird] below. *)
Record state := mkState {
  poss : list N;      (* poss_cells *)
  prev : list N;      (* prev_poss_cells *)
  unsolved : list N;  (* unsolved_cells *)
  pairs : list N      (* pairs *)
}.

(** src/solver.rs:122 *)
Definition weird : list N := [ALL; ALL; ALL].

(** Field updates of src/solver.rs:103-113 *)
Definition set_poss st l := mkState l (prev st) (unsolved st) (pairs st).
Definition set_prev st l := mkState (poss st) l (unsolved st) (pairs st).
Definition set_unsolved st l := mkState (poss st) (prev st) l (pairs st).
Definition set_pairs st l := mkState (poss st) (prev st) (unsolved st) l.

(** [self.poss_cells[i] &= m] and similar read-modify-write accesses (src/solver.rs:307-308, 333) *)
Definition amod (l : list N) (i : nat) (f : N -> N) : res (list N) :=
  x <- aget l i; aset l i (f x).

(** Index of the least significant one bit; helper of [bit_pos] (src/solver.rs:654-656). *)
Fixpoint ctz_pos (p : positive) : nat :=
  match p with xO p' => S (ctz_pos p') | _ => O end.

(** src/solver.rs:654-656 [bit_pos]: [trailing_zeros], which is 32 for 0 *)
Definition bit_pos (m : N) : nat :=
  match m with N0 => 32%nat | Npos p => ctz_pos p end.

(** src/solver.rs:929: [*mask & !*mask + 1] on u32 *)
Definition lowest_bit (m : N) : N := N.land m (N.lxor m 4294967295 + 1).

(** src/solver.rs:924-933 [mask_iter], as the list of all masks it yields; [fuel] bounds the number of items. *)
Fixpoint mask_iter_f (fuel : nat) (m : N) : res (list N) :=
  if m =? 0 then Ok []
  else match fuel with
       | O => NoFuel
       | S f => let b := lowest_bit m in
                l <- mask_iter_f f (N.lxor m b); Ok (b :: l)
       end.
Definition mask_iter (m : N) : res (list N) := mask_iter_f 32 m.

(** [mask_iter(m).next()] (src/solver.rs:371, 424) *)
Definition mask_first (m : N) : option N :=
  if m =? 0 then None else Some (lowest_bit m).

(** src/solver.rs:532-546 *)
Definition nonconflicting_cells_same_band (cell : nat) : res N := aget self_mask_tbl cell.

(** src/solver.rs:550-554; 0o001001001 = 262657 *)
Definition nonconflicting_cells_neighbor_bands (cell : nat) : N :=
  N.lxor ALL (N.shiftl 262657 (N.of_nat (cell mod 9))).

(** src/solver.rs:564-566 *)
Definition shrink_mask (m : N) : res N := aget shrink_mask_tbl (N.to_nat m).
(** src/solver.rs:574-576 *)
Definition locked_same_band (m : N) : res N := aget locked_same_band_tbl (N.to_nat m).
(** src/solver.rs:581-583 *)
Definition locked_neighbor_bands (m : N) : res N := aget locked_neighbor_band_tbl (N.to_nat m).
(** src/solver.rs:606-608 *)
Definition column_single (m : N) : res N := aget column_single_tbl (N.to_nat m).
(** src/solver.rs:616-618 *)
Definition locked_minirows (m : N) : res N := aget locked_minirows_tbl (N.to_nat m).
(** src/solver.rs:623-631 *)
Definition row_mask (m : N) : res N := aget row_mask_tbl (N.to_nat m).
(** src/solver.rs:636-650 *)
Definition neighbor_subbands (sb : nat) : res (nat * nat) := aget neighbor_subbands_tbl sb.

(** Sequential for loop with early exit on error (Rust [for] with [?] in the body, e.g. src/solver.rs:125-129). *)
Fixpoint for_each {A S} (l : list A) (f : A -> S -> res S) (s : S) : res S :=
  match l with [] => Ok s | a :: t => s' <- f a s; for_each t f s' end.

(** Subbands of one band: the index sequence [band, band+3, ..] below 27 (src/solver.rs:206-213, 330-336, 483-487) *)
Definition band_subbands (band : nat) : list nat :=
  map (fun d => 3 * d + band)%nat [0; 1; 2; 3; 4; 5; 6; 7; 8]%nat.

(** src/solver.rs:505-512 [insert_candidate_by_mask]; the two debug assertions are checked. *)
Definition popcount1 (m : N) : bool := negb (m =? 0) && (N.lxor m (lowest_bit m) =? 0).
Definition insert_candidate_by_mask (st : state) (sb : nat) (mask : N) : res state :=
  p <- aget (poss st) sb;
  if negb (popcount1 mask) then Panic
  else if N.land p mask =? 0 then Panic
  else
    let band := (sb mod 3)%nat in
    let cell := (band * 27 + bit_pos mask)%nat in
    nc <- nonconflicting_cells_same_band cell;
    l <- amod (poss st) sb (fun p => N.land p nc);
    Ok (set_poss st l).

(** src/solver.rs:461-492 [insert_candidate]; [num] is 1..9 *)
Definition insert_candidate (st : state) (cell num : nat) : res state :=
  let band := (cell / 27)%nat in
  let sb := ((num - 1) * 3 + band)%nat in
  let cell_mask := N.shiftl 1 (N.of_nat (cell mod 27)) in
  p <- aget (poss st) sb;
  if N.land p cell_mask =? 0 then Unsolv
  else
    u <- amod (unsolved st) band (fun x => N.ldiff x cell_mask);
    nc <- nonconflicting_cells_same_band cell;
    p1 <- amod (poss st) sb (fun x => N.land x nc);
    let no := nonconflicting_cells_neighbor_bands cell in
    ns <- neighbor_subbands sb;
    p2 <- amod p1 (fst ns) (fun x => N.land x no);
    p3 <- amod p2 (snd ns) (fun x => N.land x no);
    p4 <- for_each (band_subbands band) (fun i l => amod l i (fun x => N.ldiff x cell_mask)) p3;
    p5 <- amod p4 sb (fun x => N.lor x cell_mask);
    Ok (set_unsolved (set_poss st p5) u).

(** src/solver.rs:118-124: initial value in [from_sudoku] *)
Definition init_state : state := mkState (repeat ALL 27) (repeat 0 27) (repeat ALL 3) (repeat 0 3).

(** src/solver.rs:117-131 [from_sudoku]; iterating the grid yields [Some(num)] for nonzero entries
    (src/board/sudoku.rs:728-730, 803-805). *)
Definition from_sudoku (g : list nat) : res state :=
  for_each (combine (seq 0 81) g)
    (fun cn st => if (snd cn =? 0)%nat then Ok st else insert_candidate st (fst cn) (snd cn)) init_state.

(** src/solver.rs:167-169 *)
Definition is_solved (st : state) : bool :=
  match unsolved st with [a; b; c] => (a =? 0) && (b =? 0) && (c =? 0) | _ => false end.

(** src/solver.rs:202-213: masks of cells with at least 1, 2, 3 candidates *)
Definition count_masks (st : state) (band : nat) : res (N * N * N) :=
  for_each (band_subbands band)
    (fun sb c =>
       let '(c1, c2, c3) := c in
       m <- aget (poss st) sb;
       let c3 := N.lor c3 (N.land c2 m) in
       let c2 := N.lor c2 (N.land c1 m) in
       let c1 := N.lor c1 m in
       Ok (c1, c2, c3)) (0, 0, 0).

(** src/solver.rs:228-235: insert the single candidate of one cell, first matching digit *)
Fixpoint insert_single (st : state) (mask : N) (sbs : list nat) : res state :=
  match sbs with
  | [] => Unsolv
  | sb :: t =>
      p <- aget (poss st) sb;
      if negb (N.land p mask =? 0) then insert_candidate_by_mask st sb mask
      else insert_single st mask t
  end.

(** src/solver.rs:200-237: loop body of [find_naked_singles] for one band *)
Definition naked_singles_band (band : nat) (sta : state * bool) : res (state * bool) :=
  let '(st, applied) := sta in
  c <- count_masks st band;
  let '(c1, c2, c3) := c in
  if negb (c1 =? ALL) then Unsolv
  else
    pr <- aset (pairs st) band (N.lxor c2 c3);
    let st := set_pairs st pr in
    u <- aget (unsolved st) band;
    let singles := N.land (N.lxor c1 c2) u in
    ms <- mask_iter singles;
    for_each ms
      (fun mask sta => let '(st, _) := sta in
                       st' <- insert_single st mask (band_subbands band); Ok (st', true)) (st, applied).

(** src/solver.rs:197-240 *)
Definition find_naked_singles (st : state) : res (state * bool) :=
  for_each [0; 1; 2]%nat naked_singles_band (st, false).

(** src/solver.rs:282-340 [_find_locked_candidates_and_update] *)
Definition process (st : state) (sb : nat) : res state :=
  old <- aget (poss st) sb;
  s0 <- shrink_mask (N.land old LOW9);
  s1 <- shrink_mask (N.land (N.shiftr old 9) LOW9);
  s2 <- shrink_mask (N.shiftr old 18);
  let shrink := N.lor (N.lor s0 (N.shiftl s1 3)) (N.shiftl s2 6) in
  nc <- locked_same_band shrink;
  let pc := N.land old nc in
  if pc =? NONE then Unsolv
  else
    prev' <- aset (prev st) sb pc;
    p1 <- aset (poss st) sb pc;
    let poss_cols := N.land (N.lor (N.lor pc (N.shiftr pc 9)) (N.shiftr pc 18)) LOW9 in
    no <- locked_neighbor_bands poss_cols;
    ns <- neighbor_subbands sb;
    p2 <- amod p1 (fst ns) (fun x => N.land x no);
    p3 <- amod p2 (snd ns) (fun x => N.land x no);
    lm <- locked_minirows shrink;
    cs <- column_single poss_cols;
    solved_rows <- shrink_mask (N.land lm cs);
    rm <- row_mask solved_rows;
    let solved_cells := N.land rm pc in
    let band := (sb mod 3)%nat in
    u <- amod (unsolved st) band (fun x => N.ldiff x solved_cells);
    p4 <- for_each (band_subbands band)
            (fun i l => if (i =? sb)%nat then Ok l else amod l i (fun x => N.ldiff x solved_cells)) p3;
    Ok (mkState p4 prev' u (pairs st)).

(** src/solver.rs:256-270: one pass over the 27 subbands; the flag is [found_nothing] *)
Definition locked_pass (st : state) : res (state * bool) :=
  for_each (seq 0 27)
    (fun sb stf =>
       let '(st, nothing) := stf in
       w <- aget weird 0;
       p <- aget (poss st) sb;
       q <- aget (prev st) sb;
       if negb (N.land (N.shiftr w (N.of_nat (sb / 3))) LOW9 =? NONE) && negb (p =? q)
       then st' <- process st sb; Ok (st', false)
       else Ok (st, nothing)) (st, true).

(** src/solver.rs:248-276 [find_locked_candidates_and_update] *)
Fixpoint find_locked_f (fuel : nat) (st : state) : res state :=
  match fuel with
  | O => NoFuel
  | S f =>
      r <- locked_pass st;
      let '(st', nothing) := r in
      if nothing then Ok st' else find_locked_f f st'
  end.

(** Fuel for the propagation loop: above 28 * 729 + 27 (see [SolverProofs]); the Rust loop of
    src/solver.rs:249-275 is unbounded. *)
Definition locked_fuel : nat := N.to_nat 20500.
Definition find_locked (st : state) : res state := find_locked_f locked_fuel st.

(** src/solver.rs:52-66 [Solutions] *)
Inductive solutions :=
| Count (n : nat)
| Vector (l : list (list nat))          (* in push order *)
| Buffer (buf : list (list nat)) (n : nat).

(** src/solver.rs:59-65 *)
Definition sols_len (s : solutions) : nat :=
  match s with Count n => n | Vector l => length l | Buffer _ n => n end.

(** src/solver.rs:179-189: the loop of [_solve] *)
Fixpoint solve_loop (fuel : nat) (st : state) : res state :=
  match fuel with
  | O => NoFuel
  | S f =>
      st1 <- find_locked st;
      if is_solved st1 then Ok st1
      else
        r <- find_naked_singles st1;
        let '(st2, applied) := r in
        if applied : bool then solve_loop f st2 else Ok st2
  end.

(** Fuel for the unbounded loop of src/solver.rs:179-189: above the 729 candidates. *)
Definition solve_fuel : nat := N.to_nat 731.

(** src/solver.rs:174-190 [_solve] *)
Definition solve_ (st : state) (limit : nat) (sols : solutions) : res state :=
  if negb (sols_len sols <=? limit)%nat then Panic
  else if (sols_len sols =? limit)%nat then Unsolv
  else solve_loop solve_fuel st.

(** src/solver.rs:516-527 [extract_solution] *)
Definition extract_solution (st : state) : res (list nat) :=
  for_each (combine (seq 0 27) (poss st))
    (fun sm g =>
       let '(sb, mask) := sm in
       ms <- mask_iter mask;
       for_each ms (fun m g => aset g (bit_pos m + sb mod 3 * 27)%nat (sb / 3 + 1)%nat) g)
    (repeat 0%nat 81).

(** src/solver.rs:344-355: record one solution *)
Definition record (st : state) (limit : nat) (sols : solutions) : res solutions :=
  if negb (sols_len sols <? limit)%nat then Panic
  else match sols with
       | Count n => Ok (Count (S n))
       | Vector l => g <- extract_solution st; Ok (Vector (l ++ [g]))
       | Buffer buf n =>
           if (n <? length buf)%nat
           then g <- extract_solution st; Ok (Buffer (lset buf n g) (S n))
           else Ok (Buffer buf (S n))
       end.

(** src/solver.rs:386-390, 393-396, 441-445: insert a candidate, propagate and continue guessing;
    an [Err] of [_solve] ends the branch.  [rec] is [guess]. *)
Definition try_candidate (rec : state -> solutions -> res solutions)
    (st : state) (limit sb : nat) (mask : N) (sols : solutions) : res solutions :=
  st1 <- insert_candidate_by_mask st sb mask;
  match solve_ st1 limit sols with
  | Ok st2 => rec st2 sols
  | Unsolv => Ok sols
  | Panic => Panic
  | NoFuel => NoFuel
  end.

(** src/solver.rs:377-402: the unbounded [loop] over subbands; it can only leave by the second candidate or by an
    out-of-bounds access (or the debug assertion of line 381), so 10 rounds are enough. *)
Fixpoint bivalue_loop (rec : state -> solutions -> res solutions) (fuel : nat)
    (st : state) (limit sb : nat) (mask : N) (first : bool) (sols : solutions) : res solutions :=
  match fuel with
  | O => NoFuel
  | S f =>
      p <- aget (poss st) sb;
      if negb (N.land p mask =? 0) then
        if first then
          sols' <- try_candidate rec st limit sb mask sols;
          l <- amod (poss st) sb (fun x => N.lxor x mask);
          bivalue_loop rec f (set_poss st l) limit (sb + 3) mask false sols'
        else try_candidate rec st limit sb mask sols
      else bivalue_loop rec f st limit (sb + 3) mask first sols
  end.

(** src/solver.rs:368-406 [guess_bivalue_in_cell]; [None] is Ok(()) (no pair found), [Some s] is Err with the
    collected solutions. *)
Fixpoint guess_bivalue (rec : state -> solutions -> res solutions)
    (st : state) (limit : nat) (sols : solutions) (bands : list nat) : res (option solutions) :=
  match bands with
  | [] => Ok None
  | band :: t =>
      pr <- aget (pairs st) band;
      match mask_first pr with
      | None => guess_bivalue rec st limit sols t
      | Some mask => s <- bivalue_loop rec 10 st limit band mask true sols; Ok (Some s)
      end
  end.

(** src/solver.rs:425-428: number of candidates of a cell *)
Definition n_candidates (st : state) (band : nat) (mask : N) : res nat :=
  for_each (band_subbands band)
    (fun sb n => p <- aget (poss st) sb; Ok (if negb (N.land p mask =? 0) then S n else n)) 0%nat.

(** src/solver.rs:421-431: first unsolved cell of each band with its number of candidates; the minimum of the
    triples (n, band, mask), where bands are all different *)
Definition best_guess (st : state) : res (option (nat * nat * N)) :=
  for_each [0; 1; 2]%nat
    (fun band best =>
       u <- aget (unsolved st) band;
       match mask_first u with
       | None => Ok best
       | Some mask =>
           n <- n_candidates st band mask;
           Ok (match best with
               | None => Some (n, band, mask)
               | Some (n', band', mask') =>
                   if (n <? n')%nat then Some (n, band, mask) else Some (n', band', mask')
               end)
       end) None.

(** src/solver.rs:437-453: loop over the digits of the chosen cell *)
Fixpoint some_cell_loop (rec : state -> solutions -> res solutions)
    (st : state) (limit : nat) (mask : N) (sols : solutions) (sbs : list nat) : res solutions :=
  match sbs with
  | [] => Ok sols
  | sb :: t =>
      p <- aget (poss st) sb;
      if negb (N.land p mask =? 0) then
        sols' <- try_candidate rec st limit sb mask sols;
        if (sols_len sols' =? limit)%nat then Ok sols'
        else
          l <- amod (poss st) sb (fun x => N.lxor x mask);
          some_cell_loop rec (set_poss st l) limit mask sols' t
      else some_cell_loop rec st limit mask sols t
  end.

(** src/solver.rs:420-454 [guess_some_cell] *)
Definition guess_some_cell (rec : state -> solutions -> res solutions)
    (st : state) (limit : nat) (sols : solutions) : res solutions :=
  b <- best_guess st;
  match b with
  | None => Ok sols
  | Some (_, band, mask) => some_cell_loop rec st limit mask sols (band_subbands band)
  end.

(** src/solver.rs:343-360 [guess]; fuel bounds the recursion depth *)
Fixpoint guess (fuel : nat) (limit : nat) (st : state) (sols : solutions) : res solutions :=
  match fuel with
  | O => NoFuel
  | S f =>
      if is_solved st then record st limit sols
      else
        b <- guess_bivalue (guess f limit) st limit sols [0; 1; 2]%nat;
        match b with
        | Some s => Ok s
        | None => guess_some_cell (guess f limit) st limit sols
        end
  end.

(** Fuel for the recursion of [guess] (src/solver.rs:343-360): above the 729 candidates. *)
Definition guess_fuel : nat := N.to_nat 731.

(** src/solver.rs:155-165 [_solutions_up_to] *)
Definition solutions_up_to_ (st : state) (limit : nat) (sols : solutions) : res solutions :=
  match find_naked_singles st with
  | Unsolv => Ok sols
  | Panic => Panic
  | NoFuel => NoFuel
  | Ok (st1, _) =>
      match solve_ st1 limit sols with
      | Unsolv => Ok sols
      | Panic => Panic
      | NoFuel => NoFuel
      | Ok st2 => guess guess_fuel limit st2 sols
      end
  end.

(** src/solver.rs:134-138 *)
Definition solver_solutions_up_to (st : state) (limit : nat) : res solutions :=
  solutions_up_to_ st limit (Vector []).
(** src/solver.rs:142-146 *)
Definition solver_solutions_up_to_buffer (st : state) (buf : list (list nat)) (limit : nat) : res solutions :=
  solutions_up_to_ st limit (Buffer buf 0).
(** src/solver.rs:149-153 *)
Definition solver_solutions_count_up_to (st : state) (limit : nat) : res solutions :=
  solutions_up_to_ st limit (Count 0).
