(** Model of /repo/src/board/canonicalization.rs and of its callers in /repo/src/board/sudoku.rs.

    Arrays and slices of [u8] are lists of natural numbers with bounds-checked access; every index and digit that
    occurs is below 256.  Failing [debug_assert!]s, failing [unwrap]s, out-of-bounds accesses and a subtraction
    below zero are [Panic]. *)
From Coq Require Import List Arith NArith Bool.
From Verif Require Import Solver Api Parse.
Import ListNotations.

(** src/board/canonicalization.rs:36-37 [Permutation3] *)
Definition p3 : Type := (nat * nat)%type.

(** A [debug_assert!] (e.g. src/board/canonicalization.rs:101) *)
Definition assert_ (b : bool) : res unit := if b then Ok tt else Panic.

(** src/board/canonicalization.rs:100-104 [from_choices] *)
Definition p3_from_choices (choice3 choice2 : nat) : res p3 :=
  _ <- assert_ (choice3 <? 3); _ <- assert_ (choice2 <? 2); Ok (choice3, choice2).

(** src/board/canonicalization.rs:106-109 [new] *)
Definition p3_new (perm : nat) : res p3 := _ <- assert_ (perm <? 6); Ok (perm mod 3, perm / 3).

(** src/board/canonicalization.rs:4-12, 17 [Transformation], [ChuteLinePermutations] *)
Record transformation := mkTrans {
  t_transpose : bool;
  t_band : p3;
  t_stack : p3;
  t_rows : list p3;
  t_cols : list p3;
  t_digits : list nat
}.

(** src/board/canonicalization.rs:24-31 [MinBandTransformation] *)
Record min_band := mkMinBand {
  m_band : nat;
  m_transposed : bool;
  m_row : p3;
  m_stack : p3;
  m_cols : list p3;
  m_digits : list nat
}.

(** src/board/canonicalization.rs:441-450 [swap_cells] *)
Definition swap_cells (slice : list nat) (pairs : list (nat * nat)) : res (list nat) :=
  for_each pairs (fun '(idx1, idx2) slice =>
    _ <- assert_ (negb (idx1 =? idx2));
    a <- aget slice idx1;
    b <- aget slice idx2;
    slice1 <- aset slice idx1 b;
    aset slice1 idx2 a) slice.

(** src/board/canonicalization.rs:349-357 [transpose] *)
Definition transpose (g : list nat) : res (list nat) :=
  swap_cells g (map (fun '(row, col) => (row * 9 + col, col * 9 + row))
    (flat_map (fun row => map (fun col => (row, col)) (seq (row + 1) (9 - (row + 1)))) (seq 0 9))).

(** src/board/canonicalization.rs:360-372 [swap_rows] *)
Definition swap_rows (g : list nat) (row1 row2 : nat) : res (list nat) :=
  if row1 =? row2 then Ok g else
  _ <- assert_ (row1 <? 9); _ <- assert_ (row2 <? 9);
  swap_cells g (combine (seq (row1 * 9) 9) (seq (row2 * 9) 9)).

(** src/board/canonicalization.rs:374-384 [swap_cols] *)
Definition swap_cols (g : list nat) (col1 col2 : nat) : res (list nat) :=
  if col1 =? col2 then Ok g else
  _ <- assert_ (col1 <? 9); _ <- assert_ (col2 <? 9);
  swap_cells g (map (fun row => (row * 9 + col1, row * 9 + col2)) (seq 0 9)).

(** src/board/canonicalization.rs:386-395 [swap_stacks] *)
Definition swap_stacks (g : list nat) (stack1 stack2 : nat) : res (list nat) :=
  if stack1 =? stack2 then Ok g else
  _ <- assert_ (stack1 <? 3); _ <- assert_ (stack2 <? 3);
  for_each (seq 0 3) (fun inner g => swap_cols g (stack1 * 3 + inner) (stack2 * 3 + inner)) g.

(** src/board/canonicalization.rs:397-406 [swap_bands] *)
Definition swap_bands (g : list nat) (band1 band2 : nat) : res (list nat) :=
  if band1 =? band2 then Ok g else
  _ <- assert_ (band1 <? 3); _ <- assert_ (band2 <? 3);
  for_each (seq 0 3) (fun inner g => swap_rows g (band1 * 3 + inner) (band2 * 3 + inner)) g.

(** src/board/canonicalization.rs:408-419 [swap_cols_in_band] *)
Definition swap_cols_in_band (band : list nat) (col1 col2 : nat) : res (list nat) :=
  if col1 =? col2 then Ok band else
  _ <- assert_ (col1 <? 9); _ <- assert_ (col2 <? 9);
  swap_cells band (map (fun row => (row * 9 + col1, row * 9 + col2)) (seq 0 3)).

(** src/board/canonicalization.rs:421-431 [swap_stack_in_band] *)
Definition swap_stack_in_band (band : list nat) (stack1 stack2 : nat) : res (list nat) :=
  if stack1 =? stack2 then Ok band else
  _ <- assert_ (stack1 <? 3); _ <- assert_ (stack2 <? 3);
  for_each (seq 0 3) (fun inner b => swap_cols_in_band b (stack1 * 3 + inner) (stack2 * 3 + inner)) band.

(** src/board/canonicalization.rs:433-437 [swap_rows_in_band] *)
Definition swap_rows_in_band (band : list nat) (row1 row2 : nat) : res (list nat) :=
  _ <- assert_ (row1 <? 3); _ <- assert_ (row2 <? 3); swap_rows band row1 row2.

(** src/board/canonicalization.rs:339-347 [permute], 119-121 [Permutation3::apply] *)
Definition permute (l : list nat) (p : p3) (offset : nat) (swapper : list nat -> nat -> nat -> res (list nat))
  : res (list nat) :=
  l1 <- swapper l offset (offset + fst p); swapper l1 (offset + 1) (offset + 1 + snd p).

(** src/board/canonicalization.rs:92-96 [ChuteLinePermutations::apply] *)
Definition chutes_apply (ps : list p3) (l : list nat) (f : list nat -> nat -> nat -> res (list nat)) : res (list nat) :=
  for_each (combine (seq 0 3) ps) (fun '(chute, perm) l => permute l perm (3 * chute) f) l.

(** [digit as usize - 1] (e.g. src/board/canonicalization.rs:129) *)
Definition dec (d : nat) : res nat := if d =? 0 then Panic else Ok (d - 1).

(** src/board/canonicalization.rs:124-131 [apply_digit_mapping] *)
Fixpoint apply_digit_mapping (digits l : list nat) : res (list nat) :=
  match l with
  | [] => Ok []
  | d :: t =>
      d' <- (if d =? 0 then Ok 0 else i <- dec d; aget digits i);
      t' <- apply_digit_mapping digits t;
      Ok (d' :: t')
  end.

(** src/board/canonicalization.rs:40-57 [Transformation::apply] *)
Definition trans_apply (t : transformation) (g : list nat) : res (list nat) :=
  g0 <- (if t_transpose t then transpose g else Ok g);
  g1 <- permute g0 (t_band t) 0 swap_bands;
  g2 <- permute g1 (t_stack t) 0 swap_stacks;
  g3 <- chutes_apply (t_cols t) g2 swap_cols;
  g4 <- chutes_apply (t_rows t) g3 swap_rows;
  apply_digit_mapping (t_digits t) g4.

(** [slice::swap] (src/board/canonicalization.rs:73) *)
Definition slice_swap (l : list nat) (i j : nat) : res (list nat) :=
  a <- aget l i; b <- aget l j; l1 <- aset l i b; aset l1 j a.

(** src/board/canonicalization.rs:66-74: the Fisher-Yates shuffle of the digits *)
Definition fisher_yates (permutation : N) : res (list nat) :=
  r <- for_each (rev (seq 2 8)) (fun n_choices '(digits, permutation) =>
         let num := N.to_nat (permutation mod N.of_nat n_choices)%N in
         digits' <- slice_swap digits (n_choices - 1) num;
         Ok (digits', (permutation / N.of_nat n_choices)%N)) (seq 1 9, permutation);
  Ok (fst r).

(** src/board/canonicalization.rs:59-88 [Transformation::random].  The random number generator is abstract:
    [perm] is what it offers for [gen_range(0..362_880)], [tr] for [gen()], [rng i] for the [i]-th sample of
    [Uniform::new(0, 6)]. *)
Definition trans_random (perm : N) (tr : bool) (rng : nat -> nat) : res transformation :=
  digits <- fisher_yates (perm mod 362880)%N;
  b <- p3_new (rng 0 mod 6);
  s <- p3_new (rng 1 mod 6);
  r0 <- p3_new (rng 2 mod 6);
  r1 <- p3_new (rng 3 mod 6);
  r2 <- p3_new (rng 4 mod 6);
  c0 <- p3_new (rng 5 mod 6);
  c1 <- p3_new (rng 6 mod 6);
  c2 <- p3_new (rng 7 mod 6);
  Ok (mkTrans tr b s [r0; r1; r2] [c0; c1; c2] digits).

(** src/board/sudoku.rs:685-688 [shuffle], 691-694 [shuffled] *)
Definition shuffle (g : list nat) (perm : N) (tr : bool) (rng : nat -> nat) : res (list nat) :=
  t <- trans_random perm tr rng; trans_apply t g.

(** [&slice[a..][..n]] (src/board/canonicalization.rs:187, 328) *)
Definition slice (l : list nat) (a n : nat) : res (list nat) :=
  _ <- assert_ (a + n <=? length l); Ok (firstn n (skipn a l)).

(** [iter().position(..).unwrap()] (src/board/canonicalization.rs:205) *)
Fixpoint position (x : nat) (l : list nat) : res nat :=
  match l with
  | [] => Panic
  | y :: t => if y =? x then Ok 0 else i <- position x t; Ok (S i)
  end.

(** [<] and [<=] of slices (src/board/canonicalization.rs:246-247, 306) *)
Definition slice_lt (a b : list nat) : bool := match lex_nat a b with Lt => true | _ => false end.
Definition slice_le (a b : list nat) : bool := match lex_nat a b with Gt => false | _ => true end.

(** [mapping[old as usize - 1] = new] (src/board/canonicalization.rs:230, 237-239) *)
Definition map_set (mapping : list nat) (old new : nat) : res (list nat) := i <- dec old; aset mapping i new.

(** src/board/canonicalization.rs:241-243: relabel cells *)
Fixpoint map_cells (mapping l : list nat) : res (list nat) :=
  match l with
  | [] => Ok []
  | d :: t => i <- dec d; d' <- aget mapping i; t' <- map_cells mapping t; Ok (d' :: t')
  end.

(** What the search carries along: [band_minimum] and [minimal_transformations]
    (src/board/canonicalization.rs:182-183) *)
Definition best : Type := (list nat * list min_band)%type.

(** src/board/canonicalization.rs:233-264: the loop over the column permutations of the third box; [mapping] is
    the array declared outside of this loop *)
Definition last_box_loop (band_nr : nat) (transposed : bool) (rows_perm cols_perm stack_perm second_perm : p3)
    (band : list nat) (k : nat) (sm : best * list nat) : res (best * list nat) :=
  let '((minimum, trs), mapping) := sm in
  last_perm <- p3_new k;
  band <- permute band last_perm 6 swap_cols_in_band;
  d7 <- aget band 6; mapping <- map_set mapping d7 7;
  d8 <- aget band 7; mapping <- map_set mapping d8 8;
  d9 <- aget band 8; mapping <- map_set mapping d9 9;
  band_value <- map_cells mapping (skipn 11 band);
  if slice_le band_value minimum then
    let '(minimum, trs) := if slice_lt band_value minimum then (band_value, []) else (minimum, trs) in
    Ok ((minimum, trs ++ [mkMinBand band_nr transposed rows_perm stack_perm [cols_perm; second_perm; last_perm] mapping]),
        mapping)
  else Ok ((minimum, trs), mapping).

(** src/board/canonicalization.rs:197-265: one pass of the loop over the column permutations of the first box *)
Definition cols_loop (band_nr : nat) (transposed : bool) (first_box : nat) (rows_perm : p3) (band : list nat)
    (k : nat) (st : best) : res best :=
  cols_perm <- p3_new k;
  band <- permute band cols_perm 0 swap_cols_in_band;
  digit4 <- aget band 9;
  pos4 <- position digit4 (firstn 6 (skipn 3 band));
  let second_box_choice := pos4 / 3 in
  let second_box_first_col := pos4 mod 3 in
  band <- swap_stack_in_band band 1 (1 + second_box_choice);
  band <- swap_cols_in_band band 3 (3 + second_box_first_col);
  digit5 <- aget band 10;
  b4 <- aget band 4;
  let second_box_second_col := if negb (b4 =? digit5) then 1 else 0 in
  band <- swap_cols_in_band band 4 (4 + second_box_second_col);
  b4 <- aget band 4;
  if negb (b4 =? digit5) then Ok st else
  m0 <- aget (fst st) 0;
  b11 <- aget band 11;
  b5 <- aget band 5;
  if (m0 =? 6) && negb (b11 =? b5) then Ok st else
  mapping <- for_each (combine (seq 1 6) band) (fun '(new, old) mapping => map_set mapping old new) (repeat 0 9);
  stack_perm <- p3_from_choices first_box second_box_choice;
  second_perm <- p3_from_choices second_box_first_col second_box_second_col;
  r <- for_each (seq 0 6) (last_box_loop band_nr transposed rows_perm cols_perm stack_perm second_perm band)
         (st, mapping);
  Ok (fst r).

(** src/board/canonicalization.rs:193-266: the loop over the row permutations *)
Definition rows_loop (band_nr : nat) (transposed : bool) (first_box : nat) (band : list nat) (k : nat) (st : best)
  : res best :=
  rows_perm <- p3_new k;
  band <- permute band rows_perm 0 swap_rows_in_band;
  for_each (seq 0 6) (cols_loop band_nr transposed first_box rows_perm band) st.

(** src/board/canonicalization.rs:178-268 [find_minlex_band_transformation] *)
Definition find_minlex_band (g : list nat) (transposed : bool) (band_nr : nat) (st : best) : res best :=
  band <- slice g (band_nr * 27) 27;
  for_each (seq 0 3) (fun first_box st =>
    band <- swap_stack_in_band band 0 first_box;
    for_each (seq 0 6) (rows_loop band_nr transposed first_box band) st) st.

(** [min_by_key] on row numbers: the first smallest (src/board/canonicalization.rs:329, 332-334) *)
Definition min_row (band : list nat) (offset n : nat) : res nat :=
  r <- for_each (seq 0 n) (fun row acc =>
         key <- slice band (9 * (row + offset)) 9;
         match acc with
         | None => Ok (Some (row, key))
         | Some (row0, key0) => match lex_nat key0 key with Gt => Ok (Some (row, key)) | _ => Ok (Some (row0, key0)) end
         end) None;
  match r with Some (row, _) => Ok row | None => Panic end.

(** src/board/canonicalization.rs:327-337 [sort_rows_in_band_and_find_permutation]; the sorted band is written back
    into the sudoku of which it is a slice *)
Definition sort_rows (g : list nat) (band : nat) : res (list nat * p3) :=
  b <- slice g (band * 27) 27;
  first_choice <- min_row b 0 3;
  b <- swap_rows_in_band b 0 first_choice;
  second_choice <- min_row b 1 2;
  b <- swap_rows_in_band b 1 (1 + second_choice);
  p <- p3_from_choices first_choice second_choice;
  Ok (firstn (band * 27) g ++ b ++ skipn (band * 27 + 27) g, p).

(** src/board/canonicalization.rs:272-324 [find_minimal_transformation_for_band] *)
Definition find_minimal_for_band (g : list nat) (m : min_band) : res (list nat * transformation) :=
  g <- (if m_transposed m then transpose g else Ok g);
  g <- swap_bands g 0 (m_band m);
  g <- permute g (m_row m) 0 swap_rows;
  g <- permute g (m_stack m) 0 swap_stacks;
  g <- chutes_apply (m_cols m) g swap_cols;
  g <- apply_digit_mapping (m_digits m) g;
  r2 <- sort_rows g 1;
  let '(g, row_perm2) := r2 in
  r3 <- sort_rows g 2;
  let '(g, row_perm3) := r3 in
  b1 <- slice g 27 27;
  let needs_switch := slice_lt (skipn 54 g) b1 in
  let band_choice2 := if needs_switch then 1 else 0 in
  let '(row_perm2, row_perm3) := if needs_switch then (row_perm3, row_perm2) else (row_perm2, row_perm3) in
  g <- swap_bands g 1 (1 + band_choice2);
  bp <- p3_from_choices (m_band m) band_choice2;
  Ok (g, mkTrans (m_transposed m) bp (m_stack m) [m_row m; row_perm2; row_perm3] (m_cols m) (m_digits m)).

(** src/board/canonicalization.rs:156-171: [map], [min_by] with its counting comparison, [unwrap] *)
Definition choose_min (g : list nat) (trs : list min_band) : res (list nat * transformation * nat) :=
  r <- for_each trs (fun m acc =>
         new <- find_minimal_for_band g m;
         match acc with
         | None => Ok (Some (new, 1))
         | Some (cur, count) =>
             match lex_nat (fst cur) (fst new) with
             | Gt => Ok (Some (new, 1))
             | Lt => Ok (Some (cur, count))
             | Eq => Ok (Some (cur, S count))
             end
         end) None;
  match r with Some ((g', t), count) => Ok (g', t, count) | None => Panic end.

(** src/board/canonicalization.rs:137-153: the search for minimal first bands *)
Definition find_min_bands (g : list nat) : res best :=
  for_each [false; true] (fun transp st =>
    g <- (if transp then transpose g else Ok g);
    for_each (seq 0 3) (find_minlex_band g transp) st) (repeat 9 16, []).

(** src/board/canonicalization.rs:133-172 [find_canonical_sudoku_and_transformation] *)
Definition find_canonical (g : list nat) : res (list nat * transformation * nat) :=
  st <- find_min_bands g; choose_min g (snd st).

(** src/board/sudoku.rs:711-725 [canonicalized] *)
Definition canonicalized (g : list nat) : res (option (list nat * nat)) :=
  b <- api_is_solved g;
  s <- (if b then Ok (Some g) else api_solution g);
  match s with
  | None => Ok None
  | Some solved_sudoku =>
      r <- find_canonical solved_sudoku;
      let '(_, t, n) := r in
      g' <- trans_apply t g;
      Ok (Some (g', n))
  end.
