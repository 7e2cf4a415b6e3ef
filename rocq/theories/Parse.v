(** Model of parsing and printing in /repo/src/board/sudoku.rs.

    A [&str] is the list of its code points; [as_bytes] is its UTF-8 encoding.  [u8] values are naturals or [N]s with
    explicit overflow checks. *)
From Coq Require Import List Arith NArith Bool.
From Verif Require Import Solver.
Import ListNotations.
Local Open Scope N_scope.

(** Result of a parser: [Result] or a panic. *)
Inductive pres (E A : Type) : Type := POk (a : A) | PErr (e : E) | PPanic.
Arguments POk {E A} _.
Arguments PErr {E A} _.
Arguments PPanic {E A}.
(** Sequencing with [?] / early [return Err], e.g. src/board/sudoku.rs:277 *)
Definition pbind {E A B} (r : pres E A) (f : A -> pres E B) : pres E B :=
  match r with POk a => f a | PErr e => PErr e | PPanic => PPanic end.
Notation "x <~ e1 ; e2" := (pbind e1 (fun x => e2)) (at level 100, e1 at next level, right associativity).

(** src/errors.rs:85-98 [LineParseError]; [InvalidEntry] is src/errors.rs:26-31 *)
Inductive line_err := LInvalidEntry (cell : nat) (ch : N) | LNotEnoughCells (n : nat) | LTooManyCells | LMissingCommentDelimiter.
(** src/errors.rs:60-83 [BlockParseError] *)
Inductive block_err := BInvalidEntry (cell : nat) (ch : N) | BInvalidLineLength (row : nat) | BNotEnoughRows (n : nat)
  | BIncorrectFieldDelimiter | BTooManyRows | BMissingCommentDelimiter (row : nat).
(** src/errors.rs:55-58 [NotEnoughRows] *)
Inductive lax_err := NotEnoughRows (n : nat).
(** src/errors.rs:6-20 [FromBytesError], [FromBytesSliceError] *)
Inductive bytes_err := FromBytesError.
Inductive slice_err := WrongLength (n : nat) | SFromBytesError.

(** [u8] addition; panics on overflow (debug) *)
Definition u8_add {E} (a b : nat) : pres E nat := if (a + b <? 256)%nat then POk (a + b)%nat else PPanic.

(** src/board/sudoku.rs:290-295 [_from_bytes], 286-288 [from_bytes]; the array has 81 entries by its type *)
Definition from_bytes (bytes : list nat) : pres bytes_err (list nat) :=
  if fold_left (fun valid byte => valid && (byte <=? 9)%nat) bytes true then POk bytes else PErr FromBytesError.

(** src/board/sudoku.rs:274-282 [from_bytes_slice] *)
Definition from_bytes_slice (bytes : list nat) : pres slice_err (list nat) :=
  if (length bytes =? 81)%nat then
    match from_bytes bytes with POk g => POk g | PErr _ => PErr SFromBytesError | PPanic => PPanic end
  else PErr (WrongLength (length bytes)).

(** src/board/sudoku.rs:734-736 [to_bytes] *)
Definition to_bytes (g : list nat) : list nat := g.

(** src/board/sudoku.rs:803-805 [num_to_opt], 728-730 [iter] *)
Definition num_to_opt (n : nat) : option nat := if (n =? 0)%nat then None else Some n.
Definition grid_iter (g : list nat) : list (option nat) := map num_to_opt g.

(** UTF-8 encoding of a code point ([str::as_bytes], src/board/sudoku.rs:315) *)
Definition utf8 (c : N) : list N :=
  if c <? 128 then [c]
  else if c <? 2048 then [192 + c / 64; 128 + c mod 64]
  else if c <? 65536 then [224 + c / 4096; 128 + (c / 64) mod 64; 128 + c mod 64]
  else [240 + c / 262144; 128 + (c / 4096) mod 64; 128 + (c / 64) mod 64; 128 + c mod 64].
Definition as_bytes (s : list N) : list N := flat_map utf8 s.

(** [s[i..]] of src/board/sudoku.rs:333: panics unless [i] is a character boundary *)
Fixpoint slice_from {E} (s : list N) (i : nat) : pres E (list N) :=
  match i with
  | O => POk s
  | _ => match s with
         | [] => PPanic
         | c :: t => if (length (utf8 c) <=? i)%nat then slice_from t (i - length (utf8 c)) else PPanic
         end
  end.

(** [.chars().next().unwrap()] of src/board/sudoku.rs:333 *)
Definition first_char {E} (s : list N) : pres E N := match s with [] => PPanic | c :: _ => POk c end.

(** [u8::wrapping_sub] of src/board/sudoku.rs:372, 376 *)
Definition wrapping_sub (a b : N) : N := (256 + a - b) mod 256.

(** src/board/sudoku.rs:371-379: one cell of the fast path *)
Definition fast_cell (ch : N) : N :=
  let cell := wrapping_sub ch 48 in
  let cell := if cell =? 95 - 48 then 0 else cell in
  if cell =? wrapping_sub 46 48 then 0 else cell.

(** the delimiters of src/board/sudoku.rs:348 and 382 *)
Definition is_delim (ch : N) : bool :=
  (ch =? 9) || (ch =? 32) || (ch =? 13) || (ch =? 10) || (ch =? 59) || (ch =? 44).

(** src/board/sudoku.rs:363-389 [_from_str_line_fast_path]; [None] is [Err(())] *)
Definition fast_path (chars : list N) : option (list nat) :=
  if (length chars <? 81)%nat then None
  else
    let grid := map fast_cell (firstn 81 chars) in
    let valid_ending := match nth_error chars 81 with None => true | Some ch => is_delim ch end in
    if valid_ending then
      match from_bytes (map N.to_nat grid) with POk g => Some g | _ => None end
    else None.

(** src/board/sudoku.rs:322-338: the loop over [grid.iter_mut().zip(chars)]; returns the grid and the final [i] *)
Fixpoint line_loop (s : list N) (grid : list nat) (chars : list N) (i : nat) : pres line_err (list nat * nat) :=
  match grid, chars with
  | _ :: gt, ch :: ct =>
      if (ch =? 95) || (ch =? 46) then
        i' <~ u8_add i 1; r <~ line_loop s gt ct i'; POk (0%nat :: fst r, snd r)
      else if (48 <=? ch) && (ch <=? 57) then
        i' <~ u8_add i 1; r <~ line_loop s gt ct i'; POk (N.to_nat (ch - 48) :: fst r, snd r)
      else if (ch =? 32) || (ch =? 9) then PErr (LNotEnoughCells i)
      else t <~ slice_from s i; c <~ first_char t; PErr (LInvalidEntry i c)
  | g, _ => POk (g, i)
  end.

(** src/board/sudoku.rs:314-359 [from_str_line] *)
Definition from_str_line (s : list N) : pres line_err (list nat) :=
  let chars := as_bytes s in
  match fast_path chars with
  | Some sudoku => POk sudoku
  | None =>
      r <~ line_loop s (repeat 0%nat 81) chars 0;
      let '(grid, i) := r in
      if negb (i =? 81)%nat then PErr (LNotEnoughCells i)
      else match nth_error chars 81 with
           | Some ch =>
               if is_delim ch then POk grid
               else if (ch =? 95) || (ch =? 46) || ((48 <=? ch) && (ch <=? 57)) then PErr LTooManyCells
               else PErr LMissingCommentDelimiter
           | None => POk grid
           end
  end.

(** [str::lines] of src/board/sudoku.rs:442, 542: lines end in a newline or a carriage return and a newline; a final line
    without terminator is yielded unless empty.  [cur] is the current line reversed. *)
Definition strip_cr (cur : list N) : list N :=
  match cur with c :: t => if c =? 13 then rev t else rev cur | [] => [] end.
Fixpoint lines_aux (cur s : list N) : list (list N) :=
  match s with
  | [] => match cur with [] => [] | _ => [rev cur] end
  | c :: t => if c =? 10 then strip_cr cur :: lines_aux [] t else lines_aux (c :: cur) t
  end.
Definition lines (s : list N) : list (list N) := lines_aux [] s.

(** [char::is_whitespace] (src/board/sudoku.rs:447 via [trim]): the Unicode property White_Space *)
Definition is_white (c : N) : bool :=
  ((9 <=? c) && (c <=? 13)) || (c =? 32) || (c =? 133) || (c =? 160) || (c =? 5760) || ((8192 <=? c) && (c <=? 8202)) ||
  (c =? 8232) || (c =? 8233) || (c =? 8239) || (c =? 8287) || (c =? 12288).
(** [line.trim().is_empty()] of src/board/sudoku.rs:447 *)
Definition trim_is_empty (l : list N) : bool := forallb is_white l.

(** [str::starts_with] of src/board/sudoku.rs:457-470 *)
Fixpoint starts_with (p l : list N) : bool :=
  match p, l with
  | [], _ => true
  | a :: p', b :: l' => (a =? b) && starts_with p' l'
  | _, [] => false
  end.
(** the literals of src/board/sudoku.rs:457-470 *)
Definition DASHES : list N := [45; 45; 45; 45; 45; 45; 45; 45; 45; 45; 45].
Definition PLUSES : list N := [45; 45; 45; 43; 45; 45; 45; 43; 45; 45; 45].

(** src/board/sudoku.rs:431-436 [Format] *)
Inductive format := Unknown | Delimited | DelimitedPlus | Bare.
Definition is_delimited (f : format) : bool := match f with Delimited | DelimitedPlus => true | _ => false end.

(** assignment to [grid[i]] (src/board/sudoku.rs:514-515) *)
Definition grid_set {E} (g : list nat) (i v : nat) : pres E (list nat) :=
  match aset g i v with Ok g' => POk g' | _ => PPanic end.

(** src/board/sudoku.rs:477-519: the loop over the characters of a line; returns format, number of cells, grid *)
Fixpoint row_loop (chars : list N) (str_col n_col n_line : nat) (fmt : format) (grid : list nat)
  : pres block_err (format * nat * list nat) :=
  match chars with
  | [] => POk (fmt, n_col, grid)
  | ch :: t =>
      if (n_col =? 9)%nat then
        if (ch =? 32) || (ch =? 9) then POk (fmt, n_col, grid)
        else if ((49 <=? ch) && (ch <=? 57)) || (ch =? 95) || (ch =? 46) || (ch =? 48) then PErr (BInvalidLineLength n_line)
        else PErr (BMissingCommentDelimiter n_line)
      else
        let at_delim := (str_col =? 3)%nat || (str_col =? 7)%nat in
        let fmt := if at_delim
                   then match fmt with Unknown => if ch =? 124 then Delimited else Bare | f => f end
                   else fmt in
        if at_delim && is_delimited fmt then
          if ch =? 124 then row_loop t (S str_col) n_col n_line fmt grid
          else PErr BIncorrectFieldDelimiter
        else
          let cell := (n_line * 9 + n_col)%nat in
          if (ch =? 95) || (ch =? 46) then
            g <~ grid_set grid cell 0; row_loop t (S str_col) (S n_col) n_line fmt g
          else if (48 <=? ch) && (ch <=? 57) then
            g <~ grid_set grid cell (N.to_nat (ch - 48)); row_loop t (S str_col) (S n_col) n_line fmt g
          else PErr (BInvalidEntry cell ch)
  end.

(** src/board/sudoku.rs:442-525: the loop over the lines; returns the number of rows read and the grid *)
Fixpoint block_loop (ls : list (list N)) (n_line_str n_line_sud : nat) (fmt : format) (grid : list nat)
  : pres block_err (nat * list nat) :=
  match ls with
  | [] => POk (n_line_sud, grid)
  | line :: rest =>
      if (n_line_sud =? 9)%nat then
        if trim_is_empty line then POk (n_line_sud, grid) else PErr BTooManyRows
      else if is_delimited fmt && ((n_line_str =? 3)%nat || (n_line_str =? 7)%nat) then
        let fmt := if (n_line_str =? 3)%nat && (starts_with PLUSES line || starts_with (PLUSES ++ [32]) line)
                   then DelimitedPlus else fmt in
        match fmt with
        | Delimited => if negb (starts_with DASHES line || starts_with (DASHES ++ [32]) line)
                       then PErr BIncorrectFieldDelimiter
                       else block_loop rest (S n_line_str) n_line_sud fmt grid
        | _ => if negb (starts_with PLUSES line || starts_with (PLUSES ++ [32]) line)
               then PErr BIncorrectFieldDelimiter
               else block_loop rest (S n_line_str) n_line_sud fmt grid
        end
      else
        r <~ row_loop line 0 0 n_line_sud fmt grid;
        let '(fmt, n_col, grid) := r in
        if negb (n_col =? 9)%nat then PErr (BInvalidLineLength n_line_sud)
        else n <~ u8_add n_line_sud 1; block_loop rest (S n_line_str) n fmt grid
  end.

(** src/board/sudoku.rs:428-530 [from_str_block] *)
Definition from_str_block (s : list N) : pres block_err (list nat) :=
  r <~ block_loop (lines s) 0 0 Unknown (repeat 0%nat 81);
  let '(n, grid) := r in
  if negb (n =? 9)%nat then m <~ u8_add n 1; PErr (BNotEnoughRows m) else POk grid.

(** src/board/sudoku.rs:543-563: one line of the permissive parser; [None]: fewer than nine cells *)
Fixpoint lax_line (chars : list N) (row_vals : list nat) (nums : nat) : pres lax_err (option (list nat)) :=
  match chars with
  | [] => POk None
  | ch :: t =>
      r <~ (if (ch =? 46) || (ch =? 95) then
              v <~ grid_set row_vals nums 0; POk (v, S nums)
            else if (48 <=? ch) && (ch <=? 57) then
              v <~ grid_set row_vals nums (N.to_nat (ch - 48)); POk (v, S nums)
            else POk (row_vals, nums));
      let '(v, n) := r in
      if (n =? 9)%nat then POk (Some v) else lax_line t v n
  end.

(** [grid[valid_rows * 9..valid_rows * 9 + 9].copy_from_slice(&row_vals)] of src/board/sudoku.rs:559 *)
Definition copy_row {E} (grid : list nat) (r : nat) (row : list nat) : pres E (list nat) :=
  if (r * 9 + 9 <=? length grid)%nat && (length row =? 9)%nat
  then POk (firstn (r * 9) grid ++ row ++ skipn (r * 9 + 9) grid) else PPanic.

(** src/board/sudoku.rs:542-568: the loop over the lines *)
Fixpoint lax_loop (ls : list (list N)) (valid_rows : nat) (grid : list nat) : pres lax_err (list nat) :=
  match ls with
  | [] => PErr (NotEnoughRows valid_rows)
  | line :: rest =>
      r <~ lax_line line (repeat 0%nat 9) 0;
      p <~ (match r with
            | Some row => g <~ copy_row grid valid_rows row; POk (S valid_rows, g)
            | None => POk (valid_rows, grid)
            end);
      let '(n, g) := p in
      if (n =? 9)%nat then POk g else lax_loop rest n g
  end.

(** src/board/sudoku.rs:538-569 [from_str_block_permissive] *)
Definition from_str_block_permissive (s : list N) : pres lax_err (list nat) := lax_loop (lines s) 0 (repeat 0%nat 81).

(** src/board/sudoku.rs:756-765 [to_str_line]; [num + b'0'] cannot overflow for [num <= 9] *)
Definition to_str_line (g : list nat) : list N :=
  map (fun entry => match entry with Some num => N.of_nat num + 48 | None => 46 end) (grid_iter g).

(** src/board/sudoku.rs:881-901 [Display for SudokuBlock]: the characters written for each cell *)
Definition block_cell_text (cell digit : nat) : list N :=
  (match (cell / 9, cell mod 9)%nat with
   | (_, 3%nat) | (_, 6%nat) => [32]
   | (3%nat, O) | (6%nat, O) => [10; 10]
   | (_, O) => [10]
   | _ => []
   end) ++
  [if ((9 <? digit) || (digit =? 0))%nat then 95 else N.of_nat digit + 48].
Definition display_block (g : list nat) : list N :=
  flat_map (fun p => block_cell_text (fst p) (snd p)) (combine (seq 0 81) g).

(** Values of a serde data format, as far as used: src/board/sudoku.rs:27-38, 46-91 *)
Inductive serde_value := SStr (s : list N) | SBytes (b : list nat).

(** src/board/sudoku.rs:27-38 [serialize] *)
Definition serialize (human_readable : bool) (g : list nat) : serde_value :=
  if human_readable then SStr (to_str_line g) else SBytes g.

(** src/board/sudoku.rs:78-91 [deserialize] with the visitors of src/board/sudoku.rs:46-76; [None] is an error.  A value of
    another kind than asked for is refused by the default methods of [Visitor]. *)
Definition deserialize (human_readable : bool) (v : serde_value) : option (list nat) :=
  match human_readable, v with
  | true, SStr s => match from_str_line s with POk g => Some g | _ => None end
  | false, SBytes b => match from_bytes_slice b with POk g => Some g | _ => None end
  | _, _ => None
  end.

(** Derived lexicographic [Ord] of arrays (src/board/sudoku.rs:23, 839) *)
Fixpoint lex_nat (a b : list nat) : comparison :=
  match a, b with
  | [], [] => Eq
  | [], _ => Lt
  | _, [] => Gt
  | x :: a', y :: b' => match Nat.compare x y with Eq => lex_nat a' b' | r => r end
  end.
Fixpoint lex_N (a b : list N) : comparison :=
  match a, b with
  | [], [] => Eq
  | [], _ => Lt
  | _, [] => Gt
  | x :: a', y :: b' => match N.compare x y with Eq => lex_N a' b' | r => r end
  end.
