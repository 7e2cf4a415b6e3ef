(** Model of the unfinished parts of the strategy solver, which no public function reaches yet: the searches for avoidable
    rectangles (src/strategy/strategies/avoidable_rectangles.rs) and almost locked sets
    (src/strategy/strategies/almost_locked_sets.rs), and the links between candidates (src/strategy/utils.rs). *)
From Coq Require Import List Arith NArith Bool.
From Verif Require Import Spec Solver Bits Geom Gen Strat.
Import ListNotations.

(** * Avoidable rectangles *)

(** avoidable_rectangles.rs:17 *)
Definition rect_cell (row col : nat) : nat := row * 9 + col.

(** What is known about the corners seen so far: the filled ones, the clues among them, their digits, the last empty one;
    avoidable_rectangles.rs:36-39 *)
Definition corner_info : Type := (nat * nat * N * nat)%type.

(** avoidable_rectangles.rs:40-51: the loop over the corners *)
Definition rect_scan (filled clues : grid) (cells : list nat) : res corner_info :=
  rfold (fun cell (s : corner_info) =>
    let '(n, k, ds, free) := s in
    d <- aget filled cell;
    if d =? 0 then Ok (n, k, ds, cell)
    else
      d <- digit_new d;
      m <- as_set EDigit (digit_as_index d);
      c <- aget clues cell;
      Ok (S n, if c =? 0 then k else S k, set_or ds m, free)) cells (0, 0, set_none EDigit, 0).

(** avoidable_rectangles.rs:63-66 *)
Definition rect_lines (row1 row2 col1 col2 : nat) : res N :=
  r1 <- line_of_row row1; m1 <- as_set ELine r1;
  r2 <- line_of_row row2; m2 <- as_set ELine r2;
  c1 <- line_of_col col1; m3 <- as_set ELine c1;
  c2 <- line_of_col col2; m4 <- as_set ELine c2;
  Ok (set_or (set_or (set_or m1 m2) m3) m4).

(** avoidable_rectangles.rs:20-74: the treatment of two rows and two columns; [false] is [Err(Unsolvable)] *)
Definition rect_at {S} (filled clues : grid) (poss : list N) (on : N -> cand -> S -> res S) (q : nat * nat * nat * nat) (s : S) : res (S * bool) :=
  let '(row1, row2, col1, col2) := q in
  if negb (xorb (row1 / 3 =? row2 / 3) (col1 / 3 =? col2 / 3)) then Ok (s, true)
  else
    i <- rect_scan filled clues [rect_cell row1 col1; rect_cell row1 col2; rect_cell row2 col1; rect_cell row2 col2];
    let '(n, k, ds, free) := i in
    if (n =? 3) && (k =? 0) && (set_len ds =? 2) then
      c <- chk 81 free;
      m <- aget poss c;
      if set_overlaps EDigit m ds then
        row1 <- chk 9 row1; row2 <- chk 9 row2; col1 <- chk 9 col1; col2 <- chk 9 col2;
        u <- set_unique EDigit (set_and m ds);
        match u with
        | UEmpty => Ok (s, false)
        | UOk None => Ok (s, true)
        | UOk (Some i) =>
            d <- digit_from_index i;
            l <- rect_lines row1 row2 col1 col2;
            c <- chk 81 free;
            s <- on l (c, d) s;
            Ok (s, true)
        end
      else Ok (s, true)
    else Ok (s, true).

(** avoidable_rectangles.rs:5-80 [find_avoidable_rectangles]; the argument [stop_after_first] is not used *)
Definition find_rectangles {S} (filled clues : grid) (poss : list N) (stop : bool) (on : N -> cand -> S -> res S) (s : S) : res (S * bool) :=
  for_ok (seq 0 8) (fun row1 s =>
    for_ok (seq (row1 + 1) (9 - (row1 + 1))) (fun row2 s =>
      for_ok (seq 0 8) (fun col1 s =>
        for_ok (seq (col1 + 1) (9 - (col1 + 1))) (fun col2 s =>
          rect_at filled clues poss on (row1, row2, col1, col2) s) s) s) s) s.

(** * Almost locked sets *)

(** almost_locked_sets.rs:70: eight rows, one for each size, of 27 lists, one for each house *)
Definition als_table : Type := list (list (list (N * N))).
(** almost_locked_sets.rs:77 *)
Definition als_default : als_table := repeat (repeat [] 27) 8.

(** almost_locked_sets.rs:113: [almost_locked_sets[size][house].push(x)] *)
Definition als_push (t : als_table) (size house : nat) (x : N * N) : res als_table :=
  row <- aget t size; l <- aget row house; row <- aset row house (l ++ [x]); aset t size row.

(** almost_locked_sets.rs:93-126 [_walk_combinations]; [cells] are the cells left in the iterator *)
Fixpoint als_walk (poss : list N) (cells : list nat) (cell_set digits : N) (t : als_table) (house depth : nat) : res als_table :=
  match cells with
  | [] => Ok t
  | cell :: rest =>
      m <- as_set ECell cell;
      let new_cells := set_or cell_set m in
      cands <- aget poss cell;
      if set_len cands <=? 1 then als_walk poss rest cell_set digits t house depth
      else
        let new_digits := set_or digits cands in
        if negb (set_len new_cells =? depth + 1) then Panic
        else
          t <- (if set_len new_digits =? set_len new_cells + 1
                then i <- usub (set_len new_cells) 1; als_push t i house (new_cells, new_digits)
                else Ok t);
          t <- als_walk poss rest new_cells new_digits t house (depth + 1);
          als_walk poss rest cell_set digits t house depth
  end.

(** almost_locked_sets.rs:76-91 [_find_almost_locked_sets] *)
Definition find_als_sets (poss : list N) : res als_table :=
  rfold (fun house t =>
    m <- cells_of_house house;
    l <- set_iter ECell m;
    als_walk poss l (set_none ECell) (set_none EDigit) t house 0) (seq 0 27) als_default.

(** almost_locked_sets.rs:40-49: the cells of a set that have a digit as candidate *)
Definition cells_of_digit (poss : list N) (digit : nat) (cells : N) : res N :=
  m <- as_set EDigit (digit_as_index digit);
  l <- set_iter ECell cells;
  rfold (fun cell acc =>
    x <- aget poss cell;
    if set_overlaps EDigit x m then y <- as_set ECell cell; Ok (set_or acc y) else Ok acc) l (set_none ECell).

(** almost_locked_sets.rs:32-60: a pair of sets; nothing is done with the digits they have in common *)
Definition als_pair (poss : list N) (x1 x2 : N * N) : res unit :=
  let common := set_and (snd x1) (snd x2) in
  if set_is_empty common then Ok tt
  else
    l <- digits_of common;
    rfold (fun digit _ =>
      c1 <- cells_of_digit poss digit (fst x1);
      c2 <- cells_of_digit poss digit (fst x2);
      if set_overlaps ECell c1 c2 then Ok tt else Ok tt) l tt.

(** [iter().enumerate()], almost_locked_sets.rs:28, 30 *)
Definition enumerate {A} (l : list A) : list (nat * A) := combine (seq 0 (length l)) l.

(** almost_locked_sets.rs:5-68 [find_almost_locked_sets]; the callback and [stop_after_first] are not used *)
Definition find_als (poss : list N) : res unit :=
  als <- find_als_sets poss;
  rfold (fun first _ =>
    rfold (fun second _ =>
      sets1 <- aget als first;
      sets2 <- aget als second;
      rfold (fun h1 _ =>
        rfold (fun x1 _ =>
          rfold (fun h2 _ =>
            rfold (fun x2 _ => als_pair poss x1 x2) (snd h2) tt)
            (filter (fun h2 => negb (fst h2 / 9 =? fst h1 / 9)) (enumerate sets2)) tt) (snd h1) tt)
        (enumerate sets1) tt) (seq 1 first) tt) (seq 2 7) tt.

(** * Links between candidates *)

(** utils.rs:12 [LinkMatrix], a hash map from candidates to lists of candidates *)
Definition link_map : Type := list (cand * list cand).
(** equality of keys, src/board/candidate.rs:5 (derived) *)
Definition cand_eqb (x y : cand) : bool := (fst x =? fst y) && (snd x =? snd y).
(** the list stored for a key, utils.rs:12 *)
Fixpoint links_of (t : link_map) (x : cand) : list cand :=
  match t with [] => [] | (k, l) :: r => if cand_eqb k x then l else links_of r x end.
(** [entry(x).or_default().push(y)], e.g. utils.rs:41 *)
Fixpoint link_push (t : link_map) (x y : cand) : link_map :=
  match t with
  | [] => [(x, [y])]
  | (k, l) :: r => if cand_eqb k x then (k, l ++ [y]) :: r else (k, l) :: link_push r x y
  end.

(** utils.rs:14-17 [Links]: the weak and the strong links *)
Definition links : Type := (link_map * link_map)%type.

(** utils.rs:84-96 [conflicting_house_positions] *)
Definition conflicting_positions (pos : list (list N)) (x : cand) : res (list (nat * N)) :=
  let '(cell, digit) := x in
  hs <- cell_houses cell;
  rmap (fun hp => row <- aget pos (fst hp); m <- aget row (digit_as_index digit); p <- as_set EPosHouse (snd hp); Ok (fst hp, set_xor m p))
    (combine hs [row_pos cell; col_pos cell; block_pos cell]).

(** [unique().unwrap_or(None)], utils.rs:45, 66 *)
Definition unique_or_none (e : elem) (m : N) : res (option nat) :=
  u <- set_unique e m; Ok (match u with UEmpty => None | UOk x => x end).

(** utils.rs:55-74: the links of a candidate to the other positions of its digit in one house *)
Definition house_links (x : cand) (hm : nat * N) (t : links) : res links :=
  let '(weak, strong) := t in
  let '(house, others) := hm in
  u <- unique_or_none EPosHouse others;
  match u with
  | Some p => c <- house_cell_at house p; Ok (weak, link_push strong x (c, snd x))
  | None =>
      l <- set_iter EPosHouse others;
      weak <- rfold (fun p weak => c <- house_cell_at house p; Ok (link_push weak x (c, snd x))) l weak;
      Ok (weak, strong)
  end.

(** utils.rs:30-74: the links of one candidate; with a strong link in the cell the houses are left out ([continue]) *)
Definition candidate_links (pos : list (list N)) (digits : N) (x : cand) (t : links) : res links :=
  let '(weak, strong) := t in
  m <- as_set EDigit (digit_as_index (snd x));
  let others := set_xor digits m in
  u <- unique_or_none EDigit others;
  match u with
  | Some i => d <- digit_from_index i; Ok (weak, link_push strong x (fst x, d))
  | None =>
      l <- digits_of others;
      hs <- conflicting_positions pos x;
      rfold (house_links x) hs (fold_left (fun weak d => link_push weak x (fst x, d)) l weak, strong)
  end.

(** utils.rs:21-82 [find_direct_links] *)
Definition find_direct_links (poss : list N) (pos : list (list N)) : res links :=
  rfold (fun cell t =>
    digits <- aget poss cell;
    l <- digits_of digits;
    rfold (fun d t => candidate_links pos digits (cell, d) t) l t) (seq 0 81) ([], []).
