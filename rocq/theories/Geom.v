(** Model of /repo/src/board/positions.rs: cells, houses, minilines, chutes and positions.

    All these types wrap a [u8]; they are represented by the number.  [u8] arithmetic stays below 256 for valid values.
    The constructors [new] (src/board/positions.rs:181-184) only check their range in debug builds; the check is modelled by
    [chk], giving [Panic]. *)
From Coq Require Import List Arith NArith Bool.
From Verif Require Import Solver Bits.
Import ListNotations.

(** src/board/positions.rs:181-184 [new] *)
Definition chk (limit x : nat) : res nat := if x <? limit then Ok x else Panic.

(** src/board/positions.rs:181-184 [new] with the build profile explicit: [debug_assert!] is compiled only if debug
    assertions are on *)
Definition pos_new (debug_assertions : bool) (limit x : nat) : res nat :=
  if debug_assertions && negb (x <? limit) then Panic else Ok x.

(** src/board/positions.rs:262-275, the limits of the twelve position types *)
Definition pos_limits : list nat := [81; 9; 9; 9; 18; 27; 27; 27; 54; 3; 3; 6].

(** src/board/digit.rs:18-23 [Digit::new_checked], 13-15 [Digit::new], 44-46 [as_index] *)
Definition digit_new_checked (d : nat) : option nat :=
  if 9 <? d then None else if d =? 0 then None else Some d.
Definition digit_new (d : nat) : res nat := match digit_new_checked d with Some d => Ok d | None => Panic end.
Definition digit_as_index (d : nat) : nat := d - 1.
(** src/board/digit.rs:29-31 [Digit::from_index] *)
Definition digit_from_index (i : nat) : res nat :=
  match digit_new_checked (i + 1) with Some d => Ok d | None => Panic end.

(** src/board/candidate.rs:19-28 [Candidate::new]: asserts in every build *)
Definition candidate_new (cell digit : nat) : res (nat * nat) :=
  if (cell <? 81) && ((0 <? digit) && (digit <? 10)) then
    c <- pos_new true 81 cell; d <- digit_new digit; Ok (c, d)
  else Panic.

(** src/board/positions.rs:187-193 [new_checked] *)
Definition new_checked (limit x : nat) : option nat := if x <? limit then Some x else None.

(** src/board/positions.rs:33-44 [BLOCK] *)
Definition BLOCK : list nat :=
  [0; 0; 0; 1; 1; 1; 2; 2; 2; 0; 0; 0; 1; 1; 1; 2; 2; 2; 0; 0; 0; 1; 1; 1; 2; 2; 2; 3; 3; 3; 4; 4; 4; 5; 5; 5; 3; 3; 3; 4; 4; 4; 5; 5; 5; 3; 3; 3; 4; 4; 4; 5; 5; 5; 6; 6; 6; 7; 7; 7; 8; 8; 8; 6; 6; 6; 7; 7; 7; 8; 8; 8; 6; 6; 6; 7; 7; 7; 8; 8; 8].

(** src/board/positions.rs:46-77 [CELLS_BY_HOUSE] *)
Definition CELLS_BY_HOUSE : list (list nat) :=
  [[0; 1; 2; 3; 4; 5; 6; 7; 8];
   [9; 10; 11; 12; 13; 14; 15; 16; 17];
   [18; 19; 20; 21; 22; 23; 24; 25; 26];
   [27; 28; 29; 30; 31; 32; 33; 34; 35];
   [36; 37; 38; 39; 40; 41; 42; 43; 44];
   [45; 46; 47; 48; 49; 50; 51; 52; 53];
   [54; 55; 56; 57; 58; 59; 60; 61; 62];
   [63; 64; 65; 66; 67; 68; 69; 70; 71];
   [72; 73; 74; 75; 76; 77; 78; 79; 80];
   [0; 9; 18; 27; 36; 45; 54; 63; 72];
   [1; 10; 19; 28; 37; 46; 55; 64; 73];
   [2; 11; 20; 29; 38; 47; 56; 65; 74];
   [3; 12; 21; 30; 39; 48; 57; 66; 75];
   [4; 13; 22; 31; 40; 49; 58; 67; 76];
   [5; 14; 23; 32; 41; 50; 59; 68; 77];
   [6; 15; 24; 33; 42; 51; 60; 69; 78];
   [7; 16; 25; 34; 43; 52; 61; 70; 79];
   [8; 17; 26; 35; 44; 53; 62; 71; 80];
   [0; 1; 2; 9; 10; 11; 18; 19; 20];
   [3; 4; 5; 12; 13; 14; 21; 22; 23];
   [6; 7; 8; 15; 16; 17; 24; 25; 26];
   [27; 28; 29; 36; 37; 38; 45; 46; 47];
   [30; 31; 32; 39; 40; 41; 48; 49; 50];
   [33; 34; 35; 42; 43; 44; 51; 52; 53];
   [54; 55; 56; 63; 64; 65; 72; 73; 74];
   [57; 58; 59; 66; 67; 68; 75; 76; 77];
   [60; 61; 62; 69; 70; 71; 78; 79; 80]].

(** src/board/positions.rs:79-164 [HOUSE_NEIGHBORS_OF_CELL] *)
Definition HOUSE_NEIGHBORS_OF_CELL : list (list nat) :=
  [[1; 2; 3; 4; 5; 6; 7; 8; 9; 10; 11; 18; 19; 20; 27; 36; 45; 54; 63; 72];
   [0; 2; 3; 4; 5; 6; 7; 8; 9; 10; 11; 18; 19; 20; 28; 37; 46; 55; 64; 73];
   [0; 1; 3; 4; 5; 6; 7; 8; 9; 10; 11; 18; 19; 20; 29; 38; 47; 56; 65; 74];
   [0; 1; 2; 4; 5; 6; 7; 8; 12; 13; 14; 21; 22; 23; 30; 39; 48; 57; 66; 75];
   [0; 1; 2; 3; 5; 6; 7; 8; 12; 13; 14; 21; 22; 23; 31; 40; 49; 58; 67; 76];
   [0; 1; 2; 3; 4; 6; 7; 8; 12; 13; 14; 21; 22; 23; 32; 41; 50; 59; 68; 77];
   [0; 1; 2; 3; 4; 5; 7; 8; 15; 16; 17; 24; 25; 26; 33; 42; 51; 60; 69; 78];
   [0; 1; 2; 3; 4; 5; 6; 8; 15; 16; 17; 24; 25; 26; 34; 43; 52; 61; 70; 79];
   [0; 1; 2; 3; 4; 5; 6; 7; 15; 16; 17; 24; 25; 26; 35; 44; 53; 62; 71; 80];
   [0; 1; 2; 10; 11; 12; 13; 14; 15; 16; 17; 18; 19; 20; 27; 36; 45; 54; 63; 72];
   [0; 1; 2; 9; 11; 12; 13; 14; 15; 16; 17; 18; 19; 20; 28; 37; 46; 55; 64; 73];
   [0; 1; 2; 9; 10; 12; 13; 14; 15; 16; 17; 18; 19; 20; 29; 38; 47; 56; 65; 74];
   [3; 4; 5; 9; 10; 11; 13; 14; 15; 16; 17; 21; 22; 23; 30; 39; 48; 57; 66; 75];
   [3; 4; 5; 9; 10; 11; 12; 14; 15; 16; 17; 21; 22; 23; 31; 40; 49; 58; 67; 76];
   [3; 4; 5; 9; 10; 11; 12; 13; 15; 16; 17; 21; 22; 23; 32; 41; 50; 59; 68; 77];
   [6; 7; 8; 9; 10; 11; 12; 13; 14; 16; 17; 24; 25; 26; 33; 42; 51; 60; 69; 78];
   [6; 7; 8; 9; 10; 11; 12; 13; 14; 15; 17; 24; 25; 26; 34; 43; 52; 61; 70; 79];
   [6; 7; 8; 9; 10; 11; 12; 13; 14; 15; 16; 24; 25; 26; 35; 44; 53; 62; 71; 80];
   [0; 1; 2; 9; 10; 11; 19; 20; 21; 22; 23; 24; 25; 26; 27; 36; 45; 54; 63; 72];
   [0; 1; 2; 9; 10; 11; 18; 20; 21; 22; 23; 24; 25; 26; 28; 37; 46; 55; 64; 73];
   [0; 1; 2; 9; 10; 11; 18; 19; 21; 22; 23; 24; 25; 26; 29; 38; 47; 56; 65; 74];
   [3; 4; 5; 12; 13; 14; 18; 19; 20; 22; 23; 24; 25; 26; 30; 39; 48; 57; 66; 75];
   [3; 4; 5; 12; 13; 14; 18; 19; 20; 21; 23; 24; 25; 26; 31; 40; 49; 58; 67; 76];
   [3; 4; 5; 12; 13; 14; 18; 19; 20; 21; 22; 24; 25; 26; 32; 41; 50; 59; 68; 77];
   [6; 7; 8; 15; 16; 17; 18; 19; 20; 21; 22; 23; 25; 26; 33; 42; 51; 60; 69; 78];
   [6; 7; 8; 15; 16; 17; 18; 19; 20; 21; 22; 23; 24; 26; 34; 43; 52; 61; 70; 79];
   [6; 7; 8; 15; 16; 17; 18; 19; 20; 21; 22; 23; 24; 25; 35; 44; 53; 62; 71; 80];
   [0; 9; 18; 28; 29; 30; 31; 32; 33; 34; 35; 36; 37; 38; 45; 46; 47; 54; 63; 72];
   [1; 10; 19; 27; 29; 30; 31; 32; 33; 34; 35; 36; 37; 38; 45; 46; 47; 55; 64; 73];
   [2; 11; 20; 27; 28; 30; 31; 32; 33; 34; 35; 36; 37; 38; 45; 46; 47; 56; 65; 74];
   [3; 12; 21; 27; 28; 29; 31; 32; 33; 34; 35; 39; 40; 41; 48; 49; 50; 57; 66; 75];
   [4; 13; 22; 27; 28; 29; 30; 32; 33; 34; 35; 39; 40; 41; 48; 49; 50; 58; 67; 76];
   [5; 14; 23; 27; 28; 29; 30; 31; 33; 34; 35; 39; 40; 41; 48; 49; 50; 59; 68; 77];
   [6; 15; 24; 27; 28; 29; 30; 31; 32; 34; 35; 42; 43; 44; 51; 52; 53; 60; 69; 78];
   [7; 16; 25; 27; 28; 29; 30; 31; 32; 33; 35; 42; 43; 44; 51; 52; 53; 61; 70; 79];
   [8; 17; 26; 27; 28; 29; 30; 31; 32; 33; 34; 42; 43; 44; 51; 52; 53; 62; 71; 80];
   [0; 9; 18; 27; 28; 29; 37; 38; 39; 40; 41; 42; 43; 44; 45; 46; 47; 54; 63; 72];
   [1; 10; 19; 27; 28; 29; 36; 38; 39; 40; 41; 42; 43; 44; 45; 46; 47; 55; 64; 73];
   [2; 11; 20; 27; 28; 29; 36; 37; 39; 40; 41; 42; 43; 44; 45; 46; 47; 56; 65; 74];
   [3; 12; 21; 30; 31; 32; 36; 37; 38; 40; 41; 42; 43; 44; 48; 49; 50; 57; 66; 75];
   [4; 13; 22; 30; 31; 32; 36; 37; 38; 39; 41; 42; 43; 44; 48; 49; 50; 58; 67; 76];
   [5; 14; 23; 30; 31; 32; 36; 37; 38; 39; 40; 42; 43; 44; 48; 49; 50; 59; 68; 77];
   [6; 15; 24; 33; 34; 35; 36; 37; 38; 39; 40; 41; 43; 44; 51; 52; 53; 60; 69; 78];
   [7; 16; 25; 33; 34; 35; 36; 37; 38; 39; 40; 41; 42; 44; 51; 52; 53; 61; 70; 79];
   [8; 17; 26; 33; 34; 35; 36; 37; 38; 39; 40; 41; 42; 43; 51; 52; 53; 62; 71; 80];
   [0; 9; 18; 27; 28; 29; 36; 37; 38; 46; 47; 48; 49; 50; 51; 52; 53; 54; 63; 72];
   [1; 10; 19; 27; 28; 29; 36; 37; 38; 45; 47; 48; 49; 50; 51; 52; 53; 55; 64; 73];
   [2; 11; 20; 27; 28; 29; 36; 37; 38; 45; 46; 48; 49; 50; 51; 52; 53; 56; 65; 74];
   [3; 12; 21; 30; 31; 32; 39; 40; 41; 45; 46; 47; 49; 50; 51; 52; 53; 57; 66; 75];
   [4; 13; 22; 30; 31; 32; 39; 40; 41; 45; 46; 47; 48; 50; 51; 52; 53; 58; 67; 76];
   [5; 14; 23; 30; 31; 32; 39; 40; 41; 45; 46; 47; 48; 49; 51; 52; 53; 59; 68; 77];
   [6; 15; 24; 33; 34; 35; 42; 43; 44; 45; 46; 47; 48; 49; 50; 52; 53; 60; 69; 78];
   [7; 16; 25; 33; 34; 35; 42; 43; 44; 45; 46; 47; 48; 49; 50; 51; 53; 61; 70; 79];
   [8; 17; 26; 33; 34; 35; 42; 43; 44; 45; 46; 47; 48; 49; 50; 51; 52; 62; 71; 80];
   [0; 9; 18; 27; 36; 45; 55; 56; 57; 58; 59; 60; 61; 62; 63; 64; 65; 72; 73; 74];
   [1; 10; 19; 28; 37; 46; 54; 56; 57; 58; 59; 60; 61; 62; 63; 64; 65; 72; 73; 74];
   [2; 11; 20; 29; 38; 47; 54; 55; 57; 58; 59; 60; 61; 62; 63; 64; 65; 72; 73; 74];
   [3; 12; 21; 30; 39; 48; 54; 55; 56; 58; 59; 60; 61; 62; 66; 67; 68; 75; 76; 77];
   [4; 13; 22; 31; 40; 49; 54; 55; 56; 57; 59; 60; 61; 62; 66; 67; 68; 75; 76; 77];
   [5; 14; 23; 32; 41; 50; 54; 55; 56; 57; 58; 60; 61; 62; 66; 67; 68; 75; 76; 77];
   [6; 15; 24; 33; 42; 51; 54; 55; 56; 57; 58; 59; 61; 62; 69; 70; 71; 78; 79; 80];
   [7; 16; 25; 34; 43; 52; 54; 55; 56; 57; 58; 59; 60; 62; 69; 70; 71; 78; 79; 80];
   [8; 17; 26; 35; 44; 53; 54; 55; 56; 57; 58; 59; 60; 61; 69; 70; 71; 78; 79; 80];
   [0; 9; 18; 27; 36; 45; 54; 55; 56; 64; 65; 66; 67; 68; 69; 70; 71; 72; 73; 74];
   [1; 10; 19; 28; 37; 46; 54; 55; 56; 63; 65; 66; 67; 68; 69; 70; 71; 72; 73; 74];
   [2; 11; 20; 29; 38; 47; 54; 55; 56; 63; 64; 66; 67; 68; 69; 70; 71; 72; 73; 74];
   [3; 12; 21; 30; 39; 48; 57; 58; 59; 63; 64; 65; 67; 68; 69; 70; 71; 75; 76; 77];
   [4; 13; 22; 31; 40; 49; 57; 58; 59; 63; 64; 65; 66; 68; 69; 70; 71; 75; 76; 77];
   [5; 14; 23; 32; 41; 50; 57; 58; 59; 63; 64; 65; 66; 67; 69; 70; 71; 75; 76; 77];
   [6; 15; 24; 33; 42; 51; 60; 61; 62; 63; 64; 65; 66; 67; 68; 70; 71; 78; 79; 80];
   [7; 16; 25; 34; 43; 52; 60; 61; 62; 63; 64; 65; 66; 67; 68; 69; 71; 78; 79; 80];
   [8; 17; 26; 35; 44; 53; 60; 61; 62; 63; 64; 65; 66; 67; 68; 69; 70; 78; 79; 80];
   [0; 9; 18; 27; 36; 45; 54; 55; 56; 63; 64; 65; 73; 74; 75; 76; 77; 78; 79; 80];
   [1; 10; 19; 28; 37; 46; 54; 55; 56; 63; 64; 65; 72; 74; 75; 76; 77; 78; 79; 80];
   [2; 11; 20; 29; 38; 47; 54; 55; 56; 63; 64; 65; 72; 73; 75; 76; 77; 78; 79; 80];
   [3; 12; 21; 30; 39; 48; 57; 58; 59; 66; 67; 68; 72; 73; 74; 76; 77; 78; 79; 80];
   [4; 13; 22; 31; 40; 49; 57; 58; 59; 66; 67; 68; 72; 73; 74; 75; 77; 78; 79; 80];
   [5; 14; 23; 32; 41; 50; 57; 58; 59; 66; 67; 68; 72; 73; 74; 75; 76; 78; 79; 80];
   [6; 15; 24; 33; 42; 51; 60; 61; 62; 69; 70; 71; 72; 73; 74; 75; 76; 77; 79; 80];
   [7; 16; 25; 34; 43; 52; 60; 61; 62; 69; 70; 71; 72; 73; 74; 75; 76; 77; 78; 80];
   [8; 17; 26; 35; 44; 53; 60; 61; 62; 69; 70; 71; 72; 73; 74; 75; 76; 77; 78; 79]].

(** src/board/positions.rs:751-830 [MINILINE_NEIGHBORS]: two line neighbours, two block neighbours *)
Definition MINILINE_NEIGHBORS : list (nat * nat * (nat * nat)) :=
  [(1, 2, (3, 6));
   (2, 0, (4, 7));
   (0, 1, (5, 8));
   (4, 5, (6, 0));
   (5, 3, (7, 1));
   (3, 4, (8, 2));
   (7, 8, (0, 3));
   (8, 6, (1, 4));
   (6, 7, (2, 5));
   (10, 11, (12, 15));
   (11, 9, (13, 16));
   (9, 10, (14, 17));
   (13, 14, (15, 9));
   (14, 12, (16, 10));
   (12, 13, (17, 11));
   (16, 17, (9, 12));
   (17, 15, (10, 13));
   (15, 16, (11, 14));
   (19, 20, (21, 24));
   (20, 18, (22, 25));
   (18, 19, (23, 26));
   (22, 23, (24, 18));
   (23, 21, (25, 19));
   (21, 22, (26, 20));
   (25, 26, (18, 21));
   (26, 24, (19, 22));
   (24, 25, (20, 23));
   (28, 29, (30, 33));
   (29, 27, (31, 34));
   (27, 28, (32, 35));
   (31, 32, (33, 27));
   (32, 30, (34, 28));
   (30, 31, (35, 29));
   (34, 35, (27, 30));
   (35, 33, (28, 31));
   (33, 34, (29, 32));
   (37, 38, (39, 42));
   (38, 36, (40, 43));
   (36, 37, (41, 44));
   (40, 41, (42, 36));
   (41, 39, (43, 37));
   (39, 40, (44, 38));
   (43, 44, (36, 39));
   (44, 42, (37, 40));
   (42, 43, (38, 41));
   (46, 47, (48, 51));
   (47, 45, (49, 52));
   (45, 46, (50, 53));
   (49, 50, (51, 45));
   (50, 48, (52, 46));
   (48, 49, (53, 47));
   (52, 53, (45, 48));
   (53, 51, (46, 49));
   (51, 52, (47, 50))].

(** src/board/positions.rs:12-31 [row], [col], [block], [band], [stack] *)
Definition p_row (cell : nat) : nat := cell / 9.
Definition p_col (cell : nat) : nat := cell mod 9.
Definition p_block (cell : nat) : res nat := aget BLOCK cell.
Definition p_band (cell : nat) : nat := cell / 27.
Definition p_stack (cell : nat) : nat := p_col cell / 3.

(** src/board/positions.rs:699-703 conversions from [Cell], also the methods of src/board/positions.rs:475-479 *)
Definition row_of_cell (c : nat) : res nat := chk 9 (p_row c).
Definition col_of_cell (c : nat) : res nat := chk 9 (p_col c).
Definition block_of_cell (c : nat) : res nat := chk 9 (3 * p_band c + p_stack c).
Definition band_of_cell (c : nat) : res nat := chk 3 (p_band c).
Definition stack_of_cell (c : nat) : res nat := chk 3 (p_stack c).

(** src/board/positions.rs:704-713 positions of a cell; src/board/positions.rs:510-522 [row_pos], [col_pos], [block_pos] *)
Definition row_pos (c : nat) : nat := p_col c.
Definition col_pos (c : nat) : nat := p_row c.
Definition block_pos (c : nat) : nat := p_row c mod 3 * 3 + p_col c mod 3.
Definition band_pos (c : nat) : nat := p_row c mod 3 * 9 + p_col c.

(** src/board/positions.rs:684-693 conversions to [Line], [House] and [Chute]; the offsets are src/consts.rs:5-6 *)
Definition COL_OFFSET : nat := 9.
Definition BLOCK_OFFSET : nat := 18.
Definition house_of_row (r : nat) : res nat := chk 27 r.
Definition house_of_col (c : nat) : res nat := chk 27 (c + COL_OFFSET).
Definition house_of_block (b : nat) : res nat := chk 27 (b + BLOCK_OFFSET).
Definition house_of_line (l : nat) : res nat := chk 27 l.
Definition line_of_row (r : nat) : res nat := chk 18 r.
Definition line_of_col (c : nat) : res nat := chk 18 (c + COL_OFFSET).
Definition chute_of_band (b : nat) : res nat := chk 6 b.
Definition chute_of_stack (s : nat) : res nat := chk 6 (s + 3).

(** src/board/positions.rs:528-530 [Cell::houses] *)
Definition cell_houses (c : nat) : res (list nat) :=
  r <- row_of_cell c; hr <- house_of_row r;
  k <- col_of_cell c; hk <- house_of_col k;
  b <- block_of_cell c; hb <- house_of_block b;
  Ok [hr; hk; hb].

(** src/board/positions.rs:283-307 [LineType], [HouseType] *)
Inductive line_type := LRow (r : nat) | LCol (c : nat).
Inductive house_type := HRow (r : nat) | HCol (c : nat) | HBlock (b : nat).
(** src/board/positions.rs:326-331, 344-349 [ChuteType], [MiniLineType] *)
Inductive chute_type := CBand (b : nat) | CStack (s : nat).
Inductive miniline_type := MRow (m : nat) | MCol (m : nat).

(** src/board/positions.rs:292-298 [Line::categorize] *)
Definition line_categorize (l : nat) : res line_type :=
  if l <? BLOCK_OFFSET then
    if l <? COL_OFFSET then r <- chk 9 l; Ok (LRow r) else c <- chk 9 (l - COL_OFFSET); Ok (LCol c)
  else Panic.

(** src/board/positions.rs:316-323 [House::categorize] *)
Definition house_categorize (h : nat) : res house_type :=
  if h <? 27 then
    if h <=? 8 then r <- chk 9 h; Ok (HRow r)
    else if h <=? 17 then c <- chk 9 (h - COL_OFFSET); Ok (HCol c)
    else b <- chk 9 (h - BLOCK_OFFSET); Ok (HBlock b)
  else Panic.

(** src/board/positions.rs:335-341 [Chute::categorize] *)
Definition chute_categorize (c : nat) : res chute_type :=
  if c <? 6 then if c <? 3 then b <- chk 3 c; Ok (CBand b) else s <- chk 3 (c - 3); Ok (CStack s) else Panic.

(** src/board/positions.rs:353-359 [MiniLine::categorize] *)
Definition miniline_categorize (m : nat) : res miniline_type :=
  if m <? 54 then if m <? 27 then x <- chk 27 m; Ok (MRow x) else x <- chk 27 (m - 27); Ok (MCol x) else Panic.

(** src/board/positions.rs:385-448 [into_cells], which defines [cells], of the various types; a [u128] shift.  The octal constants of the source in
    decimal: 0o777 = 511, 0o7 = 7, 0o007007007 = 1838599, 0o001001001 = 262657, 0o777777777 = 134217727. *)
Definition shl (m : N) (k : nat) : N := N.modulo (N.shiftl m (N.of_nat k)) (2 ^ 128).
Definition COL_MASK : N := 4731607904558235517441.
Definition STACK_MASK : N := 33121255331907648622087.
Definition cells_of_cell (c : nat) : N := shl 1 c.
Definition cells_of_row (r : nat) : N := shl 511 (9 * r).
Definition cells_of_col (c : nat) : N := shl COL_MASK c.
Definition cells_of_block (b : nat) : N :=
  let band := b / 3 in let stack := b mod 3 in shl 1838599 (band * 27 + stack * 3).
Definition cells_of_line (l : nat) : res N :=
  t <- line_categorize l; Ok (match t with LRow r => cells_of_row r | LCol c => cells_of_col c end).
Definition cells_of_house (h : nat) : res N :=
  t <- house_categorize h;
  Ok (match t with HRow r => cells_of_row r | HCol c => cells_of_col c | HBlock b => cells_of_block b end).
Definition cells_of_minirow (m : nat) : N := shl 7 (3 * m).
Definition cells_of_minicol (m : nat) : N :=
  let band := m mod 3 in let col := m / 3 in shl 262657 (band * 27 + col).
Definition cells_of_miniline (m : nat) : res N :=
  t <- miniline_categorize m; Ok (match t with MRow x => cells_of_minirow x | MCol x => cells_of_minicol x end).
Definition cells_of_band (b : nat) : N := shl 134217727 (27 * b).
Definition cells_of_stack (s : nat) : N := shl STACK_MASK (3 * s).
Definition cells_of_chute (c : nat) : res N :=
  t <- chute_categorize c; Ok (match t with CBand b => cells_of_band b | CStack s => cells_of_stack s end).

(** src/board/positions.rs:535-540 [Cell::neighbors] *)
Definition neighbors (c : nat) : res (list nat) := aget HOUSE_NEIGHBORS_OF_CELL c.

(** src/board/positions.rs:545-548 [Cell::neighbors_set] *)
Definition neighbors_set (c : nat) : res N :=
  r <- row_of_cell c; k <- col_of_cell c; b <- block_of_cell c; s <- as_set ECell c;
  Ok (set_xor (set_or (set_or (cells_of_row r) (cells_of_col k)) (cells_of_block b)) s).

(** src/board/positions.rs:555-561 [Chute::minilines] *)
Definition chute_minilines (c : nat) : list nat := map (fun i => c * 9 + i) (seq 0 9).

(** src/board/positions.rs:572-579 [MiniLine::neighbors] *)
Definition miniline_neighbors (m : nat) : res (list nat * list nat) :=
  x <- aget MINILINE_NEIGHBORS m;
  let '(l1, l2, (b1, b2)) := x in Ok ([l1; l2], [b1; b2]).

(** src/board/positions.rs:582-584 [MiniLine::chute] *)
Definition miniline_chute (m : nat) : res nat := chk 6 (m / 9).

(** src/board/positions.rs:278-280 [Cell::from_coords] *)
Definition from_coords (row col : nat) : res nat := chk 81 (row * 9 + col).

(** src/board/positions.rs:611-653 [cell_at] *)
Definition row_cell_at (r pos : nat) : res nat := from_coords r pos.
Definition col_cell_at (c pos : nat) : res nat := from_coords pos c.
Definition block_cell_at (b pos : nat) : res nat :=
  let band := b / 3 in
  let stack := b mod 3 in
  let row_in_band := pos / 3 in
  let col_in_stack := pos mod 3 in
  from_coords (band * 3 + row_in_band) (stack * 3 + col_in_stack).
Definition line_cell_at (l pos : nat) : res nat :=
  t <- line_categorize l; match t with LRow r => row_cell_at r pos | LCol c => col_cell_at c pos end.
Definition house_cell_at (h pos : nat) : res nat :=
  t <- house_categorize h;
  match t with HRow r => row_cell_at r pos | HCol c => col_cell_at c pos | HBlock b => block_cell_at b pos end.

(** The loop of src/board/positions.rs:595-608 [cells_at] over the positions yielded by the iterator *)
Fixpoint cells_at_loop (cell_at : nat -> res nat) (l : list nat) (cells : N) : res N :=
  match l with
  | [] => Ok cells
  | p :: t => c <- cell_at p; s <- as_set ECell c; cells_at_loop cell_at t (set_or cells s)
  end.
(** src/board/positions.rs:595-608 [cells_at] for houses and lines *)
Definition house_cells_at (h : nat) (positions : N) : res N :=
  l <- set_iter EPosHouse positions; cells_at_loop (house_cell_at h) l 0%N.
Definition line_cells_at (h : nat) (positions : N) : res N :=
  l <- set_iter EPosLine positions; cells_at_loop (line_cell_at h) l 0%N.

(** src/board/positions.rs:728-733 [as_line_set] *)
Definition as_line_set (m : N) : res N :=
  if (m <=? set_all EPosLine)%N then from_bits EPosLine m else Panic.
