(** The literals of the example programs. *)
From Coq Require Import String List NArith Ascii.
From Verif Require Import Errors.
Import ListNotations.
Local Open Scope string_scope.

(** Lines with a newline after each *)
Definition text_lines (l : list string) : list N := flat_map (fun s => lit s ++ [10%N])%list l.
(** without a newline at the end *)
Definition text_between (l : list string) : list N := removelast (text_lines l).

(** examples/p096_sudoku.txt:1-20, the first two boards of the file *)
Definition two_boards : list N := text_lines
  ["Grid 01";
   "003020600";
   "900305001";
   "001806400";
   "008102900";
   "700000008";
   "006708200";
   "002609500";
   "800203009";
   "005010300";
   "Grid 02";
   "200080300";
   "060070084";
   "030500209";
   "000105408";
   "000000000";
   "402706000";
   "301007040";
   "720040060";
   "004010003"].

(** examples/example.rs:5-14; the lines of the literal *)
Definition example_text : list N := text_between
  ["___|2__|_63";
   "3__|__5|4_1";
   "__1|__3|98_";
   "___|___|_9_";
   "___|538|___";
   "_3_|___|___";
   "_26|3__|5__";
   "5_3|7__|__8";
   "47_|__1|___"].

(** src/lib.rs:30 *)
Definition doc_line : list N := lit "...2...633....54.1..1..398........9....538....3........263..5..5.37....847...1...".

(** The boards of [two_boards], examples/p096_sudoku.txt:2-10 *)
Definition board_one : list nat :=
  [0; 0; 3; 0; 2; 0; 6; 0; 0; 9; 0; 0; 3; 0; 5; 0; 0; 1; 0; 0; 1; 8; 0; 6; 4; 0; 0; 0; 0; 8; 1; 0; 2;
   9; 0; 0; 7; 0; 0; 0; 0; 0; 0; 0; 8; 0; 0; 6; 7; 0; 8; 2; 0; 0; 0; 0; 2; 6; 0; 9; 5; 0; 0; 8; 0; 0;
   2; 0; 3; 0; 0; 9; 0; 0; 5; 0; 1; 0; 3; 0; 0].
(** examples/p096_sudoku.txt:12-20 *)
Definition board_two : list nat :=
  [2; 0; 0; 0; 8; 0; 3; 0; 0; 0; 6; 0; 0; 7; 0; 0; 8; 4; 0; 3; 0; 5; 0; 0; 2; 0; 9; 0; 0; 0; 1; 0; 5;
   4; 0; 8; 0; 0; 0; 0; 0; 0; 0; 0; 0; 4; 0; 2; 7; 0; 6; 0; 0; 0; 3; 0; 1; 0; 0; 7; 0; 4; 0; 7; 2; 0;
   0; 4; 0; 0; 6; 0; 0; 0; 4; 0; 1; 0; 0; 0; 3].
(** Their solutions *)
Definition solved_one : list nat :=
  [4; 8; 3; 9; 2; 1; 6; 5; 7; 9; 6; 7; 3; 4; 5; 8; 2; 1; 2; 5; 1; 8; 7; 6; 4; 9; 3; 5; 4; 8; 1; 3; 2;
   9; 7; 6; 7; 2; 9; 5; 6; 4; 1; 3; 8; 1; 3; 6; 7; 9; 8; 2; 4; 5; 3; 7; 2; 6; 8; 9; 5; 1; 4; 8; 1; 4;
   2; 5; 3; 7; 6; 9; 6; 9; 5; 4; 1; 7; 3; 8; 2].
(** second board *)
Definition solved_two : list nat :=
  [2; 4; 5; 9; 8; 1; 3; 7; 6; 1; 6; 9; 2; 7; 3; 5; 8; 4; 8; 3; 7; 5; 6; 4; 2; 1; 9; 9; 7; 6; 1; 2; 5;
   4; 3; 8; 5; 1; 3; 4; 9; 8; 6; 2; 7; 4; 8; 2; 7; 3; 6; 9; 5; 1; 3; 9; 1; 6; 5; 7; 8; 4; 2; 7; 2; 8;
   3; 4; 9; 1; 6; 5; 6; 5; 4; 8; 1; 2; 7; 9; 3].
(** The board of [doc_line], src/lib.rs:30 *)
Definition doc_board : list nat :=
  [0; 0; 0; 2; 0; 0; 0; 6; 3; 3; 0; 0; 0; 0; 5; 4; 0; 1; 0; 0; 1; 0; 0; 3; 9; 8; 0; 0; 0; 0; 0; 0; 0;
   0; 9; 0; 0; 0; 0; 5; 3; 8; 0; 0; 0; 0; 3; 0; 0; 0; 0; 0; 0; 0; 0; 2; 6; 3; 0; 0; 5; 0; 0; 5; 0; 3;
   7; 0; 0; 0; 0; 8; 4; 7; 0; 0; 0; 1; 0; 0; 0].
(** and its solution *)
Definition doc_solved : list nat :=
  [8; 5; 4; 2; 1; 9; 7; 6; 3; 3; 9; 7; 8; 6; 5; 4; 2; 1; 2; 6; 1; 4; 7; 3; 9; 8; 5; 7; 8; 5; 1; 2; 6;
   3; 9; 4; 6; 4; 9; 5; 3; 8; 1; 7; 2; 1; 3; 2; 9; 4; 7; 8; 5; 6; 9; 2; 6; 3; 8; 4; 5; 1; 7; 5; 1; 3;
   7; 9; 2; 6; 4; 8; 4; 7; 8; 6; 5; 1; 2; 3; 9].

(** The texts of the documentation: src/board/sudoku.rs:310 *)
Definition doc_text_line : list N := text_lines
  ["..3.2.6..9..3.5..1..18.64....81.29..7.......8..67.82....26.95..8..2.3..9..5.1.3.. optional comment"].
(** src/board/sudoku.rs:400-408 *)
Definition doc_text_bare : list N := text_lines
  ["__3_2_6__ optional comment";
   "9__3_5__1 another comment";
   "__18_64__";
   "__81_29__";
   "7_______8";
   "__67_82__";
   "__26_95__";
   "8__2_3__9";
   "__5_1_3__"].
(** src/board/sudoku.rs:414-424 *)
Definition doc_text_delimited : list N := text_lines
  ["__3|_2_|6__ optional comment";
   "9__|3_5|__1 another comment";
   "__1|8_6|4__";
   "---+---+--- comment: ""-----------"", i.e. '-' 11 times is also allowed";
   "__8|1_2|9__          delimiters have to be consistent across the entire";
   "7__|___|__8          grid";
   "__6|7_8|2__";
   "---+---+---";
   "__2|6_9|5__";
   "8__|2_3|__9";
   "__5|_1_|3__"].
(** src/board/sudoku.rs:782-793, after an initial newline *)
Definition doc_display : list N := (10%N :: text_between
  ["___ 5__ ___";
   "___ ___ ___";
   "___ ___ ___";
   "";
   "___ ___ ___";
   "123 456 789";
   "___ ___ ___";
   "";
   "___ ___ ___";
   "___ ___ ___";
   "___ ___ ___"])%list.
(** src/board/sudoku.rs:774-776 *)
Definition doc_grid : list nat := ([0; 0; 0; 5] ++ repeat 0 32 ++ seq 1 9 ++ repeat 0 36)%list.
