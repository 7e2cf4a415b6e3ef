(** What the example programs are to print. *)
From Coq Require Import List Arith NArith Bool.
From Verif Require Import Spec ParseSpec.
Import ListNotations.
Local Open Scope N_scope.

(** The text [p] occurs in [s]. *)
Definition occurs (p s : text) : Prop := exists a b, s = a ++ p ++ b.

(** The pieces with the separator between them. *)
Fixpoint joined (sep : text) (pieces : list text) : text :=
  match pieces with
  | [] => []
  | [x] => x
  | x :: t => x ++ sep ++ joined sep t
  end.

(** The word in front of each board: Grid. *)
Definition grid_word : text := [71; 114; 105; 100].

(** The file consists of the pieces that follow the word; what precedes the first one is ignored. *)
Definition boards_text (file : text) (pieces : list text) : Prop :=
  exists before, file = joined grid_word (before :: pieces) /\ Forall (fun p => ~ occurs grid_word p) (before :: pieces).

(** The first nine lines with at least nine cells write the board. *)
Definition board_of (piece : text) (g : grid) : Prop :=
  exists ls rows, lines_of piece ls /\ lax_rows ls rows /\ (9 <= length rows)%nat /\ g = concat (firstn 9 rows).

(** The number in the top left corner. *)
Definition corner (s : grid) : N := N.of_nat (100 * at_ s 0 + 10 * at_ s 1 + at_ s 2).

Definition total (l : list N) : N := fold_right N.add 0 l.

(** The decimal notation of a number: digits with this value and no superfluous zero in front. *)
Definition decimal_value (t : text) : N := fold_left (fun v c => 10 * v + (c - 48)) t 0.
Definition notation (n : N) (t : text) : Prop :=
  t <> [] /\ Forall (fun c => 48 <= c <= 57) t /\ decimal_value t = n /\ (hd 0 t = 48 -> length t = 1%nat).

(** The cells of a grid as a line. *)
Definition digits_line (s : grid) : text := map (fun d => N.of_nat d + 48) s.

(** [s] is the only solution of [g]. *)
Definition the_solution (g s : grid) : Prop := solution_of g s /\ forall s', solution_of g s' -> s' = s.

(** A line with the 81 cells of the grid, then nothing or a delimiter. *)
Definition line_format (s : text) (g : grid) : Prop :=
  exists cs rest, s = cs ++ rest /\ length cs = 81%nat /\ Forall cell_char cs /\ ends_or delimiter rest /\ g = map cell_digit cs.
