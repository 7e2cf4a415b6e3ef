(** Specification of sudoku symmetries and of the canonical form.  This file refers to no model definition. *)
From Coq Require Import List Arith Bool Permutation.
From Verif Require Import Spec.
Import ListNotations.

(** A permutation of the nine rows (or columns), given as the list of sources, that keeps together the three
    lines of each band (or stack): lines of one chute come from one chute. *)
Definition line_perm (l : list nat) : Prop :=
  Permutation l (seq 0 9) /\
  (forall i j, i < 9 -> j < 9 -> i / 3 = j / 3 -> nth i l 0 / 3 = nth j l 0 / 3).

(** A symmetry: optional transposition, a permutation of rows and one of columns, a relabelling of digits
    ([nth (d-1) s_digits] is the new name of [d]). *)
Record sym := Sym { s_tr : bool; s_rows : list nat; s_cols : list nat; s_digits : list nat }.

Definition sym_ok (s : sym) : Prop :=
  line_perm (s_rows s) /\ line_perm (s_cols s) /\ Permutation (s_digits s) (seq 1 9).

(** The cell whose content moves to cell [c]. *)
Definition source (s : sym) (c : nat) : nat :=
  let r := nth (c / 9) (s_rows s) 0 in
  let k := nth (c mod 9) (s_cols s) 0 in
  if s_tr s then 9 * k + r else 9 * r + k.

(** New name of a digit; empty cells stay empty. *)
Definition rename (l : list nat) (d : nat) : nat := if d =? 0 then 0 else nth (d - 1) l 0.

(** The image of a grid under a symmetry. *)
Definition act (s : sym) (g : grid) : grid := map (fun c => rename (s_digits s) (at_ g (source s c))) (seq 0 81).

(** Two grids are equivalent when some symmetry maps one to the other. *)
Definition equivalent (g g' : grid) : Prop := exists s, sym_ok s /\ act s g = g'.

(** Lexicographic order of lists of equal length. *)
Definition lex_lt (a b : list nat) : Prop :=
  exists p x y s t, a = p ++ x :: s /\ b = p ++ y :: t /\ x < y.
Definition lex_le (a b : list nat) : Prop := a = b \/ lex_lt a b.

(** [m] is the lexicographically smallest grid equivalent to [g]. *)
Definition minlex_of (g m : grid) : Prop :=
  equivalent g m /\ forall g', equivalent g g' -> lex_le m g'.

(** [n] is the number of symmetries that map [g] to itself. *)
Definition automorphism_count (g : grid) (n : nat) : Prop :=
  exists l, NoDup l /\ (forall s, In s l <-> sym_ok s /\ act s g = g) /\ length l = n.
