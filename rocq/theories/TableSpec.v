(** What the lookup tables of the solver are supposed to contain, in terms of the cells of a band.  Refers to no model
    definition.

    A band has 3 rows and 27 cells; cell [i] is in row [i / 9], column [i mod 9] and block [i mod 9 / 3].  A minirow is the
    intersection of a row and a block, minirow [t] is in row [t / 3] and block [t mod 3]; cell [i] is in minirow [i / 3]. *)
From Coq Require Import Arith NArith.

(** Membership in a set given as bit mask. *)
Definition mem (m : N) (i : nat) : Prop := N.testbit m (N.of_nat i) = true.

(** A way to place a digit once in every row and once in every block using only the minirows in [s]:
    [f r] is the block used in row [r]. *)
Definition placement_in (s : N) (f : nat -> nat) : Prop :=
  (forall r, r < 3 -> f r < 3 /\ mem s (3 * r + f r)) /\
  (forall r r', r < 3 -> r' < 3 -> f r = f r' -> r = r').

(** The digit can be in minirow [t]. *)
Definition minirow_possible (s : N) (t : nat) : Prop := exists f, placement_in s f /\ f (t / 3) = t mod 3.

(** The digit must be in minirow [t]: no other possible minirow in its row or block. *)
Definition minirow_locked (s : N) (t : nat) : Prop :=
  minirow_possible s t /\
  forall t', t' < 9 -> minirow_possible s t' -> t' / 3 = t / 3 \/ t' mod 3 = t mod 3 -> t' = t.

(** Column [x] is the only column of its block in the set of columns [cols]. *)
Definition only_column (cols : N) (x : nat) : Prop :=
  mem cols x /\ forall y, y < 9 -> mem cols y -> y / 3 = x / 3 -> y = x.
