(** Specification of the unfinished searches: avoidable rectangles, almost locked sets, links between candidates. *)
From Coq Require Import List Arith NArith Bool.
From Verif Require Import Spec TableSpec GeomSpec.
Import ListNotations.

(** Candidates: [cand c d] says that digit [d] is possible in cell [c]. *)
Definition pencil := nat -> nat -> Prop.
(** The candidates given by 81 sets of digits (bit [d - 1] for digit [d]) *)
Definition digit_sets (poss : list N) : Prop := length poss = 81 /\ Forall (fun m => forall i, mem m i -> i < 9) poss.
Definition marks (poss : list N) : pencil := fun c d => 1 <= d /\ mem (nth c poss 0%N) (d - 1).
(** The solution uses only these candidates. *)
Definition fits (cand : pencil) (s : grid) : Prop := solved s /\ forall c, c < 81 -> cand c (at_ s c).

(** * Avoidable rectangles *)

(** Two rows and two columns whose crossings lie in exactly two blocks *)
Definition rectangle (r1 r2 c1 c2 : nat) : Prop := r1 < r2 < 9 /\ c1 < c2 < 9 /\ (r1 / 3 = r2 / 3 <-> c1 / 3 <> c2 / 3).
Definition corner (r1 r2 c1 c2 c : nat) : Prop := exists r k, (r = r1 \/ r = r2) /\ (k = c1 \/ k = c2) /\ c = 9 * r + k.

(** One corner [c] is empty; the others were filled by the player, with the two digits [d] and [b]; of these, [d] is a
    candidate of the empty corner and [b] is not. *)
Definition avoidable (filled clues : grid) (cand : pencil) (r1 r2 c1 c2 c d : nat) : Prop :=
  rectangle r1 r2 c1 c2 /\ corner r1 r2 c1 c2 c /\ at_ filled c = 0 /\
  exists b, d <> b /\
    (forall x, corner r1 r2 c1 c2 x -> x <> c -> at_ clues x = 0 /\ at_ filled x <> 0 /\ (at_ filled x = d \/ at_ filled x = b)) /\
    (exists x, corner r1 r2 c1 c2 x /\ x <> c /\ at_ filled x = d) /\ (exists x, corner r1 r2 c1 c2 x /\ x <> c /\ at_ filled x = b) /\
    cand c d /\ ~ cand c b.

(** The lines of the rectangle, rows 0..8 and columns 9..17 *)
Definition four_lines (r1 r2 c1 c2 l : nat) : Prop := l = r1 \/ l = r2 \/ l = 9 + c1 \/ l = 9 + c2.

(** * Almost locked sets *)

(** [n] different elements satisfy [P]. *)
Definition has_size (P : nat -> Prop) (n : nat) : Prop := exists l, NoDup l /\ (forall x, In x l <-> P x) /\ length l = n.
(** [n] cells of a house that each have several candidates have [n] + 1 candidates altogether. *)
Definition almost_locked (cand : pencil) (h n : nat) (cells digits : nat -> Prop) : Prop :=
  (forall c, cells c -> c < 81 /\ in_house h c /\ exists d d', d <> d' /\ cand c d /\ cand c d') /\
  (forall d, digits d <-> exists c, cells c /\ cand c d) /\ has_size cells n /\ has_size digits (n + 1).

(** * Links *)

(** The table with the possible positions of each digit in each house that belongs to the candidates *)
Definition places (cand : pencil) (pos : list (list N)) : Prop :=
  length pos = 27 /\ forall h, h < 27 -> length (nth h pos []) = 9 /\
    forall d p, 1 <= d <= 9 -> (mem (nth (d - 1) (nth h pos []) 0%N) p <-> exists c, c < 81 /\ in_house h c /\ pos_in_house h c = p /\ cand c d).

(** Two different candidates of a cell; two cells of a house with the same candidate *)
Definition in_cell (cand : pencil) (x y : nat * nat) : Prop :=
  fst x = fst y /\ snd x <> snd y /\ fst x < 81 /\ cand (fst x) (snd x) /\ cand (fst y) (snd y).
Definition in_unit (cand : pencil) (h : nat) (x y : nat * nat) : Prop :=
  snd x = snd y /\ fst x <> fst y /\ fst x < 81 /\ fst y < 81 /\ h < 27 /\ in_house h (fst x) /\ in_house h (fst y) /\ cand (fst x) (snd x) /\ cand (fst y) (snd y).
(** The cell has no other candidate; the house has no other cell for the digit. *)
Definition cell_pair (cand : pencil) (x y : nat * nat) : Prop := in_cell cand x y /\ forall d, cand (fst x) d -> d = snd x \/ d = snd y.
Definition house_pair (cand : pencil) (h : nat) (x y : nat * nat) : Prop :=
  in_unit cand h x y /\ forall c, c < 81 -> in_house h c -> cand c (snd x) -> c = fst x \/ c = fst y.
Definition paired (cand : pencil) (x : nat * nat) : Prop := exists y, cell_pair cand x y.

(** What a strong link and a weak link are expected to be *)
Definition strong_link (cand : pencil) (x y : nat * nat) : Prop := cell_pair cand x y \/ exists h, house_pair cand h x y.
Definition weak_link (cand : pencil) (x y : nat * nat) : Prop := in_cell cand x y \/ exists h, in_unit cand h x y.
