(** The patterns of the solving strategies, in terms of cells, houses and candidates only.  Of the model this file uses the
    names of the strategies. *)
From Coq Require Import List Arith.
From Verif Require Import Spec GeomSpec StratSolve.
Import ListNotations.

(** Digit [d] is still possible in cell [c] after the entries and eliminations: the cell has no entry, no cell that shares a
    house with it has the digit, and the candidate has not been eliminated. *)
Definition alive (entries elims : list (nat * nat)) (c d : nat) : Prop :=
  c < 81 /\ 1 <= d <= 9 /\ ~ In (c, d) elims /\ forall c' d', In (c', d') entries -> c <> c' /\ ~ (peers c c' /\ d = d').

Section Patterns.
(** [A c d]: digit [d] is a candidate of cell [c]. *)
Variable A : nat -> nat -> Prop.

(** The only candidate of a cell *)
Definition naked_single : Prop := exists c d, A c d /\ forall d', A c d' -> d' = d.

(** The only place for a digit in a house *)
Definition hidden_single : Prop := exists h c d, h < 27 /\ in_house h c /\ A c d /\ forall c', in_house h c' -> A c' d -> c' = c.

(** The candidates for a digit in a line are all in one block, which has other candidates for it; or the other way around. *)
Definition locked_in (h1 h2 : nat) : Prop := exists d,
  (exists c, in_house h1 c /\ A c d) /\ (forall c, in_house h1 c -> A c d -> in_house h2 c) /\
  (exists c, in_house h2 c /\ ~ in_house h1 c /\ A c d).
Definition locked_candidates : Prop := exists l b, l < 18 /\ 18 <= b < 27 /\ (locked_in l b \/ locked_in b l).

(** [n] cells of a house that together have [n] candidates, of which another cell of the house has one *)
Definition naked_subset (n : nat) : Prop := exists h cs ds, h < 27 /\ NoDup cs /\ length cs = n /\ NoDup ds /\ length ds = n /\
  (forall c, In c cs -> in_house h c /\ exists d, A c d) /\
  (forall d, In d ds <-> exists c, In c cs /\ A c d) /\
  exists c d, in_house h c /\ ~ In c cs /\ In d ds /\ A c d.

(** [n] digits that together have [n] places in a house, one of which has another candidate *)
Definition hidden_subset (n : nat) : Prop := exists h cs ds, h < 27 /\ NoDup cs /\ length cs = n /\ NoDup ds /\ length ds = n /\
  (forall d, In d ds -> exists c, in_house h c /\ A c d) /\
  (forall c, In c cs <-> in_house h c /\ exists d, In d ds /\ A c d) /\
  exists c d, In c cs /\ ~ In d ds /\ A c d.

(** [n] rows with at least two places for a digit, all of them in [n] columns, which have another place for it; or rows and
    columns exchanged *)
Definition fish (n : nat) : Prop := exists d (rows : bool) base cover, NoDup base /\ length base = n /\ NoDup cover /\ length cover = n /\
  (forall l, In l base -> if rows then l < 9 else 9 <= l < 18) /\
  (forall l, In l base -> exists c c', c <> c' /\ in_house l c /\ in_house l c' /\ A c d /\ A c' d) /\
  (forall k, In k cover <-> (if rows then 9 <= k < 18 else k < 9) /\ exists l c, In l base /\ in_house l c /\ in_house k c /\ A c d) /\
  exists k c, In k cover /\ in_house k c /\ (forall l, In l base -> ~ in_house l c) /\ A c d.

(** The candidates of a cell are exactly the digits of the list. *)
Definition has (c : nat) (l : list nat) : Prop := forall d, A c d <-> In d l.

(** Hinge [h] with candidates x and y, pincers with x, z and y, z that do not see each other; z is a candidate of a cell that
    sees both pincers *)
Definition xy_wing : Prop := exists h c1 c2 x y z, NoDup [x; y; z] /\ has h [x; y] /\ has c1 [x; z] /\ has c2 [y; z] /\
  peers h c1 /\ peers h c2 /\ ~ peers c1 c2 /\ exists k, peers c1 k /\ peers c2 k /\ A k z.

(** The same with z also a candidate of the hinge; the other cell sees all three *)
Definition xyz_wing : Prop := exists h c1 c2 x y z, NoDup [x; y; z] /\ has h [x; y; z] /\ has c1 [x; z] /\ has c2 [y; z] /\
  peers h c1 /\ peers h c2 /\ ~ peers c1 c2 /\ exists k, peers h k /\ peers c1 k /\ peers c2 k /\ A k z.

(** The pattern of a strategy occurs and sets a cell or removes a candidate.  No pattern is given for the two mutant fish and
    the avoidable rectangles. *)
Definition fires (s : strategy) : Prop :=
  match s with
  | NakedSingles => naked_single
  | HiddenSingles => hidden_single
  | LockedCandidates => locked_candidates
  | NakedPairs => naked_subset 2
  | NakedTriples => naked_subset 3
  | NakedQuads => naked_subset 4
  | HiddenPairs => hidden_subset 2
  | HiddenTriples => hidden_subset 3
  | HiddenQuads => hidden_subset 4
  | XWing => fish 2
  | Swordfish => fish 3
  | Jellyfish => fish 4
  | XyWing => xy_wing
  | XyzWing => xyz_wing
  | MutantSwordfish | MutantJellyfish | AvoidableRectangles => False
  end.
End Patterns.
