(** Specification: what a list of deductions says, and when each of them follows from what was known before it.  Of the model
    this file uses the type of the deductions, the names of the strategies and the bit sets. *)
From Coq Require Import List Arith NArith Bool.
From Verif Require Import Spec TableSpec GeomSpec Solver Geom Gen Strat StratSolve StratUse.
Import ListNotations.

(** A deduction as [Deductions::iter] returns it, with the eliminated candidates in place *)
Definition step_read := deduction (list (nat * nat)).

(** The digit that a deduction places, the candidates that it removes *)
Definition places (z : step_read) (c d : nat) : Prop := z = DNaked (c, d) \/ exists h, z = DHidden (c, d) h.
Definition removes (z : step_read) : list (nat * nat) :=
  match z with
  | DNaked _ | DHidden _ _ => []
  | DLocked _ _ _ cs | DSubsets _ _ _ cs | DBasicFish _ _ _ cs | DFish _ _ _ cs | DWing _ _ _ cs | DAvoidable _ cs => cs
  end.
Definition and_places (pl : facts) (z : step_read) : facts := fun c d => pl c d \/ places z c d.
Definition and_removes (el : facts) (z : step_read) : facts := fun c d => el c d \/ In (c, d) (removes z).
(** What is known after all deductions of a list *)
Definition all_places (pl : facts) (r : list step_read) : facts := fun c d => pl c d \/ exists z, In z r /\ places z c d.
Definition all_removes (el : facts) (r : list step_read) : facts := fun c d => el c d \/ exists z, In z r /\ In (c, d) (removes z).

(** Digit [d] is still possible in cell [c]: the cell has no digit, none of the cells that share a house with it has the digit
    [d], and the candidate has not been ruled out. *)
Definition possible (pl el : facts) (c d : nat) : Prop :=
  c < 81 /\ 1 <= d <= 9 /\ ~ el c d /\ forall c' d', pl c' d' -> c <> c' /\ ~ (peers c c' /\ d = d').

(** The number of elements below [n] of a bit set *)
Definition count (n : nat) (s : N) : nat := length (filter (fun i => N.testbit s (N.of_nat i)) (seq 0 n)).
(** House number of a row, column or block *)
Definition house_number (h : house_type) : nat := match h with HRow r => r | HCol c => 9 + c | HBlock b => 18 + b end.
(** The size of the pattern of a strategy *)
Definition pattern_size (S : strategy) : nat :=
  match S with
  | NakedPairs | HiddenPairs | XWing => 2
  | NakedTriples | HiddenTriples | Swordfish => 3
  | NakedQuads | HiddenQuads | Jellyfish => 4
  | _ => 0
  end.

(** The cell has no digit; no cell of the house has the digit. *)
Definition vacant (pl : facts) (c : nat) : Prop := forall d, ~ pl c d.
Definition absent (pl : facts) (h d : nat) : Prop := forall c, in_house h c -> ~ pl c d.

(** The possible digits are confined as the pattern of the strategy demands, and the removed candidates are where the pattern
    excludes them. *)
Definition why (pl el : facts) (S : strategy) (z : step_read) : Prop :=
  let A := possible pl el in
  match z with
  (* no other digit is possible in the cell *)
  | DNaked (c, d) => S = NakedSingles /\ c < 81 /\ 1 <= d <= 9 /\ vacant pl c /\ forall d', A c d' -> d' = d
  (* the digit is not possible in another cell of the house *)
  | DHidden (c, d) t => let h := house_number t in
      S = HiddenSingles /\ c < 81 /\ 1 <= d <= 9 /\ h < 27 /\ in_house h c /\ vacant pl c /\ absent pl h d /\
      forall c', in_house h c' -> A c' d -> c' = c
  (* in one of the two houses of the miniline the digit is possible only in the miniline; it is removed from the rest of the other *)
  | DLocked d m pointing cs => S = LockedCandidates /\ m < 54 /\ 1 <= d <= 9 /\ cs <> [] /\
      let h1 := if pointing then miniline_block m else miniline_line m in
      let h2 := if pointing then miniline_line m else miniline_block m in
      absent pl h1 d /\ (forall c, in_house h1 c -> A c d -> in_miniline m c) /\
      forall c e, In (c, e) cs -> c < 81 /\ e = d /\ in_house h2 c /\ ~ in_miniline m c
  (* naked: in the n cells at the positions only the n digits are possible; these are removed from other cells of the house.
     hidden: the n digits are possible only in the n cells at the positions; other digits are removed from these cells *)
  | DSubsets h ps ds cs => h < 27 /\ cs <> [] /\ count 9 ps = pattern_size S /\ count 9 ds = pattern_size S /\
      match S with
      | NakedPairs | NakedTriples | NakedQuads =>
          (forall c, c < 81 -> in_house h c -> mem ps (pos_in_house h c) -> vacant pl c) /\
          (forall c d, in_house h c -> mem ps (pos_in_house h c) -> A c d -> mem ds (d - 1)) /\
          forall c d, In (c, d) cs -> c < 81 /\ 1 <= d <= 9 /\ in_house h c /\ ~ mem ps (pos_in_house h c) /\ mem ds (d - 1)
      | HiddenPairs | HiddenTriples | HiddenQuads =>
          (forall d, 1 <= d <= 9 -> mem ds (d - 1) -> absent pl h d) /\
          (forall c d, in_house h c -> mem ds (d - 1) -> A c d -> mem ps (pos_in_house h c)) /\
          forall c d, In (c, d) cs -> c < 81 /\ 1 <= d <= 9 /\ in_house h c /\ mem ps (pos_in_house h c) /\ ~ mem ds (d - 1)
      | _ => False
      end
  (* in n rows the digit is possible only at n positions; it is removed from these positions of other rows.  Or columns *)
  | DBasicFish d ls ps cs => 1 <= d <= 9 /\ cs <> [] /\ count 18 ls = pattern_size S /\ count 9 ps = pattern_size S /\
      match S with XWing | Swordfish | Jellyfish => True | _ => False end /\
      exists rows : bool,
        let parallel := fun l => if rows then l < 9 else 9 <= l < 18 in
        (forall l, mem ls l -> parallel l /\ absent pl l d) /\
        (forall l c, mem ls l -> in_house l c -> A c d -> mem ps (pos_in_house l c)) /\
        forall c e, In (c, e) cs -> c < 81 /\ e = d /\ exists l, parallel l /\ ~ mem ls l /\ in_house l c /\ mem ps (pos_in_house l c)
  (* the pincers see the hinge and not each other; in the hinge x and y (and z) are possible, in the pincers x and z, y and z; z is removed from
     cells that see both pincers (and the hinge) *)
  | DWing hinge hd pincers cs => hinge < 81 /\ cs <> [] /\ match S with XyWing | XyzWing => True | _ => False end /\
      exists c1 c2 x y z, NoDup [x; y; z] /\ (1 <= x <= 9 /\ 1 <= y <= 9 /\ 1 <= z <= 9) /\ c1 < 81 /\ c2 < 81 /\ c1 <> c2 /\
        peers hinge c1 /\ peers hinge c2 /\ ~ peers c1 c2 /\ (forall k, mem pincers k <-> k = c1 \/ k = c2) /\
        (forall i, mem hd i <-> i + 1 = x \/ i + 1 = y \/ (S = XyzWing /\ i + 1 = z)) /\
        vacant pl hinge /\ vacant pl c1 /\ vacant pl c2 /\
        (forall d, A hinge d -> mem hd (d - 1)) /\ (forall d, A c1 d -> d = x \/ d = z) /\ (forall d, A c2 d -> d = y \/ d = z) /\
        forall k e, In (k, e) cs -> k < 81 /\ e = z /\ peers c1 k /\ peers c2 k /\ (S = XyzWing -> peers hinge k)
  | DFish _ _ _ _ | DAvoidable _ _ => False
  end.

(** Every deduction follows, by the pattern of a strategy of the list, from what was known at first and the deductions before it. *)
Fixpoint explained (l : list strategy) (pl el : facts) (r : list step_read) : Prop :=
  match r with
  | [] => True
  | z :: t => (exists S, In S l /\ ded_strategy z = Ok S /\ why pl el S z) /\ explained l (and_places pl z) (and_removes el z) t
  end.
