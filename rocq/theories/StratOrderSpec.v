(** Specification: which strategies a list must have so that nothing is lost when it replaces another one.  Of the model this
    file uses the names of the strategies. *)
From Coq Require Import List.
From Verif Require Import StratSolve.
Import ListNotations.

(** With more digits and fewer candidates the pattern of a strategy turns into the pattern of one of these. *)
Definition turns_into (S : strategy) : list strategy :=
  match S with
  | NakedSingles => [NakedSingles]
  | HiddenSingles => [HiddenSingles]
  | LockedCandidates => [LockedCandidates]
  | NakedPairs => [NakedSingles; NakedPairs]
  | NakedTriples => [NakedSingles; NakedPairs; NakedTriples]
  | NakedQuads => [NakedSingles; NakedPairs; NakedTriples; NakedQuads]
  | HiddenPairs => [HiddenSingles; HiddenPairs]
  | HiddenTriples => [HiddenSingles; HiddenPairs; HiddenTriples]
  | HiddenQuads => [HiddenSingles; HiddenPairs; HiddenTriples; HiddenQuads]
  | XWing => [HiddenSingles; XWing]
  | Swordfish => [HiddenSingles; XWing; Swordfish]
  | Jellyfish => [HiddenSingles; XWing; Swordfish; Jellyfish]
  | XyWing => [NakedSingles; XyWing]
  | XyzWing => [NakedSingles; NakedPairs; XyWing; XyzWing]
  | MutantSwordfish | MutantJellyfish | AvoidableRectangles => []
  end.

(** The strategies of a list that are applied until they find nothing any more (see C39 and C57) *)
Definition exhausts (l : list strategy) (S : strategy) : Prop :=
  match l with
  | [] => False
  | first :: rest => In S rest \/ (S = first /\ first <> NakedSingles /\ (rest <> [] \/ first = HiddenSingles))
  end.

(** The second list has all that the strategies of the first one can turn into. *)
Definition covers (l2 l1 : list strategy) : Prop := forall S S', In S l1 -> In S' (turns_into S) -> exhausts l2 S'.
