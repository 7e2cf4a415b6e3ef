(** Concrete grids used by the examples beside the theorems. *)
From Coq Require Import List Arith Lia Bool.
From Verif Require Import Spec.
Import ListNotations.

(** A uniquely solvable puzzle with 32 clues (the one of the documentation, src/board/sudoku.rs:308). *)
Definition puzzle1 : grid :=
  [0;0;3;0;2;0;6;0;0; 9;0;0;3;0;5;0;0;1; 0;0;1;8;0;6;4;0;0;
   0;0;8;1;0;2;9;0;0; 7;0;0;0;0;0;0;0;8; 0;0;6;7;0;8;2;0;0;
   0;0;2;6;0;9;5;0;0; 8;0;0;2;0;3;0;0;9; 0;0;5;0;1;0;3;0;0].

(** Its solution. *)
Definition solution1 : grid :=
  [4;8;3;9;2;1;6;5;7; 9;6;7;3;4;5;8;2;1; 2;5;1;8;7;6;4;9;3;
   5;4;8;1;3;2;9;7;6; 7;2;9;5;6;4;1;3;8; 1;3;6;7;9;8;2;4;5;
   3;7;2;6;8;9;5;1;4; 8;1;4;2;5;3;7;6;9; 6;9;5;4;1;7;3;8;2].

(** A grid with many solutions: [solution1] with the rows 1-3 cleared and two more cells removed. *)
Definition puzzle_many : grid :=
  [0;0;0;0;0;0;0;0;0; 0;0;0;0;0;0;0;0;0; 0;0;0;0;0;0;0;0;0;
   5;4;8;1;3;2;9;7;6; 7;2;9;5;6;4;1;3;8; 1;3;6;7;9;8;2;4;5;
   3;7;2;6;8;9;5;1;4; 8;1;4;2;5;3;7;6;9; 0;9;5;4;1;7;3;8;0].

(** A contradictory grid: two equal digits in the first row. *)
Definition puzzle_none : grid := 5 :: 5 :: repeat 0 79.

(** A contradictory grid without a repeated clue: cell 0 has no candidate. *)
Definition puzzle_stuck : grid :=
  [0;1;2;3;4;5;6;7;8; 9;0;0;0;0;0;0;0;0; 0;0;0;0;0;0;0;0;0;
   0;0;0;0;0;0;0;0;0; 0;0;0;0;0;0;0;0;0; 0;0;0;0;0;0;0;0;0;
   0;0;0;0;0;0;0;0;0; 0;0;0;0;0;0;0;0;0; 0;0;0;0;0;0;0;0;0].

(** Decision procedure for [wf_grid], for the examples. *)
Definition wf_gridb (g : grid) : bool := (length g =? 81) && forallb (fun d => d <=? 9) g.
Lemma wf_gridb_ok g : wf_gridb g = true -> wf_grid g.
Proof.
  unfold wf_gridb, wf_grid. rewrite andb_true_iff, Nat.eqb_eq, forallb_forall. intros [H1 H2]. split; [exact H1 | ].
  apply Forall_forall. intros x Hx. apply Nat.leb_le. auto.
Qed.

(** Decision procedure for [solved], for the examples. *)
Definition solvedb (g : grid) : bool :=
  (length g =? 81) && forallb (fun c => (1 <=? at_ g c) && (at_ g c <=? 9)) (seq 0 81) &&
  forallb (fun c => forallb (fun c' =>
    (c =? c') || negb ((row_of c =? row_of c') || (col_of c =? col_of c') || (block_of c =? block_of c')) ||
    negb (at_ g c =? at_ g c')) (seq 0 81)) (seq 0 81).
Lemma solvedb_ok g : solvedb g = true -> solved g.
Proof.
  unfold solvedb, solved. rewrite !andb_true_iff, Nat.eqb_eq, !forallb_forall. intros [[H1 H2] H3].
  split; [exact H1 | ]. split.
  - intros c Hc. specialize (H2 c). rewrite in_seq, andb_true_iff, !Nat.leb_le in H2. apply H2. lia.
  - intros c c' Hc Hc' [N Hp] E. specialize (H3 c). rewrite in_seq in H3. specialize (H3 ltac:(lia)).
    rewrite forallb_forall in H3. specialize (H3 c'). rewrite in_seq in H3. specialize (H3 ltac:(lia)).
    rewrite !orb_true_iff, !negb_true_iff, !orb_false_iff, Nat.eqb_eq, !Nat.eqb_neq in H3. tauto.
Qed.

Definition extendsb (p s : grid) : bool :=
  forallb (fun c => (at_ p c =? 0) || (at_ s c =? at_ p c)) (seq 0 81).
Lemma extendsb_ok p s : extendsb p s = true -> extends p s.
Proof.
  unfold extendsb, extends. rewrite forallb_forall. intros H c Hc Hn. specialize (H c). rewrite in_seq in H.
  specialize (H ltac:(lia)). apply orb_true_iff in H. destruct H as [H | H]; apply Nat.eqb_eq in H; [contradiction | exact H].
Qed.

(** The most symmetric solved grid: 648 automorphisms (the "most canonical" grid). *)
Definition most_canonical : grid :=
  [1;2;3;4;5;6;7;8;9; 4;5;6;7;8;9;1;2;3; 7;8;9;1;2;3;4;5;6;
   2;3;1;5;6;4;8;9;7; 5;6;4;8;9;7;2;3;1; 8;9;7;2;3;1;5;6;4;
   3;1;2;6;4;5;9;7;8; 6;4;5;9;7;8;3;1;2; 9;7;8;3;1;2;6;4;5].

(** [most_canonical] with three cells emptied, one in each of the first three rows. *)
Definition puzzle_sym : grid :=
  [0;2;3;4;5;6;7;8;9; 4;5;6;0;8;9;1;2;3; 7;8;9;1;2;3;4;0;6;
   2;3;1;5;6;4;8;9;7; 5;6;4;8;9;7;2;3;1; 8;9;7;2;3;1;5;6;4;
   3;1;2;6;4;5;9;7;8; 6;4;5;9;7;8;3;1;2; 9;7;8;3;1;2;6;4;5].
