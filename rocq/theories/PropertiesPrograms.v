(** C80, C81: the example programs. *)
From Coq Require Import List Arith NArith Lia Bool.
From Verif Require Import Spec ParseSpec ProgramSpec Solver Api ApiProofs Samples Parse ParseProofs Errors Programs ProgramProofs ProgramSamples.
Import ListNotations.
Local Open Scope N_scope.

(** Splitting finds the only pieces without the word that give the text when joined by it. *)
Theorem C80_split_exact : forall s ps, split GRID s = ps <->
  ps <> [] /\ joined grid_word ps = s /\ Forall (fun p => ~ occurs grid_word p) ps.
Proof. exact split_exact. Qed.
Print Assumptions C80_split_exact.

(** If each board has one solution then the program prints the sum of the numbers in the corners of the solutions. *)
Theorem C80_euler_prints_sum : forall file pieces boards sols t, boards_text file pieces -> Forall2 board_of pieces boards ->
  Forall2 the_solution boards sols -> total (map corner sols) < 2 ^ 32 -> notation (total (map corner sols)) t ->
  project_euler file = Ok (t ++ [10]).
Proof. exact euler_unique. Qed.
Print Assumptions C80_euler_prints_sum.

(** If boards have several solutions then it is the sum for some of them; it panics if the sum does not fit into 32 bits. *)
Theorem C80_euler_some_solutions : forall file pieces boards, boards_text file pieces -> Forall2 board_of pieces boards ->
  Forall (fun g => exists s, solution_of g s) boards ->
  exists sols, Forall2 solution_of boards sols /\
    (total (map corner sols) < 2 ^ 32 -> exists t, project_euler file = Ok (t ++ [10]) /\ notation (total (map corner sols)) t) /\
    (2 ^ 32 <= total (map corner sols) -> project_euler file = Panic).
Proof. exact euler_prints. Qed.
Print Assumptions C80_euler_some_solutions.

(** It panics exactly if some piece has no board or one without solution. *)
Theorem C80_euler_panics : forall file pieces, boards_text file pieces -> 999 * N.of_nat (length pieces) < 2 ^ 32 ->
  (project_euler file = Panic <-> exists piece, In piece pieces /\ forall g s, board_of piece g -> ~ solution_of g s).
Proof. exact euler_panics. Qed.
Print Assumptions C80_euler_panics.

(** Every file has its pieces, and the program prints something or panics. *)
Theorem C80_euler_returns : forall file, exists pieces, boards_text file pieces /\
  (project_euler file = Panic \/ exists t, project_euler file = Ok t).
Proof. exact euler_returns. Qed.
Print Assumptions C80_euler_returns.

Example C80_case : exists pieces boards sols, boards_text two_boards pieces /\ Forall2 board_of pieces boards /\
  Forall2 the_solution boards sols /\ map corner sols = [483; 245] /\ notation (total (map corner sols)) [55; 50; 56] /\
  project_euler two_boards = Ok [55; 50; 56; 10].
Proof.
  assert (S : forall g s, wf_gridb g = true -> api_solution g = Ok (Some s) -> the_solution g s).
  { intros g s W E. exact (solution_sound g s (wf_gridb_ok g W) E). }
  exists (skipn 1 (split GRID two_boards)), [board_one; board_two], [solved_one; solved_two].
  split; [apply boards_exact; reflexivity | ]. split.
  - assert (E : map from_str_block_permissive (skipn 1 (split GRID two_boards)) = [POk board_one; POk board_two]) by (vm_compute; reflexivity).
    destruct (skipn 1 (split GRID two_boards)) as [ | p1 [ | p2 [ | ? ?]]]; try discriminate E. injection E as E1 E2.
    repeat constructor; apply board_read; assumption.
  - split; [constructor; [ | constructor; [ | constructor]]; apply S; vm_compute; reflexivity | ].
    split; [vm_compute; reflexivity | ]. split; [ | vm_compute; reflexivity].
    change (total (map corner [solved_one; solved_two])) with 728. split; [discriminate | ].
    split; [repeat constructor; lia | ]. split; [reflexivity | ]. cbn [hd]. lia.
Qed.
Example C80_panic_case : exists piece, boards_text (GRID ++ [10; 49]) [piece] /\ project_euler (GRID ++ [10; 49]) = Panic.
Proof. exists [10; 49]. split; [apply boards_exact; reflexivity | reflexivity]. Qed.

(** The program examples/example.rs prints the line of the solution if there is exactly one and there are 17 clues (see C09),
    nothing otherwise, and panics exactly on texts that are not in a block format. *)
Theorem C81_example_block : forall text,
  (forall g out, block_format text g -> (example_block text = Ok out <->
   (exists s, (17 <= clue_count g)%nat /\ the_solution g s /\ out = digits_line s ++ [10]) \/
   (out = [] /\ ~ exists s, (17 <= clue_count g)%nat /\ the_solution g s))) /\
  (example_block text = Panic <-> ~ exists g, block_format text g).
Proof. exact example_block_exact. Qed.
Print Assumptions C81_example_block.

(** Likewise for the example in the documentation of the library *)
Theorem C81_example_line : forall text, Forall scalar text ->
  (forall g out, line_format text g -> (example_line text = Ok out <->
   (exists s, (17 <= clue_count g)%nat /\ the_solution g s /\ out = digits_line s ++ [10]) \/
   (out = [] /\ ~ exists s, (17 <= clue_count g)%nat /\ the_solution g s))) /\
  (example_line text = Panic <-> ~ exists g, line_format text g).
Proof. exact example_line_exact. Qed.
Print Assumptions C81_example_line.

Example C81_case : exists g s, line_format doc_line g /\ (17 <= clue_count g)%nat /\ the_solution g s /\
  example_line doc_line = Ok (digits_line s ++ [10]).
Proof.
  assert (E : from_str_line doc_line = POk doc_board) by (vm_compute; reflexivity).
  assert (B : line_format doc_line doc_board).
  { apply line_accepts; [ | exact E]. apply Forall_forall. intros c I. left.
    assert (F : forallb (fun c => c <? 55296) doc_line = true) by (vm_compute; reflexivity).
    rewrite forallb_forall in F. apply N.ltb_lt. exact (F c I). }
  exists doc_board, doc_solved. split; [exact B | ]. split; [apply Nat.leb_le; vm_compute; reflexivity | ].
  split; [ | vm_compute; reflexivity]. apply solution_sound; [exact (line_wf _ _ B) | vm_compute; reflexivity].
Qed.

(** Its comment says that the bars between boxes are ignored and can be omitted.  In fact every text with bars and without
    lines of dashes makes it panic, *)
Theorem C81_bars_need_dashes : forall text ls rows, lines_of text ls -> Forall2 delimited_row ls rows -> (4 <= length ls)%nat ->
  example_block text = Panic.
Proof. exact bars_panic. Qed.
Print Assumptions C81_bars_need_dashes.

(** among them the text in the program itself; without the bars it would print the solution. *)
Theorem C81_shipped_example_refuted : exists ls rows s, lines_of example_text ls /\ Forall2 delimited_row ls rows /\ length rows = 9%nat /\
  the_solution (concat rows) s /\ example_block example_text = Panic /\
  example_block (filter (fun c => negb (c =? 124)) example_text) = Ok (digits_line s ++ [10]).
Proof. exact shipped_example. Qed.
Print Assumptions C81_shipped_example_refuted.

(** The texts shown in the documentation of the parsers and of [display_block] are read and written as stated there. *)
Example C81_documentation_case : from_str_line doc_text_line = POk board_one /\ from_str_block doc_text_bare = POk board_one /\
  from_str_block doc_text_delimited = POk board_one /\ display_block doc_grid = doc_display.
Proof. repeat split; vm_compute; reflexivity. Qed.
