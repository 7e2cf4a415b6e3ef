(** Properties C97 and C98: how the text formats are related. *)
From Coq Require Import List Arith NArith ZArith Lia Bool.
From Verif Require Import Spec ParseSpec FormatSpec Solver Parse BlockProofs FormatRel Samples PropertiesParse.
Import ListNotations.
Local Open Scope N_scope.

(** * C97: lines and blocks are told apart *)

(** What one of the two strict parsers accepts is refused by the other one, with an error that tells the format. *)
Theorem C97_line_not_block : forall s g, Forall scalar s -> from_str_line s = POk g -> from_str_block s = PErr (BInvalidLineLength 0).
Proof. exact line_not_block. Qed.
Print Assumptions C97_line_not_block.
Theorem C97_block_not_line : forall s g, Forall scalar s -> from_str_block s = POk g ->
  from_str_line s = PErr (LInvalidEntry 3 124) \/ from_str_line s = PErr (LNotEnoughCells 9) \/
  from_str_line s = PErr (LInvalidEntry 9 10) \/ from_str_line s = PErr (LInvalidEntry 9 13).
Proof. exact block_not_line. Qed.
Print Assumptions C97_block_not_line.

(** The permissive parser refuses a single line, too. *)
Theorem C97_line_not_permissive : forall s g, Forall scalar s -> from_str_line s = POk g -> ~ In 10 s ->
  from_str_block_permissive s = PErr (NotEnoughRows 1).
Proof. exact line_permissive. Qed.
Print Assumptions C97_line_not_permissive.

(** False of nine lines: the permissive parser takes the first nine cells of each of them for one grid. *)
Theorem C97_nine_lines_refuted : exists s g g', Forall scalar s /\ from_str_line s = POk g /\ from_str_block_permissive s = POk g' /\ g <> g'.
Proof. exact nine_lines. Qed.
Print Assumptions C97_nine_lines_refuted.

Example C97_case : from_str_line (to_str_line puzzle1 ++ [10; 97]) = POk puzzle1 /\ ~ In 10 (to_str_line puzzle1) /\
  from_str_block (write_bare puzzle1) = POk puzzle1 /\ from_str_line (write_bare puzzle1) = PErr (LInvalidEntry 9 10) /\
  from_str_line sample_block = PErr (LInvalidEntry 3 124) /\
  from_str_line (flat_map (fun l => l ++ [32; 49; 13; 10]) (map (bare_text puzzle1) (seq 0 9))) = PErr (LNotEnoughCells 9).
Proof. repeat split; try (vm_compute; reflexivity). intros H. vm_compute in H. repeat destruct H as [H | H]; discriminate || contradiction. Qed.

(** * C98: every grid can be written as a block, and what the strict block parser reads the permissive one reads, too *)

Theorem C98_every_grid : forall g, wf_grid g -> from_str_block (write_bare g) = POk g /\
  from_str_block (write_bars dashes g) = POk g /\ from_str_block (write_bars dashes_plus g) = POk g.
Proof. exact (fun g W => conj (write_bare_ok g W) (conj (write_bars_ok g dashes W (or_introl eq_refl)) (write_bars_ok g dashes_plus W (or_intror eq_refl)))). Qed.
Print Assumptions C98_every_grid.

(** True if the lines between the bands have no comment with nine cells. *)
Theorem C98_permissive_extends : forall s g, from_str_block s = POk g ->
  (forall ls l row, lines_of s ls -> In l ls -> starts [45] l -> ~ lax_row l 9 row) -> from_str_block_permissive s = POk g.
Proof. exact permissive_extends. Qed.
Print Assumptions C98_permissive_extends.
Theorem C98_permissive_extends_refuted : exists s g g', from_str_block s = POk g /\ from_str_block_permissive s = POk g' /\ g <> g'.
Proof. exact separator_comment. Qed.
Print Assumptions C98_permissive_extends_refuted.

(** The strict parser never reads what [display_block] writes, whatever the grid; the permissive one does (C20). *)
Theorem C98_display_refuted : forall g, wf_grid g -> from_str_block (display_block g) = PErr (BInvalidLineLength 0).
Proof. exact (fun g W => display_strict g (proj1 W)). Qed.
Print Assumptions C98_display_refuted.

Example C98_case : wf_grid puzzle1 /\ from_str_block (write_bars dashes puzzle1) = POk puzzle1 /\
  from_str_block_permissive (write_bars dashes puzzle1) = POk puzzle1 /\ length (write_bars dashes puzzle1) = 132%nat /\
  (forall ls l row, lines_of (write_bars dashes puzzle1) ls -> In l ls -> starts [45] l -> ~ lax_row l 9 row).
Proof.
  split; [apply wf_gridb_ok; vm_compute; reflexivity | ]. split; [vm_compute; reflexivity | ]. split; [vm_compute; reflexivity | ].
  split; [vm_compute; reflexivity | ]. exact (separators_plain puzzle1 ltac:(apply wf_gridb_ok; vm_compute; reflexivity)).
Qed.
