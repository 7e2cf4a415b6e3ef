(** The theorems about parse errors, each with a concrete case that meets its hypotheses. *)
From Coq Require Import String Ascii List Arith NArith ZArith Lia Bool.
From Verif Require Import Spec ParseSpec Solver Parse BlockErrSpec ParseProofs BlockProofs BlockErr Geom Show ShowSpec Errors ErrorProofs PropertiesParse.
Import ListNotations.
Local Open Scope nat_scope.

(** * C65: the error of the block parser *)

(** The parser returns the error of the first problem of the text, in reading order, and only that. *)
Theorem C65_block_errors : forall s e, from_str_block s = PErr e <-> exists ls, lines_of s ls /\ block_fault ls e.
Proof. exact block_errors. Qed.
Print Assumptions C65_block_errors.
Theorem C65_one_fault : forall ls e e', block_fault ls e -> block_fault ls e' -> e = e'.
Proof. exact block_fault_fun. Qed.
Print Assumptions C65_one_fault.
(** A text with four problems: the second line has an entry too many, the third an invalid character, and it ends after
    three lines, the first of which is followed by a comment without a blank. *)
Example C65_case :
  let s := (repeat 49 9 ++ [10] ++ repeat 49 10 ++ [10] ++ [49; 120])%N in
  let t := (repeat 49 9 ++ [35; 10] ++ s)%N in
  from_str_block s = PErr (BInvalidLineLength 1) /\ from_str_block t = PErr (BMissingCommentDelimiter 0) /\
  from_str_block (repeat 49 9 ++ [10; 49; 120])%N = PErr (BInvalidEntry 10 120%N) /\
  from_str_block (sample_row 49%N ++ [32; 35; 10] ++ sample_row 50%N ++ [120])%N = PErr (BMissingCommentDelimiter 1).
Proof. vm_compute. auto. Qed.

(** * C66: the position of an invalid entry *)

(** The row and the column are those of the character in the text without the field delimiters. *)
Theorem C66_block_position : forall s cell ch, from_str_block s = PErr (BInvalidEntry cell ch) ->
  exists ls i line k, lines_of s ls /\ nth_error ls i = Some line /\ nth_error line k = Some ch /\
    delimiter_at (has_bars ls) i = false /\ delimiter_at (has_bars ls) k = false /\
    entry_row cell = before (has_bars ls) i /\ entry_col cell = before (has_bars ls) k /\ entry_row cell < 9 /\ entry_col cell < 9 /\
    entry_block cell = Ok (3 * (entry_row cell / 3) + entry_col cell / 3).
Proof. exact block_entry_position. Qed.
Print Assumptions C66_block_position.
Theorem C66_line_position : forall s n ch, Forall scalar s -> from_str_line s = PErr (LInvalidEntry n ch) ->
  nth_error s n = Some ch /\ n < 81 /\ n = 9 * entry_row n + entry_col n /\ entry_col n < 9 /\
  entry_block n = Ok (3 * (entry_row n / 3) + entry_col n / 3).
Proof. exact line_entry_position. Qed.
Print Assumptions C66_line_position.
(** The character in the tenth column of the sixth line of a text with field delimiters *)
Example C66_case :
  let row c := [49; 50; 51; 124; 52; 53; 54; 124; 55; c; 57; 10]%N in
  from_str_block (row 56 ++ row 56 ++ row 56 ++ dashes ++ [10] ++ row 56 ++ row 120)%N = PErr (BInvalidEntry 43 120%N) /\
  entry_row 43 = 4 /\ entry_col 43 = 7 /\ entry_block 43 = Ok 5 /\
  from_str_line (repeat 49 43 ++ [120])%N = PErr (LInvalidEntry 43 120%N) /\ Forall scalar (repeat 49 43 ++ [120])%N.
Proof. do 5 (split; [vm_compute; reflexivity | ]). cbn [repeat app]. repeat constructor. Qed.

(** * C67: messages *)

(** Different errors have different messages; the numbers in them are [u8] and [usize]. *)
Theorem C67_block_messages : forall e e', block_u8 e -> block_u8 e' -> block_message e = block_message e' -> e = e'.
Proof. exact block_message_inj. Qed.
Print Assumptions C67_block_messages.
Theorem C67_line_messages : forall e e', line_u8 e -> line_u8 e' -> line_message e = line_message e' -> e = e'.
Proof. exact line_message_inj. Qed.
Print Assumptions C67_line_messages.
Theorem C67_slice_messages : forall e e', (forall n, e = WrongLength n \/ e' = WrongLength n -> (N.of_nat n < 2 ^ 64)%N) ->
  slice_message e = slice_message e' -> e = e'.
Proof. exact slice_message_inj. Qed.
Print Assumptions C67_slice_messages.
(** The number in the message of [WrongLength] is the length of the slice. *)
Theorem C67_slice_length : forall n, (n < 2 ^ 64)%N -> decimal (show_usize n) = n.
Proof. exact show_usize_decimal. Qed.
Print Assumptions C67_slice_length.
Example C67_case : block_u8 (BInvalidEntry 43 120%N) /\
  block_message (BInvalidEntry 43 120%N) = lit "cell 43 contains invalid character 'x'" /\
  slice_message (WrongLength 100) = lit "byte slice should have length 81, found 100" /\
  decimal (show_usize 18446744073709551615) = 18446744073709551615%N.
Proof. split; [cbn [block_u8]; lia | ]. vm_compute. auto. Qed.
(** The message about the number of entries of a line prints the number of the row instead: "found 0" for ten entries. *)
Theorem C67_entries_found_refuted : exists s ls line e k, lines_of s ls /\ nth_error ls 0 = Some line /\ Forall cell_char line /\
  from_str_block s = PErr e /\ block_message e = lit "a sudoku line should have 9 entries, found " ++ show_u8 k /\ k <> List.length line.
Proof. exact length_message_wrong. Qed.
Print Assumptions C67_entries_found_refuted.
(** "in line 6" is about the line with index 8, the ninth: separator lines are not counted, and counting begins at 0. *)
Theorem C67_line_number_refuted : exists s ls i line e r, lines_of s ls /\ nth_error ls i = Some line /\ line_fault ls i line e /\
  from_str_block s = PErr e /\ block_message e = lit "missing comment delimiter in line " ++ show_u8 r /\ r <> i /\ r <> i + 1.
Proof. exact line_message_wrong. Qed.
Print Assumptions C67_line_number_refuted.
