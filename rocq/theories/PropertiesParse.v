(** Properties C13-C22, C51: parsing, printing and serialisation. *)
From Coq Require Import List Arith NArith Bool.
From Verif Require Import Spec ParseSpec Solver Parse ParseProofs BlockProofs Samples.
Import ListNotations.
Local Open Scope N_scope.

(** * C13: accepted lines *)

Theorem C13_line_accepts : forall s g, Forall scalar s ->
  (from_str_line s = POk g <->
   exists cs rest, s = cs ++ rest /\ length cs = 81%nat /\ Forall cell_char cs /\ ends_or delimiter rest /\
                   g = map cell_digit cs).
Proof. exact line_accepts. Qed.
Print Assumptions C13_line_accepts.

(** Non-trivial: dots, underscores, zeros and digits, then a comma and a comment with a non-ASCII character *)
Example C13_case : from_str_line (repeat 46 40 ++ repeat 95 20 ++ repeat 48 20 ++ [53; 44; 8364]) =
  POk (repeat 0%nat 80 ++ [5%nat]).
Proof. vm_compute. reflexivity. Qed.

(** * C14: errors of the line parser *)

Theorem C14_line_errors : forall s, Forall scalar s ->
  (forall n, from_str_line s = PErr (LNotEnoughCells n) <->
     exists cs rest, s = cs ++ rest /\ length cs = n /\ (n < 81)%nat /\ Forall cell_char cs /\ ends_or blank rest) /\
  (forall n ch, from_str_line s = PErr (LInvalidEntry n ch) <->
     exists cs rest, s = cs ++ ch :: rest /\ length cs = n /\ (n < 81)%nat /\ Forall cell_char cs /\ ~ cell_char ch /\ ~ blank ch) /\
  (from_str_line s = PErr LTooManyCells <->
     exists cs ch rest, s = cs ++ ch :: rest /\ length cs = 81%nat /\ Forall cell_char cs /\ cell_char ch) /\
  (from_str_line s = PErr LMissingCommentDelimiter <->
     exists cs ch rest, s = cs ++ ch :: rest /\ length cs = 81%nat /\ Forall cell_char cs /\ ~ cell_char ch /\ ~ delimiter ch) /\
  from_str_line s <> PPanic.
Proof. exact line_errors. Qed.
Print Assumptions C14_line_errors.

(** Every error occurs; the offending character may take several bytes. *)
Example C14_case :
  from_str_line (repeat 49 7 ++ [32; 49]) = PErr (LNotEnoughCells 7) /\
  from_str_line (repeat 49 7 ++ [128512; 49]) = PErr (LInvalidEntry 7 128512) /\
  from_str_line (repeat 49 82) = PErr LTooManyCells /\
  from_str_line (repeat 49 81 ++ [8364]) = PErr LMissingCommentDelimiter.
Proof. repeat split; vm_compute; reflexivity. Qed.

(** * C15: line round trip *)

Theorem C15_line_round_trip : forall g rest, wf_grid g -> Forall scalar rest -> ends_or delimiter rest ->
  from_str_line (to_str_line g ++ rest) = POk g.
Proof. exact line_round_trip. Qed.
Print Assumptions C15_line_round_trip.

Theorem C15_line_characters : forall g, wf_grid g ->
  length (to_str_line g) = 81%nat /\ length (as_bytes (to_str_line g)) = 81%nat /\
  Forall (fun c => 49 <= c /\ c <= 57 \/ c = 46) (to_str_line g).
Proof. exact line_chars. Qed.
Print Assumptions C15_line_characters.

Example C15_case : wf_grid puzzle1 /\ ends_or delimiter [10; 97] /\
  from_str_line (to_str_line puzzle1 ++ [10; 97]) = POk puzzle1 /\ firstn 3 (to_str_line puzzle1) <> [46; 46; 46].
Proof.
  split; [apply wf_gridb_ok; vm_compute; reflexivity | ].
  split; [right; exists 10, [97]; split; [reflexivity | unfold delimiter; auto] | ].
  split; [vm_compute; reflexivity | vm_compute; discriminate].
Qed.

(** * C16: byte conversions *)

Theorem C16_from_bytes : forall b, length b = 81%nat ->
  (forall g, from_bytes b = POk g <-> Forall (fun d => d <= 9)%nat b /\ to_bytes g = b) /\
  (from_bytes b = PErr FromBytesError <-> ~ Forall (fun d => d <= 9)%nat b).
Proof. exact from_bytes_exact. Qed.
Print Assumptions C16_from_bytes.

Theorem C16_from_bytes_slice : forall b,
  (forall g, from_bytes_slice b = POk g <-> length b = 81%nat /\ Forall (fun d => d <= 9)%nat b /\ to_bytes g = b) /\
  (forall n, from_bytes_slice b = PErr (WrongLength n) <-> length b = n /\ n <> 81%nat) /\
  (from_bytes_slice b = PErr SFromBytesError <-> length b = 81%nat /\ ~ Forall (fun d => d <= 9)%nat b).
Proof. exact from_bytes_slice_exact. Qed.
Print Assumptions C16_from_bytes_slice.

Theorem C16_iter : forall g c, (c < length g)%nat ->
  nth_error (grid_iter g) c = Some (if (at_ g c =? 0)%nat then None else Some (at_ g c)).
Proof. exact grid_iter_exact. Qed.
Print Assumptions C16_iter.

Example C16_case : from_bytes puzzle1 = POk puzzle1 /\ from_bytes (repeat 10%nat 81) = PErr FromBytesError /\
  from_bytes_slice (repeat 0%nat 80) = PErr (WrongLength 80) /\ from_bytes_slice (255%nat :: repeat 0%nat 80) = PErr SFromBytesError.
Proof. repeat split; vm_compute; reflexivity. Qed.

(** * C17: accepted blocks *)

Theorem C17_block_accepts : forall s g, from_str_block s = POk g <-> block_format s g.
Proof. exact block_accepts. Qed.
Print Assumptions C17_block_accepts.

Theorem C17_block_valid : forall s g, block_format s g -> wf_grid g.
Proof. exact block_format_wf. Qed.
Print Assumptions C17_block_valid.

(** A delimited block with comments, CRLF line ends and further lines after an empty one *)
Definition sample_row (d : N) : text := [95; 46; 48; 124; d; d; d; 124; 57; 57; 57].
Definition sample_block : text :=
  let r d := sample_row d ++ [32; 99; 13; 10] in
  r 49 ++ r 50 ++ r 51 ++ dashes_plus ++ [33; 10] ++ r 52 ++ r 53 ++ r 54 ++ dashes_plus ++ [10] ++ r 55 ++ r 56 ++ r 57 ++
  [32; 10; 120; 10].
Example C17_case : from_str_block sample_block = POk (flat_map (fun d => [0; 0; 0; d; d; d; 9; 9; 9]%nat) (seq 1 9)).
Proof. vm_compute. reflexivity. Qed.

(** * C18: the block parsers never panic *)

Theorem C18_block_total : forall s, from_str_block s <> PPanic /\ from_str_block_permissive s <> PPanic.
Proof. exact (fun s => conj (from_str_block_no_panic s) (proj2 (proj2 (permissive_exact s)))). Qed.
Print Assumptions C18_block_total.

(** Every documented error occurs *)
Example C18_case :
  from_str_block (repeat 49 10) = PErr (BInvalidLineLength 0) /\
  from_str_block (repeat 49 9 ++ [97]) = PErr (BMissingCommentDelimiter 0) /\
  from_str_block (repeat 49 9 ++ [10; 49; 97]) = PErr (BInvalidEntry 10 97) /\
  from_str_block (sample_row 49 ++ [10; 49; 49; 49; 49]) = PErr BIncorrectFieldDelimiter /\
  from_str_block (concat (repeat (repeat 49 9 ++ [10]) 10)) = PErr BTooManyRows /\
  from_str_block [] = PErr (BNotEnoughRows 1).
Proof. repeat split; vm_compute; reflexivity. Qed.

(** * C19: the reported number of rows *)

Definition sample_bare : text := [49; 50; 51; 52; 53; 54; 55; 56; 57].

(** The claim is false: with fewer than nine rows the number reported is one too large, whatever the text. *)
Theorem C19_not_enough_rows_off_by_one : forall s ls rows, lines_of s ls -> Forall2 bare_row ls rows -> (length rows < 9)%nat ->
  from_str_block s = PErr (BNotEnoughRows (length rows + 1)).
Proof. exact not_enough_rows_bare. Qed.
Print Assumptions C19_not_enough_rows_off_by_one.

Theorem C19_not_enough_rows_refuted : exists s ls rows n, lines_of s ls /\ Forall2 bare_row ls rows /\
  from_str_block s = PErr (BNotEnoughRows n) /\ n <> length rows.
Proof. exact not_enough_rows_wrong. Qed.
Print Assumptions C19_not_enough_rows_refuted.

(** Two rows, the second with a comment, are reported as three. *)
Example C19_case : exists ls rows, lines_of (sample_bare ++ [10] ++ repeat 46 9 ++ [32; 99]) ls /\ Forall2 bare_row ls rows /\ length rows = 2%nat /\
  from_str_block (sample_bare ++ [10] ++ repeat 46 9 ++ [32; 99]) = PErr (BNotEnoughRows 3).
Proof.
  exists [sample_bare; repeat 46 9 ++ [32; 99]], [seq 1 9; repeat 0%nat 9]. split; [apply lines_exact; vm_compute; reflexivity | ].
  split; [ | split; vm_compute; reflexivity].
  constructor; [ | constructor; [ | constructor]].
  - exists sample_bare, []. split; [reflexivity | ]. split; [reflexivity | ]. split; [ | split; [left; reflexivity | reflexivity]].
    repeat constructor; discriminate.
  - exists (repeat 46 9), [32; 99]. split; [reflexivity | ]. split; [reflexivity | ]. split; [ | split; [ | reflexivity]].
    + repeat (constructor; [right; left; reflexivity | ]). constructor.
    + right. exists 32, [99]. split; [reflexivity | left; reflexivity].
Qed.

(** * C20: block display *)

Theorem C20_display_round_trip : forall g, wf_grid g -> from_str_block_permissive (display_block g) = POk g.
Proof. exact display_round_trip. Qed.
Print Assumptions C20_display_round_trip.

Example C20_case : from_str_block_permissive (display_block puzzle1) = POk puzzle1 /\ length (display_block puzzle1) = 110%nat.
Proof. split; vm_compute; reflexivity. Qed.

(** * C21: serde *)

Theorem C21_serde_round_trip : forall human_readable g, wf_grid g -> deserialize human_readable (serialize human_readable g) = Some g.
Proof. exact serde_round_trip. Qed.
Print Assumptions C21_serde_round_trip.

Theorem C21_deserialize_valid : forall human_readable v g, valid_value v -> deserialize human_readable v = Some g -> wf_grid g.
Proof. exact deserialize_wf. Qed.
Print Assumptions C21_deserialize_valid.

Example C21_case : deserialize true (SStr (to_str_line puzzle1)) = Some puzzle1 /\ deserialize false (SBytes puzzle1) = Some puzzle1 /\
  deserialize false (SBytes (10%nat :: repeat 0%nat 80)) = None /\ deserialize true (SStr (repeat 49 80)) = None.
Proof. repeat split; vm_compute; reflexivity. Qed.

(** * C22: order of lines *)

Theorem C22_line_order : forall g g', Forall (fun d => d <= 9)%nat g -> Forall (fun d => d <= 9)%nat g' ->
  lex_N (to_str_line g) (to_str_line g') = lex_nat g g'.
Proof. exact lex_line. Qed.
Print Assumptions C22_line_order.

Example C22_case : lex_nat puzzle1 solution1 = Lt /\ lex_N (to_str_line puzzle1) (to_str_line solution1) = Lt.
Proof. split; vm_compute; reflexivity. Qed.

(** * C51: the permissive block parser *)

Theorem C51_permissive_exact : forall s,
  (forall g, from_str_block_permissive s = POk g <->
     exists ls rows, lines_of s ls /\ lax_rows ls rows /\ (9 <= length rows)%nat /\ g = concat (firstn 9 rows)) /\
  (forall n, from_str_block_permissive s = PErr (NotEnoughRows n) <->
     exists ls rows, lines_of s ls /\ lax_rows ls rows /\ length rows = n /\ (n < 9)%nat) /\
  from_str_block_permissive s <> PPanic.
Proof. exact permissive_exact. Qed.
Print Assumptions C51_permissive_exact.

Example C51_case : from_str_block_permissive (concat (repeat (repeat 49 9 ++ [10; 97; 49; 10]) 4)) = PErr (NotEnoughRows 4) /\
  from_str_block_permissive sample_block = POk (flat_map (fun d => [0; 0; 0; d; d; d; 9; 9; 9]%nat) (seq 1 9)).
Proof. split; vm_compute; reflexivity. Qed.
