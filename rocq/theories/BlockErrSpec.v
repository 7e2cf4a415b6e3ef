(** Which problem of a text in block format is reported.  Of the model this file uses the type of the errors. *)
From Coq Require Import List Arith NArith Bool.
From Verif Require Import ParseSpec Parse.
Import ListNotations.
Local Open Scope nat_scope.

(** The fourth character of the first line tells whether the text has field delimiters. *)
Definition has_bars (ls : list text) : bool :=
  match ls with l :: _ => match nth_error l 3 with Some c => N.eqb c 124 | None => false end | [] => false end.

(** Columns and lines of the field delimiters, and what precedes the [i]-th column or line without them *)
Definition delimiter_at (bars : bool) (i : nat) : bool := bars && ((i =? 3) || (i =? 7)).
Definition width (bars : bool) : nat := if bars then 11 else 9.
Definition before (bars : bool) (i : nat) : nat := length (filter (fun j => negb (delimiter_at bars j)) (seq 0 i)).

(** A problem with the [i]-th character of a line, [None] for the end of the line; [r] is the number of the row. *)
Definition char_fault (bars : bool) (r i : nat) (ch : option N) (e : block_err) : Prop :=
  match ch with
  | Some c =>
      if i <? width bars then
        if delimiter_at bars i then c <> 124%N /\ e = BIncorrectFieldDelimiter
        else ~ cell_char c /\ e = BInvalidEntry (r * 9 + before bars i) c
      else (cell_char c /\ e = BInvalidLineLength r) \/ (~ cell_char c /\ ~ blank c /\ e = BMissingCommentDelimiter r)
  | None => i < width bars /\ e = BInvalidLineLength r
  end.

(** The first problem of a row: the [i]-th character is the first one that is wrong, up to the one after the last cell. *)
Definition row_fault (bars : bool) (r : nat) (line : text) (e : block_err) : Prop := exists i, i <= width bars /\ i <= length line /\
  char_fault bars r i (nth_error line i) e /\ forall j, j < i -> forall e', ~ char_fault bars r j (nth_error line j) e'.

(** A separator line: dashes, either with or without plus signs; the second one like the first one *)
Definition separator (ls : list text) (i : nat) (line : text) : Prop :=
  if i =? 3 then starts dashes line \/ starts dashes_plus line
  else exists l3, nth_error ls 3 = Some l3 /\ ((starts dashes l3 /\ starts dashes line) \/ (starts dashes_plus l3 /\ starts dashes_plus line)).

(** A problem with the [i]-th line *)
Definition line_fault (ls : list text) (i : nat) (line : text) (e : block_err) : Prop :=
  let bars := has_bars ls in
  if i <? width bars then
    if delimiter_at bars i then ~ separator ls i line /\ e = BIncorrectFieldDelimiter
    else row_fault bars (before bars i) line e
  else i = width bars /\ ~ Forall white line /\ e = BTooManyRows.

(** The first problem of a text: that of the first line that has one, or the end of the text. *)
Definition block_fault (ls : list text) (e : block_err) : Prop :=
  (exists i line, nth_error ls i = Some line /\ line_fault ls i line e /\
     forall j line' e', j < i -> nth_error ls j = Some line' -> ~ line_fault ls j line' e') \/
  (length ls < width (has_bars ls) /\ e = BNotEnoughRows (before (has_bars ls) (length ls) + 1) /\
     forall j line' e', nth_error ls j = Some line' -> ~ line_fault ls j line' e').
