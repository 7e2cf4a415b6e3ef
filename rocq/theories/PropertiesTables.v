(** Property C44: the static lookup tables of the solver. *)
From Coq Require Import List Arith NArith Lia Bool.
From Verif Require Import TableSpec Tables Solver TableProps.
Import ListNotations.

Theorem C44_shrink_mask : forall x, (x < 512)%N -> exists m, shrink_mask x = Ok m /\ (m < 8)%N /\
  forall k, k < 3 -> (mem m k <-> exists j, j < 9 /\ j / 3 = k /\ mem x j).
Proof. exact shrink_mask_meaning. Qed.
Print Assumptions C44_shrink_mask.

Theorem C44_locked_candidates_same_band : forall x, (x < 512)%N -> exists m, locked_same_band x = Ok m /\ (m < 2 ^ 27)%N /\
  (forall i, i < 27 -> mem x (i / 3) -> (mem m i <-> minirow_possible x (i / 3))) /\
  ((forall f, ~ placement_in x f) -> m = 0%N).
Proof. exact locked_same_meaning. Qed.
Print Assumptions C44_locked_candidates_same_band.

Theorem C44_locked_minirows : forall x, (x < 512)%N -> exists m, locked_minirows x = Ok m /\ (m < 512)%N /\
  forall t, t < 9 -> (mem m t <-> minirow_locked x t).
Proof. exact locked_minirows_meaning. Qed.
Print Assumptions C44_locked_minirows.

Theorem C44_column_single : forall x, (x < 512)%N -> exists m, column_single x = Ok m /\ (m < 512)%N /\
  forall t, t < 9 -> (mem m t <->
    (forall k, k < 3 -> exists j, j < 9 /\ j / 3 = k /\ mem x j) /\ exists j, j < 9 /\ j / 3 = t mod 3 /\ only_column x j).
Proof. exact column_single_meaning. Qed.
Print Assumptions C44_column_single.

Theorem C44_locked_candidates_neighbor_band : forall x, (x < 512)%N ->
  exists m, locked_neighbor_bands x = Ok m /\ (m < 2 ^ 27)%N /\
  forall i, i < 27 -> (mem m i <-> ~ only_column x (i mod 9)).
Proof. exact locked_neighbor_meaning. Qed.
Print Assumptions C44_locked_candidates_neighbor_band.

Theorem C44_row_mask : forall x, (x < 8)%N -> exists m, row_mask x = Ok m /\
  forall i, i < 27 -> (mem m i <-> mem x (i / 9)).
Proof. exact row_mask_meaning. Qed.
Print Assumptions C44_row_mask.

Theorem C44_self_mask : forall c, c < 81 -> exists m, nonconflicting_cells_same_band c = Ok m /\
  forall i, i < 27 -> (mem m i <->
    i = c mod 27 \/ (i / 9 <> (c mod 27) / 9 /\ (i mod 9) / 3 <> ((c mod 27) mod 9) / 3)).
Proof. exact self_mask_meaning. Qed.
Print Assumptions C44_self_mask.

Theorem C44_other_band_mask : forall c i, c < 81 -> i < 27 ->
  (mem (nonconflicting_cells_neighbor_bands c) i <-> i mod 9 <> c mod 9).
Proof. exact other_mask_meaning. Qed.
Print Assumptions C44_other_band_mask.

Theorem C44_neighbor_subbands : forall sb, sb < 27 -> exists a b, neighbor_subbands sb = Ok (a, b) /\
  forall x, x < 27 -> (x = a \/ x = b <-> x / 3 = sb / 3 /\ x <> sb).
Proof. exact neighbor_meaning. Qed.
Print Assumptions C44_neighbor_subbands.

(** A mask with pointing and claiming locked candidates: minirows 0, 1, 4 and 8 possible, minirow 1 excluded. *)
Example C44_case : shrink_mask 392 = Ok 6%N /\ locked_minirows 275 = Ok 273%N /\
  column_single 82 = Ok 511%N /\
  N.testbit (match locked_same_band 275 with Ok m => m | _ => 0%N end) 3 = false.
Proof. repeat split; vm_compute; reflexivity. Qed.

Example C44_case_masks : row_mask 5 = Ok 133956095%N /\ neighbor_subbands 13 = Ok (14, 12) /\
  mem (nonconflicting_cells_neighbor_bands 40) 0 /\ ~ mem (nonconflicting_cells_neighbor_bands 40) 13 /\
  (exists m, nonconflicting_cells_same_band 40 = Ok m /\ mem m 13 /\ mem m 0 /\ ~ mem m 9).
Proof.
  repeat split; try (vm_compute; reflexivity); try (vm_compute; discriminate).
  eexists. split; [reflexivity | ]. repeat split; try (vm_compute; reflexivity); vm_compute; discriminate.
Qed.
