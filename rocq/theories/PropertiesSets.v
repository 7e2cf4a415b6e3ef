(** Properties C41-C43: bit sets and the geometry of positions.  Sets range over all values of the six set types; the
    geometry theorems range over finite domains, which are covered completely. *)
From Coq Require Import List Arith NArith Lia Bool Sorted.
From Verif Require Import Spec GeomSpec TableSpec Solver Bits Geom BitsProofs GeomProofs.
Import ListNotations.

(** * C41: operations are set algebra.  [is_set e m]: all members of [m] are in the range of the element type [e]. *)

Theorem C41_set_algebra : forall e a b, is_set e a -> is_set e b -> forall i,
  (mem (set_and a b) i <-> mem a i /\ mem b i) /\
  (mem (set_or a b) i <-> mem a i \/ mem b i) /\
  (mem (set_xor a b) i <-> (mem a i /\ ~ mem b i) \/ (~ mem a i /\ mem b i)) /\
  (mem (set_without e a b) i <-> mem a i /\ ~ mem b i) /\
  (mem (set_not e a) i <-> i < esize e /\ ~ mem a i) /\
  (mem (set_all e) i <-> i < esize e) /\ ~ mem (set_none e) i.
Proof. exact set_algebra. Qed.
Print Assumptions C41_set_algebra.

Theorem C41_set_tests : forall e a b, is_set e a -> is_set e b ->
  (set_overlaps e a b = true <-> exists i, mem a i /\ mem b i) /\
  (set_contains a b = true <-> forall i, mem b i -> mem a i) /\
  (set_is_empty a = true <-> forall i, ~ mem a i) /\
  (set_is_full e a = true <-> forall i, i < esize e -> mem a i) /\
  (forall x, x < esize e -> exists c, set_contains_elem e a x = Ok c /\ (c = true <-> mem a x)) /\
  (forall x, x < esize e -> exists m, as_set e x = Ok m /\ forall i, mem m i <-> i = x).
Proof. exact set_tests. Qed.
Print Assumptions C41_set_tests.

Theorem C41_len_is_cardinality : forall e m l, is_set e m -> NoDup l -> (forall i, In i l <-> mem m i) ->
  set_len m = length l.
Proof. exact len_meaning. Qed.
Print Assumptions C41_len_is_cardinality.

Theorem C41_operations_stay_in_range : forall e a b, is_set e a -> is_set e b ->
  is_set e (set_and a b) /\ is_set e (set_or a b) /\ is_set e (set_xor a b) /\
  is_set e (set_without e a b) /\ is_set e (set_not e a) /\ is_set e (set_all e) /\ is_set e (set_none e).
Proof. exact closed_ops. Qed.
Print Assumptions C41_operations_stay_in_range.

Theorem C41_from_bits : forall e m,
  (is_set e m -> from_bits e m = Ok m) /\ (~ is_set e m -> from_bits e m = Panic).
Proof. exact from_bits_meaning. Qed.
Print Assumptions C41_from_bits.

Theorem C41_extensional : forall a b, (forall i, mem a i <-> mem b i) -> a = b.
Proof. exact mem_ext. Qed.
Print Assumptions C41_extensional.

Example C41_case : from_bits ECell (2 ^ 80 + 5)%N = Ok (2 ^ 80 + 5)%N /\ from_bits ECell (2 ^ 81)%N = Panic /\
  set_not EDigit 5%N = 506%N /\ set_without EHouse 7 2 = 5%N /\ set_len (2 ^ 80 + 5)%N = 3 /\
  set_contains 7 5 = true /\ set_contains 5 7 = false /\ set_overlaps ECell 5 6 = true.
Proof. repeat split. Qed.

(** * C42: iteration *)

Theorem C42_iteration : forall e m, is_set e m -> exists l, set_iter e m = Ok l /\ StronglySorted lt l /\ NoDup l /\
  forall i, In i l <-> mem m i.
Proof. exact iter_meaning. Qed.
Print Assumptions C42_iteration.

Theorem C42_unique : forall e m, is_set e m ->
  (set_unique e m = Ok UEmpty <-> forall i, ~ mem m i) /\
  (forall x, set_unique e m = Ok (UOk (Some x)) <-> forall i, mem m i <-> i = x) /\
  (set_unique e m = Ok (UOk None) <-> exists i j, mem m i /\ mem m j /\ i <> j).
Proof. exact unique_meaning. Qed.
Print Assumptions C42_unique.

Theorem C42_one_possibility : forall e m, is_set e m ->
  (m = 0%N /\ one_possibility e m = Panic) \/
  (exists x, one_possibility e m = Ok x /\ mem m x /\ forall i, mem m i -> x <= i).
Proof. exact one_possibility_meaning. Qed.
Print Assumptions C42_one_possibility.

Example C42_case : set_iter ECell (2 ^ 80 + 2 ^ 40 + 5)%N = Ok [0; 2; 40; 80] /\
  set_unique EDigit 64 = Ok (UOk (Some 6)) /\ set_unique EDigit 65 = Ok (UOk None) /\ set_unique EDigit 0 = Ok UEmpty.
Proof. repeat split; vm_compute; reflexivity. Qed.

(** * C43: geometry *)

Theorem C43_cell_conversions : forall c, c < 81 ->
  row_of_cell c = Ok (row_of c) /\ col_of_cell c = Ok (col_of c) /\ block_of_cell c = Ok (block_of c) /\
  band_of_cell c = Ok (row_of c / 3) /\ stack_of_cell c = Ok (col_of c / 3) /\ p_block c = Ok (block_of c) /\
  cell_houses c = Ok [row_of c; 9 + col_of c; 18 + block_of c].
Proof. exact cell_conversions. Qed.
Print Assumptions C43_cell_conversions.

Theorem C43_house_cells : forall h, h < 27 -> exists m, cells_of_house h = Ok m /\ is_set ECell m /\
  forall c, mem m c <-> c < 81 /\ in_house h c.
Proof. exact house_cells_exact. Qed.
Print Assumptions C43_house_cells.

Theorem C43_line_cells : forall l, l < 18 -> exists m, cells_of_line l = Ok m /\ is_set ECell m /\
  forall c, mem m c <-> c < 81 /\ in_house l c.
Proof. exact line_cells_exact. Qed.
Print Assumptions C43_line_cells.

Theorem C43_row_col_block_cells : forall r, r < 9 ->
  (is_set ECell (cells_of_row r) /\ forall c, mem (cells_of_row r) c <-> c < 81 /\ row_of c = r) /\
  (is_set ECell (cells_of_col r) /\ forall c, mem (cells_of_col r) c <-> c < 81 /\ col_of c = r) /\
  (is_set ECell (cells_of_block r) /\ forall c, mem (cells_of_block r) c <-> c < 81 /\ block_of c = r).
Proof. exact rcb_cells_exact. Qed.
Print Assumptions C43_row_col_block_cells.

Theorem C43_chute_cells : forall k, k < 6 -> exists m, cells_of_chute k = Ok m /\ is_set ECell m /\
  forall c, mem m c <-> c < 81 /\ in_chute k c.
Proof. exact chute_cells_exact. Qed.
Print Assumptions C43_chute_cells.

Theorem C43_miniline_cells : forall h, h < 54 -> exists m, cells_of_miniline h = Ok m /\ is_set ECell m /\
  forall c, mem m c <-> c < 81 /\ in_miniline h c.
Proof. exact miniline_cells_exact. Qed.
Print Assumptions C43_miniline_cells.

Theorem C43_positions : forall c, c < 81 ->
  row_pos c = pos_in_house (row_of c) c /\ col_pos c = pos_in_house (9 + col_of c) c /\
  block_pos c = pos_in_house (18 + block_of c) c.
Proof. exact positions_exact. Qed.
Print Assumptions C43_positions.

Theorem C43_cell_at : forall h p, h < 27 -> p < 9 ->
  exists c, house_cell_at h p = Ok c /\ c < 81 /\ in_house h c /\ pos_in_house h c = p /\
  nth_error (nth h CELLS_BY_HOUSE []) p = Some c.
Proof. exact house_cell_at_exact. Qed.
Print Assumptions C43_cell_at.

Theorem C43_cell_at_inverts_position : forall h c, h < 27 -> c < 81 -> in_house h c ->
  pos_in_house h c < 9 /\ house_cell_at h (pos_in_house h c) = Ok c.
Proof. exact house_cell_at_inv. Qed.
Print Assumptions C43_cell_at_inverts_position.

Theorem C43_line_cell_at : forall l p, l < 18 -> line_cell_at l p = house_cell_at l p.
Proof. exact line_house_cell_at. Qed.
Print Assumptions C43_line_cell_at.

Theorem C43_cells_at : forall h m, h < 27 -> is_set EPosHouse m -> exists s, house_cells_at h m = Ok s /\
  is_set ECell s /\ forall c, mem s c <-> c < 81 /\ in_house h c /\ mem m (pos_in_house h c).
Proof. exact house_cells_at_exact. Qed.
Print Assumptions C43_cells_at.

Theorem C43_neighbors : forall c, c < 81 -> exists l, neighbors c = Ok l /\ NoDup l /\ length l = 20 /\
  forall c', In c' l <-> c' < 81 /\ peers c c'.
Proof. exact neighbors_exact. Qed.
Print Assumptions C43_neighbors.

Theorem C43_neighbors_set : forall c, c < 81 -> exists m, neighbors_set c = Ok m /\ is_set ECell m /\
  forall c', mem m c' <-> c' < 81 /\ peers c c'.
Proof. exact neighbors_set_exact. Qed.
Print Assumptions C43_neighbors_set.

Theorem C43_miniline_neighbors : forall m, m < 54 -> exists l b, miniline_neighbors m = Ok (l, b) /\ NoDup l /\ NoDup b /\
  (forall x, In x l <-> x < 54 /\ x <> m /\ x / 27 = m / 27 /\ miniline_line x = miniline_line m) /\
  (forall x, In x b <-> x < 54 /\ x <> m /\ x / 27 = m / 27 /\ miniline_block x = miniline_block m).
Proof. exact miniline_neighbors_exact. Qed.
Print Assumptions C43_miniline_neighbors.

Theorem C43_chute_minilines : forall k, k < 6 ->
  (forall m, In m (chute_minilines k) <-> m < 54 /\ miniline_chute m = Ok k) /\ NoDup (chute_minilines k) /\
  forall m c, In m (chute_minilines k) -> c < 81 -> in_miniline m c -> in_chute k c.
Proof. exact chute_minilines_exact. Qed.
Print Assumptions C43_chute_minilines.

Example C43_case : house_cell_at 22 5 = Ok 41 /\ cell_houses 41 = Ok [4; 14; 22] /\
  miniline_neighbors 40 = Ok ([41; 39], [43; 37]) /\ chute_minilines 4 = [36; 37; 38; 39; 40; 41; 42; 43; 44] /\
  in_miniline 40 40 /\ in_chute 4 40.
Proof. repeat split; vm_compute; reflexivity. Qed.

(** * C50: constructors of digits, candidates and positions *)

Theorem C50_new_checked_exact : forall limit x y, new_checked limit x = Some y <-> x < limit /\ y = x.
Proof. exact new_checked_exact. Qed.
Print Assumptions C50_new_checked_exact.

Theorem C50_digit_new_exact : forall d, (1 <= d <= 9 -> digit_new d = Ok d /\ digit_from_index (digit_as_index d) = Ok d) /\
  (~ 1 <= d <= 9 -> digit_new d = Panic).
Proof. exact digit_new_exact. Qed.
Print Assumptions C50_digit_new_exact.

Theorem C50_candidate_new_exact : forall c d, (c < 81 /\ 1 <= d <= 9 -> candidate_new c d = Ok (c, d)) /\
  (~ (c < 81 /\ 1 <= d <= 9) -> candidate_new c d = Panic).
Proof. exact candidate_new_exact. Qed.
Print Assumptions C50_candidate_new_exact.

(** With debug assertions the position constructors panic as documented ... *)
Theorem C50_position_new_debug : forall limit x,
  (x < limit -> pos_new true limit x = Ok x) /\ (limit <= x -> pos_new true limit x = Panic).
Proof. exact pos_new_debug. Qed.
Print Assumptions C50_position_new_debug.

(** ... without them every one of the twelve types accepts a number outside its range. *)
Theorem C50_position_new_panics_refuted : forall limit, In limit pos_limits ->
  exists x, limit <= x < 256 /\ pos_new false limit x = Ok x.
Proof. exact pos_new_release_accepts. Qed.
Print Assumptions C50_position_new_panics_refuted.

Example C50_case : candidate_new 80 9 = Ok (80, 9) /\ candidate_new 81 9 = Panic /\ pos_new false 81 81 = Ok 81.
Proof. repeat split. Qed.
