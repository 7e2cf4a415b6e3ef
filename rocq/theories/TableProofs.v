(** The lookup tables compute what their documentation says (complete sweeps over all indices). *)
From Coq Require Import List Arith NArith Lia Bool.
From Verif Require Import Tables Solver BitLemmas.
Import ListNotations.

(** The six ways to choose one minirow in each row of a band such that every block is used once:
    entry [r] is the block chosen in row [r]. *)
Definition perms3 : list (list nat) :=
  [[0;1;2]; [0;2;1]; [1;0;2]; [1;2;0]; [2;0;1]; [2;1;0]].

(** [s] contains the placement [p] *)
Definition has_placement (s : nat -> bool) (p : list nat) : bool :=
  forallb (fun r => s (3 * r + nth r p 0)) [0; 1; 2].

(** Minirow [t = 3 * row + block] belongs to some placement contained in [s]. *)
Definition clo (s : nat -> bool) (t : nat) : bool :=
  existsb (fun p => (nth (t / 3) p 0 =? t mod 3) && has_placement s p) perms3.

(** [t] is the only minirow of the closure in its row and in its block *)
Definition lonely (s : nat -> bool) (t : nat) : bool :=
  clo s t &&
  forallb (fun t' => (t' =? t) || negb ((t' / 3 =? t / 3) || (t' mod 3 =? t mod 3)) || negb (clo s t')) (seq 0 9).

(** column [x] is the only one of [s] in its stack *)
Definition only_col (s : nat -> bool) (x : nat) : bool :=
  s x && forallb (fun y => (y =? x) || negb (y / 3 =? x / 3) || negb (s y)) (seq 0 9).

Definition any_in_stack (s : nat -> bool) (k : nat) : bool := s (3 * k) || s (3 * k + 1) || s (3 * k + 2).

Lemma shrink_tbl x k : x < 512 -> k < 3 ->
  tb (nth x shrink_mask_tbl 0%N) k = any_in_stack (tb (N.of_nat x)) k.
Proof.
  intros Hx Hk. apply eqb_prop.
  apply (sweep2 512 3 (fun x k => eqb (tb (nth x shrink_mask_tbl 0%N) k) (any_in_stack (tb (N.of_nat x)) k)));
    [vm_compute; reflexivity | exact Hx | exact Hk].
Qed.

Lemma shrink_tbl_lt x : x < 512 -> (nth x shrink_mask_tbl 0 < 8)%N.
Proof.
  intros Hx. apply N.ltb_lt.
  apply (sweep1 512 (fun x => (nth x shrink_mask_tbl 0 <? 8)%N)); [vm_compute; reflexivity | exact Hx].
Qed.

Lemma locked_same_tbl x i : x < 512 -> i < 27 -> tb (N.of_nat x) (i / 3) = true ->
  tb (nth x locked_same_band_tbl 0%N) i = clo (tb (N.of_nat x)) (i / 3).
Proof.
  intros Hx Hi Ht. apply eqb_prop.
  assert (H : implb (tb (N.of_nat x) (i / 3))
            (eqb (tb (nth x locked_same_band_tbl 0%N) i) (clo (tb (N.of_nat x)) (i / 3))) = true).
  { apply (sweep2 512 27 (fun x i => implb (tb (N.of_nat x) (i / 3))
            (eqb (tb (nth x locked_same_band_tbl 0%N) i) (clo (tb (N.of_nat x)) (i / 3)))));
    [vm_compute; reflexivity | exact Hx | exact Hi]. }
  rewrite Ht in H. exact H.
Qed.

Lemma locked_minirows_tbl_spec x t : x < 512 -> t < 9 ->
  tb (nth x locked_minirows_tbl 0%N) t = lonely (tb (N.of_nat x)) t.
Proof.
  intros Hx Hk. apply eqb_prop.
  apply (sweep2 512 9 (fun x k => eqb (tb (nth x locked_minirows_tbl 0%N) k) (lonely (tb (N.of_nat x)) k)));
    [vm_compute; reflexivity | exact Hx | exact Hk].
Qed.

Lemma locked_minirows_tbl_lt x : x < 512 -> (nth x locked_minirows_tbl 0 < 512)%N.
Proof.
  intros Hx. apply N.ltb_lt.
  apply (sweep1 512 (fun x => (nth x locked_minirows_tbl 0 <? 512)%N)); [vm_compute; reflexivity | exact Hx].
Qed.

(** exactly one column of stack [k] *)
Definition single_in_stack (s : nat -> bool) (k : nat) : bool :=
  existsb (fun x => (x / 3 =? k) && only_col s x) (seq 0 9).

Lemma column_single_tbl_spec x t : x < 512 -> t < 9 ->
  tb (nth x column_single_tbl 0%N) t =
  forallb (any_in_stack (tb (N.of_nat x))) [0; 1; 2] && single_in_stack (tb (N.of_nat x)) (t mod 3).
Proof.
  intros Hx Hk. apply eqb_prop.
  apply (sweep2 512 9 (fun x t => eqb (tb (nth x column_single_tbl 0%N) t)
    (forallb (any_in_stack (tb (N.of_nat x))) [0; 1; 2] && single_in_stack (tb (N.of_nat x)) (t mod 3))));
    [vm_compute; reflexivity | exact Hx | exact Hk].
Qed.

Lemma column_single_tbl_lt x : x < 512 -> (nth x column_single_tbl 0 < 512)%N.
Proof.
  intros Hx. apply N.ltb_lt.
  apply (sweep1 512 (fun x => (nth x column_single_tbl 0 <? 512)%N)); [vm_compute; reflexivity | exact Hx].
Qed.

Lemma locked_neighbor_tbl x i : x < 512 -> i < 27 ->
  tb (nth x locked_neighbor_band_tbl 0%N) i = negb (only_col (tb (N.of_nat x)) (i mod 9)).
Proof.
  intros Hx Hk. apply eqb_prop.
  apply (sweep2 512 27 (fun x i => eqb (tb (nth x locked_neighbor_band_tbl 0%N) i)
     (negb (only_col (tb (N.of_nat x)) (i mod 9)))));
    [vm_compute; reflexivity | exact Hx | exact Hk].
Qed.

Lemma row_mask_tbl_spec x i : x < 8 -> i < 27 -> tb (nth x row_mask_tbl 0%N) i = tb (N.of_nat x) (i / 9).
Proof.
  intros Hx Hk. apply eqb_prop.
  apply (sweep2 8 27 (fun x i => eqb (tb (nth x row_mask_tbl 0%N) i) (tb (N.of_nat x) (i / 9))));
    [vm_compute; reflexivity | exact Hx | exact Hk].
Qed.

Lemma self_mask_tbl_spec c i : c < 81 -> i < 27 ->
  tb (nth c self_mask_tbl 0%N) i =
  (i =? c mod 27) || negb ((i / 9 =? c mod 27 / 9) || (i mod 9 / 3 =? c mod 9 / 3)).
Proof.
  intros Hx Hk. apply eqb_prop.
  apply (sweep2 81 27 (fun c i => eqb (tb (nth c self_mask_tbl 0%N) i)
    ((i =? c mod 27) || negb ((i / 9 =? c mod 27 / 9) || (i mod 9 / 3 =? c mod 9 / 3)))));
    [vm_compute; reflexivity | exact Hx | exact Hk].
Qed.

Lemma neighbor_tbl d b : d < 9 -> b < 3 ->
  nth (3 * d + b) neighbor_subbands_tbl (0, 0) = (3 * d + (b + 1) mod 3, 3 * d + (b + 2) mod 3).
Proof.
  intros Hd Hb.
  do 9 (destruct d; [do 3 (destruct b; [reflexivity | ]); lia | ]). lia.
Qed.

Lemma neighbor_mask_tbl c i : c < 81 -> i < 27 ->
  tb (nonconflicting_cells_neighbor_bands c) i = negb (i mod 9 =? c mod 9).
Proof.
  intros Hx Hk. apply eqb_prop.
  apply (sweep2 81 27 (fun c i => eqb (tb (nonconflicting_cells_neighbor_bands c) i) (negb (i mod 9 =? c mod 9))));
    [vm_compute; reflexivity | exact Hx | exact Hk].
Qed.

Lemma shrink_mask_ok m : (m < 512)%N -> shrink_mask m = Ok (nth (N.to_nat m) shrink_mask_tbl 0%N).
Proof. intros H. apply aget_ok. change (length shrink_mask_tbl) with 512. lia. Qed.
Lemma locked_same_ok m : (m < 512)%N -> locked_same_band m = Ok (nth (N.to_nat m) locked_same_band_tbl 0%N).
Proof. intros H. apply aget_ok. change (length locked_same_band_tbl) with 512. lia. Qed.
Lemma locked_neighbor_ok m : (m < 512)%N ->
  locked_neighbor_bands m = Ok (nth (N.to_nat m) locked_neighbor_band_tbl 0%N).
Proof. intros H. apply aget_ok. change (length locked_neighbor_band_tbl) with 512. lia. Qed.
Lemma column_single_ok m : (m < 512)%N -> column_single m = Ok (nth (N.to_nat m) column_single_tbl 0%N).
Proof. intros H. apply aget_ok. change (length column_single_tbl) with 512. lia. Qed.
Lemma locked_minirows_ok m : (m < 512)%N -> locked_minirows m = Ok (nth (N.to_nat m) locked_minirows_tbl 0%N).
Proof. intros H. apply aget_ok. change (length locked_minirows_tbl) with 512. lia. Qed.
Lemma row_mask_ok m : (m < 8)%N -> row_mask m = Ok (nth (N.to_nat m) row_mask_tbl 0%N).
Proof. intros H. apply aget_ok. change (length row_mask_tbl) with 8. lia. Qed.
