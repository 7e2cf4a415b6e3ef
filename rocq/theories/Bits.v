(** Model of /repo/src/bitset.rs: fixed-size bit sets.

    An element of a set is represented by its index ([as_index]); a [Set] by the unsigned integer that backs it.
    Arithmetic that would overflow the storage type, failed [assert!], [debug_assert!] and [unwrap] give [Panic]. *)
From Coq Require Import List Arith NArith Bool.
From Verif Require Import Solver Api.
Import ListNotations.
Local Open Scope N_scope.

(** The element types of src/bitset.rs:282-304 *)
Inductive elem := ECell | EDigit | ELine | EHouse | EPosLine | EPosHouse.

(** Number of elements, src/bitset.rs:282-304 *)
Definition esize (e : elem) : nat :=
  match e with ECell => 81 | EDigit => 9 | ELine => 18 | EHouse => 27 | EPosLine => 9 | EPosHouse => 9 end%nat.

(** Width of the storage type, src/bitset.rs:282-304 *)
Definition ewidth (e : elem) : nat :=
  match e with ECell => 128 | EDigit => 16 | ELine => 32 | EHouse => 32 | EPosLine => 16 | EPosHouse => 16 end%nat.

(** src/bitset.rs:248-250 [n_bits_set], on u128 *)
Definition n_bits_set (size : nat) : N := N.shiftl 1 (N.of_nat size) mod 2 ^ 128 - 1.

(** src/bitset.rs:258 [SetElement::ALL], the [as] conversion truncates; src/bitset.rs:121 *)
Definition set_all (e : elem) : N := n_bits_set (esize e) mod 2 ^ N.of_nat (ewidth e).
(** src/bitset.rs:259, 124 *)
Definition set_none (e : elem) : N := 0.

(** Rust's [!] on the storage type, src/bitset.rs:142, 147, 317 *)
Definition snot (e : elem) (m : N) : N := N.lxor m (2 ^ N.of_nat (ewidth e) - 1).

(** src/bitset.rs:130-133 [from_bits] *)
Definition from_bits (e : elem) (mask : N) : res N := if mask <=? set_all e then Ok mask else Panic.

(** src/bitset.rs:136-138 [bits] *)
Definition set_bits (m : N) : N := m.

(** src/bitset.rs:36-60, 82-86 [bitand], [bitor], [bitxor] and the assigning forms of src/bitset.rs:62-80, 88-92 *)
Definition set_and (a b : N) : N := N.land a b.
Definition set_or (a b : N) : N := N.lor a b.
Definition set_xor (a b : N) : N := N.lxor a b.

(** src/bitset.rs:141-143 [without], src/bitset.rs:146-148 [remove] *)
Definition set_without (e : elem) (a b : N) : N := N.land a (snot e b).

(** src/bitset.rs:99-101 [not] of [Set] *)
Definition set_not (e : elem) (a : N) : N := set_without e (set_all e) a.

(** src/bitset.rs:151-153 [overlaps] *)
Definition set_overlaps (e : elem) (a b : N) : bool := negb (set_and a b =? set_none e).

(** src/bitset.rs:156-159 [contains] for a set argument *)
Definition set_contains (a b : N) : bool := set_and a b =? b.

(** src/bitset.rs:267-269 [as_set] *)
Definition as_set (e : elem) (x : nat) : res N :=
  if (x <? ewidth e)%nat then Ok (N.shiftl 1 (N.of_nat x)) else Panic.

(** src/bitset.rs:156-159 [contains] for an element argument, converted by src/board/positions.rs:735-739 *)
Definition set_contains_elem (e : elem) (a : N) (x : nat) : res bool :=
  b <- as_set e x; Ok (set_contains a b).

(** src/bitset.rs:162-164 [len], src/bitset.rs:263-265; the cast to u8 does not truncate (at most 128) *)
Definition set_len (m : N) : nat := count_ones m.

(** src/bitset.rs:167-169 [is_empty] *)
Definition set_is_empty (m : N) : bool := (set_len m =? 0)%nat.

(** src/bitset.rs:172-174 [is_full] *)
Definition set_is_full (e : elem) (m : N) : bool := m =? set_all e.

(** The constructors of src/bitset.rs:328-340 applied to a bit position, as element index:
    [Cell::new], [Line::new], [House::new] (src/board/positions.rs:181-184) check the range with [debug_assert!],
    [Digit::from_index] (src/board/digit.rs:29-31) unwraps, [Position::new] (src/board/positions.rs:368-371) accepts
    everything. *)
Definition construct (e : elem) (pos : nat) : res nat :=
  match e with
  | EPosLine | EPosHouse => Ok pos
  | EDigit => if (9 <? pos + 1)%nat then Panic else Ok pos
  | _ => if (pos <? esize e)%nat then Ok pos else Panic
  end.

(** src/bitset.rs:312-321 [Iter::next]: the item and the rest *)
Definition iter_next (e : elem) (m : N) : res (option (nat * N)) :=
  if set_all e <? m then Panic
  else if m =? 0 then Ok None
  else
    let neg := snot e m + 1 in
    if 2 ^ N.of_nat (ewidth e) <=? neg then Panic
    else
      let lowest := N.land m neg in
      x <- construct e (bit_pos lowest);
      Ok (Some (x, N.lxor m lowest)).

(** Running the iterator of src/bitset.rs:309-322 to the end *)
Fixpoint iter_f (fuel : nat) (e : elem) (m : N) : res (list nat) :=
  match fuel with
  | O => NoFuel
  | S f =>
      r <- iter_next e m;
      match r with
      | None => Ok []
      | Some (x, m') => l <- iter_f f e m'; Ok (x :: l)
      end
  end.
Definition set_iter (e : elem) (m : N) : res (list nat) := iter_f 129 e m.

(** [Err(Empty)] or [Ok] of src/bitset.rs:179 *)
Inductive uniq := UEmpty | UOk (x : option nat).

(** src/bitset.rs:179-192 [unique] *)
Definition set_unique (e : elem) (m : N) : res uniq :=
  match set_len m with
  | 1%nat => r <- iter_next e m;
      match r with
      | None => Panic
      | Some (x, _) => Ok (UOk (Some x))
      end
  | O => Ok UEmpty
  | _ => Ok (UOk None)
  end.

(** src/bitset.rs:200-205 [one_possibility] *)
Definition one_possibility (e : elem) (m : N) : res nat :=
  r <- iter_next e m;
  match r with None => Panic | Some (x, _) => Ok x end.
