(** Specification: how many random choices lead to which shuffled grid.  This file refers to no model definition. *)
From Coq Require Import List Arith NArith Bool.
From Verif Require Import Spec CanonSpec.
Import ListNotations.

(** What is drawn for one shuffle: a number below 9!, one bit and eight numbers below 6 *)
Definition draw : Type := (N * bool * list nat)%type.
Definition fair (x : draw) : Prop := (fst (fst x) < 362880)%N /\ length (snd x) = 8 /\ Forall (fun k => k < 6) (snd x).

(** Exactly [n] elements satisfy [P]. *)
Definition exactly {A} (n : nat) (P : A -> Prop) : Prop := exists l, NoDup l /\ (forall x, In x l <-> P x) /\ length l = n.
