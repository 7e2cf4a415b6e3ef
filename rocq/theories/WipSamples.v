(** Candidates for the examples about the unfinished searches, and links that are not found. *)
From Coq Require Import List Arith NArith ZArith ZifyNat ZifyN ZifyBool Lia Bool.
From Verif Require Import Spec TableSpec GeomSpec BitLemmas Solver Bits BitsProofs Api ApiProofs GridProofs Samples Geom GeomProofs Gen GenProofs Strat StratSamples Wip WipSpec LinkProofs.
Import ListNotations.

Definition digit_setsb (poss : list N) : bool := (length poss =? 81) && forallb (fun m => N.ltb m 512) poss.
Lemma digit_setsb_ok poss : digit_setsb poss = true -> digit_sets poss.
Proof.
  unfold digit_setsb, digit_sets. rewrite andb_true_iff, Nat.eqb_eq, forallb_forall, Forall_forall. intros [L F]. split; [exact L | ].
  intros m Hm. apply F, N.ltb_lt in Hm. apply (proj2 (is_set_lt EDigit m)). exact Hm.
Qed.

(** The positions that belong to candidates *)
Definition places_of (poss : list N) (h d : nat) : N :=
  fold_right (fun c m => if in_houseb h c && N.testbit (nth c poss 0%N) (N.of_nat d) then N.setbit m (N.of_nat (pos_in_house h c)) else m) 0%N (seq 0 81).
Definition table_of (poss : list N) : list (list N) := map (fun h => map (places_of poss h) (seq 0 9)) (seq 0 27).

Lemma places_of_mem poss h d p : mem (places_of poss h d) p <-> exists c, c < 81 /\ in_house h c /\ pos_in_house h c = p /\ mem (nth c poss 0%N) d.
Proof.
  unfold places_of. assert (A : forall l, mem (fold_right (fun c m => if in_houseb h c && N.testbit (nth c poss 0%N) (N.of_nat d) then N.setbit m (N.of_nat (pos_in_house h c)) else m) 0%N l) p <->
    exists c, In c l /\ in_house h c /\ pos_in_house h c = p /\ mem (nth c poss 0%N) d).
  { induction l as [ | c l IH]; cbn [fold_right In]; [split; [intros X; destruct (mem_none EDigit p X) | intros [c [[] _]]] | ].
    destruct (in_houseb h c && N.testbit (nth c poss 0%N) (N.of_nat d)) eqn:E.
    - apply andb_true_iff in E. destruct E as [E1 E2]. apply in_houseb_iff in E1. unfold mem at 1. rewrite N.setbit_eqb, orb_true_iff. fold (mem (fold_right (fun c m => if in_houseb h c && N.testbit (nth c poss 0%N) (N.of_nat d) then N.setbit m (N.of_nat (pos_in_house h c)) else m) 0%N l) p). rewrite IH, N.eqb_eq. split.
      + intros [X | [c' [H1 H2]]]; [exists c; split; [left; reflexivity | ]; split; [exact E1 | ]; split; [lia | exact E2] | exists c'; split; [right; exact H1 | exact H2]].
      + intros [c' [[<- | H1] H2]]; [left; lia | right; exists c'; auto].
    - rewrite IH. split; [intros [c' [H1 H2]]; exists c'; split; [right; exact H1 | exact H2] | ]. intros [c' [[<- | H1] [H2 [H3 H4]]]]; [ | exists c'; auto].
      exfalso. apply in_houseb_iff in H2. unfold mem in H4. rewrite H2, H4 in E. discriminate. }
  rewrite A. split; intros [c [Hc X]]; exists c; (split; [ | exact X]); [apply in_seq in Hc; lia | apply in_seq; lia].
Qed.
Lemma table_places poss : places (marks poss) (table_of poss).
Proof.
  unfold places, table_of. rewrite map_length, seq_length. split; [reflexivity | ]. intros h Hh. rewrite (nth_indep _ [] (map (places_of poss 0) (seq 0 9))) by (rewrite map_length, seq_length; exact Hh).
  rewrite (map_nth (fun h => map (places_of poss h) (seq 0 9)) (seq 0 27) 0 h). rewrite (seq_nth 0 0 Hh). cbn [plus]. rewrite map_length, seq_length. split; [reflexivity | ].
  intros d p Hd. rewrite (nth_indep _ 0%N (places_of poss h 0)) by (rewrite map_length, seq_length; lia). rewrite (map_nth (places_of poss h) (seq 0 9) 0 (d - 1)), seq_nth by lia. cbn [plus].
  rewrite places_of_mem. unfold marks. split; intros [c [H1 [H2 [H3 H4]]]]; exists c; (split; [exact H1 | ]); (split; [exact H2 | ]); (split; [exact H3 | ]); [split; [lia | exact H4] | apply H4].
Qed.

(** The digits that a cell can have without conflict *)
Definition free_digits (g : grid) : list N :=
  map (fun c => if at_ g c =? 0 then
    fold_right (fun d m => if forallb (fun c' => negb (peersb c c' && (at_ g c' =? d))) (seq 0 81) then N.setbit m (N.of_nat (d - 1)) else m) 0%N (seq 1 9) else 0%N) (seq 0 81).

(** [puzzle1] with three digits entered *)
Definition entered : grid := lset (lset (lset puzzle1 45 1) 46 3) 54 3.

(** All candidates, but the first cell has only 1 and 2, and in its row only one other cell has 1 *)
Definition two_ones : list N := [3; 510; 510; 510; 510; 511; 510; 510; 510]%N ++ repeat 511%N 72.
(** A solution with these candidates *)
Definition two_ones_solution : grid :=
  [1;2;3;4;5;6;7;8;9; 4;5;6;7;8;9;1;2;3; 7;8;9;1;2;3;4;5;6;
   2;3;4;5;6;7;8;9;1; 5;6;7;8;9;1;2;3;4; 8;9;1;2;3;4;5;6;7;
   3;4;5;6;7;8;9;1;2; 6;7;8;9;1;2;3;4;5; 9;1;2;3;4;5;6;7;8].

Lemma two_ones_sets : digit_sets two_ones.
Proof. apply digit_setsb_ok. vm_compute. reflexivity. Qed.
Lemma two_ones_fits : fits (marks two_ones) two_ones_solution.
Proof.
  split; [apply solvedb_ok; vm_compute; reflexivity | ]. intros c Hc. assert (B : forallb (fun c => (1 <=? at_ two_ones_solution c) && N.testbit (nth c two_ones 0%N) (N.of_nat (at_ two_ones_solution c - 1))) (seq 0 81) = true) by (vm_compute; reflexivity).
  rewrite forallb_forall in B. specialize (B c ltac:(apply in_seq; lia)). apply andb_true_iff in B. destruct B as [B1 B2]. apply Nat.leb_le in B1. split; [exact B1 | exact B2].
Qed.
Lemma mark_iff poss c d : marks poss c d <-> (1 <=? d) && N.testbit (nth c poss 0%N) (N.of_nat (d - 1)) = true.
Proof. unfold marks, mem. rewrite andb_true_iff, Nat.leb_le. reflexivity. Qed.
Lemma two_ones_pair : house_pair (marks two_ones) 0 (5, 1) (0, 1).
Proof.
  split.
  - unfold in_unit. cbn [fst snd]. repeat (split; [first [reflexivity | lia | discriminate] | ]). split; apply mark_iff; reflexivity.
  - cbn [fst snd]. intros c Hc Ic Mc. apply mark_iff in Mc. apply in_houseb_iff in Ic.
    assert (B : forallb (fun c => negb (in_houseb 0 c) || negb ((1 <=? 1) && N.testbit (nth c two_ones 0%N) (N.of_nat (1 - 1))) || (c =? 5) || (c =? 0)) (seq 0 81) = true) by (vm_compute; reflexivity).
    rewrite forallb_forall in B. specialize (B c ltac:(apply in_seq; lia)). rewrite Ic, Mc in B. cbn [negb orb] in B. apply orb_true_iff in B. rewrite !Nat.eqb_eq in B. exact B.
Qed.
Lemma two_ones_cell : cell_pair (marks two_ones) (0, 1) (0, 2).
Proof.
  split.
  - unfold in_cell. cbn [fst snd]. repeat (split; [first [reflexivity | lia | discriminate] | ]). split; apply mark_iff; reflexivity.
  - cbn [fst snd]. intros d Md. assert (R := marks_range two_ones two_ones_sets 0 d Md). apply mark_iff in Md. do 10 (destruct d as [ | d]; [first [left; reflexivity | right; reflexivity | discriminate] | ]). lia.
Qed.

(** A strong link that is found in one direction only, and in the other direction not even as a weak link *)
Lemma link_missing : exists poss pos s x y weak strong, digit_sets poss /\ places (marks poss) pos /\ fits (marks poss) s /\ find_direct_links poss pos = Ok (weak, strong) /\
  strong_link (marks poss) x y /\ strong_link (marks poss) y x /\ In x (links_of strong y) /\ ~ In y (links_of strong x) /\ ~ In y (links_of weak x).
Proof.
  destruct (links_exact two_ones (table_of two_ones) two_ones_sets (table_places two_ones)) as [w [s [E H]]].
  exists two_ones, (table_of two_ones), two_ones_solution, (0, 1), (5, 1), w, s. split; [exact two_ones_sets | ]. split; [apply table_places | ]. split; [exact two_ones_fits | ]. split; [exact E | ].
  assert (P := two_ones_pair). assert (C := two_ones_cell).
  split; [right; exists 0; destruct P as [[P1 [P2 [P3 [P4 [P5 [P6 [P7 [P8 P9]]]]]]]] P10]; cbn [fst snd] in *; split; [repeat split; cbn [fst snd]; auto; apply P8 || apply P9 | ]; cbn [fst snd]; intros c A1 A2 A3; destruct (P10 c A1 A2 A3); auto | ].
  split; [right; exists 0; exact P | ].
  assert (N5 : ~ paired (marks two_ones) (5, 1)).
  { intros [[c d] [_ A]]. cbn [fst snd] in A. assert (M2 : marks two_ones 5 2) by (apply mark_iff; reflexivity). assert (M3 : marks two_ones 5 3) by (apply mark_iff; reflexivity). apply A in M2. apply A in M3. lia. }
  assert (Pd : paired (marks two_ones) (0, 1)) by (exists (0, 2); exact C).
  split; [apply H; right; split; [exact N5 | exists 0; exact P] | ]. split; intros Q; apply H in Q.
  - destruct Q as [[[Q _] _] | [Q _]]; [cbn [fst] in Q; discriminate | contradiction].
  - destruct Q as [Q _]. contradiction.
Qed.
