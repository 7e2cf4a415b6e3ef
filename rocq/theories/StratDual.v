(** Large subsets and fish: whenever one of them leaves something to be removed, so does a small one. *)
From Coq Require Import List Arith NArith ZArith ZifyNat ZifyN ZifyBool Lia Bool.
From Verif Require Import Spec TableSpec GeomSpec Solver Bits Geom Gen BitLemmas GridProofs GuessProofs BitsProofs GeomProofs GenProofs Strat StratFind StratSolve StratUse StratSpec StratWhy StratWhyLemmas
  StratInv StratFound StratWalk StratWing StratHist StratStuck StratMain StratApi StratCertify StratCount StratBound StratOrderSpec StratOrder.
Import ListNotations.
Ltac Zify.zify_post_hook ::= Z.to_euclidean_division_equations.

(** * Counting *)

Lemma NoDup_map_in {U V} (f : U -> V) l : (forall x y, In x l -> In y l -> f x = f y -> x = y) -> NoDup l -> NoDup (map f l).
Proof.
  induction l as [ | a l IH]; intros H N; [constructor | ]. apply NoDup_cons_iff in N. destruct N as [Na N]. cbn [map]. constructor.
  - rewrite in_map_iff. intros [y [E Hy]]. apply Na. rewrite (H a y); [exact Hy | left; reflexivity | right; exact Hy | symmetry; exact E].
  - apply IH; [ | exact N]. intros x y Hx Hy. apply H; right; assumption.
Qed.

Lemma all_or {U} (P : U -> Prop) (Q : Prop) l : (forall x, In x l -> P x \/ Q) -> (forall x, In x l -> P x) \/ Q.
Proof.
  induction l as [ | a l IH]; intros H; [left; intros x [] | ]. destruct (H a (or_introl eq_refl)) as [Pa | q]; [ | right; exact q].
  destruct IH as [K | q]; [intros x Hx; apply H; right; exact Hx | | right; exact q]. left. intros x [<- | Hx]; [exact Pa | apply K, Hx].
Qed.

Definition without (l C : list nat) : list nat := filter (fun x => if in_dec Nat.eq_dec x C then false else true) l.
Lemma without_in l C x : In x (without l C) <-> In x l /\ ~ In x C.
Proof. unfold without. rewrite filter_In. destruct (in_dec Nat.eq_dec x C); intuition congruence. Qed.
Lemma without_nodup l C : NoDup l -> NoDup (without l C).
Proof. apply NoDup_filter. Qed.
Lemma without_length l C : NoDup l -> NoDup C -> incl C l -> length (without l C) + length C = length l.
Proof.
  intros Nl NC I. rewrite <- app_length. apply Nat.le_antisymm; apply NoDup_incl_length.
  - apply NoDup_app_disj; [apply without_nodup, Nl | exact NC | intros x Hx; apply without_in in Hx; apply Hx].
  - intros x Hx. apply in_app_iff in Hx. destruct Hx as [Hx | Hx]; [apply without_in in Hx; apply Hx | apply I, Hx].
  - exact Nl.
  - intros x Hx. apply in_app_iff. destruct (in_dec Nat.eq_dec x C) as [Q | Q]; [right; exact Q | left; apply without_in; auto].
Qed.

(** The elements of [C] are related to no other than the equally many elements of [D]; then those outside [D] are related to
    no other than those outside [C]. *)
Lemma complement (X Y C D : list nat) (R : nat -> nat -> Prop) (m : nat -> nat) : NoDup X -> NoDup Y -> NoDup C -> NoDup D -> incl C X -> incl D Y ->
  length X = length Y -> length C = length D -> (forall x, In x X -> In (m x) Y /\ R x (m x)) -> (forall x x', In x X -> In x' X -> m x = m x' -> x = x') ->
  (forall x y, In x C -> In y Y -> R x y -> In y D) ->
  length (without X C) = length (without Y D) /\ length (without X C) + length C = length X /\
  (forall x, In x (without X C) -> In (m x) (without Y D)) /\ forall x, In x (without X C) <-> In x X /\ exists y, In y (without Y D) /\ R x y.
Proof.
  intros NX NY NC ND IC ID L LC M Inj H. assert (L1 := without_length X C NX NC IC). assert (L2 := without_length Y D NY ND ID).
  assert (NM : NoDup (map m C)).
  { apply NoDup_map_in; [intros x y Hx Hy; apply Inj; apply IC; assumption | exact NC]. }
  assert (MI : incl (map m C) D). { intros y Hy. apply in_map_iff in Hy. destruct Hy as [c [<- Hc]]. destruct (M c (IC c Hc)) as [My Rc]. apply (H c); assumption. }
  assert (DI : incl D (map m C)) by (apply NoDup_length_incl; [exact NM | rewrite map_length; lia | exact MI]).
  assert (Out : forall x, In x (without X C) -> In (m x) (without Y D)).
  { intros x Hx. apply without_in in Hx. destruct Hx as [Hx N]. apply without_in. split; [apply M, Hx | ]. intros Q. apply DI, in_map_iff in Q. destruct Q as [c [E Hc]].
    apply N. rewrite <- (Inj c x); [exact Hc | apply IC, Hc | exact Hx | exact E]. }
  split; [lia | ]. split; [exact L1 | ]. split; [exact Out | ]. intros x. split.
  - intros Hx. assert (Hx' := proj1 (proj1 (without_in _ _ _) Hx)). split; [exact Hx' | ]. exists (m x). split; [apply Out, Hx | apply M, Hx'].
  - intros [Hx [y [Hy Rx]]]. apply without_in. split; [exact Hx | ]. intros Q. apply without_in in Hy. apply (proj2 Hy). apply (H x y Q (proj1 Hy) Rx).
Qed.

Section Dual.
Variables (en el : list (nat * nat)) (s : grid).
Hypothesis Cs : completion (listed en) (listed el) s.
Notation A := (alive en el).
Notation settled := (settled en s).

(** * Subsets *)

(** The cells without digit of a house, and the digits missing in it *)
Definition open_cells (h : nat) : list nat := filter (fun c => in_houseb h c && negb (settled c)) (seq 0 81).
Notation open_digits h := (map (at_ s) (open_cells h)).
Lemma open_cells_in h c : In c (open_cells h) <-> c < 81 /\ in_house h c /\ settled c = false.
Proof. unfold open_cells. rewrite filter_In, andb_true_iff, in_houseb_iff, negb_true_iff, in_seq. intuition lia. Qed.
Lemma open_cells_nodup h : NoDup (open_cells h).
Proof. apply NoDup_filter, seq_NoDup. Qed.
Lemma open_inj h : h < 27 -> forall c c', In c (open_cells h) -> In c' (open_cells h) -> at_ s c = at_ s c' -> c = c'.
Proof. intros Hh c c' Hc Hc' E. apply open_cells_in in Hc, Hc'. apply (one_any en el s Cs h); tauto. Qed.
Lemma open_digits_nodup h : h < 27 -> NoDup (open_digits h).
Proof.
  intros Hh. apply NoDup_map_in; [apply open_inj, Hh | apply open_cells_nodup].
Qed.
Lemma open_digits_in h d : h < 27 -> (In d (open_digits h) <-> 1 <= d <= 9 /\ settled (place s h d) = false).
Proof.
  intros Hh. rewrite in_map_iff. split.
  - intros [c [<- Hc]]. apply open_cells_in in Hc. destruct Hc as [Hc [Ic N]]. assert (R := range_any en el s Cs c Hc). split; [exact R | ].
    destruct (place_ok s h (at_ s c) (proj1 Cs) Hh R) as [Lk [Ik Ek]]. rewrite (one_any en el s Cs h _ c Hh Lk Hc Ik Ic Ek). exact N.
  - intros [R N]. destruct (place_ok s h d (proj1 Cs) Hh R) as [Lk [Ik Ek]]. exists (place s h d). split; [exact Ek | ]. apply open_cells_in. auto.
Qed.
Lemma alive_both h c d : h < 27 -> in_house h c -> A c d -> In c (open_cells h) /\ In d (open_digits h).
Proof.
  intros Hh Ic Al. assert (Hc : c < 81) by apply Al. assert (Hd : 1 <= d <= 9) by apply Al. split; [apply open_cells_in; split; [exact Hc | split; [exact Ic | apply (alive_open en el s c d Al)]] | ].
  apply open_digits_in; [exact Hh | ]. split; [exact Hd | ]. destruct (StratOrder.settled en s (place s h d)) eqn:E; [exfalso | reflexivity].
  destruct (place_ok s h d (proj1 Cs) Hh Hd) as [Lk [Ik Ek]]. destruct (Nat.eq_dec c (place s h d)) as [-> | N]; [exact (settled_dead en el s _ d E Al) | ].
  assert (Al' := Al). rewrite <- Ek in Al'. apply (settled_sees en el s _ c E) in Al'; [exact Al' | ]. apply (house_peers h); assumption.
Qed.
Lemma open_nine h : h < 27 -> length (open_cells h) <= 9.
Proof.
  intros Hh. unfold open_cells. assert (Q : length (filter (fun c => in_houseb h c && negb (settled c)) (seq 0 81)) <= length (filter (in_houseb h) (seq 0 81))).
  { induction (seq 0 81) as [ | c l IH]; [reflexivity | ]. cbn [filter]. destruct (in_houseb h c); cbn [andb]; [ | exact IH]. destruct (negb (settled c)); cbn [length]; lia. }
  apply (Nat.le_trans _ _ _ Q). clear - Hh.
  assert (K : forallb (fun h => length (filter (in_houseb h) (seq 0 81)) <=? 9) (seq 0 27) = true) by (vm_compute; reflexivity).
  rewrite forallb_forall in K. apply Nat.leb_le, K, in_seq. lia.
Qed.
Lemma open_alive_house h c : In c (open_cells h) -> A c (at_ s c).
Proof. intros Hc. apply open_cells_in in Hc. apply (open_alive en el s Cs c); tauto. Qed.

Lemma naked_turns n : naked_subset A n -> exists k, 1 <= k /\ n + k <= 9 /\ hidden_subset A k.
Proof.
  intros [h [cs [ds [Hh [Nc [Lc [Nd [Ld [Hc [Hd [c0 [d0 [I0 [N0 [D0 A0]]]]]]]]]]]]]]].
  destruct (complement (open_cells h) (open_digits h) cs ds A (at_ s)) as [E1 [E2 [E3 E4]]].
  - apply open_cells_nodup.
  - apply open_digits_nodup, Hh.
  - exact Nc.
  - exact Nd.
  - intros c Q. destruct (Hc c Q) as [Ic [d Al]]. exact (proj1 (alive_both h c d Hh Ic Al)).
  - intros d Q. apply Hd in Q. destruct Q as [c [Qc Al]]. exact (proj2 (alive_both h c d Hh (proj1 (Hc c Qc)) Al)).
  - symmetry. apply map_length.
  - lia.
  - intros c Q. split; [apply in_map, Q | apply (open_alive_house h), Q].
  - apply open_inj, Hh.
  - intros c d Q _ Al. apply Hd. exists c. auto.
  - destruct (alive_both h c0 d0 Hh I0 A0) as [O0 _]. assert (In c0 (without (open_cells h) cs)) as W0 by (apply without_in; auto).
    assert (L9 := open_nine h Hh). exists (length (without (open_cells h) cs)). split; [destruct (without (open_cells h) cs); [destruct W0 | cbn [length]; lia] | ]. split; [lia | ].
    exists h, (without (open_cells h) cs), (without (open_digits h) ds). split; [exact Hh | ]. split; [apply without_nodup, open_cells_nodup | ]. split; [reflexivity | ].
    split; [apply without_nodup, open_digits_nodup, Hh | ]. split; [symmetry; exact E1 | ]. split; [ | split].
    + intros d Q. apply without_in in Q. destruct Q as [Q _]. apply in_map_iff in Q. destruct Q as [c [<- Q]]. exists c.
      split; [apply open_cells_in in Q; tauto | apply (open_alive_house h), Q].
    + intros c. rewrite E4. split.
      * intros [Q W]. split; [apply open_cells_in in Q; tauto | exact W].
      * intros [Ic [d [Q Al]]]. split; [exact (proj1 (alive_both h c d Hh Ic Al)) | exists d; auto].
    + exists c0, d0. split; [exact W0 | ]. split; [ | exact A0]. intros Q. apply without_in in Q. tauto.
Qed.

Lemma hidden_turns n : hidden_subset A n -> exists k, 1 <= k /\ n + k <= 9 /\ naked_subset A k.
Proof.
  intros [h [cs [ds [Hh [Nc [Lc [Nd [Ld [Hd [Hc [c0 [d0 [I0 [N0 A0]]]]]]]]]]]]]].
  assert (H0 : in_house h c0) by (apply Hc in I0; tauto).
  assert (Pl : forall d, In d (open_digits h) -> In (place s h d) (open_cells h) /\ at_ s (place s h d) = d).
  { intros d Q. apply open_digits_in in Q; [ | exact Hh]. destruct Q as [R N]. destruct (place_ok s h d (proj1 Cs) Hh R) as [Lk [Ik Ek]]. split; [apply open_cells_in; auto | exact Ek]. }
  destruct (complement (open_digits h) (open_cells h) ds cs (fun d c => A c d) (place s h)) as [E1 [E2 [E3 E4]]].
  - apply open_digits_nodup, Hh.
  - apply open_cells_nodup.
  - exact Nd.
  - exact Nc.
  - intros d Q. destruct (Hd d Q) as [c [Ic Al]]. exact (proj2 (alive_both h c d Hh Ic Al)).
  - intros c Q. apply Hc in Q. destruct Q as [Ic [d [Q Al]]]. exact (proj1 (alive_both h c d Hh Ic Al)).
  - apply map_length.
  - lia.
  - intros d Q. destruct (Pl d Q) as [Q1 Q2]. split; [exact Q1 | ]. assert (Al := open_alive_house h _ Q1). rewrite Q2 in Al. exact Al.
  - intros d d' Q Q' E. rewrite <- (proj2 (Pl d Q)), <- (proj2 (Pl d' Q')), E. reflexivity.
  - intros d c Q Qc Al. apply Hc. split; [apply open_cells_in in Qc; tauto | exists d; auto].
  - destruct (alive_both h c0 d0 Hh H0 A0) as [_ O0]. assert (In d0 (without (open_digits h) ds)) as W0 by (apply without_in; auto).
    assert (L9 := open_nine h Hh). assert (LX : length (open_digits h) = length (open_cells h)) by apply map_length.
    exists (length (without (open_digits h) ds)). split; [destruct (without (open_digits h) ds); [destruct W0 | cbn [length]; lia] | ]. split; [lia | ].
    exists h, (without (open_cells h) cs), (without (open_digits h) ds). split; [exact Hh | ]. split; [apply without_nodup, open_cells_nodup | ]. split; [symmetry; exact E1 | ].
    split; [apply without_nodup, open_digits_nodup, Hh | ]. split; [reflexivity | ]. split; [ | split].
    + intros c Q. apply without_in in Q. destruct Q as [Q _]. split; [apply open_cells_in in Q; tauto | exists (at_ s c); apply (open_alive_house h), Q].
    + intros d. rewrite E4. split.
      * intros [_ W]. exact W.
      * intros [c [Q Al]]. split; [ | exists c; auto]. apply without_in in Q. destruct Q as [Q _]. apply open_cells_in in Q. exact (proj2 (alive_both h c d Hh (proj1 (proj2 Q)) Al)).
    + exists c0, d0. split; [exact H0 | ]. split; [ | split; [exact W0 | exact A0]]. intros Q. apply without_in in Q. tauto.
Qed.

(** * Fish *)

Definition line (rows : bool) (c : nat) : nat := if rows then row_of c else 9 + col_of c.
Definition is_line (rows : bool) (l : nat) : Prop := if rows then l < 9 else 9 <= l < 18.
Lemma line_is rows c : c < 81 -> is_line rows (line rows c).
Proof.
  intros Hc. unfold is_line, line, row_of, col_of. destruct rows; [apply Nat.div_lt_upper_bound; [discriminate | exact Hc] | ].
  assert (Q := Nat.mod_upper_bound c 9). clear - Q. generalize dependent (c mod 9). intros x Q. lia.
Qed.
Lemma line_in rows l c : is_line rows l -> (in_house l c <-> l = line rows c).
Proof.
  unfold is_line, line, in_house. destruct rows; intros H.
  - destruct (Nat.ltb_spec l 9); [ | lia]. split; congruence.
  - destruct (Nat.ltb_spec l 9); [lia | ]. destruct (Nat.ltb_spec l 18); [ | lia]. generalize (col_of c). clear - H. intros x. lia.
Qed.
Lemma line_both rows c c' : c < 81 -> c' < 81 -> line rows c = line rows c' -> line (negb rows) c = line (negb rows) c' -> c = c'.
Proof.
  unfold line. intros _ _ E1 E2. assert (Q : row_of c = row_of c' /\ col_of c = col_of c') by (destruct rows; cbn [negb] in E2; split; congruence || (apply (Nat.add_cancel_l _ _ 9); assumption)).
  destruct Q as [Qr Qc]. unfold row_of, col_of in *. rewrite (Nat.div_mod c 9), (Nat.div_mod c' 9), Qr, Qc by discriminate. reflexivity.
Qed.
Lemma line_house rows l : is_line rows l -> l < 27.
Proof. unfold is_line. destruct rows; lia. Qed.

Definition all_lines (rows : bool) : list nat := seq (if rows then 0 else 9) 9.
Lemma all_lines_in rows l : In l (all_lines rows) <-> is_line rows l.
Proof. unfold all_lines, is_line. rewrite in_seq. destruct rows; lia. Qed.
(** The lines in which the digit is missing *)
Definition open_lines (rows : bool) (d : nat) : list nat := filter (fun l => negb (settled (place s l d))) (all_lines rows).
Lemma open_lines_in rows d l : In l (open_lines rows d) <-> is_line rows l /\ settled (place s l d) = false.
Proof. unfold open_lines. rewrite filter_In, negb_true_iff, all_lines_in. tauto. Qed.
Lemma open_lines_nodup rows d : NoDup (open_lines rows d).
Proof. apply NoDup_filter, seq_NoDup. Qed.
Lemma open_lines_nine rows d : length (open_lines rows d) <= 9.
Proof. unfold open_lines. eapply Nat.le_trans; [apply filter_length_le | ]. unfold all_lines. rewrite seq_length. reflexivity. Qed.

Lemma place_is rows c d : c < 81 -> at_ s c = d -> place s (line rows c) d = c.
Proof.
  intros Hc E. assert (R := range_any en el s Cs c Hc). rewrite E in R. assert (Li := line_is rows c Hc). assert (Lh := line_house rows _ Li).
  destruct (place_ok s (line rows c) d (proj1 Cs) Lh R) as [Lk [Ik Ek]]. apply (one_any en el s Cs (line rows c)); [exact Lh | exact Lk | exact Hc | exact Ik | apply (line_in rows); [exact Li | reflexivity] | congruence].
Qed.
Lemma alive_line rows c d : A c d -> In (line rows c) (open_lines rows d).
Proof.
  intros Al. assert (Hc : c < 81) by apply Al. assert (Hd : 1 <= d <= 9) by apply Al. assert (Li := line_is rows c Hc). apply open_lines_in. split; [exact Li | ].
  destruct (alive_both (line rows c) c d (line_house rows _ Li)) as [_ Q]; [apply (line_in rows); [exact Li | reflexivity] | exact Al | ].
  apply open_digits_in in Q; [apply Q | exact (line_house rows _ Li)].
Qed.
(** The crossing line through the place of the digit *)
Definition across (rows : bool) (d l : nat) : nat := line (negb rows) (place s l d).
Lemma across_ok rows d l : 1 <= d <= 9 -> In l (open_lines rows d) ->
  place s l d < 81 /\ line rows (place s l d) = l /\ A (place s l d) d /\ In (across rows d l) (open_lines (negb rows) d).
Proof.
  intros Hd Q. apply open_lines_in in Q. destruct Q as [Li N]. destruct (place_ok s l d (proj1 Cs) (line_house rows l Li) Hd) as [Lk [Ik Ek]].
  assert (Al := open_alive en el s Cs _ Lk N). rewrite Ek in Al. split; [exact Lk | ]. split; [symmetry; apply (line_in rows l _ Li), Ik | ]. split; [exact Al | apply alive_line, Al].
Qed.
Lemma across_inj rows d : 1 <= d <= 9 -> forall l l', In l (open_lines rows d) -> In l' (open_lines rows d) -> across rows d l = across rows d l' -> l = l'.
Proof.
  intros Hd l l' Q Q' E. destruct (across_ok rows d l Hd Q) as [L1 [L2 [L3 L4]]]. destruct (across_ok rows d l' Hd Q') as [M1 [M2 [M3 M4]]]. unfold across in E.
  apply open_lines_in in Q, Q'. destruct (place_ok s l d (proj1 Cs) (line_house rows l (proj1 Q)) Hd) as [_ [_ Ek]].
  destruct (place_ok s l' d (proj1 Cs) (line_house rows l' (proj1 Q')) Hd) as [_ [_ Ek']].
  assert (P : place s l d = place s l' d); [ | rewrite <- L2, <- M2, P; reflexivity].
  rewrite <- (place_is (negb rows) (place s l d) d L1 Ek), <- (place_is (negb rows) (place s l' d) d M1 Ek'), E. reflexivity.
Qed.
Lemma across_length rows d : 1 <= d <= 9 -> length (open_lines rows d) = length (open_lines (negb rows) d).
Proof.
  intros Hd. assert (K : forall r, length (open_lines r d) <= length (open_lines (negb r) d)).
  { intros r. rewrite <- (map_length (across r d)). apply NoDup_incl_length.
    - apply NoDup_map_in; [apply across_inj, Hd | apply open_lines_nodup].
    - intros k Q. apply in_map_iff in Q. destruct Q as [l [<- Q]]. apply across_ok; assumption. }
  apply Nat.le_antisymm; [apply K | ]. rewrite <- (negb_involutive rows) at 2. apply K.
Qed.

Lemma fish_turns n : fish A n -> hidden_single A \/ exists k, 1 <= k /\ n + k <= 9 /\ fish A k.
Proof.
  intros [d [rows [base [cover [Nb [Lb [Nc [Lc [Hb [Ht [Hc [k0 [c0 [K0 [I0 [B0 A0]]]]]]]]]]]]]]]].
  assert (Hd : 1 <= d <= 9) by apply A0. assert (Hc0 : c0 < 81) by apply A0.
  assert (Cov : forall k, In k cover -> is_line (negb rows) k). { intros k Q. apply Hc in Q. destruct Q as [Q _]. unfold is_line. destruct rows; exact Q. }
  assert (Bas : forall l, In l base -> is_line rows l) by exact Hb.
  set (R := fun l k => exists c, line rows c = l /\ line (negb rows) c = k /\ A c d).
  destruct (complement (open_lines rows d) (open_lines (negb rows) d) base cover R (across rows d)) as [E1 [E2 [E3 E4]]].
  - apply open_lines_nodup.
  - apply open_lines_nodup.
  - exact Nb.
  - exact Nc.
  - intros l Q. destruct (Ht l Q) as [c [_ [_ [Ic [_ [Al _]]]]]]. apply (line_in rows l c (Bas l Q)) in Ic. subst l. apply alive_line, Al.
  - intros k Q. assert (Lk := Cov k Q). apply Hc in Q. destruct Q as [_ [l [c [Q [_ [Ik Al]]]]]]. apply (line_in (negb rows)) in Ik; [ | exact Lk]. subst k. apply alive_line, Al.
  - apply across_length, Hd.
  - lia.
  - intros l Q. destruct (across_ok rows d l Hd Q) as [L1 [L2 [L3 L4]]]. split; [exact L4 | ]. exists (place s l d). auto.
  - apply across_inj, Hd.
  - intros l k Q _ [c [<- [<- Al]]]. assert (Hcc : c < 81) by apply Al. apply Hc. split; [assert (W := line_is (negb rows) c Hcc); unfold is_line in W; destruct rows; exact W | ].
    exists (line rows c), c. split; [exact Q | ]. split; [apply (line_in rows); [apply line_is, Hcc | reflexivity] | ].
    split; [apply (line_in (negb rows)); [apply line_is, Hcc | reflexivity] | exact Al].
  - assert (W0 : In (line rows c0) (without (open_lines rows d) base)).
    { apply without_in. split; [apply alive_line, A0 | ]. intros Q. apply (B0 _ Q), (line_in rows); [apply line_is, Hc0 | reflexivity]. }
    assert (Two : (forall k, In k (without (open_lines (negb rows) d) cover) -> exists c c', c <> c' /\ in_house k c /\ in_house k c' /\ A c d /\ A c' d) \/ hidden_single A).
    { apply all_or. intros k Q. apply without_in in Q. destruct Q as [Q _]. destruct (across_ok (negb rows) d k Hd Q) as [L1 [L2 [L3 _]]]. apply open_lines_in in Q. destruct Q as [Li _].
      assert (Ik : in_house k (place s k d)) by (apply (line_in (negb rows)); [exact Li | symmetry; exact L2]).
      destruct (existsb (fun c => aliveb en el c d && (in_houseb k c && negb (c =? place s k d))) (seq 0 81)) eqn:E.
      - left. apply existsb_exists in E. destruct E as [c [_ E]]. rewrite !andb_true_iff, aliveb_iff, in_houseb_iff, negb_true_iff, Nat.eqb_neq in E. exists c, (place s k d). tauto.
      - right. exists k, (place s k d), d. split; [exact (line_house _ _ Li) | ]. split; [exact Ik | ]. split; [exact L3 | ]. intros c Ic Al.
        destruct (Nat.eq_dec c (place s k d)) as [Y | Y]; [exact Y | exfalso]. enough (existsb (fun c => aliveb en el c d && (in_houseb k c && negb (c =? place s k d))) (seq 0 81) = true) by congruence.
        apply existsb_exists. exists c. split; [apply in_seq; assert (c < 81) by apply Al; lia | ]. rewrite !andb_true_iff, aliveb_iff, in_houseb_iff, negb_true_iff, Nat.eqb_neq. auto. }
    destruct Two as [Two | Hs]; [right | left; exact Hs]. assert (L9 := open_lines_nine rows d). exists (length (without (open_lines rows d) base)).
    split; [destruct (without (open_lines rows d) base); [destruct W0 | cbn [length]; lia] | ]. split; [lia | ].
    exists d, (negb rows), (without (open_lines (negb rows) d) cover), (without (open_lines rows d) base).
    split; [apply without_nodup, open_lines_nodup | ]. split; [symmetry; exact E1 | ]. split; [apply without_nodup, open_lines_nodup | ]. split; [reflexivity | ].
    split; [intros k Q; apply without_in in Q; destruct Q as [Q _]; apply open_lines_in in Q; exact (proj1 Q) | ]. split; [exact Two | ]. split.
    + intros l. rewrite E4. split.
      * intros [Q [k [Qk [c [El [Ek Al]]]]]]. assert (Hcc : c < 81) by apply Al. apply open_lines_in in Q. destruct Q as [Li _].
        split; [unfold is_line in Li; destruct rows; exact Li | ]. exists k, c. split; [exact Qk | ]. subst k l.
        split; [apply (line_in (negb rows)); [apply line_is, Hcc | reflexivity] | ]. split; [apply (line_in rows); [exact Li | reflexivity] | exact Al].
      * intros [Li [k [c [Qk [Ik [Il Al]]]]]]. assert (Li' : is_line rows l) by (unfold is_line; destruct rows; exact Li). apply (line_in rows) in Il; [ | exact Li']. subst l.
        assert (Lk : is_line (negb rows) k) by (apply without_in in Qk; destruct Qk as [Qk _]; apply open_lines_in in Qk; apply Qk). apply (line_in (negb rows)) in Ik; [ | exact Lk].
        split; [apply alive_line, Al | ]. exists k. split; [exact Qk | ]. exists c. auto.
    + exists (line rows c0), c0. split; [exact W0 | ]. split; [apply (line_in rows); [apply line_is, Hc0 | reflexivity] | ]. split; [ | exact A0].
      intros k Q Ik. apply without_in in Q. destruct Q as [Q N]. apply open_lines_in in Q. destruct Q as [Lk _]. apply (line_in (negb rows) k c0 Lk) in Ik.
      apply (line_in (negb rows) k0 c0 (Cov k0 K0)) in I0. apply N. rewrite Ik, <- I0. exact K0.
Qed.

(** * No large ones without small ones *)

Lemma naked_small n : naked_subset A n -> n <> 0 /\ (n = 1 -> naked_single A).
Proof.
  intros [h [cs [ds [Hh [Nc [Lc [Nd [Ld [Hc [Hd [c0 [d0 [I0 [N0 [D0 A0]]]]]]]]]]]]]]]. split; [intros ->; destruct ds; [destruct D0 | discriminate Ld] | ]. intros ->.
  destruct cs as [ | c [ | ]]; [discriminate Lc | | discriminate Lc]. destruct ds as [ | d [ | ]]; [discriminate Ld | | discriminate Ld].
  exists c, d. split.
  - destruct (proj1 (Hd d) (or_introl eq_refl)) as [c' [[<- | []] Al]]. exact Al.
  - intros d' Al. destruct (proj2 (Hd d')) as [<- | []]; [ | reflexivity]. exists c. split; [left; reflexivity | exact Al].
Qed.
Lemma hidden_small n : hidden_subset A n -> n <> 0 /\ (n = 1 -> hidden_single A).
Proof.
  intros [h [cs [ds [Hh [Nc [Lc [Nd [Ld [Hd [Hc [c0 [d0 [I0 [N0 A0]]]]]]]]]]]]]]. split; [intros ->; destruct cs; [destruct I0 | discriminate Lc] | ]. intros ->.
  destruct cs as [ | c [ | ]]; [discriminate Lc | | discriminate Lc]. destruct ds as [ | d [ | ]]; [discriminate Ld | | discriminate Ld].
  destruct (proj1 (Hc c) (or_introl eq_refl)) as [Ic [d' [[<- | []] Al]]]. exists h, c, d. split; [exact Hh | ]. split; [exact Ic | ]. split; [exact Al | ].
  intros c' Ic' Al'. destruct (proj2 (Hc c')) as [<- | []]; [ | reflexivity]. split; [exact Ic' | ]. exists d. split; [left; reflexivity | exact Al'].
Qed.
Lemma fish_small n : fish A n -> 2 <= n.
Proof.
  intros [d [rows [base [cover [Nb [Lb [Nc [Lc [Hb [Ht [Hc [k0 [c0 [K0 [I0 [B0 A0]]]]]]]]]]]]]]]].
  destruct n as [ | [ | n]]; [destruct cover; [destruct K0 | discriminate Lc] | exfalso | clear; lia].
  destruct base as [ | l [ | ]]; [discriminate Lb | | discriminate Lb]. destruct cover as [ | k [ | ]]; [discriminate Lc | | discriminate Lc].
  destruct (Ht l (or_introl eq_refl)) as [c [c' [N [Il [Il' [Al Al']]]]]].
  assert (Bl : is_line rows l) by exact (Hb l (or_introl eq_refl)). apply (line_in rows l c Bl) in Il as Jl. apply (line_in rows l c' Bl) in Il' as Jl'.
  assert (K : forall x, in_house l x -> A x d -> line (negb rows) x = k).
  { intros x Ix Ax. assert (Hx : x < 81) by apply Ax. destruct (proj2 (Hc (line (negb rows) x))) as [E | []]; [ | symmetry; exact E].
    split; [assert (W := line_is (negb rows) x Hx); unfold is_line in W; destruct rows; exact W | ]. exists l, x. split; [left; reflexivity | ]. split; [exact Ix | ].
    split; [apply (line_in (negb rows)); [apply line_is, Hx | reflexivity] | exact Ax]. }
  apply N, (line_both rows); [apply Al | apply Al' | congruence | rewrite (K c Il Al), (K c' Il' Al'); reflexivity].
Qed.

Lemma no_subset : (forall S, In S [HiddenSingles; NakedPairs; NakedTriples; NakedQuads; HiddenPairs; HiddenTriples; HiddenQuads] -> ~ fires A S) ->
  forall n, naked_subset A n \/ hidden_subset A n -> naked_single A.
Proof.
  intros H.
  assert (Na : forall n, n <= 4 -> naked_subset A n -> naked_single A).
  { intros n Hn Q. destruct (naked_small n Q) as [N0 N1]. destruct n as [ | [ | [ | [ | [ | n]]]]]; [destruct (N0 eq_refl) | exact (N1 eq_refl) | exfalso ..];
      [apply (H NakedPairs); [cbn; tauto | exact Q] | apply (H NakedTriples); [cbn; tauto | exact Q] | apply (H NakedQuads); [cbn; tauto | exact Q] | clear - Hn; lia]. }
  assert (Hi : forall n, n <= 4 -> ~ hidden_subset A n).
  { intros n Hn Q. destruct (hidden_small n Q) as [N0 N1]. destruct n as [ | [ | [ | [ | [ | n]]]]]; [apply N0; reflexivity | apply (H HiddenSingles); [cbn; tauto | exact (N1 eq_refl)] |
      apply (H HiddenPairs); [cbn; tauto | exact Q] | apply (H HiddenTriples); [cbn; tauto | exact Q] | apply (H HiddenQuads); [cbn; tauto | exact Q] | clear - Hn; lia]. }
  intros n [Q | Q]; destruct (Nat.le_gt_cases n 4) as [Hn | Hn].
  - exact (Na n Hn Q).
  - destruct (naked_turns n Q) as [k [_ [L Q']]]. destruct (Hi k); [clear - L Hn; lia | exact Q'].
  - destruct (Hi n Hn Q).
  - destruct (hidden_turns n Q) as [k [_ [L Q']]]. apply (Na k); [clear - L Hn; lia | exact Q'].
Qed.
Lemma no_fish : (forall S, In S [HiddenSingles; XWing; Swordfish; Jellyfish] -> ~ fires A S) -> forall n, ~ fish A n.
Proof.
  intros H.
  assert (F : forall n, n <= 4 -> ~ fish A n).
  { intros n Hn Q. assert (N2 := fish_small n Q). destruct n as [ | [ | [ | [ | [ | n]]]]]; [clear - N2; lia | clear - N2; lia |
      apply (H XWing); [cbn; tauto | exact Q] | apply (H Swordfish); [cbn; tauto | exact Q] | apply (H Jellyfish); [cbn; tauto | exact Q] | clear - Hn; lia]. }
  intros n Q. destruct (Nat.le_gt_cases n 4) as [Hn | Hn]; [exact (F n Hn Q) | ].
  destruct (fish_turns n Q) as [Hs | [k [_ [L Q']]]]; [apply (H HiddenSingles); [cbn; tauto | exact Hs] | ]. apply (F k); [clear - L Hn; lia | exact Q'].
Qed.
End Dual.

(** * The solver *)

Lemma given_completion l st pl el ok g ds s : implemented l -> api st pl el -> completion pl el s -> strat_solve l st = Ok (ok, g, ds) ->
  completion (listed (d_entries ds)) (listed (d_elims ds)) s.
Proof.
  intros Im Ap Cs R. destruct (solve_explained _ _ _ _ _ _ _ Im Ap R) as [r [_ [X [P Q]]]].
  apply (completion_same (all_places pl r) _ (all_removes el r) _ s); [intros c d; symmetry; apply P | intros c d; symmetry; apply Q | ]. apply (explained_sound _ _ _ _ _ X Cs).
Qed.
Lemma exhausted l st pl el g ds S : implemented l -> api st pl el -> (exists s, completion pl el s) -> strat_solve l st = Ok (false, g, ds) -> exhausts l S ->
  ~ fires (alive (d_entries ds) (d_elims ds)) S.
Proof. intros Im Ap Co R E. destruct l as [ | first rest]; [destruct E | ]. exact (solve_gives_up first rest st pl el g ds S Im Ap R Co E). Qed.

Lemma subsets_exhausted l st pl el g ds : implemented l -> api st pl el -> (exists s, completion pl el s) -> strat_solve l st = Ok (false, g, ds) ->
  (forall S, In S [HiddenSingles; NakedPairs; NakedTriples; NakedQuads; HiddenPairs; HiddenTriples; HiddenQuads] -> exhausts l S) ->
  forall n, naked_subset (alive (d_entries ds) (d_elims ds)) n \/ hidden_subset (alive (d_entries ds) (d_elims ds)) n -> naked_single (alive (d_entries ds) (d_elims ds)).
Proof.
  intros Im Ap Co R H. destruct Co as [s Cs]. apply (no_subset _ _ s (given_completion _ _ _ _ _ _ _ _ Im Ap Cs R)).
  intros S Hs. exact (exhausted l st pl el g ds S Im Ap (ex_intro _ s Cs) R (H S Hs)).
Qed.
Lemma subsets_exhausted_all l st pl el g ds : implemented l -> api st pl el -> (exists s, completion pl el s) -> strat_solve l st = Ok (false, g, ds) ->
  (forall S, In S [NakedSingles; HiddenSingles; NakedPairs; NakedTriples; NakedQuads; HiddenPairs; HiddenTriples; HiddenQuads] -> exhausts l S) ->
  forall n, ~ naked_subset (alive (d_entries ds) (d_elims ds)) n /\ ~ hidden_subset (alive (d_entries ds) (d_elims ds)) n.
Proof.
  intros Im Ap Co R H n. assert (K := subsets_exhausted l st pl el g ds Im Ap Co R (fun S Hs => H S (or_intror Hs)) n).
  assert (N := exhausted l st pl el g ds NakedSingles Im Ap Co R (H NakedSingles (or_introl eq_refl))). split; intros Q; apply N, K; [left | right]; exact Q.
Qed.
Lemma fish_exhausted l st pl el g ds : implemented l -> api st pl el -> (exists s, completion pl el s) -> strat_solve l st = Ok (false, g, ds) ->
  (forall S, In S [HiddenSingles; XWing; Swordfish; Jellyfish] -> exhausts l S) -> forall n, ~ fish (alive (d_entries ds) (d_elims ds)) n.
Proof.
  intros Im Ap Co R H. destruct Co as [s Cs]. apply (no_fish _ _ s (given_completion _ _ _ _ _ _ _ _ Im Ap Cs R)).
  intros S Hs. exact (exhausted l st pl el g ds S Im Ap (ex_intro _ s Cs) R (H S Hs)).
Qed.
