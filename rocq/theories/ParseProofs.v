(** The parsers and printers meet [ParseSpec]. *)
From Coq Require Import List Arith NArith ZArith ZifyNat ZifyN ZifyBool Lia Bool.
From Verif Require Import Spec ParseSpec Solver Parse BitLemmas GridProofs.
Import ListNotations.
Ltac Zify.zify_post_hook ::= Z.to_euclidean_division_equations.
Local Open Scope N_scope.

Local Arguments N.div : simpl never.
Local Arguments N.modulo : simpl never.
Local Arguments N.mul : simpl never.
Local Arguments N.add : simpl never.
Local Arguments N.sub : simpl never.
Local Arguments N.eqb : simpl never.
Local Arguments N.leb : simpl never.
Local Arguments N.ltb : simpl never.

(** * UTF-8 *)

Lemma utf8_ascii c : c < 128 -> utf8 c = [c].
Proof. intros H. unfold utf8. replace (c <? 128) with true by lia. reflexivity. Qed.

Lemma utf8_high c : 128 <= c -> exists b t, utf8 c = b :: t /\ 128 <= b.
Proof.
  intros H. unfold utf8. replace (c <? 128) with false by lia.
  destruct (c <? 2048); [ | destruct (c <? 65536)]; eexists; eexists; (split; [reflexivity | lia]).
Qed.

Lemma utf8_bytes c : scalar c -> Forall (fun b => b < 256) (utf8 c).
Proof.
  unfold scalar, utf8. intros H.
  destruct (N.ltb_spec c 128); [ | destruct (N.ltb_spec c 2048); [ | destruct (N.ltb_spec c 65536)]];
    repeat (apply Forall_cons; [lia | ]); apply Forall_nil.
Qed.

Lemma cell_char_ascii c : cell_char c -> c < 128.
Proof. unfold cell_char. lia. Qed.

Lemma as_bytes_cells cs rest : Forall cell_char cs -> as_bytes (cs ++ rest) = cs ++ as_bytes rest.
Proof.
  intros H. induction H as [ | c t Hc Ht IH]; [reflexivity | ]. cbn [app as_bytes flat_map] in *. unfold as_bytes in IH.
  rewrite IH, utf8_ascii by (apply cell_char_ascii; exact Hc). reflexivity.
Qed.

Lemma as_bytes_bound s : Forall scalar s -> Forall (fun b => b < 256) (as_bytes s).
Proof.
  intros H. induction H as [ | c t Hc Ht IH]; [constructor | ]. cbn [as_bytes flat_map].
  apply Forall_app. split; [apply utf8_bytes; exact Hc | exact IH].
Qed.

Lemma slice_from_cells {E} cs : forall rest, Forall cell_char cs -> @slice_from E (cs ++ rest) (length cs) = POk rest.
Proof.
  induction cs as [ | c t IH]; intros rest H.
  - destruct rest; reflexivity.
  - inversion H as [ | ? ? Hc Ht]; subst. cbn [app length slice_from].
    rewrite utf8_ascii by (apply cell_char_ascii; exact Hc). cbn [length].
    change (1 <=? S (length t))%nat with true. cbn iota. replace (S (length t) - 1)%nat with (length t) by lia. apply IH. exact Ht.
Qed.

(** * Cells *)

Definition cellb (c : N) : bool := (c =? 95) || (c =? 46) || ((48 <=? c) && (c <=? 57)).
Lemma cellb_iff c : cellb c = true <-> cell_char c.
Proof. unfold cellb, cell_char. lia. Qed.
Lemma cell_dec c : {cell_char c} + {~ cell_char c}.
Proof. destruct (cellb c) eqn:E; [left | right]; rewrite <- cellb_iff; congruence. Qed.

Lemma is_delim_iff c : is_delim c = true <-> delimiter c.
Proof. unfold is_delim, delimiter. lia. Qed.

Lemma digit_bound c : (cell_digit c <= 9)%nat.
Proof. unfold cell_digit. destruct ((48 <=? c) && (c <=? 57)) eqn:E; lia. Qed.

Lemma fast_cell_sweep : forallb (fun c => Bool.eqb (fast_cell (N.of_nat c) <=? 9) (cellb (N.of_nat c)) &&
  implb (cellb (N.of_nat c)) (N.to_nat (fast_cell (N.of_nat c)) =? cell_digit (N.of_nat c))%nat) (seq 0 256) = true.
Proof. vm_compute. reflexivity. Qed.

Lemma fast_cell_ok c : c < 256 ->
  ((N.to_nat (fast_cell c) <= 9)%nat <-> cell_char c) /\ (cell_char c -> N.to_nat (fast_cell c) = cell_digit c).
Proof.
  intros H. pose proof (sweep1 256 _ fast_cell_sweep (N.to_nat c)) as X. cbv beta in X. rewrite !N2Nat.id in X.
  specialize (X ltac:(lia)). apply andb_true_iff in X. destruct X as [X1 X2]. apply eqb_prop in X1. rewrite <- !cellb_iff.
  split.
  - rewrite <- X1. rewrite N.leb_le. lia.
  - intros Hc. rewrite Hc in X2. apply Nat.eqb_eq. exact X2.
Qed.

Lemma from_bytes_fold bytes : forall b,
  fold_left (fun valid byte => valid && (byte <=? 9)%nat) bytes b = b && forallb (fun d => (d <=? 9)%nat) bytes.
Proof.
  induction bytes as [ | x t IH]; intros b; cbn [fold_left forallb]; [rewrite andb_true_r; reflexivity | ].
  rewrite IH, andb_assoc. reflexivity.
Qed.

Lemma from_bytes_ok bytes : Forall (fun d => d <= 9)%nat bytes -> from_bytes bytes = POk bytes.
Proof.
  intros H. unfold from_bytes. rewrite from_bytes_fold. cbn [andb].
  replace (forallb _ bytes) with true; [reflexivity | ]. symmetry. apply forallb_forall. intros x Hx.
  rewrite Forall_forall in H. apply Nat.leb_le. auto.
Qed.
Lemma from_bytes_inv bytes g : from_bytes bytes = POk g -> g = bytes /\ Forall (fun d => d <= 9)%nat bytes.
Proof.
  unfold from_bytes. rewrite from_bytes_fold. cbn [andb]. destruct (forallb _ bytes) eqn:E; [ | discriminate].
  intros [= <-]. split; [reflexivity | ]. apply Forall_forall. intros x Hx. rewrite forallb_forall in E.
  apply Nat.leb_le. apply E. exact Hx.
Qed.
Lemma from_bytes_no_panic bytes : from_bytes bytes <> PPanic.
Proof. unfold from_bytes. destruct (fold_left _ _ _); discriminate. Qed.

Lemma from_bytes_exact b : length b = 81%nat ->
  (forall g, from_bytes b = POk g <-> Forall (fun d => d <= 9)%nat b /\ to_bytes g = b) /\
  (from_bytes b = PErr FromBytesError <-> ~ Forall (fun d => d <= 9)%nat b).
Proof.
  intros _. split.
  - intros g. unfold to_bytes. split.
    + intros H. apply from_bytes_inv in H. destruct H; auto.
    + intros [H ->]. apply from_bytes_ok. exact H.
  - split.
    + intros H N. rewrite from_bytes_ok in H by exact N. discriminate.
    + intros N. destruct (from_bytes b) as [g | [] | ] eqn:E.
      * apply from_bytes_inv in E. tauto.
      * reflexivity.
      * destruct (from_bytes_no_panic b E).
Qed.

Lemma from_bytes_slice_exact b :
  (forall g, from_bytes_slice b = POk g <-> length b = 81%nat /\ Forall (fun d => d <= 9)%nat b /\ to_bytes g = b) /\
  (forall n, from_bytes_slice b = PErr (WrongLength n) <-> length b = n /\ n <> 81%nat) /\
  (from_bytes_slice b = PErr SFromBytesError <-> length b = 81%nat /\ ~ Forall (fun d => d <= 9)%nat b).
Proof.
  unfold from_bytes_slice. destruct (Nat.eqb_spec (length b) 81) as [E | E].
  - destruct (from_bytes_exact b E) as [H1 H2]. split; [ | split].
    + intros g. destruct (from_bytes b) as [g' | [] | ] eqn:F.
      * split; [intros [= <-] | intros [_ X]]. { split; [exact E | ]. apply H1. reflexivity. }
        apply H1 in X. congruence.
      * split; [discriminate | ]. intros [_ [X _]]. exfalso. apply (proj1 H2 eq_refl X).
      * destruct (from_bytes_no_panic b F).
    + intros n. split; [ | intros [X Y]; congruence]. destruct (from_bytes b) as [ | [] | ]; discriminate.
    + destruct (from_bytes b) as [g' | [] | ] eqn:F.
      * split; [discriminate | ]. intros [_ X]. apply H2 in X. discriminate.
      * split; [ | reflexivity]. intros _. split; [exact E | ]. apply H2. reflexivity.
      * destruct (from_bytes_no_panic b F).
  - split; [ | split].
    + intros g. split; [discriminate | ]. intros [X _]. contradiction.
    + intros n. split; [intros [= <-]; auto | intros [<- _]; reflexivity].
    + split; [discriminate | ]. intros [X _]. contradiction.
Qed.

Lemma grid_iter_exact g c : (c < length g)%nat ->
  nth_error (grid_iter g) c = Some (if (at_ g c =? 0)%nat then None else Some (at_ g c)).
Proof.
  intros H. unfold grid_iter. rewrite nth_error_map. rewrite (nth_error_nth' g 0%nat) by exact H. reflexivity.
Qed.

(** * The line format *)

(** Longest prefix of at most 81 cells *)
Lemma decompose n : forall s, exists cs rest, s = cs ++ rest /\ Forall cell_char cs /\ (length cs <= n)%nat /\
  (length cs = n \/ ends_or (fun c => ~ cell_char c) rest).
Proof.
  induction n as [ | n IH]; intros s.
  - exists [], s. repeat split; auto.
  - destruct s as [ | c t].
    + exists [], []. split; [reflexivity | ]. split; [constructor | ]. split; [cbn; lia | ]. right. left. reflexivity.
    + destruct (cell_dec c) as [Hc | Hc].
      * destruct (IH t) as [cs [rest [-> [F [L D]]]]]. exists (c :: cs), rest. repeat split; [constructor; assumption | cbn; lia | ].
        destruct D as [<- | D]; [left; reflexivity | right; exact D].
      * exists [], (c :: t). split; [reflexivity | ]. split; [constructor | ]. split; [cbn; lia | ]. right. right.
        exists c, t. auto.
Qed.

Lemma line_loop_cells s n rest : forall cs i, Forall cell_char cs -> (length cs <= n)%nat -> (i + length cs < 256)%nat ->
  line_loop s (repeat 0%nat n) (cs ++ rest) i =
  (r <~ line_loop s (repeat 0%nat (n - length cs)) rest (i + length cs); POk (map cell_digit cs ++ fst r, snd r)).
Proof.
  intros cs. revert n. induction cs as [ | c t IH]; intros n i F L I.
  - cbn [app length map]. rewrite Nat.sub_0_r, Nat.add_0_r. destruct (line_loop _ _ _ _) as [[a b] | | ]; reflexivity.
  - destruct n as [ | n]; [cbn in L; lia | ]. inversion F as [ | ? ? Hc Ht]; subst. cbn [repeat app line_loop].
    cbn [length] in *. unfold u8_add at 1 2. replace (i + 1 <? 256)%nat with true by lia. cbn [pbind].
    assert (E : line_loop s (repeat 0%nat n) (t ++ rest) (i + 1) =
      (r <~ line_loop s (repeat 0%nat (S n - S (length t))) rest (i + S (length t)); POk (map cell_digit t ++ fst r, snd r))).
    { rewrite (IH n (i + 1)%nat) by (try assumption; lia). replace (i + 1 + length t)%nat with (i + S (length t))%nat by lia.
      reflexivity. }
    rewrite E. unfold cell_char in Hc.
    assert (C : ((c =? 95) || (c =? 46) = true /\ cell_digit c = 0%nat) \/
                ((c =? 95) || (c =? 46) = false /\ (48 <=? c) && (c <=? 57) = true /\ cell_digit c = N.to_nat (c - 48))).
    { unfold cell_digit. destruct ((48 <=? c) && (c <=? 57)) eqn:X; [right | left]; lia. }
    destruct C as [[C1 C2] | [C1 [C2 C3]]]; rewrite C1; [ | rewrite C2]; cbn [map app];
      destruct (line_loop _ _ rest _) as [[a b] | | ]; cbn [pbind fst snd]; congruence.
Qed.

(** The slow path alone *)
Definition slow (s : list N) : pres line_err (list nat) :=
  r <~ line_loop s (repeat 0%nat 81) (as_bytes s) 0;
  let '(grid, i) := r in
  if negb (i =? 81)%nat then PErr (LNotEnoughCells i)
  else match nth_error (as_bytes s) 81 with
       | Some ch =>
           if is_delim ch then POk grid
           else if (ch =? 95) || (ch =? 46) || ((48 <=? ch) && (ch <=? 57)) then PErr LTooManyCells
           else PErr LMissingCommentDelimiter
       | None => POk grid
       end.

Lemma nth_error_app_len {A} (l l' : list A) n : length l = n -> nth_error (l ++ l') n = nth_error l' 0.
Proof. intros <-. rewrite nth_error_app2 by lia. rewrite Nat.sub_diag. reflexivity. Qed.

Lemma slow_full cs rest : Forall cell_char cs -> length cs = 81%nat ->
  slow (cs ++ rest) =
  match nth_error (as_bytes rest) 0 with
  | Some ch => if is_delim ch then POk (map cell_digit cs) else if cellb ch then PErr LTooManyCells else PErr LMissingCommentDelimiter
  | None => POk (map cell_digit cs)
  end.
Proof.
  intros F L. unfold slow. rewrite as_bytes_cells by exact F. rewrite line_loop_cells by (try assumption; lia).
  rewrite L. change (81 - 81)%nat with 0%nat. cbn [repeat line_loop pbind fst snd Nat.add]. cbn [Nat.eqb negb].
  rewrite app_nil_r, nth_error_app_len by exact L. reflexivity.
Qed.

Lemma slow_end cs : Forall cell_char cs -> (length cs < 81)%nat -> slow cs = PErr (LNotEnoughCells (length cs)).
Proof.
  intros F L. unfold slow. rewrite <- (app_nil_r cs) at 1 2. rewrite as_bytes_cells by exact F.
  rewrite line_loop_cells by (try assumption; lia). cbn [as_bytes flat_map].
  destruct (81 - length cs)%nat as [ | k] eqn:E; [lia | ]. cbn [repeat line_loop pbind fst snd Nat.add].
  replace (length cs =? 81)%nat with false by lia. reflexivity.
Qed.

Lemma head_byte c t : c < 128 -> as_bytes (c :: t) = c :: as_bytes t.
Proof. intros H. cbn [as_bytes flat_map]. rewrite utf8_ascii by exact H. reflexivity. Qed.

Lemma slow_blank cs c t : Forall cell_char cs -> (length cs < 81)%nat -> blank c ->
  slow (cs ++ c :: t) = PErr (LNotEnoughCells (length cs)).
Proof.
  intros F L B. unfold slow. rewrite as_bytes_cells by exact F. rewrite line_loop_cells by (try assumption; lia).
  unfold blank in B. rewrite head_byte by lia.
  destruct (81 - length cs)%nat as [ | k] eqn:E; [lia | ]. cbn [repeat line_loop].
  replace ((c =? 95) || (c =? 46)) with false by lia. replace ((48 <=? c) && (c <=? 57)) with false by lia.
  replace ((c =? 32) || (c =? 9)) with true by lia. reflexivity.
Qed.

Lemma slow_bad cs c t : Forall cell_char cs -> (length cs < 81)%nat -> ~ blank c -> ~ cell_char c ->
  slow (cs ++ c :: t) = PErr (LInvalidEntry (length cs) c).
Proof.
  intros F L B C. unfold slow. rewrite as_bytes_cells by exact F. rewrite line_loop_cells by (try assumption; lia).
  destruct (81 - length cs)%nat as [ | k] eqn:E; [lia | ].
  assert (X : exists b bt, as_bytes (c :: t) = b :: bt /\ ((b = c /\ c < 128) \/ 128 <= b)).
  { destruct (N.lt_ge_cases c 128) as [H | H].
    - rewrite head_byte by exact H. eexists; eexists. split; [reflexivity | ]. auto.
    - destruct (utf8_high c H) as [b [bt [Eb Hb]]]. cbn [as_bytes flat_map]. rewrite Eb. eexists; eexists.
      split; [reflexivity | ]. auto. }
  destruct X as [b [bt [-> Hb]]]. unfold blank, cell_char in *. cbn [repeat line_loop].
  replace ((b =? 95) || (b =? 46)) with false by lia. replace ((48 <=? b) && (b <=? 57)) with false by lia.
  replace ((b =? 32) || (b =? 9)) with false by lia. rewrite Nat.add_0_l. rewrite slice_from_cells by exact F. reflexivity.
Qed.

Lemma slow_ok cs rest : Forall cell_char cs -> length cs = 81%nat -> ends_or delimiter rest ->
  slow (cs ++ rest) = POk (map cell_digit cs).
Proof.
  intros F L [-> | [c [t [-> D]]]]; rewrite slow_full by assumption; [reflexivity | ].
  assert (D' := D). unfold delimiter in D'. rewrite head_byte by lia. cbn [nth_error].
  apply is_delim_iff in D. rewrite D. reflexivity.
Qed.
Lemma slow_many cs c t : Forall cell_char cs -> length cs = 81%nat -> cell_char c -> slow (cs ++ c :: t) = PErr LTooManyCells.
Proof.
  intros F L C. rewrite slow_full by assumption. rewrite head_byte by (apply cell_char_ascii; exact C). cbn [nth_error].
  assert (C' := C). apply cellb_iff in C'. rewrite C'. unfold cell_char in C.
  replace (is_delim c) with false by (unfold is_delim; lia). reflexivity.
Qed.
Lemma slow_missing cs c t : Forall cell_char cs -> length cs = 81%nat -> ~ cell_char c -> ~ delimiter c ->
  slow (cs ++ c :: t) = PErr LMissingCommentDelimiter.
Proof.
  intros F L C D. rewrite slow_full by assumption.
  assert (X : exists b bt, as_bytes (c :: t) = b :: bt /\ ((b = c /\ c < 128) \/ 128 <= b)).
  { destruct (N.lt_ge_cases c 128) as [H | H].
    - rewrite head_byte by exact H. eexists; eexists. split; [reflexivity | ]. auto.
    - destruct (utf8_high c H) as [b [bt [Eb Hb]]]. cbn [as_bytes flat_map]. rewrite Eb. eexists; eexists.
      split; [reflexivity | ]. auto. }
  destruct X as [b [bt [-> Hb]]]. cbn [nth_error].
  unfold cell_char, delimiter in *. replace (is_delim b) with false by (unfold is_delim; lia).
  replace (cellb b) with false by (unfold cellb; lia). reflexivity.
Qed.

Lemma map_fast_cells l : Forall (fun b => b < 256) l -> Forall (fun d => d <= 9)%nat (map N.to_nat (map fast_cell l)) ->
  Forall cell_char l /\ map N.to_nat (map fast_cell l) = map cell_digit l.
Proof.
  induction l as [ | c t IH]; intros B H; [split; [constructor | reflexivity] | ].
  inversion B as [ | ? ? Bc Bt]; inversion H as [ | ? ? Hc Ht]; subst. destruct (IH Bt Ht) as [I1 I2].
  destruct (fast_cell_ok c Bc) as [F1 F2]. apply F1 in Hc. split; [constructor; assumption | ].
  cbn [map]. rewrite F2 by exact Hc. rewrite I2. reflexivity.
Qed.

(** The 81 first bytes being cells, they are the 81 first characters. *)
Lemma bytes_prefix : forall n s, Forall cell_char (firstn n (as_bytes s)) -> (n <= length (as_bytes s))%nat ->
  exists rest, s = firstn n (as_bytes s) ++ rest /\ as_bytes s = firstn n (as_bytes s) ++ as_bytes rest.
Proof.
  induction n as [ | n IH]; intros s F L.
  - exists s. rewrite firstn_O. auto.
  - destruct s as [ | c t]; [cbn in L; lia | ].
    destruct (N.lt_ge_cases c 128) as [H | H].
    + rewrite head_byte in * by exact H. cbn [firstn] in *. inversion F as [ | ? ? Fc Ft]; subst. cbn [length] in L.
      destruct (IH t Ft ltac:(lia)) as [rest [E1 E2]]. exists rest. cbn [app]. rewrite <- E1, <- E2. auto.
    + destruct (utf8_high c H) as [b [bt [Eb Hb]]]. cbn [as_bytes flat_map] in F. rewrite Eb in F. cbn [app firstn] in F.
      inversion F as [ | ? ? Fc Ft]; subst. unfold cell_char in Fc. lia.
Qed.

Lemma fast_agrees s g : Forall scalar s -> fast_path (as_bytes s) = Some g -> slow s = POk g.
Proof.
  intros V. unfold fast_path. destruct (Nat.ltb_spec (length (as_bytes s)) 81) as [ | L]; [discriminate | ].
  destruct (match nth_error (as_bytes s) 81 with None => true | Some ch => is_delim ch end) eqn:D; [ | discriminate].
  destruct (from_bytes _) as [g' | | ] eqn:E; try discriminate. intros [= <-]. apply from_bytes_inv in E. destruct E as [-> E].
  assert (B : Forall (fun b => b < 256) (firstn 81 (as_bytes s))).
  { apply Forall_forall. intros x Hx. pose proof (as_bytes_bound s V) as X. rewrite Forall_forall in X. apply X.
    rewrite <- (firstn_skipn 81 (as_bytes s)). apply in_or_app. auto. }
  destruct (map_fast_cells _ B E) as [C M]. destruct (bytes_prefix 81 s C L) as [rest [E1 E2]].
  rewrite M. assert (L81 : length (firstn 81 (as_bytes s)) = 81%nat) by (apply firstn_length_le; exact L).
  rewrite E2, nth_error_app_len in D by exact L81. clear E E2 M L B. remember (firstn 81 (as_bytes s)) as cs eqn:Ecs. clear Ecs. subst s.
  rewrite slow_full by assumption.
  destruct (nth_error (as_bytes rest) 0); [rewrite D | ]; reflexivity.
Qed.

Lemma from_str_line_slow s : Forall scalar s -> from_str_line s = slow s.
Proof.
  intros V. unfold from_str_line. cbv zeta. pose proof (fast_agrees s) as X.
  destruct (fast_path (as_bytes s)) as [g | ].
  - symmetry. apply X; [exact V | reflexivity].
  - unfold slow. reflexivity.
Qed.

Lemma blank_dec c : {blank c} + {~ blank c}.
Proof. destruct ((c =? 32) || (c =? 9)) eqn:E; [left | right]; unfold blank; lia. Qed.
Lemma delimiter_dec c : {delimiter c} + {~ delimiter c}.
Proof. destruct (is_delim c) eqn:E; [left | right]; rewrite <- is_delim_iff; congruence. Qed.

(** Every string falls into exactly one case. *)
Inductive line_case : list N -> pres line_err (list nat) -> Prop :=
| lc_ok cs rest : Forall cell_char cs -> length cs = 81%nat -> ends_or delimiter rest ->
    line_case (cs ++ rest) (POk (map cell_digit cs))
| lc_short cs rest : Forall cell_char cs -> (length cs < 81)%nat -> ends_or blank rest ->
    line_case (cs ++ rest) (PErr (LNotEnoughCells (length cs)))
| lc_bad cs c t : Forall cell_char cs -> (length cs < 81)%nat -> ~ blank c -> ~ cell_char c ->
    line_case (cs ++ c :: t) (PErr (LInvalidEntry (length cs) c))
| lc_many cs c t : Forall cell_char cs -> length cs = 81%nat -> cell_char c ->
    line_case (cs ++ c :: t) (PErr LTooManyCells)
| lc_missing cs c t : Forall cell_char cs -> length cs = 81%nat -> ~ cell_char c -> ~ delimiter c ->
    line_case (cs ++ c :: t) (PErr LMissingCommentDelimiter).

Lemma line_case_total s : exists r, line_case s r.
Proof.
  destruct (decompose 81 s) as [cs [rest [-> [F [L D]]]]].
  destruct (Nat.eq_dec (length cs) 81) as [E | E].
  - destruct rest as [ | c t]; [eexists; apply lc_ok; auto; left; reflexivity | ].
    destruct (delimiter_dec c) as [Hd | Hd]; [eexists; apply lc_ok; auto; right; exists c, t; auto | ].
    destruct (cell_dec c) as [Hc | Hc]; eexists; [apply lc_many; auto | apply lc_missing; auto].
  - destruct D as [D | [-> | [c [t [-> Hc]]]]]; [lia | eexists; apply lc_short; auto; [lia | left; reflexivity] | ].
    destruct (blank_dec c) as [Hb | Hb].
    + eexists. apply lc_short; auto; [lia | ]. right. exists c, t. auto.
    + eexists. apply lc_bad; auto. lia.
Qed.

Lemma line_case_sound s r : Forall scalar s -> line_case s r -> from_str_line s = r.
Proof.
  intros V H. rewrite from_str_line_slow by exact V. destruct H.
  - apply slow_ok; assumption.
  - destruct H1 as [-> | [c [t [-> B]]]]; [rewrite app_nil_r; apply slow_end; assumption | apply slow_blank; assumption].
  - apply slow_bad; assumption.
  - apply slow_many; assumption.
  - apply slow_missing; assumption.
Qed.

Lemma from_str_line_case s r : Forall scalar s -> from_str_line s = r -> line_case s r.
Proof.
  intros V E. destruct (line_case_total s) as [r' H]. pose proof (line_case_sound s r' V H). congruence.
Qed.

Lemma line_accepts s g : Forall scalar s ->
  (from_str_line s = POk g <-> exists cs rest, s = cs ++ rest /\ length cs = 81%nat /\ Forall cell_char cs /\
     ends_or delimiter rest /\ g = map cell_digit cs).
Proof.
  intros V. split.
  - intros E. apply from_str_line_case in E; [ | exact V]. inversion E; subst. exists cs, rest. auto.
  - intros [cs [rest [-> [L [F [D ->]]]]]]. apply line_case_sound; [exact V | ]. apply lc_ok; assumption.
Qed.

Lemma line_errors s : Forall scalar s ->
  (forall n, from_str_line s = PErr (LNotEnoughCells n) <-> exists cs rest, s = cs ++ rest /\ length cs = n /\ (n < 81)%nat /\
     Forall cell_char cs /\ ends_or blank rest) /\
  (forall n ch, from_str_line s = PErr (LInvalidEntry n ch) <-> exists cs rest, s = cs ++ ch :: rest /\ length cs = n /\ (n < 81)%nat /\
     Forall cell_char cs /\ ~ cell_char ch /\ ~ blank ch) /\
  (from_str_line s = PErr LTooManyCells <-> exists cs ch rest, s = cs ++ ch :: rest /\ length cs = 81%nat /\
     Forall cell_char cs /\ cell_char ch) /\
  (from_str_line s = PErr LMissingCommentDelimiter <-> exists cs ch rest, s = cs ++ ch :: rest /\ length cs = 81%nat /\
     Forall cell_char cs /\ ~ cell_char ch /\ ~ delimiter ch) /\
  from_str_line s <> PPanic.
Proof.
  intros V. split; [ | split; [ | split; [ | split]]].
  - intros n. split.
    + intros E. apply from_str_line_case in E; [ | exact V]. inversion E; subst. exists cs, rest. auto.
    + intros [cs [rest [-> [<- [L [F B]]]]]]. apply line_case_sound; [exact V | ]. apply lc_short; assumption.
  - intros n ch. split.
    + intros E. apply from_str_line_case in E; [ | exact V]. inversion E; subst. exists cs, t. auto 7.
    + intros [cs [rest [-> [<- [L [F [C B]]]]]]]. apply line_case_sound; [exact V | ]. apply lc_bad; assumption.
  - split.
    + intros E. apply from_str_line_case in E; [ | exact V]. inversion E; subst. exists cs, c, t. auto.
    + intros [cs [ch [rest [-> [L [F C]]]]]]. apply line_case_sound; [exact V | ]. apply lc_many; assumption.
  - split.
    + intros E. apply from_str_line_case in E; [ | exact V]. inversion E; subst. exists cs, c, t. auto.
    + intros [cs [ch [rest [-> [L [F [C D]]]]]]]. apply line_case_sound; [exact V | ]. apply lc_missing; assumption.
  - intros E. apply from_str_line_case in E; [ | exact V]. inversion E.
Qed.

(** * Printing a line *)

Definition digit_char (d : nat) : N := if (d =? 0)%nat then 46 else N.of_nat d + 48.
Lemma to_str_line_map g : to_str_line g = map digit_char g.
Proof.
  unfold to_str_line, grid_iter. rewrite map_map. apply map_ext. intros d. unfold num_to_opt, digit_char.
  destruct (d =? 0)%nat; reflexivity.
Qed.
Lemma digit_char_cell d : (d <= 9)%nat -> cell_char (digit_char d) /\ cell_digit (digit_char d) = d.
Proof.
  intros H. unfold digit_char, cell_char, cell_digit. destruct (Nat.eqb_spec d 0) as [-> | N0]; [split; [lia | reflexivity] | ].
  split; [lia | ]. replace ((48 <=? N.of_nat d + 48) && (N.of_nat d + 48 <=? 57)) with true by lia. lia.
Qed.

Lemma map_digit_chars g : Forall (fun d => d <= 9)%nat g ->
  Forall cell_char (map digit_char g) /\ map cell_digit (map digit_char g) = g.
Proof.
  intros H. induction H as [ | d t Hd Ht [I1 I2]]; [split; [constructor | reflexivity] | ].
  destruct (digit_char_cell d Hd) as [C D]. cbn [map]. split; [constructor; assumption | ]. rewrite D, I2. reflexivity.
Qed.

Lemma cell_char_scalar c : cell_char c -> scalar c.
Proof. unfold cell_char, scalar. lia. Qed.

Lemma line_round_trip g rest : wf_grid g -> Forall scalar rest -> ends_or delimiter rest ->
  from_str_line (to_str_line g ++ rest) = POk g.
Proof.
  intros [L F] V D. rewrite to_str_line_map. destruct (map_digit_chars g F) as [C M].
  apply line_accepts.
  - apply Forall_app. split; [ | exact V]. apply Forall_forall. intros x Hx. apply cell_char_scalar.
    rewrite Forall_forall in C. apply C. exact Hx.
  - exists (map digit_char g), rest. rewrite map_length, M. auto.
Qed.

Lemma line_chars g : wf_grid g -> length (to_str_line g) = 81%nat /\ length (as_bytes (to_str_line g)) = 81%nat /\
  Forall (fun c => 49 <= c /\ c <= 57 \/ c = 46) (to_str_line g).
Proof.
  intros [L F]. rewrite to_str_line_map. destruct (map_digit_chars g F) as [C M]. split; [rewrite map_length; exact L | ]. split.
  - rewrite <- (app_nil_r (map digit_char g)), as_bytes_cells by exact C. cbn [as_bytes flat_map].
    rewrite app_nil_r, map_length. exact L.
  - apply Forall_forall. intros c Hc. apply in_map_iff in Hc. destruct Hc as [d [<- Hd]]. rewrite Forall_forall in F.
    specialize (F d Hd). cbv beta in F. unfold digit_char. destruct (Nat.eqb_spec d 0); lia.
Qed.

Lemma serde_round_trip h g : wf_grid g -> deserialize h (serialize h g) = Some g.
Proof.
  intros W. destruct h; cbn [serialize deserialize].
  - rewrite <- (app_nil_r (to_str_line g)). rewrite line_round_trip; [reflexivity | exact W | constructor | left; reflexivity].
  - destruct W as [L F]. rewrite (proj2 (proj1 (from_bytes_slice_exact g) g)); [reflexivity | ]. repeat split; auto.
Qed.

Definition valid_value (v : serde_value) : Prop := match v with SStr s => Forall scalar s | SBytes _ => True end.
Lemma deserialize_wf h v g : valid_value v -> deserialize h v = Some g -> wf_grid g.
Proof.
  intros V. destruct h, v as [s | b]; cbn [deserialize]; try discriminate.
  - destruct (from_str_line s) as [g' | | ] eqn:E; try discriminate. intros [= <-]. apply line_accepts in E; [ | exact V].
    destruct E as [cs [rest [_ [L [F [_ ->]]]]]]. split; [rewrite map_length; exact L | ].
    apply Forall_forall. intros d Hd. apply in_map_iff in Hd. destruct Hd as [c [<- _]]. apply digit_bound.
  - destruct (from_bytes_slice b) as [g' | | ] eqn:E; try discriminate. intros [= <-].
    apply from_bytes_slice_exact in E. destruct E as [L [F E]]. unfold to_bytes in E. subst. split; assumption.
Qed.

Lemma lex_line g : forall g', Forall (fun d => d <= 9)%nat g -> Forall (fun d => d <= 9)%nat g' ->
  lex_N (to_str_line g) (to_str_line g') = lex_nat g g'.
Proof.
  induction g as [ | a t IH]; intros [ | b t'] F F'; try reflexivity.
  inversion F as [ | ? ? Ha Ht]; inversion F' as [ | ? ? Hb Ht']; subst.
  rewrite !to_str_line_map in *. cbn [map lex_N lex_nat].
  assert (E : (digit_char a ?= digit_char b)%N = (a ?= b)%nat).
  { unfold digit_char. destruct (Nat.compare_spec a b) as [E | E | E]; destruct (Nat.eqb_spec a 0), (Nat.eqb_spec b 0);
      try lia; subst; try reflexivity; first [apply N.compare_eq_iff | apply N.compare_lt_iff | apply N.compare_gt_iff]; lia. }
  rewrite E. specialize (IH t' Ht Ht'). rewrite !to_str_line_map in IH. rewrite IH. reflexivity.
Qed.
