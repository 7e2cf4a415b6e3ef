(** The block parsers meet [ParseSpec]. *)
From Coq Require Import List Arith NArith ZArith ZifyNat ZifyN ZifyBool Lia Bool.
From Verif Require Import Spec ParseSpec Solver Parse BitLemmas GridProofs ParseProofs.
Import ListNotations.
Ltac Zify.zify_post_hook ::= Z.to_euclidean_division_equations.
Local Open Scope N_scope.

Local Arguments N.div : simpl never.
Local Arguments N.modulo : simpl never.
Local Arguments N.mul : simpl never.
Local Arguments N.add : simpl never.
Local Arguments N.sub : simpl never.
Local Arguments N.eqb : simpl never.
Local Arguments N.leb : simpl never.
Local Arguments N.ltb : simpl never.

(** * Lines *)

Lemma lines_aux_app l s : ~ In 10 l -> forall cur, lines_aux cur (l ++ 10 :: s) = strip_cr (rev l ++ cur) :: lines_aux [] s.
Proof.
  induction l as [ | c t IH]; intros H cur.
  - reflexivity.
  - cbn [app lines_aux]. destruct (N.eqb_spec c 10) as [-> | N]; [destruct H; left; reflexivity | ].
    rewrite IH by (intros X; apply H; right; exact X). cbn [rev]. rewrite <- app_assoc. reflexivity.
Qed.

Lemma lines_aux_last l : ~ In 10 l -> forall cur, lines_aux cur l = match rev l ++ cur with [] => [] | x => [rev x] end.
Proof.
  induction l as [ | c t IH]; intros H cur.
  - destruct cur; reflexivity.
  - cbn [lines_aux]. destruct (N.eqb_spec c 10) as [-> | N]; [destruct H; left; reflexivity | ].
    rewrite IH by (intros X; apply H; right; exact X). cbn [rev]. rewrite <- app_assoc. reflexivity.
Qed.

Lemma strip_cr_none l : (forall l', l <> l' ++ [13]) -> strip_cr (rev l) = l.
Proof.
  intros H. unfold strip_cr. destruct (rev l) as [ | c t] eqn:E.
  - rewrite <- (rev_involutive l), E. reflexivity.
  - assert (X : l = rev t ++ [c]) by (rewrite <- (rev_involutive l), E; reflexivity).
    destruct (N.eqb_spec c 13) as [-> | N]; [destruct (H _ X) | ]. rewrite X. reflexivity.
Qed.

Lemma lines_of_det s ls : lines_of s ls -> lines s = ls.
Proof.
  unfold lines. induction 1 as [ | l N H | l s ls H C _ IH | l s ls H _ IH].
  - reflexivity.
  - rewrite lines_aux_last by exact H. rewrite app_nil_r. destruct (rev l) as [ | c t] eqn:E.
    + destruct N. rewrite <- (rev_involutive l), E. reflexivity.
    + rewrite <- E, rev_involutive. reflexivity.
  - rewrite lines_aux_app by exact H. rewrite app_nil_r, strip_cr_none by exact C. rewrite IH. reflexivity.
  - change (l ++ 13 :: 10 :: s) with (l ++ [13] ++ 10 :: s). rewrite app_assoc, lines_aux_app.
    + rewrite app_nil_r, rev_app_distr, IH. cbn [rev app strip_cr]. change (13 =? 13) with true. cbn iota.
      rewrite rev_involutive. reflexivity.
    + intros X. apply in_app_or in X. destruct X as [X | [X | []]]; [auto | discriminate].
Qed.

Lemma lines_of_ex s : exists ls, lines_of s ls.
Proof.
  assert (X : forall n s, (length s <= n)%nat -> exists ls, lines_of s ls).
  { induction n as [ | n IH]; intros t L.
    - destruct t; [exists []; constructor | cbn in L; lia].
    - assert (D : ~ In 10 t \/ exists l r, t = l ++ 10 :: r /\ ~ In 10 l).
      { clear. induction t as [ | c t IH]; [left; intros [] | ]. destruct (N.eq_dec c 10) as [-> | N].
        - right. exists [], t. auto.
        - destruct IH as [IH | [l [r [-> IH]]]]; [left; intros [X | X]; auto | ].
          right. exists (c :: l), r. split; [reflexivity | ]. intros [X | X]; auto. }
      destruct D as [D | [l [r [-> D]]]].
      + destruct t as [ | c t]; [exists []; constructor | ]. exists [c :: t]. apply lines_last; [discriminate | exact D].
      + destruct (IH r) as [ls Hls]; [rewrite app_length in L; cbn [length] in L; lia | ].
        assert (C : (forall l', l <> l' ++ [13]) \/ exists l', l = l' ++ [13]).
        { destruct l as [ | c t] using rev_ind; [left; intros [ | ]; discriminate | ]. destruct (N.eq_dec c 13) as [-> | N].
          - right. eexists; reflexivity.
          - left. intros l' X. apply app_inj_tail in X. tauto. }
        destruct C as [C | [l' ->]].
        * exists (l :: ls). apply lines_lf; assumption.
        * exists (l' :: ls). rewrite <- app_assoc. apply lines_crlf; [ | exact Hls]. intros X. apply D. apply in_or_app. auto. }
  eapply X. apply le_n.
Qed.

Lemma lines_exact s ls : lines_of s ls <-> ls = lines s.
Proof.
  split; [intros H; symmetry; apply lines_of_det; exact H | ]. intros ->.
  destruct (lines_of_ex s) as [ls H]. rewrite (lines_of_det s ls H). exact H.
Qed.

Lemma is_white_iff c : is_white c = true <-> white c.
Proof. unfold is_white, white. lia. Qed.
Lemma trim_iff l : trim_is_empty l = true <-> Forall white l.
Proof.
  unfold trim_is_empty. rewrite forallb_forall, Forall_forall. split; intros H x Hx; apply is_white_iff; apply H; exact Hx.
Qed.
Lemma starts_iff p : forall l, starts_with p l = true <-> starts p l.
Proof.
  unfold starts. induction p as [ | a p IH]; intros l; cbn [starts_with].
  - split; [intros _; exists l; reflexivity | reflexivity].
  - destruct l as [ | b l]; [split; [discriminate | intros [t X]; discriminate] | ].
    rewrite andb_true_iff, IH, N.eqb_eq. split.
    + intros [-> [t ->]]. exists t. reflexivity.
    + intros [t X]. cbn [app] in X. injection X as -> ->. split; [reflexivity | exists t; reflexivity].
Qed.
Lemma starts_or p l : starts_with p l || starts_with (p ++ [32]) l = starts_with p l.
Proof.
  destruct (starts_with (p ++ [32]) l) eqn:E; [ | apply orb_false_r]. rewrite orb_true_r. symmetry.
  apply starts_iff in E. destruct E as [t ->]. apply starts_iff. exists (32 :: t). rewrite <- app_assoc. reflexivity.
Qed.

(** * A row of the block format *)

(** [g] with the cells from [i] on overwritten by [vs]. *)
Definition write (g : list nat) (i : nat) (vs : list nat) : list nat := firstn i g ++ vs ++ skipn (i + length vs) g.

Lemma write_length g i vs : (i + length vs <= length g)%nat -> length (write g i vs) = length g.
Proof. intros H. unfold write. rewrite !app_length, firstn_length, skipn_length. lia. Qed.

Lemma write_app a b vs : (length vs <= length b)%nat -> write (a ++ b) (length a) vs = a ++ vs ++ skipn (length vs) b.
Proof.
  intros H. unfold write. rewrite firstn_app, firstn_all, Nat.sub_diag, firstn_O, app_nil_r, skipn_app.
  rewrite skipn_all2 by lia. replace (length a + length vs - length a)%nat with (length vs) by lia. reflexivity.
Qed.

Lemma write_nil g i : (i <= length g)%nat -> write g i [] = g.
Proof. intros H. unfold write. cbn [app length]. rewrite Nat.add_0_r. apply firstn_skipn. Qed.

Lemma write_cons g i v vs : (i + S (length vs) <= length g)%nat -> write (write g i [v]) (S i) vs = write g i (v :: vs).
Proof.
  intros H. assert (E : g = firstn i g ++ skipn i g) by (symmetry; apply firstn_skipn).
  assert (L : length (firstn i g) = i) by (apply firstn_length_le; lia).
  assert (Lb : (S (length vs) <= length (skipn i g))%nat) by (rewrite skipn_length; lia).
  remember (firstn i g) as a. remember (skipn i g) as b. clear Heqa Heqb. subst g. rewrite <- L. rewrite !write_app by (cbn [length]; lia).
  cbn [length]. replace (S (length a)) with (length (a ++ [v])) by (rewrite app_length; cbn; lia).
  rewrite (app_assoc a [v]). rewrite write_app by (rewrite skipn_length; lia).
  rewrite <- app_assoc. cbn [app]. f_equal. f_equal. f_equal.
  destruct b as [ | x b]; [cbn in Lb; lia | ]. reflexivity.
Qed.

Lemma write_write g i u v j : j = (i + length u)%nat -> (j + length v <= length g)%nat -> write (write g i u) j v = write g i (u ++ v).
Proof.
  intros -> H. assert (E : g = firstn i g ++ skipn i g) by (symmetry; apply firstn_skipn).
  assert (L : length (firstn i g) = i) by (apply firstn_length_le; lia).
  assert (Lb : (length u + length v <= length (skipn i g))%nat) by (rewrite skipn_length; lia).
  remember (firstn i g) as a. remember (skipn i g) as b. clear Heqa Heqb. subst g. rewrite <- L.
  rewrite !write_app by (rewrite ?app_length; lia).
  rewrite <- app_length, (app_assoc a u), write_app by (rewrite skipn_length; lia).
  rewrite <- !app_assoc. do 3 f_equal. rewrite app_length, Nat.add_comm. symmetry. clear.
  revert b. induction (length u) as [ | n IH]; intros b; [rewrite Nat.add_0_r; reflexivity | ].
  destruct b as [ | x b]; [rewrite !skipn_nil; reflexivity | ]. replace (length v + S n)%nat with (S (length v + n)) by lia.
  cbn [skipn]. apply IH.
Qed.

Lemma grid_set_write {E} g i v : (i < length g)%nat -> @grid_set E g i v = POk (write g i [v]).
Proof.
  intros H. unfold grid_set, aset. replace (i <? length g)%nat with true by lia. f_equal.
  unfold write. clear E. revert i H. induction g as [ | x g IH]; intros i H; [cbn in H; lia | ].
  destruct i as [ | i]; [reflexivity | ]. cbn [length] in *.
  replace (S i + 1)%nat with (S (i + 1)) by lia. cbn [lset firstn skipn app]. f_equal. apply IH. lia.
Qed.

(** One cell character outside a delimiter column *)
Lemma row_loop_cell c t sc k n f g : cell_char c -> (k < 9)%nat -> (n * 9 + k < length g)%nat ->
  (f = Bare \/ (sc <> 3 /\ sc <> 7)%nat) ->
  row_loop (c :: t) sc k n f g = row_loop t (S sc) (S k) n f (write g (n * 9 + k) [cell_digit c]).
Proof.
  intros C K G D. cbn [row_loop]. replace (k =? 9)%nat with false by lia.
  assert (E : (if (sc =? 3)%nat || (sc =? 7)%nat
               then match f with Unknown => if c =? 124 then Delimited else Bare | f0 => f0 end else f) = f).
  { destruct D as [-> | D]; [destruct ((sc =? 3)%nat || (sc =? 7)%nat); reflexivity | ].
    replace ((sc =? 3)%nat || (sc =? 7)%nat) with false by lia. reflexivity. }
  rewrite E. replace (((sc =? 3)%nat || (sc =? 7)%nat) && is_delimited f) with false.
  2: { symmetry. destruct D as [-> | D]; [apply andb_false_r | ].
       replace ((sc =? 3)%nat || (sc =? 7)%nat) with false by lia. reflexivity. }
  rewrite !grid_set_write by exact G. cbn [pbind]. unfold cell_char in C. unfold cell_digit.
  destruct ((48 <=? c) && (c <=? 57)) eqn:E2.
  - replace ((c =? 95) || (c =? 46)) with false by lia. reflexivity.
  - replace ((c =? 95) || (c =? 46)) with true by lia. reflexivity.
Qed.

Lemma row_loop_not_cell c t sc k n f g : ~ cell_char c -> (k < 9)%nat ->
  (f = Bare \/ (sc <> 3 /\ sc <> 7)%nat) -> exists e, row_loop (c :: t) sc k n f g = PErr e.
Proof.
  intros C K D. cbn [row_loop]. replace (k =? 9)%nat with false by lia.
  replace (((sc =? 3)%nat || (sc =? 7)%nat) && is_delimited _) with false.
  2: { symmetry. destruct D as [-> | D]; [destruct ((sc =? 3)%nat || (sc =? 7)%nat); reflexivity | ].
       replace ((sc =? 3)%nat || (sc =? 7)%nat) with false by lia. reflexivity. }
  unfold cell_char in C. replace ((c =? 95) || (c =? 46)) with false by lia.
  replace ((48 <=? c) && (c <=? 57)) with false by lia. eexists; reflexivity.
Qed.

Definition no_delim (f : format) (sc m : nat) : Prop := f = Bare \/ forall i, (i < m)%nat -> (sc + i <> 3 /\ sc + i <> 7)%nat.

Lemma no_delim_S f sc m : no_delim f sc (S m) -> (f = Bare \/ (sc <> 3 /\ sc <> 7)%nat) /\ no_delim f (S sc) m.
Proof.
  intros [-> | H]; [split; left; reflexivity | ]. split; [right; specialize (H 0%nat); lia | right].
  intros i Hi. specialize (H (S i)). lia.
Qed.

Lemma row_loop_cells cs : forall t sc k n f g, Forall cell_char cs -> (k + length cs <= 9)%nat ->
  (n * 9 + k + length cs <= length g)%nat -> no_delim f sc (length cs) ->
  row_loop (cs ++ t) sc k n f g =
  row_loop t (sc + length cs) (k + length cs) n f (write g (n * 9 + k) (map cell_digit cs)).
Proof.
  induction cs as [ | c cs IH]; intros t sc k n f g F K G D.
  - cbn [app length map]. rewrite !Nat.add_0_r, write_nil by lia. reflexivity.
  - inversion F as [ | ? ? Fc Ft]; subst. cbn [length] in *. apply no_delim_S in D. destruct D as [D1 D2]. cbn [app].
    rewrite row_loop_cell by (try assumption; lia). rewrite IH; try assumption; try lia.
    + rewrite <- !plus_n_Sm. cbn [map]. rewrite write_cons by (rewrite map_length; lia). reflexivity.
    + rewrite write_length by (cbn [length]; lia). lia.
Qed.

(** Conversely nine cells can only come from cell characters. *)
Lemma row_loop_cells_inv m : forall s sc k n f g f' g', row_loop s sc k n f g = POk (f', 9%nat, g') ->
  (k + m <= 9)%nat -> (n * 9 + k + m <= length g)%nat -> no_delim f sc m ->
  exists cs t, s = cs ++ t /\ length cs = m /\ Forall cell_char cs.
Proof.
  induction m as [ | m IH]; intros s sc k n f g f' g' H K G D.
  - exists [], s. auto.
  - apply no_delim_S in D. destruct D as [D1 D2]. destruct s as [ | c s].
    + cbn [row_loop] in H. injection H as _ X _. lia.
    + destruct (cell_dec c) as [C | C].
      * rewrite row_loop_cell in H by (try assumption; lia).
        destruct (IH s (S sc) (S k) n f _ f' g' H) as [cs [t [-> [L F]]]]; try assumption; try lia.
        { rewrite write_length by (cbn [length]; lia). lia. }
        exists (c :: cs), t. cbn [length app]. split; [reflexivity | ]. split; [lia | constructor; assumption].
      * destruct (row_loop_not_cell c s sc k n f g C ltac:(lia) D1) as [e X]. congruence.
Qed.

Lemma row_loop_end s sc n f g f' g' : row_loop s sc 9 n f g = POk (f', 9%nat, g') <-> ends_or blank s /\ f' = f /\ g' = g.
Proof.
  destruct s as [ | c t].
  - cbn [row_loop]. split; [intros [= <- <-]; split; [left; reflexivity | auto] | ]. intros [_ [-> ->]]. reflexivity.
  - cbn [row_loop]. change (9 =? 9)%nat with true. cbn iota. destruct ((c =? 32) || (c =? 9)) eqn:E.
    + split.
      * intros [= <- <-]. split; [right; exists c, t; split; [reflexivity | unfold blank; lia] | auto].
      * intros [_ [-> ->]]. reflexivity.
    + split; [match goal with |- context [if ?b then _ else _] => destruct b end; discriminate | ]. intros [[X | [c' [t' [[= <- <-] B]]]] _]; [discriminate | ].
      unfold blank in B. lia.
Qed.

(** Bare rows *)
Lemma bare_row_exact s n f' g g' : (n * 9 + 9 <= length g)%nat ->
  (row_loop s 0 0 n Bare g = POk (f', 9%nat, g') <->
   exists row, bare_row s row /\ f' = Bare /\ g' = write g (n * 9) row).
Proof.
  intros G. split.
  - intros H. destruct (row_loop_cells_inv 9 s 0 0 n Bare g f' g' H) as [cs [t [-> [L F]]]]; try lia; [left; reflexivity | ].
    rewrite row_loop_cells in H by (try assumption; try lia; left; reflexivity). rewrite L in H. cbn [Nat.add] in H.
    apply row_loop_end in H. destruct H as [B [-> ->]]. exists (map cell_digit cs). rewrite Nat.add_0_r. split; [ | auto].
    exists cs, t. auto.
  - intros [row [[cs [rest [-> [L [F [B ->]]]]]] [-> ->]]].
    rewrite row_loop_cells by (try assumption; try lia; left; reflexivity). rewrite L. cbn [Nat.add].
    apply row_loop_end. rewrite Nat.add_0_r. auto.
Qed.

(** Three cells then the delimiter *)
Lemma at_delim f t sc k n g c : (k < 9)%nat -> (sc = 3 \/ sc = 7)%nat -> f = Delimited \/ f = DelimitedPlus ->
  row_loop (c :: t) sc k n f g = if c =? 124 then row_loop t (S sc) k n f g else PErr BIncorrectFieldDelimiter.
Proof.
  intros K S F. cbn [row_loop]. replace (k =? 9)%nat with false by lia.
  replace ((sc =? 3)%nat || (sc =? 7)%nat) with true by lia. destruct F as [-> | ->]; reflexivity.
Qed.

Definition dformat (f : format) : Prop := f = Delimited \/ f = DelimitedPlus.

(** the rest of a delimited row after the first three cells *)
Lemma delimited_rest_exact s n f f' g g' : dformat f -> (n * 9 + 9 <= length g)%nat ->
  (row_loop s 3 3 n f g = POk (f', 9%nat, g') <->
   exists b c rest, s = 124 :: b ++ 124 :: c ++ rest /\ length b = 3%nat /\ length c = 3%nat /\ Forall cell_char (b ++ c) /\
     ends_or blank rest /\ f' = f /\ g' = write g (n * 9 + 3) (map cell_digit (b ++ c))).
Proof.
  intros Df G. split.
  - intros H. destruct s as [ | x s]; [discriminate | ]. rewrite at_delim in H by (auto; lia).
    destruct (N.eqb_spec x 124) as [-> | ]; [ | discriminate].
    destruct (row_loop_cells_inv 3 s 4 3 n f g f' g' H) as [b [s1 [-> [Lb Fb]]]]; try lia; [right; intros; lia | ].
    rewrite row_loop_cells in H by (try assumption; try lia; right; intros; lia). rewrite Lb in H. cbn [Nat.add] in H.
    assert (G1 : length (write g (n * 9 + 3) (map cell_digit b)) = length g) by (apply write_length; rewrite map_length; lia).
    destruct s1 as [ | x s1]; [discriminate | ]. rewrite at_delim in H by (auto; lia).
    destruct (N.eqb_spec x 124) as [-> | ]; [ | discriminate].
    destruct (row_loop_cells_inv 3 s1 8 6 n f _ f' g' H) as [c [s2 [-> [Lc Fc]]]]; try lia; [right; intros; lia | ].
    rewrite row_loop_cells in H by (try assumption; try lia; right; intros; lia). rewrite Lc in H. cbn [Nat.add] in H.
    apply row_loop_end in H. destruct H as [B [-> ->]]. exists b, c, s2.
    rewrite map_app. rewrite write_write by (rewrite ?map_length; lia). repeat split; auto. apply Forall_app. auto.
  - intros [b [c [rest [-> [Lb [Lc [F [B [-> ->]]]]]]]]]. apply Forall_app in F. destruct F as [Fb Fc].
    assert (G1 : length (write g (n * 9 + 3) (map cell_digit b)) = length g) by (apply write_length; rewrite map_length; lia).
    rewrite at_delim by (auto; lia). change (124 =? 124) with true. cbn iota.
    rewrite row_loop_cells by (try assumption; try lia; right; intros; lia). rewrite Lb. cbn [Nat.add].
    rewrite at_delim by (auto; lia). change (124 =? 124) with true. cbn iota.
    rewrite row_loop_cells by (try assumption; try lia; right; intros; lia). rewrite Lc. cbn [Nat.add].
    apply row_loop_end. rewrite map_app. rewrite write_write by (rewrite ?map_length; lia). auto.
Qed.

Lemma delimited_row_exact s n f f' g g' : dformat f -> (n * 9 + 9 <= length g)%nat ->
  (row_loop s 0 0 n f g = POk (f', 9%nat, g') <->
   exists row, delimited_row s row /\ f' = f /\ g' = write g (n * 9) row).
Proof.
  intros Df G. split.
  - intros H. destruct (row_loop_cells_inv 3 s 0 0 n f g f' g' H) as [a [t [-> [L F]]]]; try lia; [right; intros; lia | ].
    rewrite row_loop_cells in H by (try assumption; try lia; right; intros; lia). rewrite L in H. cbn [Nat.add] in H.
    apply delimited_rest_exact in H; [ | exact Df | rewrite write_length by (rewrite map_length; lia); exact G].
    destruct H as [b [c [rest [-> [Lb [Lc [Fb [B [-> ->]]]]]]]]]. exists (map cell_digit (a ++ b ++ c)). split; [ | split; [reflexivity | ]].
    + exists a, b, c, rest. repeat split; auto. apply Forall_app. auto.
    + rewrite Nat.add_0_r. rewrite write_write by (rewrite ?map_length, ?app_length; lia). rewrite !map_app. reflexivity.
  - intros [row [[a [b [c [rest [-> [La [Lb [Lc [F [B ->]]]]]]]]]] [-> ->]]]. apply Forall_app in F. destruct F as [Fa F].
    rewrite row_loop_cells by (try assumption; try lia; right; intros; lia). rewrite La. cbn [Nat.add].
    apply delimited_rest_exact; [exact Df | rewrite write_length by (rewrite map_length; lia); exact G | ].
    exists b, c, rest. rewrite Nat.add_0_r. rewrite write_write by (rewrite ?map_length, ?app_length; lia). rewrite !map_app. auto 9.
Qed.

(** The first row decides the format *)
Lemma first_row_exact s f' g g' : (9 <= length g)%nat ->
  (row_loop s 0 0 0 Unknown g = POk (f', 9%nat, g') <->
   exists row, ((bare_row s row /\ f' = Bare) \/ (delimited_row s row /\ f' = Delimited)) /\ g' = write g 0 row).
Proof.
  intros G. split.
  - intros H. destruct (row_loop_cells_inv 3 s 0 0 0 Unknown g f' g' H) as [a [t [-> [L F]]]]; try lia; [right; intros; lia | ].
    rewrite row_loop_cells in H by (try assumption; try lia; right; intros; lia). rewrite L in H. cbn [Nat.add] in H.
    destruct t as [ | x t]; [discriminate | ]. destruct (N.eq_dec x 124) as [-> | N].
    + assert (E : row_loop (124 :: t) 3 3 0 Unknown (write g (0 * 9 + 0) (map cell_digit a)) =
                  row_loop (124 :: t) 3 3 0 Delimited (write g (0 * 9 + 0) (map cell_digit a))) by reflexivity.
      rewrite E in H. clear E.
      assert (H' : row_loop (a ++ 124 :: t) 0 0 0 Delimited g = POk (f', 9%nat, g')).
      { rewrite row_loop_cells by (try assumption; try lia; right; intros; lia). rewrite L. exact H. }
      apply delimited_row_exact in H'; [ | left; reflexivity | lia]. destruct H' as [row [R [-> ->]]]. exists row. auto.
    + assert (E : row_loop (x :: t) 3 3 0 Unknown (write g (0 * 9 + 0) (map cell_digit a)) =
                  row_loop (x :: t) 3 3 0 Bare (write g (0 * 9 + 0) (map cell_digit a))).
      { cbn [row_loop]. replace (x =? 124) with false by lia. reflexivity. }
      rewrite E in H. clear E.
      assert (H' : row_loop (a ++ x :: t) 0 0 0 Bare g = POk (f', 9%nat, g')).
      { rewrite row_loop_cells by (try assumption; try lia; left; reflexivity). rewrite L. exact H. }
      apply bare_row_exact in H'; [ | lia]. destruct H' as [row [R [-> ->]]]. exists row. auto.
  - intros [row [[[R ->] | [R ->]] ->]].
    + assert (H : row_loop s 0 0 0 Bare g = POk (Bare, 9%nat, write g 0 row)) by (apply bare_row_exact; [lia | ]; exists row; auto).
      destruct R as [cs [rest [-> [L [F [B ->]]]]]].
      destruct cs as [ | c0 [ | c1 [ | c2 [ | c3 cs]]]]; try (cbn in L; lia).
      assert (F3 : Forall cell_char [c0; c1; c2]).
      { inversion F as [ | ? ? F0 Fr]; inversion Fr as [ | ? ? F1 Fr1]; inversion Fr1; subst. auto. }
      assert (F4 : cell_char c3).
      { inversion F as [ | ? ? _ Fr]; inversion Fr as [ | ? ? _ Fr1]; inversion Fr1 as [ | ? ? _ Fr2]; inversion Fr2; subst. auto. }
      change ((c0 :: c1 :: c2 :: c3 :: cs) ++ rest) with ([c0; c1; c2] ++ c3 :: cs ++ rest) in *.
      rewrite row_loop_cells in H |- * by (first [assumption | left; reflexivity | right; cbn [length]; intros; lia | cbn [length]; lia]).
      rewrite <- H. cbn [length Nat.add row_loop]. unfold cell_char in F4. replace (c3 =? 124) with false by lia. reflexivity.
    + assert (H : row_loop s 0 0 0 Delimited g = POk (Delimited, 9%nat, write g 0 row)).
      { apply delimited_row_exact; [left; reflexivity | lia | ]. exists row; auto. }
      destruct R as [a [b [c [rest [-> [La [Lb [Lc [F [B ->]]]]]]]]]]. apply Forall_app in F. destruct F as [Fa F].
      rewrite row_loop_cells in H |- * by (first [assumption | right; intros; lia | lia]).
      rewrite <- H. rewrite La. reflexivity.
Qed.

Lemma row_length_bare s row : bare_row s row -> length row = 9%nat.
Proof. intros [cs [rest [_ [L [_ [_ ->]]]]]]. rewrite map_length. exact L. Qed.
Lemma row_length_delimited s row : delimited_row s row -> length row = 9%nat.
Proof. intros [a [b [c [rest [_ [La [Lb [Lc [_ [_ ->]]]]]]]]]]. rewrite map_length, !app_length. lia. Qed.

(** No character loop panics *)
Lemma row_loop_no_panic s : forall sc k n f g, (k <= 9)%nat -> (n < 9)%nat -> length g = 81%nat ->
  match row_loop s sc k n f g with
  | POk (_, k', g') => (k' <= 9)%nat /\ length g' = 81%nat
  | PErr _ => True
  | PPanic => False
  end.
Proof.
  induction s as [ | c t IH]; intros sc k n f g K N G.
  - cbn [row_loop]. auto.
  - cbn [row_loop]. destruct (Nat.eqb_spec k 9) as [-> | K'].
    + destruct (_ || _); [auto | ]. destruct (_ || _); exact I.
    + destruct (_ && is_delimited _).
      * destruct (c =? 124); [ | exact I]. apply IH; assumption.
      * rewrite !grid_set_write by lia. cbn [pbind].
        assert (X : forall v, length (write g (n * 9 + k) [v]) = 81%nat) by (intros v; rewrite write_length; [exact G | cbn [length]; lia]).
        destruct (_ || _); [apply IH; auto; lia | ]. destruct (_ && _); [apply IH; auto; lia | exact I].
Qed.

Lemma block_loop_no_panic ls : forall ns n f g, (n <= 9)%nat -> length g = 81%nat ->
  match block_loop ls ns n f g with
  | POk (n', g') => (n' <= 9)%nat /\ length g' = 81%nat
  | PErr _ => True
  | PPanic => False
  end.
Proof.
  induction ls as [ | line rest IH]; intros ns n f g N G.
  - cbn [block_loop]. auto.
  - cbn [block_loop]. destruct (Nat.eqb_spec n 9) as [-> | N'].
    + destruct (trim_is_empty line); auto.
    + destruct (is_delimited f && _).
      * destruct (if (_ : bool) then DelimitedPlus else f); destruct (negb _); try exact I; apply IH; assumption.
      * pose proof (row_loop_no_panic line 0 0 n f g ltac:(lia) ltac:(lia) G) as X.
        destruct (row_loop line 0 0 n f g) as [[[f' k'] g'] | e | ]; cbn [pbind]; [ | exact I | destruct X].
        destruct X as [X1 X2]. destruct (negb _); [exact I | ]. unfold u8_add. replace (n + 1 <? 256)%nat with true by lia. cbn [pbind].
        apply IH; [lia | exact X2].
Qed.

Lemma from_str_block_no_panic s : from_str_block s <> PPanic.
Proof.
  unfold from_str_block. pose proof (block_loop_no_panic (lines s) 0 0 Unknown (repeat 0%nat 81) ltac:(lia) (repeat_length _ _)) as X.
  destruct (block_loop _ _ _ _ _) as [[n g] | e | ]; cbn [pbind]; [ | discriminate | destruct X].
  destruct X as [X _]. destruct (negb _); [ | discriminate]. unfold u8_add. replace (n + 1 <? 256)%nat with true by lia. discriminate.
Qed.

(** * The block format *)

Lemma Forall2_length {A B} (P : A -> B -> Prop) l l' : Forall2 P l l' -> length l = length l'.
Proof. induction 1 as [ | ? ? ? ? _ _ IH]; [reflexivity | ]. cbn [length]. rewrite IH. reflexivity. Qed.
Arguments Forall2_length {A B P l l'}.

Definition st (rows : list (list nat)) : list nat := concat rows ++ repeat 0%nat (81 - 9 * length rows).
Definition nines (rows : list (list nat)) : Prop := Forall (fun r => length r = 9%nat) rows.

Lemma concat_nines rows : nines rows -> length (concat rows) = (9 * length rows)%nat.
Proof.
  intros H. induction H as [ | r rows Hr _ IH]; [reflexivity | ]. cbn [concat length]. rewrite app_length, IH, Hr. lia.
Qed.
Lemma st_length rows : nines rows -> (length rows <= 9)%nat -> length (st rows) = 81%nat.
Proof. intros H L. unfold st. rewrite app_length, concat_nines, repeat_length by exact H. lia. Qed.
Lemma skipn_repeat {A} (x : A) n : forall m, skipn n (repeat x m) = repeat x (m - n).
Proof.
  induction n as [ | n IH]; intros m; [rewrite Nat.sub_0_r; reflexivity | ]. destruct m as [ | m]; [reflexivity | ]. apply IH.
Qed.
Lemma st_write rows row : nines rows -> (length rows < 9)%nat -> length row = 9%nat ->
  write (st rows) (length rows * 9) row = st (rows ++ [row]).
Proof.
  intros H L Lr. unfold st at 1. replace (length rows * 9)%nat with (length (concat rows)) by (rewrite concat_nines by exact H; lia).
  rewrite write_app by (rewrite repeat_length; lia). unfold st. rewrite concat_app, app_length. cbn [concat length].
  rewrite app_nil_r, <- app_assoc, skipn_repeat, Lr. do 3 f_equal. lia.
Qed.
Lemma st_full rows : length rows = 9%nat -> st rows = concat rows.
Proof. intros L. unfold st. rewrite L. cbn. apply app_nil_r. Qed.
Lemma nines_snoc rows row : nines rows -> length row = 9%nat -> nines (rows ++ [row]).
Proof. intros H L. apply Forall_app. split; [exact H | constructor; [exact L | constructor]]. Qed.

(** Rows in a known format *)
Definition row_in (f : format) : text -> list nat -> Prop := match f with Bare => bare_row | _ => delimited_row end.
Lemma row_in_length f l row : row_in f l row -> length row = 9%nat.
Proof. destruct f; cbn [row_in]; first [apply row_length_bare | apply row_length_delimited]. Qed.

Lemma row_exact f s n f' g g' : f <> Unknown -> (n * 9 + 9 <= length g)%nat ->
  (row_loop s 0 0 n f g = POk (f', 9%nat, g') <-> exists row, row_in f s row /\ f' = f /\ g' = write g (n * 9) row).
Proof.
  intros U G. destruct f; [contradiction | | | ]; cbn [row_in];
    first [apply bare_row_exact; exact G | apply delimited_row_exact; [unfold dformat; auto | exact G]].
Qed.

Lemma block_row_step l rest ns f rows r : nines rows -> (length rows < 9)%nat -> f <> Unknown ->
  (f = Bare \/ (ns <> 3 /\ ns <> 7)%nat) ->
  (block_loop (l :: rest) ns (length rows) f (st rows) = POk (9%nat, r) <->
   exists row, row_in f l row /\ block_loop rest (S ns) (length (rows ++ [row])) f (st (rows ++ [row])) = POk (9%nat, r)).
Proof.
  intros H L U D. cbn [block_loop]. replace (length rows =? 9)%nat with false by lia.
  replace (is_delimited f && ((ns =? 3)%nat || (ns =? 7)%nat)) with false.
  2: { symmetry. destruct D as [-> | D]; [reflexivity | ]. replace ((ns =? 3)%nat || (ns =? 7)%nat) with false by lia. apply andb_false_r. }
  assert (G : (length rows * 9 + 9 <= length (st rows))%nat) by (rewrite st_length by (try exact H; lia); lia).
  pose proof (row_exact f l (length rows)) as X. unfold u8_add. replace (length rows + 1 <? 256)%nat with true by lia. cbn [pbind].
  split.
  - intros E. destruct (row_loop l 0 0 (length rows) f (st rows)) as [[[f' k] g'] | | ] eqn:R; cbn [pbind] in E; try discriminate.
    destruct (Nat.eqb_spec k 9) as [-> | ]; [ | discriminate]. cbn [negb] in E. apply (X f' (st rows) g' U G) in R.
    destruct R as [row [R [-> ->]]]. exists row. split; [exact R | ].
    rewrite st_write in E by (try assumption; eapply row_in_length; exact R). rewrite app_length. exact E.
  - intros [row [R E]]. rewrite (proj2 (X f (st rows) (write (st rows) (length rows * 9) row) U G)) by (exists row; auto).
    cbn [pbind]. change (negb (9 =? 9)%nat) with false. cbn iota.
    rewrite st_write by (try assumption; eapply row_in_length; exact R). rewrite app_length in E. exact E.
Qed.

Lemma block_run m : forall ls ns f rows r, nines rows -> (length rows + m <= 9)%nat -> f <> Unknown ->
  (f = Bare \/ forall i, (i < m)%nat -> (ns + i <> 3 /\ ns + i <> 7)%nat) ->
  (block_loop ls ns (length rows) f (st rows) = POk (9%nat, r) <->
   exists gl t rs, ls = gl ++ t /\ length gl = m /\ Forall2 (row_in f) gl rs /\
     block_loop t (ns + m) (length (rows ++ rs)) f (st (rows ++ rs)) = POk (9%nat, r)).
Proof.
  induction m as [ | m IH]; intros ls ns f rows r H L U D.
  - split.
    + intros E. exists [], ls, []. rewrite app_nil_r, Nat.add_0_r. auto.
    + intros [gl [t [rs [-> [Lg [F E]]]]]]. destruct gl; [ | discriminate]. inversion F; subst.
      rewrite app_nil_r, Nat.add_0_r in E. exact E.
  - assert (D1 : f = Bare \/ (ns <> 3 /\ ns <> 7)%nat) by (destruct D as [D | D]; [auto | right; specialize (D 0%nat); lia]).
    assert (D2 : f = Bare \/ forall i, (i < m)%nat -> (S ns + i <> 3 /\ S ns + i <> 7)%nat).
    { destruct D as [D | D]; [auto | right; intros i Hi; specialize (D (S i)); lia]. }
    split.
    + intros E. destruct ls as [ | l ls]; [cbn [block_loop] in E; injection E as X _; lia | ].
      apply block_row_step in E; try assumption; [ | lia]. destruct E as [row [R E]].
      assert (Lr := row_in_length f l row R).
      apply IH in E; try assumption; [ | apply nines_snoc; assumption | rewrite app_length; cbn [length]; lia].
      destruct E as [gl [t [rs [-> [Lg [F E]]]]]]. exists (l :: gl), t, (row :: rs). rewrite <- app_assoc in E.
      replace (S ns + m)%nat with (ns + S m)%nat in E by lia. cbn [length app] in *.
      split; [reflexivity | ]. split; [lia | ]. split; [constructor; assumption | exact E].
    + intros [gl [t [rs [-> [Lg [F E]]]]]]. destruct gl as [ | l gl]; [discriminate | ]. inversion F as [ | ? row ? rs' R Fr]; subst.
      assert (Lr := row_in_length f l row R). cbn [app length] in *. apply block_row_step; try assumption; [lia | ]. exists row. split; [exact R | ].
      apply IH; try assumption; [apply nines_snoc; assumption | rewrite app_length; cbn [length]; lia | ].
      exists gl, t, rs'. split; [reflexivity | ]. split; [lia | ]. split; [exact Fr | ]. rewrite <- app_assoc.
      replace (S ns + m)%nat with (ns + S m)%nat by lia. exact E.
Qed.

Lemma block_end ls ns f g r : block_loop ls ns 9 f g = POk (9%nat, r) <-> block_tail ls /\ r = g.
Proof.
  destruct ls as [ | l t]; cbn [block_loop].
  - split; [intros [= <-]; split; [left; reflexivity | reflexivity] | intros [_ ->]; reflexivity].
  - change (9 =? 9)%nat with true. cbn iota. destruct (trim_is_empty l) eqn:E.
    + apply trim_iff in E. split; [intros [= <-]; split; [right; exists l, t; auto | reflexivity] | intros [_ ->]; reflexivity].
    + split; [discriminate | ]. intros [[X | [l' [t' [X W]]]] _]; [discriminate | ]. injection X as <- <-.
      apply trim_iff in W. congruence.
Qed.

Lemma starts_exclusive l : starts dashes l -> starts dashes_plus l -> False.
Proof. intros [t ->] [t' E]. discriminate E. Qed.

Lemma starts_pluses l : starts_with PLUSES l = true <-> starts dashes_plus l.
Proof. apply (starts_iff PLUSES l). Qed.
Lemma starts_dashes l : starts_with DASHES l = true <-> starts dashes l.
Proof. apply (starts_iff DASHES l). Qed.

(** Separators *)
Definition sep_of (f : format) : text := match f with DelimitedPlus => dashes_plus | _ => dashes end.

Lemma block_sep3 l rest n g r : (n < 9)%nat ->
  (block_loop (l :: rest) 3 n Delimited g = POk (9%nat, r) <->
   exists f, dformat f /\ starts (sep_of f) l /\ block_loop rest 4 n f g = POk (9%nat, r)).
Proof.
  intros N. cbn [block_loop]. replace (n =? 9)%nat with false by lia. cbn [is_delimited andb orb Nat.eqb].
  rewrite !starts_or. destruct (starts_with PLUSES l) eqn:P.
  - cbn [negb]. apply starts_pluses in P. split.
    + intros E. exists DelimitedPlus. split; [right; reflexivity | ]. split; [exact P | exact E].
    + intros [f [[-> | ->] [S E]]]; [destruct (starts_exclusive l S P) | exact E].
  - destruct (starts_with DASHES l) eqn:Q; cbn [negb].
    + apply starts_dashes in Q. split.
      * intros E. exists Delimited. split; [left; reflexivity | ]. split; [exact Q | exact E].
      * intros [f [[-> | ->] [S E]]]; [exact E | destruct (starts_exclusive l Q S)].
    + split; [discriminate | ]. intros [f [[-> | ->] [S E]]]; [apply starts_dashes in S | apply starts_pluses in S]; congruence.
Qed.

Lemma block_sep7 l rest n f g r : (n < 9)%nat -> dformat f ->
  (block_loop (l :: rest) 7 n f g = POk (9%nat, r) <->
   starts (sep_of f) l /\ block_loop rest 8 n f g = POk (9%nat, r)).
Proof.
  intros N F. cbn [block_loop]. replace (n =? 9)%nat with false by lia. 
  destruct F as [-> | ->]; cbn [is_delimited andb orb Nat.eqb sep_of]; rewrite !starts_or.
  - destruct (starts_with DASHES l) eqn:Q; cbn [negb].
    + apply starts_dashes in Q. tauto.
    + split; [discriminate | ]. intros [S _]. apply starts_dashes in S. congruence.
  - destruct (starts_with PLUSES l) eqn:Q; cbn [negb].
    + apply starts_pluses in Q. tauto.
    + split; [discriminate | ]. intros [S _]. apply starts_pluses in S. congruence.
Qed.

Lemma forall2_nines f gl rs : Forall2 (row_in f) gl rs -> nines rs.
Proof. intros H. induction H as [ | l r gl rs R _ IH]; constructor; [eapply row_in_length; exact R | exact IH]. Qed.
Lemma forall2_row_in f gl rs : dformat f -> Forall2 (row_in f) gl rs <-> Forall2 delimited_row gl rs.
Proof. intros [-> | ->]; cbn [row_in]; tauto. Qed.

(** a bare block *)
Lemma bare_loop_exact ls r : (exists l0 row0 rest, ls = l0 :: rest /\ bare_row l0 row0 /\ block_loop rest 1 1 Bare (st [row0]) = POk (9%nat, r))
  <-> exists rows, bare_block ls rows /\ r = concat rows.
Proof.
  split.
  - intros [l0 [row0 [rest [-> [R E]]]]]. assert (L0 := row_length_bare _ _ R).
    change 1%nat with (length [row0]) in E at 2.
    apply (block_run 8) in E; [ | constructor; auto; constructor | cbn; lia | discriminate | left; reflexivity].
    destruct E as [gl [t [rs [-> [Lg [F E]]]]]]. assert (Lf := Forall2_length F).
    replace (length ([row0] ++ rs)) with 9%nat in E by (cbn [length app]; lia).
    apply block_end in E. destruct E as [T ->]. exists (row0 :: rs). split.
    + exists (l0 :: gl), t. cbn [length app]. split; [reflexivity | ]. split; [lia | ]. split; [constructor; assumption | exact T].
    + apply st_full. cbn [length app]. lia.
  - intros [rows [[gl [t [-> [Lg [F T]]]]] ->]]. destruct gl as [ | l0 gl]; [discriminate | ]. inversion F as [ | ? row0 ? rs R Fr]; subst.
    exists l0, row0, (gl ++ t). split; [reflexivity | ]. split; [exact R | ]. assert (L0 := row_length_bare _ _ R).
    assert (Lf := Forall2_length Fr). cbn [length] in Lg.
    change 1%nat with (length [row0]) at 2.
    apply (block_run 8); [constructor; auto; constructor | cbn; lia | discriminate | left; reflexivity | ].
    exists gl, t, rs. split; [reflexivity | ]. split; [lia | ]. split; [exact Fr | ].
    replace (length ([row0] ++ rs)) with 9%nat by (cbn [length app]; lia).
    apply block_end. split; [exact T | ]. symmetry. apply st_full. cbn [length app]. lia.
Qed.

Lemma nines_app a b : nines a -> nines b -> nines (a ++ b).
Proof. intros. apply Forall_app. auto. Qed.

Lemma delimited_loop_exact ls r :
  (exists l0 row0 rest, ls = l0 :: rest /\ delimited_row l0 row0 /\ block_loop rest 1 1 Delimited (st [row0]) = POk (9%nat, r))
  <-> exists rows, delimited_block ls rows /\ r = concat rows.
Proof.
  split.
  - intros [l0 [row0 [rest [-> [R E]]]]]. assert (L0 := row_length_delimited _ _ R).
    change 1%nat with (length [row0]) in E at 2.
    assert (N0 : nines [row0]) by (constructor; auto; constructor).
    apply (block_run 2) in E; [ | exact N0 | cbn; lia | discriminate | right; intros; lia].
    destruct E as [g1 [t1 [r1 [-> [Lg1 [F1 E]]]]]]. assert (Lf1 := Forall2_length F1). assert (N1 := forall2_nines _ _ _ F1).
    cbn [Nat.add] in E. destruct t1 as [ | s1 t1]; [cbn [block_loop app length] in E; injection E as X _; lia | ].
    apply block_sep3 in E; [ | rewrite app_length; cbn [length]; lia]. destruct E as [f [Df [S1 E]]].
    assert (U : f <> Unknown) by (destruct Df; subst; discriminate).
    apply (block_run 3) in E; [ | apply nines_app; assumption | rewrite app_length; cbn; lia | exact U | right; intros; lia].
    destruct E as [g2 [t2 [r2 [-> [Lg2 [F2 E]]]]]]. assert (Lf2 := Forall2_length F2). assert (N2 := forall2_nines _ _ _ F2).
    cbn [Nat.add] in E. destruct t2 as [ | s2 t2].
    { cbn [block_loop] in E. injection E as X _. rewrite !app_length in X. cbn [length] in X. lia. }
    apply block_sep7 in E; [ | rewrite !app_length; cbn [length]; lia | exact Df]. destruct E as [S2 E].
    apply (block_run 3) in E; [ | repeat apply nines_app; assumption | rewrite !app_length; cbn; lia | exact U | right; intros; lia].
    destruct E as [g3 [t3 [r3 [-> [Lg3 [F3 E]]]]]]. assert (Lf3 := Forall2_length F3).
    replace (length ((([row0] ++ r1) ++ r2) ++ r3)) with 9%nat in E by (rewrite !app_length; cbn [length]; lia).
    apply block_end in E. destruct E as [T ->]. exists ((row0 :: r1) ++ r2 ++ r3). split.
    + exists (l0 :: g1), g2, g3, s1, s2, t3. cbn [app length]. split; [reflexivity | ]. split; [lia | ]. split; [lia | ]. split; [lia | ].
      split; [ | split; [ | exact T]].
      * constructor; [exact R | ]. apply Forall2_app; [exact F1 | ]. apply Forall2_app; eapply forall2_row_in; eassumption.
      * destruct Df as [-> | ->]; [left | right]; split; assumption.
    + rewrite st_full by (rewrite !app_length; cbn [length]; lia). rewrite <- !app_assoc. reflexivity.
  - intros [rows [[g1 [g2 [g3 [s1 [s2 [t [-> [Lg1 [Lg2 [Lg3 [F [S T]]]]]]]]]]]] ->]].
    apply Forall2_app_inv_l in F. destruct F as [r1' [r23 [F1 [F23 ->]]]].
    apply Forall2_app_inv_l in F23. destruct F23 as [r2 [r3 [F2 [F3 ->]]]].
    destruct g1 as [ | l0 g1]; [discriminate | ]. inversion F1 as [ | ? row0 ? r1 R Fr1]; subst. clear F1.
    assert (L0 := row_length_delimited _ _ R). cbn [length] in Lg1.
    assert (Lf1 := Forall2_length Fr1). assert (Lf2 := Forall2_length F2). assert (Lf3 := Forall2_length F3).
    assert (exists f, dformat f /\ starts (sep_of f) s1 /\ starts (sep_of f) s2) as [f [Df [S1 S2]]].
    { destruct S as [[S1 S2] | [S1 S2]]; [exists Delimited | exists DelimitedPlus]; unfold dformat; auto. }
    assert (U : f <> Unknown) by (destruct Df; subst; discriminate).
    assert (N0 : nines [row0]) by (constructor; auto; constructor).
    assert (N1 : nines r1) by (apply (forall2_nines Delimited g1); exact Fr1).
    assert (N2 : nines r2) by (apply (forall2_nines Delimited g2); exact F2).
    exists l0, row0, (g1 ++ s1 :: g2 ++ s2 :: g3 ++ t). split; [reflexivity | ]. split; [exact R | ].
    change 1%nat with (length [row0]) at 2.
    apply (block_run 2); [exact N0 | cbn; lia | discriminate | right; intros; lia | ].
    exists g1, (s1 :: g2 ++ s2 :: g3 ++ t), r1. split; [reflexivity | ]. split; [lia | ]. split; [exact Fr1 | ]. cbn [Nat.add].
    apply block_sep3; [rewrite app_length; cbn [length]; lia | ]. exists f. split; [exact Df | ]. split; [exact S1 | ].
    apply (block_run 3); [apply nines_app; assumption | rewrite app_length; cbn; lia | exact U | right; intros; lia | ].
    exists g2, (s2 :: g3 ++ t), r2. split; [reflexivity | ]. split; [lia | ]. split; [apply forall2_row_in; assumption | ]. cbn [Nat.add].
    apply block_sep7; [rewrite !app_length; cbn [length]; lia | exact Df | ]. split; [exact S2 | ].
    apply (block_run 3); [repeat apply nines_app; assumption | rewrite !app_length; cbn; lia | exact U | right; intros; lia | ].
    exists g3, t, r3. split; [reflexivity | ]. split; [lia | ]. split; [apply forall2_row_in; assumption | ].
    replace (length ((([row0] ++ r1) ++ r2) ++ r3)) with 9%nat by (rewrite !app_length; cbn [length]; lia).
    apply block_end. split; [exact T | ]. rewrite st_full by (rewrite !app_length; cbn [length]; lia).
    rewrite <- !app_assoc. reflexivity.
Qed.

Lemma first_step l rest r : block_loop (l :: rest) 0 0 Unknown (repeat 0%nat 81) = POk (9%nat, r) <->
  (exists row, bare_row l row /\ block_loop rest 1 1 Bare (st [row]) = POk (9%nat, r)) \/
  (exists row, delimited_row l row /\ block_loop rest 1 1 Delimited (st [row]) = POk (9%nat, r)).
Proof.
  cbn [block_loop]. change (0 =? 9)%nat with false. cbn [is_delimited andb]. cbn iota.
  assert (W : forall row, length row = 9%nat -> write (repeat 0%nat 81) 0 row = st [row]).
  { intros row L. exact (st_write [] row (Forall_nil _) ltac:(cbn; lia) L). }
  assert (X := fun f' g' => first_row_exact l f' (repeat 0%nat 81) g' ltac:(rewrite repeat_length; lia)).
  split.
  - intros E. destruct (row_loop l 0 0 0 Unknown (repeat 0%nat 81)) as [[[f' k] g'] | | ] eqn:R; cbn [pbind] in E; try discriminate.
    destruct (Nat.eqb_spec k 9) as [-> | ]; [ | discriminate]. cbn [negb] in E. pose proof (proj1 (X f' g') eq_refl) as R'. clear R.
    destruct R' as [row [[[R ->] | [R ->]] ->]]; rewrite W in E by (first [eapply row_length_bare; exact R | eapply row_length_delimited; exact R]);
      [left | right]; exists row; auto.
  - intros [[row [R E]] | [row [R E]]].
    + rewrite (proj2 (X Bare (st [row]))) by (exists row; split; [auto | symmetry; apply W; eapply row_length_bare; exact R]). exact E.
    + rewrite (proj2 (X Delimited (st [row]))) by (exists row; split; [auto | symmetry; apply W; eapply row_length_delimited; exact R]). exact E.
Qed.

Lemma block_accepts s g : from_str_block s = POk g <-> block_format s g.
Proof.
  assert (E : from_str_block s = POk g <-> block_loop (lines s) 0 0 Unknown (repeat 0%nat 81) = POk (9%nat, g)).
  { unfold from_str_block. destruct (block_loop (lines s) 0 0 Unknown (repeat 0%nat 81)) as [[n r] | | ]; cbn [pbind];
      [ | split; discriminate | split; discriminate].
    destruct (Nat.eqb_spec n 9) as [-> | N]; cbn [negb].
    - split; intros [= <-]; reflexivity.
    - split; [ | intros [= X _]; contradiction]. unfold u8_add. destruct (_ <? _)%nat; discriminate. }
  rewrite E. clear E. unfold block_format. split.
  - intros H. exists (lines s). destruct (lines s) as [ | l rest] eqn:Els; [discriminate | ]. rewrite <- Els.
    assert (LO : lines_of s (lines s)) by (apply lines_exact; reflexivity). rewrite Els in *. apply first_step in H.
    destruct H as [[row [R H]] | [row [R H]]].
    + destruct (proj1 (bare_loop_exact (l :: rest) g)) as [rows [B ->]]; [exists l, row, rest; auto | ]. exists rows. auto.
    + destruct (proj1 (delimited_loop_exact (l :: rest) g)) as [rows [B ->]]; [exists l, row, rest; auto | ]. exists rows. auto.
  - intros [ls [rows [LO [-> B]]]]. apply lines_exact in LO. subst ls. destruct B as [B | B].
    + destruct (proj2 (bare_loop_exact (lines s) (concat rows))) as [l [row [rest [-> [R E]]]]]; [exists rows; auto | ].
      apply first_step. left. exists row. auto.
    + destruct (proj2 (delimited_loop_exact (lines s) (concat rows))) as [l [row [rest [-> [R E]]]]]; [exists rows; auto | ].
      apply first_step. right. exists row. auto.
Qed.

Lemma bare_row_digits s row : bare_row s row -> Forall (fun d => d <= 9)%nat row.
Proof.
  intros [cs [rest [_ [_ [_ [_ ->]]]]]]. apply Forall_forall. intros d Hd. apply in_map_iff in Hd. destruct Hd as [c [<- _]]. apply digit_bound.
Qed.
Lemma delimited_row_digits s row : delimited_row s row -> Forall (fun d => d <= 9)%nat row.
Proof.
  intros [a [b [c [rest [_ [_ [_ [_ [_ [_ ->]]]]]]]]]]. apply Forall_forall. intros d Hd. apply in_map_iff in Hd.
  destruct Hd as [x [<- _]]. apply digit_bound.
Qed.

Lemma rows_wf (P : text -> list nat -> Prop) ls rows : (forall s row, P s row -> length row = 9%nat /\ Forall (fun d => d <= 9)%nat row) ->
  Forall2 P ls rows -> length ls = 9%nat -> wf_grid (concat rows).
Proof.
  intros HP F L. assert (Lf := Forall2_length F). split.
  - rewrite concat_nines by (clear - HP F; induction F; constructor; [apply (HP _ _ H) | assumption]). lia.
  - clear Lf L. induction F as [ | l r ls rows R F IH]; [constructor | ]. cbn [concat]. apply Forall_app. split; [apply (HP _ _ R) | exact IH].
Qed.

Lemma block_format_wf s g : block_format s g -> wf_grid g.
Proof.
  intros [ls [rows [_ [-> [[gl [tail [_ [L [F _]]]]] | [g1 [g2 [g3 [s1 [s2 [tail [_ [L1 [L2 [L3 [F _]]]]]]]]]]]]]]]].
  - eapply rows_wf; [ | exact F | exact L]. intros. split; [eapply row_length_bare | eapply bare_row_digits]; eassumption.
  - eapply rows_wf; [ | exact F | rewrite !app_length; lia]. intros. split; [eapply row_length_delimited | eapply delimited_row_digits]; eassumption.
Qed.

(** Not enough rows: the number is one more than the number of rows *)
Lemma bare_rows_short gl : forall ns rows rs, Forall2 bare_row gl rs -> nines rows -> (length rows + length gl <= 9)%nat ->
  block_loop gl ns (length rows) Bare (st rows) = POk (length (rows ++ rs), st (rows ++ rs)).
Proof.
  induction gl as [ | l gl IH]; intros ns rows rs F N L; inversion F as [ | ? row ? rs' R Fr]; subst.
  - rewrite app_nil_r. reflexivity.
  - cbn [block_loop length] in *. replace (length rows =? 9)%nat with false by lia. cbn [is_delimited andb].
    assert (Lr := row_length_bare _ _ R).
    rewrite (proj2 (bare_row_exact l (length rows) Bare (st rows) (write (st rows) (length rows * 9) row)
      ltac:(rewrite st_length by (try exact N; lia); lia))) by (exists row; auto).
    cbn [pbind]. change (negb (9 =? 9)%nat) with false. cbn iota. unfold u8_add. replace (length rows + 1 <? 256)%nat with true by lia.
    cbn [pbind]. rewrite st_write by (try assumption; lia). replace (length rows + 1)%nat with (length (rows ++ [row])) by (rewrite app_length; reflexivity).
    rewrite (IH _ (rows ++ [row]) rs' Fr) by (try (apply nines_snoc; assumption); rewrite ?app_length; cbn [length]; lia).
    rewrite <- app_assoc. reflexivity.
Qed.

Lemma not_enough_rows_bare s ls rows : lines_of s ls -> Forall2 bare_row ls rows -> (length rows < 9)%nat ->
  from_str_block s = PErr (BNotEnoughRows (length rows + 1)).
Proof.
  intros LO F L. rewrite <- (Forall2_length F) in L |- *. apply lines_exact in LO. subst ls. unfold from_str_block.
  assert (E : block_loop (lines s) 0 0 Unknown (repeat 0%nat 81) = POk (length rows, st rows)).
  { destruct F as [ | l row ls rows R F]; [reflexivity | ]. cbn [block_loop]. change (0 =? 9)%nat with false. cbn [is_delimited andb]. cbn iota.
    assert (Lr := row_length_bare _ _ R). cbn [length] in L.
    rewrite (proj2 (first_row_exact l Bare (repeat 0%nat 81) (st [row]) ltac:(rewrite repeat_length; lia))).
    2: { exists row. split; [left; auto | ]. symmetry. exact (st_write [] row (Forall_nil _) ltac:(cbn; lia) Lr). }
    cbn [pbind]. change (negb (9 =? 9)%nat) with false. cbn iota. change (@u8_add block_err 0 1) with (@POk block_err nat 1%nat). cbn [pbind].
    change 1%nat with (length [row]) at 2. rewrite (bare_rows_short ls 1 [row] rows F); [ | constructor; auto; constructor | cbn [length]; lia].
    reflexivity. }
  rewrite E. cbn [pbind]. rewrite <- (Forall2_length F). replace (length (lines s) =? 9)%nat with false by lia. cbn [negb].
  unfold u8_add. replace (length (lines s) + 1 <? 256)%nat with true by lia. reflexivity.
Qed.

(** * The permissive block parser *)

Lemma lax_row_digits s n row : lax_row s n row -> length row = n /\ Forall (fun d => d <= 9)%nat row.
Proof.
  induction 1 as [ | c s n row C _ [IH1 IH2] | c s n row C _ IH]; [split; [reflexivity | constructor] | | exact IH].
  cbn [length]. split; [lia | constructor; [apply digit_bound | exact IH2]].
Qed.

Lemma lax_line_exact s : forall v k, (k < 9)%nat -> length v = 9%nat ->
  (exists r, lax_line s v k = POk r) /\
  (forall w, lax_line s v k = POk (Some w) <-> exists row, lax_row s (9 - k) row /\ w = write v k row).
Proof.
  induction s as [ | c s IH]; intros v k K V.
  - cbn [lax_line]. split; [eexists; reflexivity | ]. intros w. split; [discriminate | ]. intros [row [R _]].
    replace (9 - k)%nat with (S (8 - k)) in R by lia. inversion R.
  - destruct (cell_dec c) as [C | C].
    + assert (E : lax_line (c :: s) v k = if (S k =? 9)%nat then POk (Some (write v k [cell_digit c])) else lax_line s (write v k [cell_digit c]) (S k)).
      { cbn [lax_line]. rewrite !grid_set_write by lia. cbn [pbind]. unfold cell_char in C. unfold cell_digit.
        destruct ((48 <=? c) && (c <=? 57)) eqn:X.
        - replace ((c =? 46) || (c =? 95)) with false by lia. reflexivity.
        - replace ((c =? 46) || (c =? 95)) with true by lia. reflexivity. }
      rewrite E. destruct (Nat.eqb_spec (S k) 9) as [K9 | K9].
      * split; [eexists; reflexivity | ]. intros w. replace (9 - k)%nat with 1%nat by lia. split.
        -- intros [= <-]. exists [cell_digit c]. split; [ | reflexivity]. apply lax_cell; [exact C | apply lax_done].
        -- intros [row [R ->]]. inversion R as [ | ? ? ? row' _ R' | ? ? ? ? C' _]; subst; [ | contradiction].
           inversion R'; subst. reflexivity.
      * destruct (IH (write v k [cell_digit c]) (S k)) as [I1 I2]; [lia | rewrite write_length; [exact V | cbn [length]; lia] | ].
        split; [exact I1 | ]. intros w. rewrite I2. replace (9 - k)%nat with (S (9 - S k)) by lia. remember (9 - S k)%nat as m eqn:Hm. split.
        -- intros [row [R ->]]. destruct (lax_row_digits _ _ _ R) as [Lr _].
           exists (cell_digit c :: row). split; [apply lax_cell; assumption | apply write_cons; lia].
        -- intros [row [R ->]]. inversion R as [ | ? ? ? row' _ R' | ? ? ? ? C' _]; subst; [ | contradiction].
           destruct (lax_row_digits _ _ _ R') as [Lr _]. exists row'. split; [exact R' | symmetry; apply write_cons; lia].
    + assert (E : lax_line (c :: s) v k = lax_line s v k).
      { cbn [lax_line]. unfold cell_char in C. replace ((c =? 46) || (c =? 95)) with false by lia.
        replace ((48 <=? c) && (c <=? 57)) with false by lia. cbn [pbind]. replace (k =? 9)%nat with false by lia. reflexivity. }
      rewrite E. destruct (IH v k K V) as [I1 I2]. split; [exact I1 | ]. intros w. rewrite I2.
      replace (9 - k)%nat with (S (8 - k)) by lia. split.
      * intros [row [R ->]]. exists row. split; [apply lax_other; assumption | reflexivity].
      * intros [row [R ->]]. inversion R as [ | ? ? ? ? C' | ? ? ? ? _ R']; subst; [contradiction | ]. exists row. auto.
Qed.

Lemma lax_line_row l : (exists row, lax_line l (repeat 0%nat 9) 0 = POk (Some row) /\ lax_row l 9 row) \/
  (lax_line l (repeat 0%nat 9) 0 = POk None /\ forall row, ~ lax_row l 9 row).
Proof.
  destruct (lax_line_exact l (repeat 0%nat 9) 0 ltac:(lia) eq_refl) as [[r E] X].
  assert (W : forall row, length row = 9%nat -> write (repeat 0%nat 9) 0 row = row).
  { intros row L. unfold write. rewrite L. cbn [firstn app]. apply app_nil_r. }
  destruct r as [w | ].
  - left. exists w. split; [exact E | ]. apply X in E. destruct E as [row [R ->]].
    rewrite W by (apply (lax_row_digits _ _ _ R)). exact R.
  - right. split; [exact E | ]. intros row R. assert (Y := proj2 (X (write (repeat 0%nat 9) 0 row)) (ex_intro _ row (conj R eq_refl))). congruence.
Qed.

Lemma copy_row_st {E} rows row : nines rows -> (length rows < 9)%nat -> length row = 9%nat ->
  @copy_row E (st rows) (length rows) row = POk (st (rows ++ [row])).
Proof.
  intros N L Lr. unfold copy_row. rewrite st_length by (try exact N; lia). rewrite Lr.
  replace (length rows * 9 + 9 <=? 81)%nat with true by lia. change (9 =? 9)%nat with true. cbn [andb].
  rewrite <- (st_write rows row N L Lr). unfold write. rewrite Lr. reflexivity.
Qed.

Lemma lax_loop_exact ls rs : lax_rows ls rs -> forall rows, nines rows -> (length rows < 9)%nat ->
  lax_loop ls (length rows) (st rows) =
  if (9 <=? length (rows ++ rs))%nat then POk (concat (firstn 9 (rows ++ rs))) else PErr (NotEnoughRows (length (rows ++ rs))).
Proof.
  induction 1 as [ | l ls row rs R _ IH | l ls rs R _ IH]; intros rows N L.
  - cbn [lax_loop]. rewrite app_nil_r. replace (9 <=? length rows)%nat with false by lia. reflexivity.
  - cbn [lax_loop]. destruct (lax_line_row l) as [[row' [E R']] | [_ X]]; [ | destruct (X row R)]. rewrite E. cbn [pbind].
    assert (row' = row) as ->.
    { clear - R R'. revert row R. induction R' as [ | c s n r C _ IH | c s n r C _ IH]; intros row R; inversion R; subst; try contradiction; [reflexivity | | ].
      - f_equal. apply IH. assumption.
      - apply IH. assumption. }
    destruct (lax_row_digits _ _ _ R) as [Lr _]. rewrite copy_row_st by assumption. cbn [pbind].
    destruct (Nat.eqb_spec (S (length rows)) 9) as [K | K].
    + rewrite app_length. cbn [length]. replace (9 <=? length rows + S (length rs))%nat with true by lia.
      rewrite st_full by (rewrite app_length; cbn [length]; lia). f_equal. f_equal.
      change (rows ++ row :: rs) with (rows ++ [row] ++ rs). rewrite app_assoc.
      rewrite firstn_app. rewrite firstn_all2 by (rewrite app_length; cbn [length]; lia).
      replace (9 - length (rows ++ [row]))%nat with 0%nat by (rewrite app_length; cbn [length]; lia). rewrite firstn_O, app_nil_r. reflexivity.
    + replace (S (length rows)) with (length (rows ++ [row])) by (rewrite app_length; cbn [length]; lia).
      rewrite IH; [ | apply nines_snoc; assumption | rewrite app_length; cbn [length]; lia]. rewrite <- app_assoc. reflexivity.
  - cbn [lax_loop]. destruct (lax_line_row l) as [[row' [E R']] | [E _]]; [destruct (R row' R') | ]. rewrite E. cbn [pbind].
    replace (length rows =? 9)%nat with false by lia. apply IH; assumption.
Qed.

Lemma lax_rows_ex ls : exists rs, lax_rows ls rs.
Proof.
  induction ls as [ | l ls [rs IH]]; [exists []; constructor | ].
  destruct (lax_line_row l) as [[row [_ R]] | [_ R]]; [exists (row :: rs) | exists rs]; constructor; assumption.
Qed.

Lemma permissive_result s ls rs : lines_of s ls -> lax_rows ls rs ->
  from_str_block_permissive s = if (9 <=? length rs)%nat then POk (concat (firstn 9 rs)) else PErr (NotEnoughRows (length rs)).
Proof.
  intros LO R. apply lines_exact in LO. subst ls. unfold from_str_block_permissive.
  exact (lax_loop_exact _ _ R [] (Forall_nil _) ltac:(cbn; lia)).
Qed.

Lemma permissive_exact s :
  (forall g, from_str_block_permissive s = POk g <->
     exists ls rows, lines_of s ls /\ lax_rows ls rows /\ (9 <= length rows)%nat /\ g = concat (firstn 9 rows)) /\
  (forall n, from_str_block_permissive s = PErr (NotEnoughRows n) <->
     exists ls rows, lines_of s ls /\ lax_rows ls rows /\ length rows = n /\ (n < 9)%nat) /\
  from_str_block_permissive s <> PPanic.
Proof.
  destruct (lines_of_ex s) as [ls LO]. destruct (lax_rows_ex ls) as [rs R]. pose proof (permissive_result s ls rs LO R) as E.
  split; [ | split].
  - intros g. split.
    + intros H. exists ls, rs. rewrite E in H. destruct (Nat.leb_spec 9 (length rs)); [ | discriminate]. injection H as <-. auto.
    + intros [ls' [rs' [LO' [R' [L ->]]]]]. rewrite (permissive_result s ls' rs' LO' R').
      replace (9 <=? length rs')%nat with true by lia. reflexivity.
  - intros n. split.
    + intros H. exists ls, rs. rewrite E in H. destruct (Nat.leb_spec 9 (length rs)); [discriminate | ]. injection H as <-. auto.
    + intros [ls' [rs' [LO' [R' [<- L]]]]]. rewrite (permissive_result s ls' rs' LO' R').
      replace (9 <=? length rs')%nat with false by lia. reflexivity.
  - rewrite E. destruct (_ <=? _)%nat; discriminate.
Qed.

(** * The block display *)

Definition block_char (d : nat) : N := if ((9 <? d) || (d =? 0))%nat then 95 else N.of_nat d + 48.
Definition row_text (f : nat -> nat) (r : nat) : text :=
  let b k := block_char (f (9 * r + k)%nat) in
  [b 0%nat; b 1%nat; b 2%nat; 32; b 3%nat; b 4%nat; b 5%nat; 32; b 6%nat; b 7%nat; b 8%nat].

Lemma grid_as_map g : length g = 81%nat -> g = map (at_ g) (seq 0 81).
Proof.
  intros L. apply (nth_ext _ _ 0%nat 0%nat); [rewrite map_length, seq_length; exact L | ]. intros n Hn.
  rewrite (nth_indep (map (at_ g) (seq 0 81)) 0%nat (at_ g 0)) by (rewrite map_length, seq_length; lia). rewrite map_nth, seq_nth by lia. reflexivity.
Qed.

Lemma combine_map {A B} (f : A -> B) l : combine l (map f l) = map (fun x => (x, f x)) l.
Proof. induction l as [ | x l IH]; [reflexivity | ]. cbn [map combine]. rewrite IH. reflexivity. Qed.

Lemma display_text f : flat_map (fun p => block_cell_text (fst p) (snd p)) (combine (seq 0 81) (map f (seq 0 81))) =
  [] ++ 10 :: row_text f 0 ++ 10 :: row_text f 1 ++ 10 :: row_text f 2 ++ 10 :: [] ++
  10 :: row_text f 3 ++ 10 :: row_text f 4 ++ 10 :: row_text f 5 ++ 10 :: [] ++
  10 :: row_text f 6 ++ 10 :: row_text f 7 ++ 10 :: row_text f 8.
Proof. rewrite combine_map. reflexivity. Qed.

Lemma block_char_cell d : (d <= 9)%nat -> cell_char (block_char d) /\ cell_digit (block_char d) = d.
Proof.
  intros H. unfold block_char, cell_char, cell_digit. destruct (Nat.eqb_spec d 0) as [-> | N0]; [split; [cbn; lia | reflexivity] | ].
  replace (9 <? d)%nat with false by lia. cbn [orb].
  split; [lia | ]. replace ((48 <=? N.of_nat d + 48) && (N.of_nat d + 48 <=? 57)) with true by lia. lia.
Qed.

Definition row_of_fun (f : nat -> nat) (r : nat) : list nat := map (fun k => f (9 * r + k)%nat) (seq 0 9).

Lemma row_text_lax f r : (forall c, f c <= 9)%nat -> lax_row (row_text f r) 9 (row_of_fun f r).
Proof.
  intros H. unfold row_text, row_of_fun. cbn [seq map]. cbv zeta.
  repeat match goal with
  | |- lax_row (32 :: _) _ _ => apply lax_other; [unfold cell_char; lia | ]
  | |- lax_row (block_char ?d :: _) _ (?x :: _) =>
      rewrite <- (proj2 (block_char_cell d (H _))) at 2; apply lax_cell; [apply block_char_cell, H | ]
  end. apply lax_done.
Qed.

Lemma row_text_line f r : (forall c, f c <= 9)%nat ->
  ~ In 10 (row_text f r) /\ (forall l, row_text f r <> l ++ [13]) /\ row_text f r <> [].
Proof.
  intros H. assert (B : forall c, cell_char (block_char (f c))) by (intros c; apply block_char_cell, H). split; [ | split].
  - unfold row_text. intros X. cbn [In] in X. unfold cell_char in B.
    repeat (destruct X as [X | X]; [first [discriminate | 
      match type of X with block_char (f ?c) = _ => specialize (B c); rewrite X in B; lia end] | ]). exact X.
  - intros l X. unfold row_text in X.
    change ([?a; ?b; ?c; ?d; ?e; ?g; ?h; ?i; ?j; ?k; ?x]) with ([a; b; c; d; e; g; h; i; j; k] ++ [x]) in X.
    apply app_inj_tail in X. destruct X as [_ X]. specialize (B (9 * r + 8)%nat). rewrite X in B. unfold cell_char in B. lia.
  - discriminate.
Qed.

Lemma empty_not_lax row : ~ lax_row [] 9 row.
Proof. intros X. inversion X. Qed.

Lemma display_round_trip g : wf_grid g -> from_str_block_permissive (display_block g) = POk g.
Proof.
  intros [L F]. unfold display_block. rewrite (grid_as_map g L).
  assert (H : forall c, (at_ g c <= 9)%nat).
  { intros c. unfold at_. destruct (Nat.lt_ge_cases c (length g)) as [X | X]; [ | rewrite nth_overflow by lia; lia].
    rewrite Forall_forall in F. apply F. apply nth_In. exact X. }
  revert H. generalize (at_ g). clear g L F. intros f H. rewrite display_text.
  assert (LT := fun r => row_text_line f r H).
  assert (LF : forall r s ls, lines_of s ls -> lines_of (row_text f r ++ 10 :: s) (row_text f r :: ls)).
  { intros r s ls X. apply lines_lf; [apply LT | apply LT | exact X]. }
  assert (LE : forall s ls, lines_of s ls -> lines_of ([] ++ 10 :: s) ([] :: ls)).
  { intros s ls X. apply lines_lf; [intros [] | intros [ | ]; discriminate | exact X]. }
  rewrite (permissive_result _ ([] :: row_text f 0 :: row_text f 1 :: row_text f 2 :: [] :: row_text f 3 :: row_text f 4 ::
     row_text f 5 :: [] :: row_text f 6 :: row_text f 7 :: [row_text f 8]) (map (row_of_fun f) (seq 0 9))).
  - reflexivity.
  - repeat first [apply LF | apply LE]. apply lines_last; apply LT.
  - cbn [seq map]. repeat first [apply laxs_row; [apply row_text_lax; exact H | ] | apply laxs_skip; [apply empty_not_lax | ] | apply laxs_nil].
Qed.

Lemma not_enough_rows_wrong : exists s ls rows n, lines_of s ls /\ Forall2 bare_row ls rows /\
  from_str_block s = PErr (BNotEnoughRows n) /\ n <> length rows.
Proof.
  exists (repeat 49 9), [repeat 49 9], [repeat 1%nat 9], 2%nat. split; [ | split; [ | split]].
  - apply lines_last; [discriminate | ]. intros X. apply repeat_spec in X. discriminate.
  - constructor; [ | constructor]. exists (repeat 49 9), []. split; [rewrite app_nil_r; reflexivity | ]. split; [reflexivity | ].
    split; [ | split; [left; reflexivity | reflexivity]]. apply Forall_forall. intros x X. apply repeat_spec in X. subst.
    unfold cell_char. lia.
  - vm_compute. reflexivity.
  - discriminate.
Qed.
