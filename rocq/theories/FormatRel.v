(** How the parsers of the text formats are related. *)
From Coq Require Import List Arith NArith ZArith ZifyNat ZifyN ZifyBool Lia Bool.
From Verif Require Import Spec ParseSpec FormatSpec Solver Parse ParseProofs BlockProofs BlockErrSpec BlockErr.
Import ListNotations.
Local Open Scope N_scope.

(** * The first line *)

Lemma cell_not c x : cell_char c -> x = 10 \/ x = 13 \/ x = 124 -> c <> x.
Proof. unfold cell_char. lia. Qed.

Lemma split_lf (l : text) : ~ In 10 l \/ exists a b, l = a ++ 10 :: b /\ ~ In 10 a.
Proof.
  induction l as [ | c l IH]; [left; intros [] | ]. destruct (N.eq_dec c 10) as [-> | C]; [right; exists [], l; split; [reflexivity | intros []] | ].
  destruct IH as [IH | [a [b [-> IH]]]].
  - left. intros [X | X]; auto.
  - right. exists (c :: a), b. split; [reflexivity | ]. intros [X | X]; auto.
Qed.

Lemma cells_no cs x : Forall cell_char cs -> x = 10 \/ x = 13 \/ x = 124 -> ~ In x cs.
Proof. intros F X I. rewrite Forall_forall in F. exact (cell_not x x (F x I) X eq_refl). Qed.

Lemma first_line cs rest : Forall cell_char cs -> cs <> [] -> exists x ls, lines_of (cs ++ rest) ((cs ++ x) :: ls).
Proof.
  intros F NE. assert (N10 := cells_no cs 10 F ltac:(auto)). assert (N13 := cells_no cs 13 F ltac:(auto)).
  destruct (split_lf rest) as [R | [a [b [-> R]]]].
  - exists rest, []. apply lines_last; [destruct cs; [contradiction | discriminate] | ]. intros X. apply in_app_or in X. tauto.
  - destruct (lines_of_ex b) as [ls L].
    destruct (list_eq_dec N.eq_dec a []) as [-> | A].
    { exists [], ls. cbn [app]. rewrite app_nil_r. apply lines_lf; [exact N10 | | exact L].
      intros l' E. apply N13. rewrite E. apply in_or_app. right. left. reflexivity. }
    destruct (exists_last A) as [a' [z Ea]]. destruct (N.eq_dec z 13) as [Z | Z].
    + exists a', ls. subst a z. rewrite app_assoc. rewrite <- app_assoc. cbn [app]. rewrite <- (app_assoc a'). cbn [app]. rewrite app_assoc.
      apply lines_crlf; [ | exact L]. intros X. apply in_app_or in X. destruct X as [X | X]; [tauto | ]. apply R. apply in_or_app. left. exact X.
    + exists a, ls. rewrite app_assoc. apply lines_lf; [ | | exact L].
      * intros X. apply in_app_or in X. tauto.
      * intros l' E. apply Z. subst a. rewrite app_assoc in E. apply app_inj_tail in E. apply E.
Qed.

(** * Lines and blocks *)

Lemma line_not_block s g : Forall scalar s -> from_str_line s = POk g -> from_str_block s = PErr (BInvalidLineLength 0).
Proof.
  intros V H. apply line_accepts in H; [ | exact V]. destruct H as [cs [rest [-> [L [F _]]]]]. clear V g.
  destruct (first_line cs rest F) as [x [ls LO]]; [intros ->; discriminate | ].
  apply block_errors. exists ((cs ++ x) :: ls). split; [exact LO | ]. left. exists 0%nat, (cs ++ x). split; [reflexivity | ]. clear LO.
  assert (G : forall k, (k < 81)%nat -> exists c, nth_error (cs ++ x) k = Some c /\ cell_char c).
  { intros k K. rewrite nth_error_app1 by lia. destruct (nth_error cs k) as [c | ] eqn:E; [ | apply nth_error_None in E; lia].
    exists c. split; [reflexivity | ]. rewrite Forall_forall in F. apply F. apply nth_error_In in E. exact E. }
  assert (B : has_bars ((cs ++ x) :: ls) = false).
  { unfold has_bars. destruct (G 3%nat ltac:(lia)) as [c [-> C]]. apply N.eqb_neq. apply (cell_not c 124 C). auto. }
  unfold line_fault. rewrite B. split; [ | intros j; lia]. cbn [delimiter_at andb]. change (0 <? width false)%nat with true. cbn iota beta zeta.
  exists 9%nat. split; [cbn; lia | ]. split; [rewrite app_length; lia | ]. split.
  - destruct (G 9%nat ltac:(lia)) as [c [-> C]]. left. split; [exact C | reflexivity].
  - intros j J e'. destruct (G j ltac:(lia)) as [c [-> C]]. unfold char_fault. replace (j <? width false)%nat with true by (cbn [width]; lia).
    cbn [delimiter_at andb]. tauto.
Qed.

Lemma lines_two s l l' ls : lines_of s (l :: l' :: ls) -> exists t, s = l ++ 10 :: t \/ s = l ++ 13 :: 10 :: t.
Proof. intros H. inversion H; subst; eexists; [left | right]; reflexivity. Qed.

Lemma lines_block s ls rows : lines_of s ls -> bare_block ls rows \/ delimited_block ls rows ->
  exists l row t, (bare_row l row \/ delimited_row l row) /\ (s = l ++ 10 :: t \/ s = l ++ 13 :: 10 :: t).
Proof.
  intros LO [[gl [tail [-> [L [R _]]]]] | [g1 [g2 [g3 [s1 [s2 [tail [-> [L1 [L2 [L3 [R _]]]]]]]]]]]].
  - destruct gl as [ | l gl]; [discriminate | ]. destruct gl as [ | k gl]; [discriminate | ]. inversion R as [ | ? row ? ? H R']; subst.
    cbn [app] in LO. apply lines_two in LO. destruct LO as [t LO]. exists l, row, t. auto.
  - destruct g1 as [ | l g1]; [discriminate | ]. cbn [app] in R. inversion R as [ | ? row ? ? H R']; subst.
    assert (X : exists k q, (l :: g1) ++ s1 :: g2 ++ s2 :: g3 ++ tail = l :: k :: q) by (destruct g1; do 2 eexists; reflexivity).
    destruct X as [k [q X]]. rewrite X in LO. apply lines_two in LO. destruct LO as [t LO]. exists l, row, t. auto.
Qed.

Lemma block_not_line s g : Forall scalar s -> from_str_block s = POk g ->
  from_str_line s = PErr (LInvalidEntry 3 124) \/ from_str_line s = PErr (LNotEnoughCells 9) \/
  from_str_line s = PErr (LInvalidEntry 9 10) \/ from_str_line s = PErr (LInvalidEntry 9 13).
Proof.
  intros V H. apply block_accepts in H. destruct H as [ls [rows [LO [_ B]]]].
  destruct (lines_block s ls rows LO B) as [l [row [t [R S0]]]]. clear LO B.
  assert (X : exists x y, (x = 10 \/ x = 13) /\ s = l ++ x :: y) by (destruct S0 as [-> | ->]; do 2 eexists; split; [ | reflexivity | | reflexivity]; auto).
  clear S0. destruct X as [x [y [Hx ->]]]. destruct R as [[cs [rest [-> [L [F [E _]]]]]] | [a [b [c [rest [-> [La [_ [_ [F _]]]]]]]]]].
  - rewrite <- app_assoc in *. destruct E as [-> | [c [t' [-> C]]]].
    + cbn [app] in *. destruct Hx as [-> | ->]; right; right; [left | right]; apply line_case_sound; try exact V; rewrite <- L; apply lc_bad;
        try exact F; try lia; unfold blank, cell_char; lia.
    + right. left. apply line_case_sound; [exact V | ]. rewrite <- L. apply lc_short; [exact F | lia | ]. right. cbn [app]. eauto.
  - left. rewrite <- app_assoc in *. cbn [app] in *. apply line_case_sound; [exact V | ]. rewrite <- La. apply lc_bad.
    + apply Forall_app in F. apply F.
    + lia.
    + unfold blank. lia.
    + unfold cell_char. lia.
Qed.

(** * The permissive parser *)

Lemma lax_cells cs t n row : Forall cell_char cs -> lax_row t n row -> lax_row (cs ++ t) (length cs + n) (map cell_digit cs ++ row).
Proof. intros F R. induction F as [ | c cs C _ IH]; [exact R | ]. cbn [app length map Nat.add]. apply lax_cell; [exact C | exact IH]. Qed.

Lemma bare_lax l row : bare_row l row -> lax_row l 9 row.
Proof.
  intros [cs [rest [-> [L [F [_ ->]]]]]]. rewrite <- (app_nil_r (map cell_digit cs)). replace 9%nat with (length cs + 0)%nat by lia.
  apply lax_cells; [exact F | apply lax_done].
Qed.

Lemma delimited_lax l row : delimited_row l row -> lax_row l 9 row.
Proof.
  intros [a [b [c [rest [-> [La [Lb [Lc [F [_ ->]]]]]]]]]]. apply Forall_app in F. destruct F as [Fa F]. apply Forall_app in F. destruct F as [Fb Fc].
  rewrite !map_app. assert (NB : ~ cell_char 124) by (unfold cell_char; lia).
  replace 9%nat with (length a + 6)%nat by lia. apply lax_cells; [exact Fa | ]. apply lax_other; [exact NB | ].
  change (lax_row (b ++ 124 :: c ++ rest) 6 (map cell_digit b ++ map cell_digit c)).
  replace 6%nat with (length b + 3)%nat by lia. apply lax_cells; [exact Fb | ]. apply lax_other; [exact NB | ].
  rewrite <- (app_nil_r (map cell_digit c)). replace 3%nat with (length c + 0)%nat by lia. apply lax_cells; [exact Fc | apply lax_done].
Qed.

Lemma lax_rows_app (P : text -> list nat -> Prop) gl rows : (forall l row, P l row -> lax_row l 9 row) -> Forall2 P gl rows ->
  forall tl rs, lax_rows tl rs -> lax_rows (gl ++ tl) (rows ++ rs).
Proof. intros H. induction 1 as [ | l row gl rows R _ IH]; intros tl rs T; [exact T | ]. cbn [app]. apply laxs_row; [apply H, R | apply IH, T]. Qed.

Lemma permissive_of s ls rows rs : lines_of s ls -> lax_rows ls (rows ++ rs) -> length rows = 9%nat -> from_str_block_permissive s = POk (concat rows).
Proof.
  intros LO R L. rewrite (permissive_result s ls _ LO R). rewrite app_length, L. replace (9 <=? 9 + length rs)%nat with true by lia.
  rewrite firstn_app, L, Nat.sub_diag, firstn_O, app_nil_r, firstn_all2 by lia. reflexivity.
Qed.

Lemma permissive_extends s g : from_str_block s = POk g ->
  (forall ls l row, lines_of s ls -> In l ls -> starts [45] l -> ~ lax_row l 9 row) -> from_str_block_permissive s = POk g.
Proof.
  intros H D. apply block_accepts in H. destruct H as [ls [rows [LO [-> B]]]].
  destruct B as [[gl [tail [-> [L [R _]]]]] | [g1 [g2 [g3 [s1 [s2 [tail [E [L1 [L2 [L3 [R [S0 _]]]]]]]]]]]]].
  - destruct (lax_rows_ex tail) as [rs T]. apply (permissive_of s _ rows rs LO).
    + apply (lax_rows_app bare_row); [exact bare_lax | exact R | exact T].
    + rewrite <- (Forall2_length R). exact L.
  - destruct (lax_rows_ex tail) as [rs T].
    assert (Q : forall l, l = s1 \/ l = s2 -> forall row, ~ lax_row l 9 row).
    { intros l Hl row. apply (D ls l row LO).
      - rewrite E. apply in_or_app. right. destruct Hl as [-> | ->]; [left; reflexivity | right]. apply in_or_app. right. left. reflexivity.
      - destruct Hl as [-> | ->]; destruct S0 as [[[t1 X1] [t2 X2]] | [[t1 X1] [t2 X2]]]; rewrite ?X1, ?X2; unfold starts; eexists; reflexivity. }
    apply Forall2_app_inv_l in R. destruct R as [r1 [r23 [R1 [R23 ->]]]]. apply Forall2_app_inv_l in R23. destruct R23 as [r2 [r3 [R2 [R3 ->]]]].
    apply (permissive_of s ls _ rs LO).
    + rewrite E, <- !app_assoc. apply (lax_rows_app delimited_row); [exact delimited_lax | exact R1 | ].
      apply laxs_skip; [apply Q; auto | ]. apply (lax_rows_app delimited_row); [exact delimited_lax | exact R2 | ].
      apply laxs_skip; [apply Q; auto | ]. apply (lax_rows_app delimited_row); [exact delimited_lax | exact R3 | exact T].
    + rewrite !app_length. apply Forall2_length in R1, R2, R3. lia.
Qed.

Lemma line_permissive s g : Forall scalar s -> from_str_line s = POk g -> ~ In 10 s -> from_str_block_permissive s = PErr (NotEnoughRows 1).
Proof.
  intros V H N. apply line_accepts in H; [ | exact V]. destruct H as [cs [rest [-> [L [F _]]]]].
  assert (LO : lines_of (cs ++ rest) [cs ++ rest]) by (apply lines_last; [destruct cs; discriminate | exact N]).
  assert (R : lax_row (cs ++ rest) 9 (map cell_digit (firstn 9 cs))).
  { rewrite <- (firstn_skipn 9 cs) at 1. rewrite <- app_assoc. rewrite <- (app_nil_r (map cell_digit (firstn 9 cs))).
    replace 9%nat with (length (firstn 9 cs) + 0)%nat at 3 by (rewrite firstn_length; lia).
    apply lax_cells; [ | apply lax_done]. rewrite <- (firstn_skipn 9 cs) in F. apply Forall_app in F. apply F. }
  rewrite (permissive_result _ _ _ LO (laxs_row _ _ _ _ R laxs_nil)). reflexivity.
Qed.

Lemma display_strict g : length g = 81%nat -> from_str_block (display_block g) = PErr (BInvalidLineLength 0).
Proof. destruct g as [ | d g]; [discriminate | ]. intros _. reflexivity. Qed.

(** * Writing blocks *)

Lemma char_of_ok d : (d <= 9)%nat -> cell_char (char_of d) /\ cell_digit (char_of d) = d.
Proof.
  intros D. unfold char_of. destruct (Nat.eqb_spec d 0) as [-> | E]; [split; [right; left; reflexivity | reflexivity] | ].
  unfold cell_char, cell_digit. replace ((48 <=? 48 + N.of_nat d) && (48 + N.of_nat d <=? 57)) with true by lia. split; lia.
Qed.

Lemma join_lines ls : (forall l, In l ls -> ~ In 10 l /\ ~ In 13 l) -> lines_of (join ls) ls.
Proof.
  induction ls as [ | l ls IH]; intros H; [constructor | ]. unfold join. cbn [flat_map]. rewrite <- app_assoc. cbn [app].
  destruct (H l (or_introl eq_refl)) as [A B]. apply lines_lf; [exact A | | apply IH; intros k K; apply H; right; exact K].
  intros l' E. apply B. rewrite E. apply in_or_app. right. left. reflexivity.
Qed.

Lemma wf_at g c : wf_grid g -> (at_ g c <= 9)%nat.
Proof.
  intros [L F]. unfold at_. destruct (Nat.lt_ge_cases c (length g)) as [X | X]; [ | rewrite nth_overflow by lia; lia].
  rewrite Forall_forall in F. apply F. apply nth_In. exact X.
Qed.

Lemma bare_text_ok g r : wf_grid g -> Forall cell_char (bare_text g r) /\ map cell_digit (bare_text g r) = grid_row g r /\ length (bare_text g r) = 9%nat.
Proof.
  intros W. unfold bare_text, grid_row. rewrite !map_map, map_length, seq_length. split; [ | split; [ | reflexivity]].
  - apply Forall_forall. intros c C. apply in_map_iff in C. destruct C as [k [<- _]]. apply char_of_ok, wf_at, W.
  - apply map_ext. intros k. apply char_of_ok, wf_at, W.
Qed.

Lemma rows_grid g : length g = 81%nat -> concat (map (grid_row g) (seq 0 9)) = g.
Proof. intros L. rewrite (grid_as_map g L) at 2. reflexivity. Qed.

Lemma bare_text_row g r : wf_grid g -> bare_row (bare_text g r) (grid_row g r).
Proof.
  intros W. destruct (bare_text_ok g r W) as [A [B C]]. exists (bare_text g r), []. rewrite app_nil_r.
  split; [reflexivity | ]. split; [exact C | ]. split; [exact A | ]. split; [left; reflexivity | symmetry; exact B].
Qed.

Lemma bars_text_row g r : wf_grid g -> delimited_row (bars_text g r) (grid_row g r).
Proof.
  intros W. destruct (bare_text_ok g r W) as [A [B C]].
  assert (E : firstn 3 (bare_text g r) ++ firstn 3 (skipn 3 (bare_text g r)) ++ skipn 6 (bare_text g r) = bare_text g r).
  { reflexivity. }
  exists (firstn 3 (bare_text g r)), (firstn 3 (skipn 3 (bare_text g r))), (skipn 6 (bare_text g r)), [].
  rewrite app_nil_r, E. split; [reflexivity | ]. split; [rewrite firstn_length; lia | ]. split; [rewrite firstn_length, skipn_length; lia | ].
  split; [rewrite skipn_length; lia | ]. split; [exact A | ]. split; [left; reflexivity | symmetry; exact B].
Qed.

Lemma forall2_map {A B C} (P : B -> C -> Prop) (f : A -> B) (h : A -> C) l : (forall x, P (f x) (h x)) -> Forall2 P (map f l) (map h l).
Proof. intros H. induction l; constructor; auto. Qed.

Lemma text_no g r x : wf_grid g -> x = 10 \/ x = 13 -> ~ In x (bare_text g r) /\ ~ In x (bars_text g r).
Proof.
  intros W X. destruct (bare_text_ok g r W) as [A _]. assert (NI := cells_no _ x A ltac:(tauto)). split; [exact NI | ]. unfold bars_text.
  intros H. assert (S3 : forall n l y, In y (firstn n l) -> @In N y l) by (intros n l y Y; rewrite <- (firstn_skipn n l); apply in_or_app; auto).
  assert (S6 : forall n l y, In y (skipn n l) -> @In N y l) by (intros n l y Y; rewrite <- (firstn_skipn n l); apply in_or_app; auto).
  apply in_app_or in H. destruct H as [H | [H | H]]; [eauto | lia | ]. apply in_app_or in H. destruct H as [H | [H | H]]; [eauto | lia | eauto].
Qed.

Lemma write_bare_ok g : wf_grid g -> from_str_block (write_bare g) = POk g.
Proof.
  intros W. apply block_accepts. exists (map (bare_text g) (seq 0 9)), (map (grid_row g) (seq 0 9)).
  split; [apply join_lines; intros l H; apply in_map_iff in H; destruct H as [r [<- _]]; split; apply (text_no g r); auto | ].
  split; [symmetry; apply rows_grid, W | ]. left. exists (map (bare_text g) (seq 0 9)), []. rewrite app_nil_r. split; [reflexivity | ].
  split; [rewrite map_length; reflexivity | ]. split; [apply forall2_map; intros r; apply bare_text_row, W | left; reflexivity].
Qed.

Lemma write_bars_ok g sep : wf_grid g -> sep = dashes \/ sep = dashes_plus -> from_str_block (write_bars sep g) = POk g.
Proof.
  intros W S0. apply block_accepts.
  exists (map (bars_text g) (seq 0 3) ++ sep :: map (bars_text g) (seq 3 3) ++ sep :: map (bars_text g) (seq 6 3)), (map (grid_row g) (seq 0 9)).
  assert (Ns : ~ In 10 sep /\ ~ In 13 sep) by (destruct S0 as [-> | ->]; split; cbn; lia).
  split; [ | split; [symmetry; apply rows_grid, W | ]].
  - apply join_lines. intros l H. apply in_app_or in H.
    destruct H as [H | [<- | H]]; [apply in_map_iff in H; destruct H as [r [<- _]]; split; apply (text_no g r); auto | exact Ns | ]. apply in_app_or in H.
    destruct H as [H | [<- | H]]; [apply in_map_iff in H; destruct H as [r [<- _]]; split; apply (text_no g r); auto | exact Ns | ].
    apply in_map_iff in H; destruct H as [r [<- _]]; split; apply (text_no g r); auto.
  - right. exists (map (bars_text g) (seq 0 3)), (map (bars_text g) (seq 3 3)), (map (bars_text g) (seq 6 3)), sep, sep, []. rewrite app_nil_r.
    split; [reflexivity | ]. split; [reflexivity | ]. split; [reflexivity | ]. split; [reflexivity | ].
    split; [rewrite <- !map_app; apply (forall2_map delimited_row (bars_text g) (grid_row g) (seq 0 9)); intros r; apply bars_text_row, W | ].
    split; [ | left; reflexivity]. destruct S0 as [-> | ->]; [left | right]; split; exists []; rewrite app_nil_r; reflexivity.
Qed.

(** * Examples *)

Lemma dash_other l : (forall c, In c l -> c = 45) -> forall n row, ~ lax_row l (S n) row.
Proof.
  induction l as [ | c l IH]; intros H n row R; [inversion R | ]. assert (c = 45) as -> by (apply H; left; reflexivity).
  inversion R as [ | ? ? ? ? C | ? ? ? ? _ R']; subst; [unfold cell_char in C; lia | ]. apply (IH (fun c X => H c (or_intror X)) n row R').
Qed.

Lemma separators_plain g : wf_grid g ->
  forall ls l row, lines_of (write_bars dashes g) ls -> In l ls -> starts [45] l -> ~ lax_row l 9 row.
Proof.
  intros W ls l row LO I [t E].
  assert (LO' : lines_of (write_bars dashes g) (map (bars_text g) (seq 0 3) ++ dashes :: map (bars_text g) (seq 3 3) ++ dashes :: map (bars_text g) (seq 6 3))).
  { apply join_lines. intros k K. assert (Ns : ~ In 10 dashes /\ ~ In 13 dashes) by (split; cbn; lia). apply in_app_or in K.
    destruct K as [K | [<- | K]]; [apply in_map_iff in K; destruct K as [r [<- _]]; split; apply (text_no g r); auto | exact Ns | ]. apply in_app_or in K.
    destruct K as [K | [<- | K]]; [apply in_map_iff in K; destruct K as [r [<- _]]; split; apply (text_no g r); auto | exact Ns | ].
    apply in_map_iff in K; destruct K as [r [<- _]]; split; apply (text_no g r); auto. }
  apply lines_exact in LO, LO'. rewrite <- LO in LO'. rewrite <- LO' in I. clear LO LO'.
  assert (X : l = dashes \/ exists r, l = bars_text g r).
  { apply in_app_or in I. destruct I as [I | [<- | I]]; [apply in_map_iff in I; destruct I as [r [<- _]]; eauto | auto | ]. apply in_app_or in I.
    destruct I as [I | [<- | I]]; [apply in_map_iff in I; destruct I as [r [<- _]]; eauto | auto | ].
    apply in_map_iff in I; destruct I as [r [<- _]]; eauto. }
  destruct X as [-> | [r ->]].
  - apply dash_other. intros c C. exact (repeat_spec 11 45 c C).
  - exfalso. assert (C : char_of (at_ g (9 * r + 0)) = 45) by (unfold bars_text, bare_text, grid_row in E; injection E as E _; exact E).
    destruct (char_of_ok (at_ g (9 * r + 0)) (wf_at g _ W)) as [Q _]. rewrite C in Q. unfold cell_char in Q. lia.
Qed.

Lemma scalarb l : forallb (fun c => c <? 128) l = true -> Forall scalar l.
Proof. intros H. apply Forall_forall. intros c C. rewrite forallb_forall in H. specialize (H c C). unfold scalar. lia. Qed.

Lemma nine_lines : exists s g g', Forall scalar s /\ from_str_line s = POk g /\ from_str_block_permissive s = POk g' /\ g <> g'.
Proof.
  exists (concat (repeat (repeat 49 9 ++ repeat 46 72 ++ [10]) 9)), (repeat 1%nat 9 ++ repeat 0%nat 72), (repeat 1%nat 81).
  split; [apply scalarb; vm_compute; reflexivity | ]. split; [vm_compute; reflexivity | ]. split; [vm_compute; reflexivity | ]. vm_compute. discriminate.
Qed.

Lemma separator_comment : exists s g g', from_str_block s = POk g /\ from_str_block_permissive s = POk g' /\ g <> g'.
Proof.
  exists (write_bars (dashes ++ [32] ++ repeat 49 9) (repeat 0%nat 81)), (repeat 0%nat 81),
    (repeat 0%nat 27 ++ repeat 1%nat 9 ++ repeat 0%nat 27 ++ repeat 1%nat 9 ++ repeat 0%nat 9).
  split; [vm_compute; reflexivity | ]. split; [vm_compute; reflexivity | ]. vm_compute. discriminate.
Qed.
