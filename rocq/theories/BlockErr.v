(** The errors of the block parser. *)
From Coq Require Import List Arith NArith ZArith ZifyNat ZifyN ZifyBool Lia Bool.
From Verif Require Import Spec Solver ParseSpec Parse BlockErrSpec ParseProofs BlockProofs.
Import ListNotations.
Local Open Scope nat_scope.
Ltac Zify.zify_post_hook ::= Z.to_euclidean_division_equations.

(** * Counting *)

Lemma before_S b i : before b (S i) = before b i + (if delimiter_at b i then 0 else 1).
Proof.
  unfold before. rewrite seq_S, filter_app, app_length. cbn [filter Nat.add]. destruct (delimiter_at b i); reflexivity.
Qed.
Lemma before_width b : before b (width b) = 9.
Proof. destruct b; reflexivity. Qed.
Lemma before_lt b i : i < width b -> before b i < 9.
Proof. intros H. destruct b; cbn [width] in H; do 11 (destruct i as [ | i]; [vm_compute; lia | ]); lia. Qed.

Lemma cell_dec' c : cell_char c \/ ~ cell_char c.
Proof. destruct (cell_dec c); auto. Qed.

(** * Rows *)

Lemma char_fault_fun b r i ch e e' : char_fault b r i ch e -> char_fault b r i ch e' -> e = e'.
Proof.
  destruct ch as [c | ]; cbn [char_fault]; [ | intros [_ ->] [_ ->]; reflexivity].
  destruct (i <? width b); [destruct (delimiter_at b i); intros [_ ->] [_ ->]; reflexivity | ].
  intros [[A ->] | [A [_ ->]]] [[B ->] | [B [_ ->]]]; (reflexivity || contradiction).
Qed.

Lemma row_fault_fun b r line e e' : row_fault b r line e -> row_fault b r line e' -> e = e'.
Proof.
  intros [i [_ [_ [F M]]]] [i' [_ [_ [F' M']]]]. destruct (lt_eq_lt_dec i i') as [[L | ->] | L].
  - destruct (M' i L e F).
  - apply (char_fault_fun _ _ _ _ _ _ F F').
  - destruct (M i' L e' F').
Qed.

(** The format that has been found agrees with the first line. *)
Definition fits (b : bool) (f : format) : Prop := if b then dformat f else f = Bare.

Definition row_ends (b : bool) (n : nat) (f : format) (line : text) (r : pres block_err (format * nat * list nat)) : Prop :=
  match r with
  | PErr e => row_fault b n line e
  | POk (f', k, g') => length g' = 81 /\ if k =? 9 then f' = f /\ forall e, ~ row_fault b n line e else row_fault b n line (BInvalidLineLength n)
  | PPanic => False
  end.

Lemma row_fault_here b n pre suf e : length pre <= width b ->
  (forall j, j < length pre -> forall e', ~ char_fault b n j (nth_error (pre ++ suf) j) e') ->
  char_fault b n (length pre) (nth_error suf 0) e -> row_fault b n (pre ++ suf) e.
Proof.
  intros L M F. exists (length pre). split; [exact L | ]. split; [rewrite app_length; lia | ]. split; [ | exact M].
  rewrite nth_error_app2, Nat.sub_diag by lia. exact F.
Qed.

Lemma row_ends_ok b n f : fits b f -> n < 9 -> forall suf pre g, length pre <= width b -> length g = 81 ->
  (forall j, j < length pre -> forall e', ~ char_fault b n j (nth_error (pre ++ suf) j) e') ->
  row_ends b n f (pre ++ suf) (row_loop suf (length pre) (before b (length pre)) n f g).
Proof.
  intros Ff Hn. induction suf as [ | c suf IH]; intros pre g L G M.
  - cbn [row_loop row_ends]. split; [exact G | ]. destruct (Nat.eq_dec (length pre) (width b)) as [E | N].
    + rewrite E, before_width. cbn [Nat.eqb]. split; [reflexivity | ]. intros e [i [Hi [Hl [F M']]]]. rewrite app_nil_r in *.
      destruct (Nat.eq_dec i (length pre)) as [-> | Ne].
      * rewrite (proj2 (nth_error_None pre (length pre)) (le_n _)) in F. destruct F as [F _]. lia.
      * destruct (M i ltac:(lia) e F).
    + assert (B := before_lt b (length pre) ltac:(lia)). replace (before b (length pre) =? 9) with false by lia.
      apply row_fault_here; [exact L | exact M | ]. cbn [nth_error char_fault]. split; [lia | reflexivity].
  - destruct (Nat.eq_dec (length pre) (width b)) as [E | N].
    + rewrite E, before_width. cbn [row_loop]. change (9 =? 9) with true. cbv iota. destruct ((c =? 32)%N || (c =? 9)%N) eqn:B.
      * cbn [row_ends]. split; [exact G | ]. change (9 =? 9) with true. cbv iota. split; [reflexivity | ]. intros e [i [Hi [Hl [F M']]]].
        destruct (Nat.eq_dec i (length pre)) as [-> | Ne]; [ | destruct (M i ltac:(lia) e F)].
        rewrite nth_error_app2, Nat.sub_diag in F by lia. cbn [nth_error char_fault] in F. replace (length pre <? width b) with false in F by lia.
        destruct F as [[C _] | [_ [C _]]]; [unfold cell_char in C; lia | apply C; unfold blank; lia].
      * destruct (((49 <=? c) && (c <=? 57) || (c =? 95) || (c =? 46) || (c =? 48))%N) eqn:C; cbn [row_ends]; (apply row_fault_here; [exact L | exact M | ]);
          cbn [nth_error char_fault]; replace (length pre <? width b) with false by lia; [left | right].
        -- split; [unfold cell_char; lia | reflexivity].
        -- split; [unfold cell_char; lia | ]. split; [unfold blank; lia | reflexivity].
    + assert (B := before_lt b (length pre) ltac:(lia)). cbn [row_loop]. replace (before b (length pre) =? 9) with false by lia. cbv zeta.
      assert (Ef : (if (length pre =? 3) || (length pre =? 7) then match f with Unknown => if (c =? 124)%N then Delimited else Bare | f0 => f0 end else f) = f).
      { destruct b; cbn [fits] in Ff; [destruct Ff as [-> | ->] | rewrite Ff]; destruct (_ || _); reflexivity. }
      rewrite Ef. assert (Ed : ((length pre =? 3) || (length pre =? 7)) && is_delimited f = delimiter_at b (length pre)).
      { unfold delimiter_at. rewrite andb_comm. f_equal. destruct b; cbn [fits] in Ff; [destruct Ff as [-> | ->] | rewrite Ff]; reflexivity. }
      rewrite Ed. assert (Lt : (length pre <? width b) = true) by lia.
      assert (Next : forall g', length g' = 81 -> (if delimiter_at b (length pre) then c = 124%N else cell_char c) ->
        row_ends b n f (pre ++ c :: suf) (row_loop suf (S (length pre)) (before b (S (length pre))) n f g')).
      { intros g' G' Ok_. specialize (IH (pre ++ [c]) g'). rewrite app_length, Nat.add_1_r, <- app_assoc in IH. cbn [length app] in IH. apply IH; [lia | exact G' | ].
        intros j Hj e'. destruct (Nat.eq_dec j (length pre)) as [-> | Ne]; [ | apply M; lia]. rewrite nth_error_app2, Nat.sub_diag by lia. cbn [nth_error char_fault]. rewrite Lt.
        destruct (delimiter_at b (length pre)); intros [X _]; contradiction. }
      rewrite before_S in Next. destruct (delimiter_at b (length pre)) eqn:D.
      * destruct (N.eqb_spec c 124) as [-> | Nc]; [rewrite Nat.add_0_r in Next; apply Next; [exact G | reflexivity] | ].
        cbn [row_ends]. apply row_fault_here; [exact L | exact M | ]. cbn [nth_error char_fault]. rewrite Lt, D. auto.
      * rewrite !grid_set_write by lia. cbn [pbind]. rewrite Nat.add_1_r in Next.
        assert (G' : forall v, length (write g (n * 9 + before b (length pre)) [v]) = 81) by (intros v; rewrite write_length; [exact G | cbn [length]; lia]).
        destruct ((c =? 95)%N || (c =? 46)%N) eqn:C1; [apply Next; [apply G' | unfold cell_char; lia] | ].
        destruct ((48 <=? c)%N && (c <=? 57)%N) eqn:C2; [apply Next; [apply G' | unfold cell_char; lia] | ].
        cbn [row_ends]. apply row_fault_here; [exact L | exact M | ]. cbn [nth_error char_fault]. rewrite Lt, D. split; [unfold cell_char; lia | reflexivity].
Qed.

(** The first row sets the format. *)
Lemma first_row_ends line g : length g = 81 ->
  row_ends (has_bars [line]) 0 (if has_bars [line] then Delimited else Bare) line (row_loop line 0 0 0 Unknown g).
Proof.
  intros G. set (b := has_bars [line]). set (f := if b then Delimited else Bare). assert (Ff : fits b f) by (unfold f; destruct b; [left | ]; reflexivity).
  assert (X := row_ends_ok b 0 f Ff ltac:(lia) line [] g ltac:(cbn [length]; lia) G ltac:(cbn [length]; lia)). cbn [app length] in X. change (before b 0) with 0 in X.
  assert (E : row_loop line 0 0 0 Unknown g = row_loop line 0 0 0 f g \/
    exists k g' f1 f2, row_loop line 0 0 0 Unknown g = POk (f1, k, g') /\ row_loop line 0 0 0 f g = POk (f2, k, g') /\ k <> 9).
  { destruct line as [ | c0 line]; [right; exists 0, g, Unknown, f; split; [reflexivity | split; [reflexivity | discriminate]] | ].
    cbn [row_loop]. change (0 =? 9) with false. change (0 =? 3) with false. change (0 =? 7) with false. cbn [orb andb]. cbv iota zeta. rewrite !grid_set_write by (rewrite ?G; lia). cbn [pbind].
    assert (X1 : forall g0, length g0 = 81 -> row_loop line 1 1 0 Unknown g0 = row_loop line 1 1 0 f g0 \/
      exists k g' f1 f2, row_loop line 1 1 0 Unknown g0 = POk (f1, k, g') /\ row_loop line 1 1 0 f g0 = POk (f2, k, g') /\ k <> 9).
    { clear g G X. intros g G. destruct line as [ | c1 line]; [right; exists 1, g, Unknown, f; split; [reflexivity | split; [reflexivity | discriminate]] | ].
      cbn [row_loop]. change (1 =? 9) with false. change (1 =? 3) with false. change (1 =? 7) with false. cbn [orb andb]. cbv iota zeta. rewrite !grid_set_write by (rewrite ?G; lia). cbn [pbind].
      assert (X2 : forall g0, length g0 = 81 -> row_loop line 2 2 0 Unknown g0 = row_loop line 2 2 0 f g0 \/
        exists k g' f1 f2, row_loop line 2 2 0 Unknown g0 = POk (f1, k, g') /\ row_loop line 2 2 0 f g0 = POk (f2, k, g') /\ k <> 9).
      { clear g G. intros g G. destruct line as [ | c2 line]; [right; exists 2, g, Unknown, f; split; [reflexivity | split; [reflexivity | discriminate]] | ].
        cbn [row_loop]. change (2 =? 9) with false. change (2 =? 3) with false. change (2 =? 7) with false. cbn [orb andb]. cbv iota zeta. rewrite !grid_set_write by (rewrite ?G; lia). cbn [pbind].
        assert (X3 : forall g0, row_loop line 3 3 0 Unknown g0 = row_loop line 3 3 0 f g0 \/
          exists k g' f1 f2, row_loop line 3 3 0 Unknown g0 = POk (f1, k, g') /\ row_loop line 3 3 0 f g0 = POk (f2, k, g') /\ k <> 9).
        { intros g0. destruct line as [ | c3 line]; [right; exists 3, g0, Unknown, f; split; [reflexivity | split; [reflexivity | discriminate]] | left].
          cbn [row_loop]. change (3 =? 9) with false. change (3 =? 3) with true. cbn [orb andb]. cbv iota zeta.
          assert (Ef : (if (c3 =? 124)%N then Delimited else Bare) = f) by reflexivity. rewrite Ef.
          replace (match f with Unknown => f | _ => f end) with f by (destruct f; reflexivity). destruct f; reflexivity. }
        destruct ((c2 =? 95)%N || (c2 =? 46)%N); [apply X3 | ]. destruct ((48 <=? c2)%N && (c2 <=? 57)%N); [apply X3 | left; reflexivity]. }
      destruct ((c1 =? 95)%N || (c1 =? 46)%N); [apply X2; rewrite write_length; [exact G | cbn [length]; lia] | ].
      destruct ((48 <=? c1)%N && (c1 <=? 57)%N); [apply X2; rewrite write_length; [exact G | cbn [length]; lia] | left; reflexivity]. }
    destruct ((c0 =? 95)%N || (c0 =? 46)%N); [apply X1; rewrite write_length; [exact G | cbn [length]; lia] | ].
    destruct ((48 <=? c0)%N && (c0 <=? 57)%N); [apply X1; rewrite write_length; [exact G | cbn [length]; lia] | left; reflexivity]. }
  destruct E as [-> | [k [g' [f1 [f2 [-> [E2 Nk]]]]]]]; [exact X | ]. rewrite E2 in X. cbn [row_ends] in X |- *. replace (k =? 9) with false in * by lia. exact X.
Qed.

(** * Lines *)

Lemma line_fault_fun ls i l e e' : line_fault ls i l e -> line_fault ls i l e' -> e = e'.
Proof.
  unfold line_fault. destruct (i <? _); [destruct (delimiter_at _ i) | ].
  - intros [_ ->] [_ ->]. reflexivity.
  - apply row_fault_fun.
  - intros [_ [_ ->]] [_ [_ ->]]. reflexivity.
Qed.

Lemma block_fault_fun ls e e' : block_fault ls e -> block_fault ls e' -> e = e'.
Proof.
  intros [[i [l [E [F M]]]] | [L [-> M]]] [[i' [l' [E' [F' M']]]] | [L' [-> M']]].
  - destruct (lt_eq_lt_dec i i') as [[Lt | ->] | Lt].
    + destruct (M' i l e Lt E F).
    + rewrite E in E'. injection E' as <-. apply (line_fault_fun _ _ _ _ _ F F').
    + destruct (M i' l' e' Lt E' F').
  - destruct (M' i l e E F).
  - destruct (M i' l' e' E' F').
  - reflexivity.
Qed.

Definition block_ends (ls : list text) (r : pres block_err (nat * list nat)) : Prop :=
  match r with
  | PErr e => block_fault ls e
  | POk (n, g) => n <= 9 /\ if n =? 9 then forall e, ~ block_fault ls e else block_fault ls (BNotEnoughRows (n + 1))
  | PPanic => False
  end.

Definition clean (ls pre : list text) : Prop := forall j line e, j < length pre -> nth_error ls j = Some line -> ~ line_fault ls j line e.

Lemma block_fault_here ls pre l suf e : ls = pre ++ l :: suf -> clean ls pre -> line_fault ls (length pre) l e -> block_fault ls e.
Proof.
  intros E Cl F. left. exists (length pre), l. split; [rewrite E, nth_error_app2, Nat.sub_diag by lia; reflexivity | ]. split; [exact F | ].
  intros j l' e' Hj Hn. apply (Cl j l' e' Hj Hn).
Qed.

Lemma clean_snoc ls pre l suf : ls = pre ++ l :: suf -> clean ls pre -> (forall e, ~ line_fault ls (length pre) l e) -> clean ls (pre ++ [l]).
Proof.
  intros E Cl F j l' e Hj Hn. rewrite app_length in Hj. cbn [length] in Hj. destruct (Nat.eq_dec j (length pre)) as [-> | Ne]; [ | apply (Cl j l' e); [lia | exact Hn]].
  rewrite E, nth_error_app2, Nat.sub_diag in Hn by lia. cbn [nth_error] in Hn. injection Hn as <-. apply F.
Qed.

(** The kind of separators that has been found *)
Definition sep_state (ls pre : list text) (f : format) : Prop :=
  if has_bars ls then if length pre <=? 3 then f = Delimited else dformat f /\ exists l3, nth_error ls 3 = Some l3 /\ starts (sep_of f) l3 else f = Bare.
Lemma sep_fits ls pre f : sep_state ls pre f -> fits (has_bars ls) f.
Proof. unfold sep_state, fits. destruct (has_bars ls); [ | auto]. destruct (length pre <=? 3); [intros ->; left; reflexivity | intros [D _]; exact D]. Qed.

Lemma block_ends_ok ls : forall suf pre f g, ls = pre ++ suf -> pre <> [] -> length pre <= width (has_bars ls) -> clean ls pre -> sep_state ls pre f -> length g = 81 ->
  block_ends ls (block_loop suf (length pre) (before (has_bars ls) (length pre)) f g).
Proof.
  set (b := has_bars ls). induction suf as [ | l suf IH]; intros pre f g E Np L Cl Se G.
  - rewrite app_nil_r in E. cbn [block_loop block_ends]. destruct (Nat.eq_dec (length pre) (width b)) as [Ew | Nw].
    + rewrite Ew, before_width. split; [lia | ]. change (9 =? 9) with true. cbv iota. intros e [[i [l [Hn [F _]]]] | [Hl _]].
      * apply (Cl i l e); [ | exact Hn | exact F]. rewrite <- E. apply (proj1 (nth_error_Some ls i)). rewrite Hn. discriminate.
      * fold b in Hl. assert (length ls = length pre) by (rewrite E; reflexivity). lia.
    + assert (B := before_lt b (length pre) ltac:(lia)). split; [lia | ]. replace (before b (length pre) =? 9) with false by lia. right. fold b. assert (El : length ls = length pre) by (rewrite E; reflexivity). rewrite El.
      split; [lia | ]. split; [reflexivity | ]. intros j l' e' Hn. apply (Cl j l' e'); [ | exact Hn]. rewrite <- E. apply (proj1 (nth_error_Some ls j)). rewrite Hn. discriminate.
  - assert (Hn0 : nth_error ls (length pre) = Some l) by (rewrite E, nth_error_app2, Nat.sub_diag by lia; reflexivity).
    destruct (Nat.eq_dec (length pre) (width b)) as [Ew | Nw].
    + rewrite Ew, before_width. cbn [block_loop]. change (9 =? 9) with true. cbv iota. destruct (trim_is_empty l) eqn:T.
      * cbn [block_ends]. split; [lia | ]. change (9 =? 9) with true. cbv iota. apply trim_iff in T. intros e [[i [l' [Hn [F _]]]] | [Hl _]].
        -- destruct (lt_eq_lt_dec i (width b)) as [[Li | ->] | Li].
           ++ apply (Cl i l' e); [lia | exact Hn | exact F].
           ++ rewrite <- Ew, Hn0 in Hn. injection Hn as <-. unfold line_fault in F. fold b in F. replace (width b <? width b) with false in F by lia. destruct F as [_ [F _]]. contradiction.
           ++ unfold line_fault in F. fold b in F. replace (i <? width b) with false in F by lia. lia.
        -- fold b in Hl. rewrite E, app_length in Hl. lia.
      * cbn [block_ends]. apply (block_fault_here ls pre l suf _ E Cl). unfold line_fault. fold b. replace (length pre <? width b) with false by lia.
        split; [exact Ew | ]. split; [ | reflexivity]. intros W. apply trim_iff in W. congruence.
    + assert (B := before_lt b (length pre) ltac:(lia)). cbn [block_loop]. replace (before b (length pre) =? 9) with false by lia.
      assert (Ff := sep_fits _ _ _ Se). fold b in Ff.
      assert (Ed : is_delimited f && ((length pre =? 3) || (length pre =? 7)) = delimiter_at b (length pre)).
      { unfold delimiter_at. f_equal. destruct b; cbn [fits] in Ff; [destruct Ff as [-> | ->] | rewrite Ff]; reflexivity. }
      rewrite Ed. assert (Lt : (length pre <? width b) = true) by lia.
      assert (Next : forall f' g', length g' = 81 -> (forall e, ~ line_fault ls (length pre) l e) -> sep_state ls (pre ++ [l]) f' ->
        block_ends ls (block_loop suf (S (length pre)) (before b (S (length pre))) f' g')).
      { intros f' g' G' F' Se'. specialize (IH (pre ++ [l]) f' g'). rewrite app_length, Nat.add_1_r, <- app_assoc in IH. cbn [length app] in IH.
        apply IH; [exact E | destruct pre; discriminate | lia | apply (clean_snoc ls pre l suf E Cl F') | exact Se' | exact G']. }
      rewrite before_S in Next. destruct (delimiter_at b (length pre)) eqn:D.
      * rewrite Nat.add_0_r in Next. unfold delimiter_at in D. apply andb_true_iff in D. destruct D as [Eb D]. rewrite Eb in Ff. cbn [fits] in Ff. rewrite !starts_or.
        assert (Bad : ~ separator ls (length pre) l -> block_fault ls BIncorrectFieldDelimiter).
        { intros N. apply (block_fault_here ls pre l suf _ E Cl). unfold line_fault. fold b. rewrite Lt. unfold delimiter_at. rewrite Eb, D. cbn [andb]. auto. }
        assert (Good : separator ls (length pre) l -> forall e, ~ line_fault ls (length pre) l e).
        { intros Y e. unfold line_fault. fold b. rewrite Lt. unfold delimiter_at. rewrite Eb, D. cbn [andb]. intros [N _]. contradiction. }
        unfold sep_state in Se, Next. fold b in Se, Next. rewrite Eb in Se, Next. rewrite ?Eb. rewrite app_length in Next. cbn [length] in Next.
        apply orb_true_iff in D. rewrite !Nat.eqb_eq in D. destruct D as [D | D].
        -- assert (Sp : separator ls (length pre) l <-> starts dashes l \/ starts dashes_plus l) by (unfold separator; rewrite D; reflexivity).
           rewrite D in *. change (3 <=? 3) with true in Se. cbv iota in Se. subst f. change (3 + 1 <=? 3) with false in Next. cbv iota in Next. change (3 =? 3) with true. cbn [andb].
           destruct (starts_with PLUSES l) eqn:Sp1; cbn [negb].
           ++ apply starts_pluses in Sp1. apply Next; [exact G | apply Good, Sp; right; exact Sp1 | ]. split; [right; reflexivity | ]. exists l. split; [exact Hn0 | exact Sp1].
           ++ destruct (starts_with DASHES l) eqn:Sp2; cbn [negb block_ends].
              ** apply starts_dashes in Sp2. apply Next; [exact G | apply Good, Sp; left; exact Sp2 | ]. split; [left; reflexivity | ]. exists l. split; [exact Hn0 | exact Sp2].
              ** apply Bad. rewrite Sp. intros [Y | Y]; [apply starts_dashes in Y | apply starts_pluses in Y]; congruence.
        -- rewrite D in *. change (7 <=? 3) with false in Se. cbv iota in Se. destruct Se as [Df [l3 [H3 S3]]]. change (7 + 1 <=? 3) with false in Next. cbv iota in Next. change (7 =? 3) with false. cbn [andb].
           assert (Sp : separator ls 7 l <-> starts (sep_of f) l).
           { unfold separator. change (7 =? 3) with false. cbv iota. split.
             - intros [l3' [H3' Q]]. rewrite H3 in H3'. injection H3' as <-. destruct Df as [-> | ->]; cbn [sep_of] in *; destruct Q as [[Q1 Q2] | [Q1 Q2]]; try assumption; [destruct (starts_exclusive l3 S3 Q1) | destruct (starts_exclusive l3 Q1 S3)].
             - intros Q. exists l3. split; [exact H3 | ]. destruct Df as [-> | ->]; cbn [sep_of] in *; auto. }
           destruct Df as [-> | ->]; cbn [sep_of] in Sp.
           ++ destruct (starts_with DASHES l) eqn:Sp2; cbn [negb block_ends].
              ** apply starts_dashes in Sp2. apply Next; [exact G | apply Good, Sp, Sp2 | ]. split; [left; reflexivity | ]. exists l3. split; [exact H3 | exact S3].
              ** apply Bad. rewrite Sp. intros Y. apply starts_dashes in Y. congruence.
           ++ destruct (starts_with PLUSES l) eqn:Sp2; cbn [negb block_ends].
              ** apply starts_pluses in Sp2. apply Next; [exact G | apply Good, Sp, Sp2 | ]. split; [right; reflexivity | ]. exists l3. split; [exact H3 | exact S3].
              ** apply Bad. rewrite Sp. intros Y. apply starts_pluses in Y. congruence.
      * assert (Lf : forall e, line_fault ls (length pre) l e <-> row_fault b (before b (length pre)) l e) by (intros e; unfold line_fault; fold b; rewrite Lt, D; reflexivity).
        assert (X := row_ends_ok b (before b (length pre)) f Ff B l [] g ltac:(cbn [length]; lia) G ltac:(cbn [length]; lia)). cbn [app length] in X. change (before b 0) with 0 in X.
        destruct (row_loop l 0 0 (before b (length pre)) f g) as [[[f' k] g'] | e | ]; cbn [pbind row_ends] in X |- *; [ | | exact X].
        -- destruct X as [G' X]. destruct (k =? 9); cbn [negb].
           ++ destruct X as [-> X]. unfold u8_add. replace (before b (length pre) + 1 <? 256) with true by lia. cbn [pbind]. apply Next; [exact G' | intros e; rewrite Lf; apply X | ].
              unfold sep_state in *. fold b in Se |- *. rewrite app_length. cbn [length]. unfold delimiter_at in D. destruct b; [ | exact Se].
              destruct (length pre <=? 3) eqn:L3; [replace (length pre + 1 <=? 3) with true by (cbn [andb] in D; lia); exact Se | replace (length pre + 1 <=? 3) with false by lia; exact Se].
           ++ cbn [block_ends]. apply (block_fault_here ls pre l suf _ E Cl), Lf, X.
        -- cbn [block_ends]. apply (block_fault_here ls pre l suf _ E Cl), Lf, X.
Qed.

Lemma block_ends_all ls : block_ends ls (block_loop ls 0 0 Unknown (repeat 0 81)).
Proof.
  assert (G0 : length (repeat 0 81) = 81) by apply repeat_length. destruct ls as [ | l suf].
  - cbn [block_loop block_ends]. split; [lia | ]. right. split; [cbn; lia | ]. split; [reflexivity | ]. intros [ | j] l' e' H; discriminate.
  - set (ls := l :: suf). change (block_ends ls (block_loop (l :: suf) 0 0 Unknown (repeat 0 81))). assert (Eb : has_bars [l] = has_bars ls) by reflexivity.
    assert (X := first_row_ends l (repeat 0 81) G0). rewrite Eb in X. set (b := has_bars ls) in *.
    assert (Lf : forall e, line_fault ls 0 l e <-> row_fault b 0 l e).
    { intros e. unfold line_fault. fold b. replace (0 <? width b) with true by (destruct b; reflexivity). unfold delimiter_at. cbn [Nat.eqb orb]. rewrite andb_false_r. reflexivity. }
    cbn [block_loop]. change (0 =? 9) with false. cbn [is_delimited andb]. cbv iota.
    destruct (row_loop l 0 0 0 Unknown (repeat 0 81)) as [[[f' k] g'] | e | ]; cbn [pbind row_ends] in X |- *; [ | | exact X].
    + destruct X as [G' X]. destruct (k =? 9); cbn [negb].
      * destruct X as [-> X]. change (@u8_add block_err 0 1) with (@POk block_err nat 1). cbn [pbind]. assert (Y := block_ends_ok ls suf [l] (if b then Delimited else Bare) g' eq_refl ltac:(discriminate)).
        cbn [length] in Y. fold b in Y. replace (before b 1) with 1 in Y by (destruct b; reflexivity). apply Y; [destruct b; cbn; lia | | | exact G'].
        -- intros j l' e Hj Hn. replace j with 0 in * by (cbn [length] in Hj; lia). injection Hn as <-. rewrite Lf. apply X.
        -- unfold sep_state. fold b. destruct b; reflexivity.
      * cbn [block_ends]. apply (block_fault_here ls [] l suf); [reflexivity | intros j l' e Hj; cbn [length] in Hj; lia | ]. apply Lf, X.
    + cbn [block_ends]. apply (block_fault_here ls [] l suf); [reflexivity | intros j l' e' Hj; cbn [length] in Hj; lia | ]. apply Lf, X.
Qed.

Lemma block_errors s e : from_str_block s = PErr e <-> exists ls, lines_of s ls /\ block_fault ls e.
Proof.
  assert (X := block_ends_all (lines s)). assert (R : (exists ls, lines_of s ls /\ block_fault ls e) <-> block_fault (lines s) e).
  { split; [intros [ls [H F]]; apply lines_exact in H; subst ls; exact F | intros F; exists (lines s); split; [apply lines_exact; reflexivity | exact F]]. }
  rewrite R. unfold from_str_block. destruct (block_loop (lines s) 0 0 Unknown (repeat 0 81)) as [[n g] | e' | ]; cbn [pbind block_ends] in *; [ | | destruct X].
  - destruct X as [Ln X]. destruct (Nat.eqb_spec n 9) as [-> | Nn]; cbn [negb]; [split; [discriminate | intros F; destruct (X e F)] | ].
    unfold u8_add. replace (n + 1 <? 256) with true by lia. cbn [pbind]. split; [intros [= <-]; exact X | intros F; f_equal; apply (block_fault_fun _ _ _ X F)].
  - split; [intros [= <-]; exact X | intros F; f_equal; apply (block_fault_fun _ _ _ X F)].
Qed.
