(** Proofs about Canon: the canonical form of a canonical form, also for puzzles *)
From Coq Require Import List Arith NArith ZArith ZifyNat ZifyN ZifyBool Lia Bool Permutation.
From Verif Require Import Spec CanonSpec Solver Api Parse Canon BitLemmas GridProofs GenProofs ApiProofs EquivProofs TransProofs MinlexProofs CanonProofs CanonMain CanonApi RelateProofs.
Import ListNotations.

(** * The search never forgets its first candidate for a smaller or equal one *)

Definition keeps (a b : best) : Prop := (fst b = fst a /\ exists r, snd b = snd a ++ r) \/ lex_nat (fst b) (fst a) = Lt.

Lemma keeps_refl a : keeps a a.
Proof. left. split; [reflexivity | exists []; symmetry; apply app_nil_r]. Qed.

Lemma keeps_trans a b c : keeps a b -> keeps b c -> keeps a c.
Proof.
  intros [[E [r Er]] | L] [[E' [r' Er']] | L'].
  - left. split; [congruence | ]. exists (r ++ r'). rewrite Er', Er, app_assoc. reflexivity.
  - right. rewrite <- E. exact L'.
  - right. rewrite E'. exact L.
  - right. apply (lt_trans_l _ _ _ L'), lt_le_l, L.
Qed.

Lemma keeps_for {A S} (p : S -> best) (f : A -> S -> res S) : (forall x s s', f x s = Ok s' -> keeps (p s) (p s')) ->
  forall l s s', for_each l f s = Ok s' -> keeps (p s) (p s').
Proof.
  intros H. induction l as [ | x l IH]; intros s s' E; cbn [for_each] in E; [injection E as <-; apply keeps_refl | ].
  destruct (f x s) as [s1 | | | ] eqn:E1; try discriminate E. cbn [bind] in E. exact (keeps_trans _ _ _ (H _ _ _ E1) (IH _ _ E)).
Qed.

Ltac step E := match type of E with bind ?r _ = Ok _ => destruct r eqn:?; try discriminate E; cbn [bind] in E end.

Lemma last_keeps b tr rp cp sp sc band k s s' : last_box_loop b tr rp cp sp sc band k s = Ok s' -> keeps (fst s) (fst s').
Proof.
  destruct s as [[mn trs] mp]. unfold last_box_loop. intros E. repeat step E.
  destruct (slice_le _ mn) eqn:Le; [ | injection E as <-; apply keeps_refl].
  destruct (slice_lt _ mn) eqn:Lt; injection E as <-; cbn [fst snd].
  - right. cbn [fst]. unfold slice_lt in Lt. destruct (lex_nat _ mn); try discriminate Lt. reflexivity.
  - left. split; [reflexivity | eexists; reflexivity].
Qed.

Lemma cols_keeps b tr fb rp band k st st' : cols_loop b tr fb rp band k st = Ok st' -> keeps st st'.
Proof.
  unfold cols_loop. intros E. repeat step E. match type of E with (if ?b then _ else _) = _ => destruct b end; [injection E as <-; apply keeps_refl | ]. repeat step E.
  match type of E with (if ?b then _ else _) = _ => destruct b end; [injection E as <-; apply keeps_refl | ]. repeat step E. injection E as <-.
  match goal with H : for_each (seq 0 6) _ _ = Ok _ |- _ => apply (keeps_for fst) in H; [exact H | intros; eapply last_keeps; eassumption] end.
Qed.

Lemma rows_keeps b tr fb band k st st' : rows_loop b tr fb band k st = Ok st' -> keeps st st'.
Proof. unfold rows_loop. intros E. repeat step E. apply (keeps_for (fun x => x)) in E; [exact E | intros; eapply cols_keeps; eassumption]. Qed.

Lemma box_keeps b tr band fb st st' : (band <- swap_stack_in_band band 0 fb; for_each (seq 0 6) (rows_loop b tr fb band) st) = Ok st' -> keeps st st'.
Proof. intros E. step E. apply (keeps_for (fun x => x)) in E; [exact E | intros; eapply rows_keeps; eassumption]. Qed.

Lemma band_keeps g tr b st st' : find_minlex_band g tr b st = Ok st' -> keeps st st'.
Proof. unfold find_minlex_band. intros E. step E. apply (keeps_for (fun x => x)) in E; [exact E | intros x s s' H; exact (box_keeps _ _ _ _ _ _ H)]. Qed.

Lemma for_first {S} n (f : nat -> S -> res S) s : for_each (seq 0 (Datatypes.S n)) f s = bind (f 0 s) (for_each (seq 1 n) f).
Proof. reflexivity. Qed.

(** * The first candidate is the identity *)

Definition idt : transformation := mkTrans false (0, 0) (0, 0) [(0, 0); (0, 0); (0, 0)] [(0, 0); (0, 0); (0, 0)] (seq 1 9).
Definition idm : min_band := cand_of idt.

Lemma idt_ok : trans_ok idt.
Proof.
  assert (O : p3ok (0, 0)) by (split; cbn; lia).
  split; [exact O | ]. split; [exact O | ]. split; [do 3 eexists; split; [reflexivity | auto] | ]. split; [do 3 eexists; split; [reflexivity | auto] | reflexivity].
Qed.
Lemma idt_sym : sym_of idt = Sym false (seq 0 9) (seq 0 9) (seq 1 9).
Proof. reflexivity. Qed.
Lemma idt_act g : wf_grid g -> act (sym_of idt) g = g.
Proof. rewrite idt_sym. apply act_id. Qed.

Ltac sixteen w H := repeat (destruct w as [ | ? w]; [try discriminate H | cbn [length] in H]); try discriminate H.

Section First.
Variable w : list nat.
Hypotheses (Lw : length w = 16) (Dw : Forall (fun d => 1 <= d <= 9) w).

Lemma map_cells_id : forall l, Forall (fun d => 1 <= d <= 9) l -> map_cells (seq 1 9) l = Ok l.
Proof.
  induction l as [ | d l IH]; intros F; [reflexivity | ]. inversion F as [ | ? ? Hd F']; subst. cbn [map_cells]. rewrite (IH F').
  destruct d as [ | [ | [ | [ | [ | [ | [ | [ | [ | [ | d]]]]]]]]]]; try lia; reflexivity.
Qed.

Lemma le_nines_l : forall n v, length v = n -> Forall (fun d => 1 <= d <= 9) v -> slice_le v (repeat 9 n) = true.
Proof.
  intros n v L F. unfold slice_le. assert (Q : le_l v (repeat 9 n)); [ | unfold le_l in Q; destruct (lex_nat v (repeat 9 n)); congruence].
  revert n L. induction F as [ | d v Hd F IH]; intros n L; [subst; cbn; discriminate | ]. destruct n as [ | n]; [discriminate | ]. cbn [length] in L. cbn [repeat]. unfold le_l. cbn [lex_nat].
  destruct (Nat.compare_spec d 9); try discriminate; [ | lia]. apply IH. lia.
Qed.

Lemma first_last : exists mp, last_box_loop 0 false (0, 0) (0, 0) (0, 0) (0, 0) (form ++ w) 0 (@pair best (list nat) (repeat 9 16, []) [1; 2; 3; 4; 5; 6; 0; 0; 0]) = Ok ((w, [idm]), mp).
Proof.
  unfold last_box_loop. change (p3_new 0) with (Ok (0, 0)). cbn [bind].
  assert (E : permute (form ++ w) (0, 0) 6 swap_cols_in_band = Ok (form ++ w)) by (clear Dw; sixteen w Lw; vm_compute; reflexivity).
  rewrite E. cbn [bind]. change (aget (form ++ w) 6) with (Ok 7). change (aget (form ++ w) 7) with (Ok 8). change (aget (form ++ w) 8) with (Ok 9). cbn [bind].
  change (map_set [1; 2; 3; 4; 5; 6; 0; 0; 0] 7 7) with (Ok [1; 2; 3; 4; 5; 6; 7; 0; 0]). cbn [bind].
  change (map_set [1; 2; 3; 4; 5; 6; 7; 0; 0] 8 8) with (Ok [1; 2; 3; 4; 5; 6; 7; 8; 0]). cbn [bind].
  change (map_set [1; 2; 3; 4; 5; 6; 7; 8; 0] 9 9) with (Ok (seq 1 9)). cbn [bind]. change (skipn 11 (form ++ w)) with w.
  rewrite (map_cells_id w Dw). cbn [bind]. assert (Le := le_nines_l 16 w Lw Dw). rewrite Le. exists (seq 1 9).
  destruct (slice_lt w (repeat 9 16)) eqn:Lt; [reflexivity | ]. replace (repeat 9 16) with w; [reflexivity | ].
  unfold slice_le, slice_lt in Le, Lt. apply lex_eq. destruct (lex_nat w (repeat 9 16)); congruence.
Qed.

Lemma first_cols st' : cols_loop 0 false 0 (0, 0) (form ++ w) 0 (repeat 9 16, []) = Ok st' -> keeps (w, [idm]) st'.
Proof.
  unfold cols_loop. change (p3_new 0) with (Ok (0, 0)). cbn [bind].
  assert (E : permute (form ++ w) (0, 0) 0 swap_cols_in_band = Ok (form ++ w)) by (clear Dw; sixteen w Lw; vm_compute; reflexivity). rewrite E. clear E. cbn [bind].
  change (aget (form ++ w) 9) with (Ok 4). cbn [bind]. change (position 4 (firstn 6 (skipn 3 (form ++ w)))) with (Ok 0). cbn [bind].
  change (0 / 3) with 0. change (0 mod 3) with 0. change (1 + 0) with 1. change (3 + 0) with 3.
  assert (E : swap_stack_in_band (form ++ w) 1 1 = Ok (form ++ w)) by (clear Dw; sixteen w Lw; vm_compute; reflexivity). rewrite E. clear E. cbn [bind].
  assert (E : swap_cols_in_band (form ++ w) 3 3 = Ok (form ++ w)) by (clear Dw; sixteen w Lw; vm_compute; reflexivity). rewrite E. clear E. cbn [bind].
  change (aget (form ++ w) 10) with (Ok 5). change (aget (form ++ w) 4) with (Ok 5). cbn [bind]. change (negb (5 =? 5)) with false. change (4 + (if false then 1 else 0)) with 4.
  assert (E : swap_cols_in_band (form ++ w) 4 4 = Ok (form ++ w)) by (clear Dw; sixteen w Lw; vm_compute; reflexivity). rewrite E. clear E. cbn [bind].
  change (aget (form ++ w) 4) with (Ok 5). cbn [bind]. change (negb (5 =? 5)) with false.
  change (aget (fst (repeat 9 16, @nil min_band)) 0) with (Ok 9). cbn [bind]. intros E. step E. step E.
  change (9 =? 6) with false in E. cbn [andb] in E.
  change (for_each (combine (seq 1 6) (form ++ w)) (fun '(new, old) mapping => map_set mapping old new) (repeat 0 9)) with (Ok [1; 2; 3; 4; 5; 6; 0; 0; 0]) in E.
  change (p3_from_choices 0 0) with (Ok (0, 0)) in E. cbn [bind] in E.
  destruct first_last as [mp F]. step E. injection E as <-.
  rewrite for_first in Heqr1. rewrite F in Heqr1. cbn [bind] in Heqr1.
  apply (keeps_for (@fst best (list nat))) in Heqr1; [exact Heqr1 | intros; eapply last_keeps; eassumption].
Qed.

Lemma first_rows st' : rows_loop 0 false 0 (form ++ w) 0 (repeat 9 16, []) = Ok st' -> keeps (w, [idm]) st'.
Proof.
  unfold rows_loop. change (p3_new 0) with (Ok (0, 0)). cbn [bind].
  assert (E : permute (form ++ w) (0, 0) 0 swap_rows_in_band = Ok (form ++ w)) by (clear Dw; sixteen w Lw; vm_compute; reflexivity). rewrite E. clear E. cbn [bind].
  rewrite for_first. intros E. step E. apply (keeps_trans _ _ _ (first_cols _ Heqr)).
  apply (keeps_for (fun x => x)) in E; [exact E | intros; eapply cols_keeps; eassumption].
Qed.

Lemma first_band g st' : slice g (0 * 27) 27 = Ok (form ++ w) -> find_minlex_band g false 0 (repeat 9 16, []) = Ok st' -> keeps (w, [idm]) st'.
Proof.
  intros Sl. unfold find_minlex_band. rewrite Sl. cbn [bind]. rewrite for_first.
  assert (E : swap_stack_in_band (form ++ w) 0 0 = Ok (form ++ w)) by (clear Dw; sixteen w Lw; vm_compute; reflexivity). rewrite E. clear E. cbn [bind].
  intros E. step E. rewrite for_first in Heqr. step Heqr.
  apply (keeps_trans _ _ _ (first_rows _ Heqr0)).
  apply (keeps_for (fun x => x)) in Heqr; [ | intros; eapply rows_keeps; eassumption]. apply (keeps_trans _ _ _ Heqr).
  apply (keeps_for (fun x => x)) in E; [exact E | intros x s s' H; exact (box_keeps _ _ _ _ _ _ H)].
Qed.
End First.

(** * A grid that is its own canonical form *)

Definition least (g : grid) : Prop := forall s, sym_ok s -> le_l g (act s g).

(** A candidate with the two rows in place, completed somehow *)
Lemma candidate_form g m : solved g -> wfm g m -> good g m -> exists s rest, sym_ok s /\ act s g = (form ++ value g m) ++ rest.
Proof.
  intros S W G. assert (O : p3ok (0, 0)) by (split; cbn; lia). set (t := trans_of m 0 (0, 0) (0, 0)).
  assert (T : trans_ok t) by (apply trans_of_ok; [apply (wfm_wfm0 g m S W) | lia | exact O | exact O]).
  assert (C : cand_of t = m) by (destruct m; reflexivity). exists (sym_of t), (skipn 27 (act (sym_of t) g)).
  split; [apply sym_of_ok, T | ]. rewrite (act_form g t S T) at 1; rewrite ?C; auto.
Qed.

Lemma least_form g : solved g -> least g -> firstn 11 g = form.
Proof.
  intros S M. destruct (exists_good g S) as [m [W G]]. destruct (candidate_form g m S W G) as [s [rest [Hs E]]].
  destruct (le_cases _ _ (form_le g S)) as [F | F]; [symmetry; exact F | exfalso].
  assert (Q := M s Hs). rewrite E in Q. assert (L : lex_nat ((form ++ value g m) ++ rest) g = Lt).
  { rewrite <- (firstn_skipn 11 g), <- app_assoc. rewrite lex_app by (rewrite firstn_length, (proj1 S); reflexivity). rewrite F. reflexivity. }
  unfold le_l in Q. rewrite lex_anti, L in Q. apply Q. reflexivity.
Qed.

Lemma least_first g : solved g -> least g -> exists v r, find_min_bands g = Ok (v, idm :: r) /\ (forall m, In m (idm :: r) -> wfm g m).
Proof.
  intros S M. assert (Wg := solved_wf' g S). assert (F := least_form g S M).
  assert (Fi : firstn 11 (act (sym_of idt) g) = form) by (rewrite idt_act; assumption).
  destruct (form_cand g idt S idt_ok Fi) as [Wi Gi]. fold idm in Wi, Gi.
  assert (A := act_form g idt S idt_ok Wi Gi). fold idm in A. rewrite (idt_act g Wg) in A.
  set (w := value g idm) in *. assert (Lw : length w = 16) by apply value_length.
  assert (Dw : Forall (fun d => 1 <= d <= 9) w).
  { apply Forall_forall. intros d Hd. assert (Hi : In d g) by (rewrite A; apply in_or_app; left; apply in_or_app; right; exact Hd).
    apply (In_nth _ _ 0) in Hi. destruct Hi as [c [Hc <-]]. rewrite (proj1 S) in Hc. apply (proj1 (proj2 S) c Hc). }
  assert (FM := find_min_bands_spec g S). destruct (find_min_bands g) as [st | | | ] eqn:E; cbn [post] in FM; try contradiction.
  assert (NE := inv_nonempty g st S FM). destruct FM as [_ [_ [I3 [I4 _]]]].
  assert (K : keeps (w, [idm]) st).
  { unfold find_min_bands in E. cbn [for_each] in E.
    assert (Sl : slice g (0 * 27) 27 = Ok (form ++ w)).
    { unfold slice. rewrite (proj1 S). change (0 * 27 + 27 <=? 81) with true. cbn [assert_ bind]. change (skipn (0 * 27) g) with g. rewrite A.
      rewrite firstn_app. rewrite firstn_all2 by (rewrite app_length, Lw; cbn; lia). replace (27 - length (form ++ w)) with 0 by (rewrite app_length, Lw; reflexivity).
      rewrite firstn_O, app_nil_r. reflexivity. }
    step E. cbn [bind] in Heqr. rewrite for_first in Heqr. step Heqr. apply (keeps_trans _ _ _ (first_band w Lw Dw g _ Sl Heqr0)).
    apply (keeps_for (fun x => x)) in Heqr; [ | intros x s s' H; exact (band_keeps _ _ _ _ _ H)]. apply (keeps_trans _ _ _ Heqr).
    step E. destruct (transpose g) as [tg | | | ] eqn:Et; try discriminate Heqr1. cbn [bind] in Heqr1. injection E as <-.
    apply (keeps_for (fun x => x)) in Heqr1; [exact Heqr1 | intros x s s' H; exact (band_keeps _ _ _ _ _ H)]. }
  destruct st as [v L]. cbn [fst snd] in *. destruct K as [[Ev [r Er]] | K]; cbn [fst snd] in *.
  - exists v, r. rewrite Er. split; [reflexivity | ]. cbn [app] in Er. intros m Hm. rewrite <- Er in Hm. apply I3 in Hm. apply Hm.
  - exfalso. destruct L as [ | m L]; [apply NE; reflexivity | ]. assert (Hm : In m (m :: L)) by (left; reflexivity). apply I3 in Hm. destruct Hm as [Wm [Gm Em]].
    destruct (candidate_form g m S Wm Gm) as [s [rest [Hs Es]]]. assert (Q := M s Hs). rewrite Es, Em in Q. unfold le_l in Q. rewrite lex_anti in Q. rewrite A in Q at 1.
    rewrite lex_app in Q by (rewrite !app_length, Lw, <- Em, value_length; reflexivity). rewrite lex_app in Q by reflexivity. rewrite lex_refl, K in Q. apply Q. reflexivity.
Qed.

Lemma keep_first g cur (R : min_band -> list nat * transformation) : forall l n, (forall m, In m l -> find_minimal_for_band g m = Ok (R m) /\ le_l (fst cur) (fst (R m))) ->
  exists k, for_each l (fun m acc =>
         new <- find_minimal_for_band g m;
         match acc with
         | None => Ok (Some (new, 1))
         | Some (cur, count) =>
             match lex_nat (fst cur) (fst new) with
             | Gt => Ok (Some (new, 1))
             | Lt => Ok (Some (cur, count))
             | Eq => Ok (Some (cur, S count))
             end
         end) (Some (cur, n)) = Ok (Some (cur, k)).
Proof.
  induction l as [ | m l IH]; intros n H; [exists n; reflexivity | ]. destruct (H m (or_introl eq_refl)) as [E Le]. cbn [for_each]. rewrite E. cbn [bind].
  assert (H' : forall m0, In m0 l -> find_minimal_for_band g m0 = Ok (R m0) /\ le_l (fst cur) (fst (R m0))) by (intros m0 Hm; apply H; right; exact Hm).
  unfold le_l in Le. destruct (lex_nat (fst cur) (fst (R m))); [ | | congruence]; cbn [bind]; apply (IH _ H').
Qed.

(** The search for its canonical form returns the identity. *)
Lemma least_identity g : solved g -> least g -> exists n, find_canonical g = Ok (g, idt, n).
Proof.
  intros S M. assert (Wg := solved_wf' g S). destruct (least_first g S M) as [v [r [E W]]]. unfold find_canonical. rewrite E. cbn [bind snd].
  set (R := fun m => match find_minimal_for_band g m with Ok r => r | _ => ([], idt) end).
  assert (HR : forall m, In m (idm :: r) -> find_minimal_for_band g m = Ok (R m) /\ le_l g (fst (R m))).
  { intros m Hm. destruct (find_minimal_spec g m S (wfm_wfm0 g m S (W m Hm))) as [c2 [r1 [r2 [B [R1 [R2 [Em _]]]]]]]. unfold R. rewrite Em. split; [reflexivity | ].
    apply M, sym_of_ok, trans_of_ok; try assumption. apply (wfm_wfm0 g m S (W m Hm)). }
  assert (Ri : R idm = (g, idt)).
  { assert (Hm : In idm (idm :: r)) by (left; reflexivity). destruct (HR idm Hm) as [Em Le].
    destruct (find_minimal_spec g idm S (wfm_wfm0 g idm S (W idm Hm))) as [c2 [r1 [r2 [B [R1 [R2 [Em' H]]]]]]]. rewrite Em in Em'.
    assert (ER : R idm = (act (sym_of (trans_of idm c2 r1 r2)) g, trans_of idm c2 r1 r2)) by (injection Em'; auto).
    assert (O : p3ok (0, 0)) by (split; cbn; lia). destruct (H 0 (0, 0) (0, 0) ltac:(lia) O O) as [L U].
    change (trans_of idm 0 (0, 0) (0, 0)) with idt in L, U. rewrite (idt_act g Wg) in L, U. rewrite ER in Le. cbn [fst] in Le.
    assert (Eg := le_anti _ _ L Le). assert (Eu := U Eg). injection Eu as <- <- <-. rewrite ER. change (trans_of idm 0 (0, 0) (0, 0)) with idt. rewrite (idt_act g Wg). reflexivity. }
  unfold choose_min. cbn [for_each]. destruct (HR idm (or_introl eq_refl)) as [Ei _]. rewrite Ei, Ri. cbn [bind].
  destruct (keep_first g (g, idt) R r 1) as [k Ek]; [intros m Hm; apply HR; right; exact Hm | ]. rewrite Ek. cbn [bind]. exists k. reflexivity.
Qed.

Lemma minlex_least s m : wf_grid s -> minlex_of s m -> least m.
Proof.
  intros Ws [Eq Le] a Ha. assert (Wm := equiv_wf s m Ws Eq). apply lex_le_iff; [rewrite act_length; apply (proj1 Wm) | ]. apply Le.
  apply (equiv_trans s m _ Ws Eq). exists a. auto.
Qed.

(** * Puzzles *)

(** The canonical form of a puzzle with the solution [s]: one symmetry serves for all of them. *)
Lemma canonicalized_by_solution p s : wf_grid p -> api_solution p = Ok (Some s) -> exists g t n, find_canonical s = Ok (g, t, n) /\ trans_ok t /\
  canonicalized p = Ok (Some (act (sym_of t) p, n)).
Proof.
  intros W E. destruct (proj1 (solution_iff p s W) E) as [_ [So U]]. assert (S := proj1 So).
  destruct (canon_main s S) as [t [n [Ec [Ht _]]]]. exists (act (sym_of t) s), t, n. split; [exact Ec | ]. split; [exact Ht | ].
  unfold canonicalized. destruct (is_solved_exact p W) as [b [Eb Hb]]. rewrite Eb. cbn [bind]. destruct b; cbn [bind].
  - assert (Sp : solved p) by (apply Hb; reflexivity). rewrite (U p (proj1 (solved_self p Sp))). rewrite Ec. cbn [bind].
    rewrite trans_apply_act by (try assumption; apply solved_wf', S). reflexivity.
  - rewrite E. cbn [bind]. rewrite Ec. cbn [bind]. rewrite trans_apply_act by assumption. reflexivity.
Qed.

(** If the solution is canonical, so is the puzzle. *)
Lemma canonical_fixed q m : wf_grid q -> api_solution q = Ok (Some m) -> least m -> exists n, canonicalized q = Ok (Some (q, n)) /\ automorphism_count m n.
Proof.
  intros W E M. destruct (proj1 (solution_iff q m W) E) as [_ [So _]]. destruct (canonicalized_by_solution q m W E) as [g [t [n [Ef [Ht Ec]]]]].
  destruct (least_identity m (proj1 So) M) as [n' Ef']. rewrite Ef in Ef'. injection Ef' as _ -> ->. rewrite (idt_act q W) in Ec. exists n'. split; [exact Ec | ].
  destruct (canon_main m (proj1 So)) as [t' [n2 [Em [_ [_ C]]]]]. rewrite Em in Ef. injection Ef as _ _ <-. exact C.
Qed.

Lemma clues_81 s : solved s -> clue_count s = 81.
Proof.
  intros [_ [R _]]. unfold clue_count. assert (H : forall l, (forall c, In c l -> c < 81) -> length (filter (fun c => negb (at_ s c =? 0)) l) = length l).
  { induction l as [ | c l IH]; intros H; [reflexivity | ]. cbn [filter]. destruct (Nat.eqb_spec (at_ s c) 0) as [Z | N]; cbn [negb length].
    - destruct (R c (H c (or_introl eq_refl))). lia.
    - f_equal. apply IH. intros x Hx. apply H. right. exact Hx. }
  rewrite H; [apply seq_length | ]. intros c Hc. apply in_seq in Hc. lia.
Qed.

(** A result exists exactly for the puzzles that [solution] solves. *)
Lemma canonicalized_solution p q n : wf_grid p -> canonicalized p = Ok (Some (q, n)) -> exists s, api_solution p = Ok (Some s).
Proof.
  intros W E. destruct (canonicalized_total p W) as [o [Eo [H _]]]. rewrite E in Eo. injection Eo as <-.
  destruct (solution_exact p W) as [[s | ] [Es [_ C]]]; [exists s; exact Es | exfalso].
  assert (Sp : solved p). { destruct (is_solved_exact p W) as [b [Eb Hb]]. destruct b; [apply Hb; reflexivity | ]. exfalso.
    assert (Q : Some (q, n) = None) by (apply H; split; [intros S; apply Hb in S; discriminate | exact Es]). discriminate Q. }
  destruct (solved_self p Sp) as [S1 S2]. assert (Q := C ltac:(rewrite (clues_81 p Sp); lia) p S1 S2). discriminate Q.
Qed.

Lemma canonicalized_facts p q n : wf_grid p -> canonicalized p = Ok (Some (q, n)) -> exists s a, sym_ok a /\ q = act a p /\ api_solution p = Ok (Some s) /\
  api_solution q = Ok (Some (act a s)) /\ minlex_of s (act a s) /\ least (act a s) /\ automorphism_count (act a s) n.
Proof.
  intros W E. destruct (canonicalized_solution p q n W E) as [s Es]. destruct (canonicalized_total p W) as [o [Eo [_ H]]]. rewrite E in Eo. injection Eo as <-.
  destruct (H q n eq_refl) as [s' [a [Hs [Ha [-> [_ [M C]]]]]]]. destruct (proj1 (solution_iff p s W) Es) as [_ [So _]]. apply Hs in So. subst s'.
  assert (Ws : wf_grid s) by (destruct (proj1 (solution_iff p s W) Es) as [_ [So _]]; apply (solution_wf _ _ So)).
  exists s, a. split; [exact Ha | ]. split; [reflexivity | ]. split; [exact Es | ]. split.
  - destruct (solver_symmetric a p 0 Ha W) as [_ [_ [[o [Eo Ea]] _]]]. rewrite Es in Eo. injection Eo as <-. exact Ea.
  - split; [exact M | ]. split; [apply (minlex_least s _ Ws M) | apply automorphism_count_act; assumption].
Qed.

Lemma canonicalized_idempotent p q n : wf_grid p -> canonicalized p = Ok (Some (q, n)) -> canonicalized q = Ok (Some (q, n)).
Proof.
  intros W E. destruct (canonicalized_facts p q n W E) as [s [a [Ha [-> [_ [Eq [_ [M C]]]]]]]]. assert (Wq := act_wf a p Ha W).
  destruct (canonical_fixed _ _ Wq Eq M) as [n' [Ec C']]. rewrite Ec. rewrite (automorphism_count_fun _ _ _ C' C). reflexivity.
Qed.

(** A puzzle is a result exactly if its solution is canonical. *)
Lemma canonicalized_fixed_iff q : wf_grid q -> ((exists n, canonicalized q = Ok (Some (q, n))) <-> exists m, api_solution q = Ok (Some m) /\ minlex_of m m).
Proof.
  intros W. split.
  - intros [n E]. destruct (canonicalized_facts q q n W E) as [s [a [Ha [Eq [Es [Ea [M _]]]]]]]. rewrite Es in Ea. injection Ea as Ea. exists s. split; [exact Es | ]. rewrite <- Ea in M. exact M.
  - intros [m [E M]]. assert (Wm : wf_grid m) by (destruct (proj1 (solution_iff q m W) E) as [_ [So _]]; apply (solution_wf _ _ So)).
    destruct (canonical_fixed q m W E (minlex_least m m Wm M)) as [n [Ec _]]. exists n. exact Ec.
Qed.

(** * The results for all puzzles of a class *)

Lemma results_orbit p q n m : wf_grid p -> canonicalized p = Ok (Some (q, n)) -> solution_of q m -> forall q',
  ((exists p' n', equivalent p p' /\ canonicalized p' = Ok (Some (q', n'))) <-> exists b, sym_ok b /\ act b m = m /\ q' = act b q).
Proof.
  intros W E Sm q'. destruct (canonicalized_facts p q n W E) as [s [a [Ha [-> [Es [Eq [M [Lm C]]]]]]]]. assert (Wq := act_wf a p Ha W).
  destruct (proj1 (solution_iff _ _ Wq) Eq) as [_ [Sq Uq]]. apply Uq in Sm. subst m.
  assert (Ws : wf_grid s) by (destruct (proj1 (solution_iff p s W) Es) as [_ [So _]]; apply (solution_wf _ _ So)). split.
  - intros [p' [n' [[c [Hc <-]] E']]]. assert (Wc := act_wf c p Hc W).
    destruct (canonicalized_facts _ q' n' Wc E') as [s' [a' [Ha' [-> [Es' [Eq' [M' [Lm' _]]]]]]]].
    assert (Ec : s' = act c s). { destruct (solver_symmetric c p 0 Hc W) as [_ [_ [[o [Eo Ea]] _]]]. rewrite Es in Eo. injection Eo as <-. rewrite Ea in Es'. injection Es' as <-. reflexivity. }
    subst s'. assert (Em : act a' (act c s) = act a s).
    { apply (minlex_unique (act c s)); [exact M' | ]. apply (minlex_equiv s); [exact Ws | exists c; auto | exact M]. }
    exists (scomp (scomp a' c) (sinv a)). assert (Hi := sinv_ok a Ha). assert (Hac := scomp_ok a' c Ha' Hc). split; [apply scomp_ok; assumption | ].
    split; (rewrite act_scomp by (try assumption; apply act_wf; assumption); rewrite act_inv by assumption; rewrite act_scomp by assumption); [exact Em | reflexivity].
  - intros [b [Hb [Fb ->]]]. exists (act b (act a p)). destruct (solver_symmetric b _ 0 Hb Wq) as [_ [_ [[o [Eo Ea]] _]]]. rewrite Eq in Eo. injection Eo as <-. cbn [option_map] in Ea. rewrite Fb in Ea.
    destruct (canonical_fixed _ _ (act_wf b _ Hb Wq) Ea Lm) as [n' [Ec _]]. exists n'. split; [ | exact Ec]. exists (scomp b a). split; [apply scomp_ok; assumption | apply act_scomp; assumption].
Qed.

Lemma same_result_equivalent p p' q n n' : wf_grid p -> wf_grid p' -> canonicalized p = Ok (Some (q, n)) -> canonicalized p' = Ok (Some (q, n')) -> equivalent p p'.
Proof.
  intros W W' E E'. destruct (canonicalized_facts p q n W E) as [_ [a [Ha [Ea _]]]]. destruct (canonicalized_facts p' q n' W' E') as [_ [a' [Ha' [Ea' _]]]].
  apply (equiv_trans p q p' W); [exists a; auto | apply (equiv_sym p' q W'); exists a'; auto].
Qed.
