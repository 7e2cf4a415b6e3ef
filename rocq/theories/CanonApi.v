(** Proofs about Canon: [shuffle] and [canonicalized]. *)
From Coq Require Import List Arith NArith ZArith ZifyNat ZifyN ZifyBool Lia Bool Permutation.
From Verif Require Import Spec CanonSpec Solver Api Parse Canon BitLemmas GridProofs GenProofs ApiProofs SymProofs EquivProofs TransProofs MinlexProofs CanonProofs CanonMain.
Import ListNotations.
Ltac Zify.zify_post_hook ::= Z.to_euclidean_division_equations.

(** * The group of symmetries *)

Lemma comp_l_assoc a b c : line_perm b -> line_perm c -> comp_l (comp_l a b) c = comp_l a (comp_l b c).
Proof.
  intros Hb Hc. unfold comp_l. rewrite map_map. apply map_ext_in. intros x Hx. apply (nth_comp a b).
  rewrite (line_length b Hb). apply (Permutation_in _ (proj1 Hc)), in_seq in Hx. lia.
Qed.

Lemma comp_d_assoc c b a : Permutation c (seq 1 9) -> Permutation b (seq 1 9) -> Permutation a (seq 1 9) ->
  comp_d (comp_d c b) a = comp_d c (comp_d b a).
Proof.
  intros Pc Pb Pa. unfold comp_d at 1 3 4. rewrite map_map. apply map_ext_in. intros d Hd. apply comp_digits; try assumption.
  apply (digits_facts a Pa) in Hd. lia.
Qed.

Lemma scomp_assoc c b a : sym_ok c -> sym_ok b -> sym_ok a -> scomp (scomp c b) a = scomp c (scomp b a).
Proof.
  intros [Cr [Cc Cd]] [Br [Bc Bd]] [Ar [Ac Ad]]. destruct c as [tc rc cc dc], b as [tb rb cb db], a as [ta ra ca da]. cbn [s_tr s_rows s_cols s_digits] in *.
  unfold scomp. destruct tc, tb, ta; cbn [s_tr s_rows s_cols s_digits negb]; f_equal;
    first [apply comp_l_assoc; assumption | symmetry; apply comp_l_assoc; assumption | apply comp_d_assoc; assumption].
Qed.

Lemma sinv_scomp' s : sym_ok s -> scomp (sinv s) s = Sym false (seq 0 9) (seq 0 9) (seq 1 9).
Proof. intros H. rewrite <- (scomp_id s H) at 2. apply scomp_inv; [exact H | apply id_ok]. Qed.

(** * Counting automorphisms *)

Lemma automorphism_count_fun g n n' : automorphism_count g n -> automorphism_count g n' -> n = n'.
Proof.
  intros [l [N [H <-]]] [l' [N' [H' <-]]]. apply Permutation_length. apply NoDup_Permutation; try assumption. intros s. rewrite H, H'. reflexivity.
Qed.

Lemma automorphism_count_act a g n : sym_ok a -> wf_grid g -> automorphism_count g n -> automorphism_count (act a g) n.
Proof.
  intros Ha Hg [l [N [H <-]]]. pose proof (sinv_ok a Ha) as Hi. exists (map (fun s => scomp a (scomp s (sinv a))) l).
  assert (Inj : forall s s', sym_ok s -> sym_ok s' -> scomp a (scomp s (sinv a)) = scomp a (scomp s' (sinv a)) -> s = s').
  { intros s s' Hs Hs' E.
    assert (E1 : scomp s (sinv a) = scomp s' (sinv a)).
    { rewrite <- (proj1 (scomp_inv a (scomp s (sinv a)) Ha (scomp_ok _ _ Hs Hi))), E. apply scomp_inv; [exact Ha | apply scomp_ok; assumption]. }
    rewrite <- (scomp_id s Hs), <- (scomp_id s' Hs'). rewrite <- (sinv_scomp' a Ha). rewrite <- !scomp_assoc by assumption. rewrite E1. reflexivity. }
  split; [ | split].
  - apply NoDup_map_inj; [ | exact N]. intros s s' Hs Hs' E. apply H in Hs, Hs'. apply Inj; [apply Hs | apply Hs' | exact E].
  - intros s. rewrite in_map_iff. split.
    + intros [s' [<- Hs']]. apply H in Hs'. destruct Hs' as [Hs' E]. split; [apply scomp_ok; [exact Ha | apply scomp_ok; assumption] | ].
      rewrite act_scomp by (try apply scomp_ok; try apply act_wf; assumption). rewrite act_scomp by (try apply act_wf; assumption).
      rewrite act_inv by assumption. rewrite E. reflexivity.
    + intros [Hs E]. exists (scomp (sinv a) (scomp s a)). split.
      * rewrite scomp_assoc by (try apply scomp_ok; assumption). rewrite (proj2 (scomp_inv a (scomp (scomp s a) (sinv a)) Ha (scomp_ok _ _ (scomp_ok _ _ Hs Ha) Hi))).
        rewrite scomp_assoc by assumption. rewrite sinv_scomp by exact Ha. apply scomp_id. exact Hs.
      * apply H. split; [apply scomp_ok; [exact Hi | apply scomp_ok; assumption] | ].
        rewrite act_scomp by (try apply scomp_ok; assumption). rewrite act_scomp by assumption. rewrite E. apply act_inv; assumption.
  - rewrite map_length. reflexivity.
Qed.

(** * Solved grids *)

Lemma minlex_unique g m m' : minlex_of g m -> minlex_of g m' -> m = m'.
Proof.
  intros [[a [Ha Ea]] L] [[b [Hb Eb]] L']. specialize (L m' (ex_intro _ b (conj Hb Eb))). specialize (L' m (ex_intro _ a (conj Ha Ea))).
  assert (La : length m = 81) by (rewrite <- Ea; apply act_length). assert (Lb : length m' = 81) by (rewrite <- Eb; apply act_length).
  apply lex_le_iff in L; [ | lia]. apply lex_le_iff in L'; [ | lia]. apply le_anti; assumption.
Qed.

Lemma minlex_equiv g g' m : wf_grid g -> equivalent g g' -> minlex_of g m -> minlex_of g' m.
Proof.
  intros Hg E [E1 L]. pose proof (equiv_wf g g' Hg E) as Hg'. split; [apply (equiv_trans g' g m Hg' (equiv_sym g g' Hg E) E1) | ].
  intros x Hx. apply L. apply (equiv_trans g g' x Hg E Hx).
Qed.

Lemma canonicalized_solved s : solved s -> exists a n, sym_ok a /\ canonicalized s = Ok (Some (act a s, n)) /\
  minlex_of s (act a s) /\ automorphism_count s n.
Proof.
  intros S. pose proof (solved_wf' s S) as W. destruct (canon_main s S) as [t [n [E [Ht [L C]]]]]. exists (sym_of t), n.
  pose proof (sym_of_ok t Ht) as O. split; [exact O | ]. split; [ | split; [ | exact C]].
  - unfold canonicalized. destruct (is_solved_exact s W) as [b [Eb Hb]]. rewrite Eb. cbn [bind].
    replace b with true by (symmetry; apply Hb; exact S). cbn [bind]. rewrite E. cbn [bind]. rewrite trans_apply_act by assumption. reflexivity.
  - split; [exists (sym_of t); auto | ]. intros g' [a [Ha <-]]. apply lex_le_iff; [rewrite !act_length; reflexivity | apply L; exact Ha].
Qed.

Lemma canonicalized_minlex s : solved s -> exists m n, canonicalized s = Ok (Some (m, n)) /\ minlex_of s m /\
  canonicalized m = Ok (Some (m, n)).
Proof.
  intros S. destruct (canonicalized_solved s S) as [a [n [Ha [E [M C]]]]]. exists (act a s), n. split; [exact E | split; [exact M | ]].
  pose proof (solved_wf' s S) as W. destruct (canonicalized_solved (act a s) (act_solved a s Ha S)) as [b [n' [Hb [E' [M' C']]]]]. rewrite E'.
  assert (Q : act b (act a s) = act a s).
  { apply (minlex_unique (act a s)); [exact M' | ]. apply (minlex_equiv s); [exact W | exists a; auto | exact M]. }
  rewrite Q. rewrite (automorphism_count_fun _ _ _ C' (automorphism_count_act a s n Ha W C)). reflexivity.
Qed.

Lemma canonicalized_iff s s' : solved s -> solved s' -> (equivalent s s' <-> canonicalized s = canonicalized s').
Proof.
  intros S S'. pose proof (solved_wf' s S) as W. pose proof (solved_wf' s' S') as W'.
  destruct (canonicalized_solved s S) as [a [n [Ha [E [M C]]]]]. destruct (canonicalized_solved s' S') as [a' [n' [Ha' [E' [M' C']]]]].
  rewrite E, E'. split.
  - intros [b [Hb Eb]].
    assert (Q : act a s = act a' s') by (apply (minlex_unique s'); [apply (minlex_equiv s); [exact W | exists b; auto | exact M] | exact M']).
    subst s'. rewrite Q. rewrite (automorphism_count_fun _ _ _ C' (automorphism_count_act b s n Hb W C)). reflexivity.
  - intros Q. assert (Q1 : act a s = act a' s') by congruence. apply (equiv_trans s (act a s) s' W); [exists a; auto | ]. rewrite Q1. apply equiv_sym; [exact W' | exists a'; auto].
Qed.

Lemma canonicalized_count s : solved s -> exists m n, canonicalized s = Ok (Some (m, n)) /\ automorphism_count s n /\ 1 <= n.
Proof.
  intros S. destruct (canonicalized_solved s S) as [a [n [Ha [E [M C]]]]]. exists (act a s), n. split; [exact E | split; [exact C | ]].
  destruct C as [l [_ [H <-]]]. assert (I : In (Sym false (seq 0 9) (seq 0 9) (seq 1 9)) l) by (apply H; split; [apply id_ok | apply act_id, solved_wf'; exact S]).
  destruct l; [destruct I | cbn; lia].
Qed.

(** * All grids *)

Lemma solved_self s : solved s -> solution_of s s /\ forall s', solution_of s s' -> s' = s.
Proof.
  intros S. split; [split; [exact S | intros c Hc N; reflexivity] | ]. intros s' [[L' [R' V']] X]. destruct S as [L [R V]].
  apply grid_ext; try assumption. intros c Hc. apply X; [exact Hc | ]. specialize (R c Hc). lia.
Qed.

Lemma canonicalized_total p : wf_grid p -> exists o, canonicalized p = Ok o /\
  (o = None <-> ~ solved p /\ api_solution p = Ok None) /\
  forall q n, o = Some (q, n) -> exists s a, (forall s', solution_of p s' <-> s' = s) /\ sym_ok a /\ q = act a p /\
    (forall s', solution_of q s' <-> s' = act a s) /\ minlex_of s (act a s) /\ automorphism_count s n.
Proof.
  intros W. unfold canonicalized. destruct (is_solved_exact p W) as [b [Eb Hb]]. rewrite Eb. cbn [bind].
  assert (Sv : exists o, (if b then @Ok (option (list nat)) (@Some (list nat) p) else api_solution p) = Ok o /\ (o = None <-> ~ solved p /\ api_solution p = Ok None) /\
    forall s, o = Some s -> forall s', solution_of p s' <-> s' = s).
  { destruct b.
    - exists (Some p). split; [reflexivity | ]. assert (S : solved p) by (apply Hb; reflexivity). split; [split; [discriminate | tauto] | ].
      intros s [= <-] s'. destruct (solved_self p S) as [H1 H2]. split; [apply H2 | intros ->; exact H1].
    - destruct (solution_exact p W) as [o [Eo [Ho _]]]. exists o. split; [exact Eo | ]. split.
      + rewrite Eo. split; [intros ->; split; [intros S; apply Hb in S; discriminate | reflexivity] | ]. intros [_ [= ->]]. reflexivity.
      + intros s Es s'. destruct (Ho s Es) as [H1 H2]. split; [apply H2 | intros ->; exact H1]. }
  destruct Sv as [o [Eo [Ho Hs]]]. rewrite Eo. cbn [bind]. destruct o as [s | ].
  - assert (H1 : solution_of p s) by (apply (Hs s eq_refl); reflexivity). pose proof (proj1 H1) as S.
    destruct (canon_main s S) as [t [n [E [Ht [L C]]]]]. pose proof (sym_of_ok t Ht) as O. rewrite E. cbn [bind]. rewrite trans_apply_act by assumption. cbn [bind].
    eexists. split; [reflexivity | ]. split; [split; [discriminate | intros X; apply Ho in X; discriminate] | ].
    intros q n' [= <- <-]. exists s, (sym_of t). split; [exact (Hs s eq_refl) | ]. split; [exact O | split; [reflexivity | ]]. split; [ | split; [ | exact C]].
    + intros s'. split.
      * intros X. pose proof (solution_wf _ _ X) as W'. rewrite <- (act_inv' (sym_of t) s' O W'). f_equal. apply (Hs s eq_refl).
        apply (act_solution_iff (sym_of t) p _ O W); [apply act_wf; [apply sinv_ok; exact O | exact W'] | ]. rewrite act_inv' by assumption. exact X.
      * intros ->. apply act_solution; assumption.
    + split; [exists (sym_of t); auto | ]. intros g' [a [Ha <-]]. apply lex_le_iff; [rewrite !act_length; reflexivity | apply L; exact Ha].
  - exists None. split; [reflexivity | ]. split; [split; [intros _; apply Ho; reflexivity | reflexivity] | ]. discriminate.
Qed.

(** A puzzle whose solution has no automorphism but the identity *)
Lemma canonicalized_puzzles p p' q q' n : wf_grid p -> equivalent p p' ->
  canonicalized p = Ok (Some (q, n)) -> canonicalized p' = Ok (Some (q', n)) -> n = 1 -> q = q'.
Proof.
  intros W [b [Hb <-]] E E' ->. pose proof (act_wf b p Hb W) as W'.
  destruct (canonicalized_total p W) as [o [Eo [_ H]]]. rewrite E in Eo. injection Eo as <-. destruct (H q 1 eq_refl) as [s [a [Hs [Ha [-> [_ [M C]]]]]]].
  destruct (canonicalized_total _ W') as [o' [Eo' [_ H']]]. rewrite E' in Eo'. injection Eo' as <-. destruct (H' q' 1 eq_refl) as [s' [a' [Hs' [Ha' [-> [_ [M' C']]]]]]].
  assert (Sp : solution_of p s) by (apply Hs; reflexivity). pose proof (solution_wf _ _ Sp) as Ws.
  assert (Es : act b s = s') by (apply Hs'; apply act_solution; assumption). subst s'.
  assert (Q : act a s = act a' (act b s)) by (apply (minlex_unique (act b s)); [apply (minlex_equiv s); [exact Ws | exists b; auto | exact M] | exact M']).
  rewrite <- act_scomp in Q by assumption. rewrite <- act_scomp by assumption. pose proof (scomp_ok a' b Ha' Hb) as Hc. pose proof (sinv_ok a Ha) as Hi.
  assert (Aut : act (scomp (sinv a) (scomp a' b)) s = s) by (rewrite act_scomp by assumption; rewrite <- Q; apply act_inv; assumption).
  destruct C as [l [N [Hl L1]]].
  assert (I1 : In (scomp (sinv a) (scomp a' b)) l) by (apply Hl; split; [apply scomp_ok; assumption | exact Aut]).
  assert (I2 : In (scomp (sinv a) a) l). { apply Hl. split; [apply scomp_ok; assumption | ]. rewrite act_scomp by assumption. apply act_inv; assumption. }
  assert (Eq : scomp (sinv a) (scomp a' b) = scomp (sinv a) a) by (destruct l as [ | x [ | y l]]; try discriminate L1; destruct I1 as [<- | []], I2 as [<- | []]; reflexivity).
  f_equal. rewrite <- (proj2 (scomp_inv a a Ha Ha)), <- Eq. apply scomp_inv; assumption.
Qed.

(** For all puzzles: the results have the same solution, and are equivalent. *)
Lemma canonicalized_puzzles_solution p p' q q' n n' : wf_grid p -> equivalent p p' ->
  canonicalized p = Ok (Some (q, n)) -> canonicalized p' = Ok (Some (q', n')) ->
  equivalent q q' /\ n = n' /\ exists m, (forall s, solution_of q s <-> s = m) /\ (forall s, solution_of q' s <-> s = m).
Proof.
  intros W Ep E E'. pose proof Ep as [b [Hb Eb]]. assert (W' : wf_grid p') by (rewrite <- Eb; apply act_wf; assumption).
  destruct (canonicalized_total p W) as [o [Eo [_ H]]]. rewrite E in Eo. injection Eo as <-. destruct (H q n eq_refl) as [s [a [Hs [Ha [-> [Hq [M C]]]]]]].
  destruct (canonicalized_total _ W') as [o' [Eo' [_ H']]]. rewrite E' in Eo'. injection Eo' as <-. destruct (H' q' n' eq_refl) as [s' [a' [Hs' [Ha' [-> [Hq' [M' C']]]]]]].
  assert (Sp : solution_of p s) by (apply Hs; reflexivity). pose proof (solution_wf _ _ Sp) as Ws.
  assert (Es : act b s = s') by (apply Hs'; rewrite <- Eb; apply act_solution; assumption).
  split; [ | split].
  - apply (equiv_trans _ p); [apply act_wf; assumption | apply equiv_sym; [exact W | exists a; auto] | ]. apply (equiv_trans _ p'); [exact W | exact Ep | exists a'; auto].
  - apply (automorphism_count_fun s'); [ | exact C']. rewrite <- Es. apply automorphism_count_act; assumption.
  - exists (act a s). split; [exact Hq | ]. replace (act a s) with (act a' s'); [exact Hq' | ].
    apply (minlex_unique s'); [exact M' | ]. apply (minlex_equiv s); [exact Ws | exists b; auto | exact M].
Qed.

(** * Shuffling *)

Lemma n_solutions_act s g n : sym_ok s -> wf_grid g -> (n_solutions (act s g) n <-> n_solutions g n).
Proof.
  intros Hs Hg. split; [ | apply act_n_solutions; assumption]. intros H. rewrite <- (act_inv s g Hs Hg).
  apply act_n_solutions; [apply sinv_ok; exact Hs | apply act_wf; assumption | exact H].
Qed.

Lemma shuffle_class g perm tr rng : wf_grid g -> exists g', shuffle g perm tr rng = Ok g' /\
  equivalent g g' /\ equivalent g' g /\ wf_grid g' /\ clue_count g' = clue_count g /\ (solved g' <-> solved g) /\
  (uniquely_solvable g' <-> uniquely_solvable g) /\ forall n, n_solutions g' n <-> n_solutions g n.
Proof.
  intros W. destruct (shuffle_ok g perm tr rng W) as [s [Hs E]]. exists (act s g). split; [exact E | ].
  assert (Q : equivalent g (act s g)) by (exists s; auto). split; [exact Q | ]. split; [apply equiv_sym; assumption | ]. split; [apply act_wf; assumption | ].
  split; [apply act_clue_count; assumption | ]. split; [apply act_solved_iff; assumption | ]. split; [apply act_unique; assumption | ].
  intros n. apply n_solutions_act; assumption.
Qed.

Lemma shuffle_n_clues g perm tr rng : wf_grid g -> exists g', shuffle g perm tr rng = Ok g' /\ api_n_clues g' = api_n_clues g.
Proof.
  intros W. destruct (shuffle_class g perm tr rng W) as [g' [E [_ [_ [W' [C _]]]]]]. exists g'. split; [exact E | ]. rewrite !n_clues_exact by assumption. exact C.
Qed.

Lemma random_genuine perm tr rng : exists t, trans_random perm tr rng = Ok t /\ Permutation (t_digits t) (seq 1 9) /\
  exists rows cols, line_perm rows /\ line_perm cols /\ forall g, wf_grid g ->
    trans_apply t g = Ok (act (Sym tr rows cols (t_digits t)) g) /\
    forall c, c < 81 -> (at_ (act (Sym tr rows cols (t_digits t)) g) c = 0 <-> at_ g (source (Sym tr rows cols (t_digits t)) c) = 0).
Proof.
  destruct (random_ok perm tr rng) as [t [E Ht]]. exists t. split; [exact E | ]. pose proof (sym_of_ok t Ht) as O. split; [apply O | ].
  assert (Et : t_transpose t = tr).
  { revert E. unfold trans_random. destruct (fisher_yates _); cbn [bind]; try discriminate.
    do 8 (destruct (p3_new _); cbn [bind]; try discriminate). intros [= <-]. reflexivity. }
  exists (s_rows (sym_of t)), (s_cols (sym_of t)). split; [apply O | split; [apply O | ]]. intros g W.
  assert (Es : sym_of t = Sym tr (s_rows (sym_of t)) (s_cols (sym_of t)) (t_digits t)) by (rewrite <- Et; reflexivity).
  rewrite <- Es. split; [apply trans_apply_act; assumption | ]. intros c Hc. rewrite at_act by exact Hc.
  apply rename_zero; [apply O | apply wf_le; exact W].
Qed.

(** * Decision procedure for [sym_ok], for the examples *)

Definition line_permb (l : list nat) : bool :=
  (length l =? 9) && nodupb l && forallb (fun x => x <? 9) l &&
  forallb (fun i => forallb (fun j => implb (i / 3 =? j / 3) (nth i l 0 / 3 =? nth j l 0 / 3)) (seq 0 9)) (seq 0 9).

Lemma line_permb_ok l : line_permb l = true -> line_perm l.
Proof.
  unfold line_permb. rewrite !andb_true_iff, Nat.eqb_eq, nodupb_iff. intros [[[L N] F] C]. split.
  - apply perm_seq9; [exact L | exact N | ]. intros x Hx. rewrite forallb_forall in F. apply Nat.ltb_lt, F, Hx.
  - intros i j Hi Hj E. pose proof (sweep2 9 9 _ C i j Hi Hj) as X. cbv beta in X. rewrite E, Nat.eqb_refl in X. apply Nat.eqb_eq. exact X.
Qed.

Definition sym_okb (s : sym) : bool :=
  line_permb (s_rows s) && line_permb (s_cols s) &&
  ((length (s_digits s) =? 9) && nodupb (s_digits s) && forallb (fun d => (1 <=? d) && (d <=? 9)) (s_digits s)).

Lemma sym_okb_ok s : sym_okb s = true -> sym_ok s.
Proof.
  unfold sym_okb. rewrite !andb_true_iff, Nat.eqb_eq, nodupb_iff. intros [[R C] [[L N] F]]. split; [apply line_permb_ok; exact R | split; [apply line_permb_ok; exact C | ]].
  apply NoDup_Permutation_bis; [exact N | rewrite L, seq_length; lia | ]. intros x Hx. rewrite forallb_forall in F. specialize (F x Hx). apply in_seq. lia.
Qed.
