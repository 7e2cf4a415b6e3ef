(** Proofs that relate different parts of the program: the two solvers, solvers and symmetries, and the early exit of
    [solution]. *)
From Coq Require Import List Arith NArith ZArith ZifyNat ZifyN ZifyBool Lia Bool Permutation.
From Verif Require Import Spec CanonSpec ShuffleSpec RelateSpec Solver Api Canon Parse BitLemmas GridProofs BlockProofs GenProofs ApiProofs
  SymProofs EquivProofs CanonApi ShuffleProofs Strat StratSolve StratUse StratWhy StratSpec StratApi Samples StratSamples.
Import ListNotations.
Ltac Zify.zify_post_hook ::= Z.to_euclidean_division_equations.

(** * The text in blocks *)

Lemma display_layout g : wf_grid g -> display_block g = block_text g.
Proof.
  intros Wf. destruct Wf as [L F]. unfold display_block.
  assert (E : combine (seq 0 81) g = map (fun c => (c, at_ g c)) (seq 0 81)).
  { transitivity (combine (seq 0 81) (map (at_ g) (seq 0 81))); [f_equal; apply grid_as_map, L | ]. generalize (seq 0 81) as l. induction l as [ | c l IH]; cbn [map combine]; [reflexivity | ]. rewrite IH. reflexivity. }
  rewrite E. rewrite flat_map_concat_map, map_map, <- flat_map_concat_map. cbn [fst snd].
  assert (G : forall c, c < 81 -> block_cell_text c (at_ g c) =
    (match (c / 9, c mod 9) with (_, 3) | (_, 6) => [32%N] | (3, O) | (6, O) => [10%N; 10%N] | (_, O) => [10%N] | _ => [] end) ++ [glyph (at_ g c)]).
  { intros c Hc. unfold block_cell_text, glyph. f_equal. f_equal. assert (D : at_ g c <= 9) by (rewrite Forall_forall in F; apply F, nth_In; lia).
    replace (9 <? at_ g c) with false by lia. cbn [orb]. rewrite N.add_comm. reflexivity. }
  rewrite !flat_map_concat_map. rewrite (map_ext_in _ _ (seq 0 81) (fun c H => G c (proj2 (proj1 (in_seq 81 0 c) H)))). unfold block_text, row_text.
  generalize (fun c => glyph (at_ g c)) as f. intros f. reflexivity.
Qed.

(** * The two solvers *)

Lemma solvers_agree l p st g ds limit : wf_grid p -> implemented l -> strat_from_sudoku p = Ok st \/ (exists clues, strat_from_clues p clues = Ok st) ->
  strat_solve l st = Ok (true, g, ds) ->
  api_is_uniquely_solvable p = Ok true /\ api_some_solution p = Ok (Some g) /\ api_solutions_up_to p limit = Ok (firstn limit [g]) /\
  api_solutions_count_up_to p limit = Ok (Nat.min limit 1) /\ api_solution p = Ok (if clue_count p <? 17 then None else Some g).
Proof.
  intros Wf Im Cr E. destruct (solve_puzzle l p st g ds Wf Im Cr E) as [So [U Un]].
  assert (N1 : n_solutions p 1). { exists [g]. split; [constructor; [intros [] | constructor] | ]. split; [ | reflexivity]. intros s. split; [intros [<- | []]; exact So | intros H; left; symmetry; apply U, H]. }
  split; [ | split; [ | split; [ | split]]].
  - destruct (uniquely_solvable_exact p Wf) as [b [Q R]]. rewrite Q. f_equal. apply R, Un.
  - destruct (some_solution_exact p Wf) as [[s [Q R]] | [Q R]]; [rewrite Q, (U s R); reflexivity | destruct (R g So)].
  - destruct (api_list p Wf) as [L [Nd [In_ [H _]]]]. rewrite H. f_equal. f_equal.
    assert (L1 := n_solutions_unique p 1 L Nd In_ N1). destruct L as [ | a [ | b t]]; [discriminate | | discriminate]. f_equal. apply U, In_. left. reflexivity.
  - apply count_exact; assumption.
  - destruct (Nat.ltb_spec (clue_count p) 17) as [H | H]; [ | apply solution_complete_17; assumption].
    destruct (solution_exact p Wf) as [o [Q _]]. unfold api_solution in *. destruct (nums_and_clues_spec p Wf) as [_ E2].
    destruct (nums_and_clues p) as [nums n]. cbn [snd] in E2. rewrite E2. replace (clue_count p <? 17) with true by lia. reflexivity.
Qed.

(** Whatever the strategies end with, its digits are in each solution that is listed. *)
Lemma solvers_agree_digits l p st ok g ds limit sols s c : wf_grid p -> implemented l ->
  strat_from_sudoku p = Ok st \/ (exists clues, strat_from_clues p clues = Ok st) ->
  strat_solve l st = Ok (ok, g, ds) -> api_solutions_up_to p limit = Ok sols -> In s sols -> c < 81 -> at_ g c <> 0 -> at_ s c = at_ g c.
Proof.
  intros Wf Im Cr E Q Hs Hc N. assert (A : api st (given p) nothing) by (destruct Cr as [Cr | [k Cr]]; [apply api_sudoku | apply (api_clues p k)]; assumption).
  assert (So := solutions_sound p limit sols s Wf Q Hs). apply completion_given in So; [ | exact Wf].
  apply (solve_grid l st (given p) nothing ok g ds Im A E); assumption.
Qed.

(** * The early exit *)

Lemma solution_iff g s : wf_grid g ->
  (api_solution g = Ok (Some s) <-> 17 <= clue_count g /\ solution_of g s /\ forall s', solution_of g s' -> s' = s).
Proof.
  intros Wf. split.
  - intros E. split; [ | apply solution_sound; assumption]. unfold api_solution in E. destruct (nums_and_clues_spec g Wf) as [_ E2].
    destruct (nums_and_clues g) as [nums n]. cbn [snd] in E2. rewrite E2 in E. destruct (Nat.ltb_spec (clue_count g) 17) as [H | H]; [discriminate | exact H].
  - intros [H [So U]]. apply solution_complete_17; assumption.
Qed.

Lemma complete_equiv :
  (forall g s, wf_grid g -> solution_of g s -> (forall s', solution_of g s' -> s' = s) -> api_solution g = Ok (Some s)) <->
  (forall p, wf_grid p -> clue_count p < 17 -> ~ uniquely_solvable p).
Proof.
  split; [ | exact solution_complete_if]. intros H p Wf C [s [So U]]. assert (E := H p s Wf So U). apply solution_iff in E; [lia | exact Wf].
Qed.

(** * Symmetries *)

Lemma unique_fixed a p s : sym_ok a -> wf_grid p -> act a p = p -> solution_of p s -> (forall s', solution_of p s' -> s' = s) -> act a s = s.
Proof. intros Oa Wf Fx So U. apply U. rewrite <- Fx. apply act_solution; assumption. Qed.

Lemma solver_symmetric a p limit : sym_ok a -> wf_grid p ->
  api_solutions_count_up_to (act a p) limit = api_solutions_count_up_to p limit /\
  api_is_uniquely_solvable (act a p) = api_is_uniquely_solvable p /\
  (exists o, api_solution p = Ok o /\ api_solution (act a p) = Ok (option_map (act a) o)) /\
  (api_is_uniquely_solvable p = Ok true -> exists s, api_some_solution p = Ok (Some s) /\ api_some_solution (act a p) = Ok (Some (act a s))).
Proof.
  intros Oa Wf. assert (Wa := act_wf a p Oa Wf). destruct (n_solutions_exists p Wf) as [n Hn]. assert (Ha := act_n_solutions a p n Oa Wf Hn).
  split; [ | split; [ | split]].
  - rewrite (count_exact _ _ n Wf Hn), (count_exact _ _ n Wa Ha). reflexivity.
  - unfold api_is_uniquely_solvable. rewrite (count_exact _ _ n Wf Hn), (count_exact _ _ n Wa Ha). reflexivity.
  - destruct (solution_exact p Wf) as [o [E _]]. destruct (solution_exact (act a p) Wa) as [o' [E' _]]. exists o. split; [exact E | ]. rewrite E'. f_equal.
    assert (F : forall s, o = Some s -> o' = Some (act a s)).
    { intros s ->. apply solution_iff in E; [ | exact Wf]. destruct E as [C [So U]]. assert (Q : api_solution (act a p) = Ok (Some (act a s))); [ | congruence].
      apply solution_iff; [exact Wa | ]. split; [rewrite act_clue_count; assumption | ]. split; [apply act_solution; assumption | ].
      intros s' Hs'. assert (Ws := solution_wf _ _ Hs'). rewrite <- (act_inv' a s' Oa Ws) in Hs' |- *. f_equal. apply U, (act_solution_iff a p); [exact Oa | exact Wf | | exact Hs']. apply act_wf; [apply sinv_ok, Oa | exact Ws]. }
    destruct o as [s | ]; [cbn [option_map]; apply F; reflexivity | ]. cbn [option_map]. destruct o' as [s' | ]; [ | reflexivity]. exfalso.
    apply solution_iff in E'; [ | exact Wa]. destruct E' as [C [So U]]. assert (Ws := solution_wf _ _ So). assert (Wi := act_wf (sinv a) s' (sinv_ok a Oa) Ws).
    assert (Q : api_solution p = Ok (Some (act (sinv a) s'))); [ | congruence]. apply solution_iff; [exact Wf | ]. split; [rewrite <- (act_clue_count a); assumption | ].
    split; [apply (act_solution_iff a p); [exact Oa | exact Wf | exact Wi | rewrite act_inv'; assumption] | ]. intros t Ht. apply (act_inj a); [exact Oa | apply (solution_wf p), Ht | exact Wi | ].
    rewrite (act_inv' a s' Oa Ws). apply U, act_solution; assumption.
  - intros Un. destruct (uniquely_solvable_exact p Wf) as [b [Q R]]. rewrite Un in Q. injection Q as <-. destruct (proj1 R eq_refl) as [s [So U]]. exists s.
    destruct (some_solution_exact p Wf) as [[t [E T]] | [_ N]]; [ | destruct (N s So)]. rewrite E, (U t T). split; [reflexivity | ].
    destruct (some_solution_exact (act a p) Wa) as [[t' [E' T']] | [_ N]]; [ | destruct (N (act a s)); apply act_solution; assumption]. rewrite E'. do 2 f_equal.
    assert (Ws := solution_wf _ _ T'). rewrite <- (act_inv' a t' Oa Ws) in T' |- *. f_equal. apply U, (act_solution_iff a p); [exact Oa | exact Wf | apply act_wf; [apply sinv_ok, Oa | exact Ws] | exact T'].
Qed.

(** Two empty lines next to each other can be exchanged. *)
Definition exchange (i j : nat) : list nat := map (fun r => if r =? i then j else if r =? j then i else r) (seq 0 9).
Lemma nth_exchange i j r : r < 9 -> nth r (exchange i j) 0 = if r =? i then j else if r =? j then i else r.
Proof. intros H. unfold exchange. rewrite nth_map_seq by exact H. reflexivity. Qed.
Lemma exchange_line i j : i < 9 -> j < 9 -> i / 3 = j / 3 -> line_perm (exchange i j).
Proof.
  intros Hi Hj E. apply line_permb_ok. assert (B : forallb (fun i => forallb (fun j => negb (i / 3 =? j / 3) || line_permb (exchange i j)) (seq 0 9)) (seq 0 9) = true) by (vm_compute; reflexivity).
  rewrite forallb_forall in B. specialize (B i ltac:(apply in_seq; lia)). rewrite forallb_forall in B. specialize (B j ltac:(apply in_seq; lia)).
  apply orb_true_iff in B. destruct B as [B | B]; [ | exact B]. apply negb_true_iff, Nat.eqb_neq in B. contradiction.
Qed.
Lemma rename_id d : d <= 9 -> rename (seq 1 9) d = d.
Proof. intros H. unfold rename. destruct (Nat.eqb_spec d 0) as [-> | N]; [reflexivity | ]. rewrite seq_nth by lia. lia. Qed.

Lemma empty_rows_not_unique p i j : wf_grid p -> i < 9 -> j < 9 -> i <> j -> i / 3 = j / 3 -> empty_row p i -> empty_row p j -> ~ uniquely_solvable p.
Proof.
  intros Wf Hi Hj Nij Ech Ei Ej [s [So U]]. set (a := Sym false (exchange i j) (seq 0 9) (seq 1 9)).
  assert (Oa : sym_ok a) by (split; [apply exchange_line; assumption | split; [apply seq_line | apply Permutation_refl]]).
  assert (At : forall g c, wf_grid g -> c < 81 -> at_ (act a g) c = at_ g (9 * (if c / 9 =? i then j else if c / 9 =? j then i else c / 9) + c mod 9)).
  { intros g c Wg Hc. rewrite at_act by exact Hc. cbn [s_digits a]. rewrite rename_id by (apply wf_le, Wg). f_equal. unfold source. cbn [s_tr s_rows s_cols a].
    rewrite nth_exchange by lia. rewrite seq_nth by lia. reflexivity. }
  assert (Fx : act a p = p).
  { apply grid_ext; [apply act_length | apply Wf | ]. intros c Hc. rewrite (At p c Wf Hc). destruct (Nat.eqb_spec (c / 9) i) as [E | N1]; [ | destruct (Nat.eqb_spec (c / 9) j) as [E | N2]].
    - rewrite Ej by (unfold row_of; lia). symmetry. apply Ei; assumption.
    - rewrite Ei by (unfold row_of; lia). symmetry. apply Ej; assumption.
    - f_equal. lia. }
  assert (Fs := unique_fixed a p s Oa Wf Fx So U). destruct So as [[L [R Di]] Ex]. assert (Ws : wf_grid s) by (apply solved_wf; split; [exact L | split; assumption]).
  assert (E := At s (9 * i) Ws ltac:(lia)). rewrite Fs in E. replace (9 * i / 9) with i in E by lia. rewrite Nat.eqb_refl in E.
  apply (Di (9 * i) (9 * j + 9 * i mod 9)); [lia | lia | | exact E]. split; [lia | ]. right. left. unfold col_of. lia.
Qed.
Lemma empty_cols_not_unique p i j : wf_grid p -> i < 9 -> j < 9 -> i <> j -> i / 3 = j / 3 -> empty_col p i -> empty_col p j -> ~ uniquely_solvable p.
Proof.
  intros Wf Hi Hj Nij Ech Ei Ej [s [So U]]. set (a := Sym false (seq 0 9) (exchange i j) (seq 1 9)).
  assert (Oa : sym_ok a) by (split; [apply seq_line | split; [apply exchange_line; assumption | apply Permutation_refl]]).
  assert (At : forall g c, wf_grid g -> c < 81 -> at_ (act a g) c = at_ g (9 * (c / 9) + (if c mod 9 =? i then j else if c mod 9 =? j then i else c mod 9))).
  { intros g c Wg Hc. rewrite at_act by exact Hc. cbn [s_digits a]. rewrite rename_id by (apply wf_le, Wg). f_equal. unfold source. cbn [s_tr s_rows s_cols a].
    rewrite nth_exchange by lia. rewrite seq_nth by lia. reflexivity. }
  assert (Fx : act a p = p).
  { apply grid_ext; [apply act_length | apply Wf | ]. intros c Hc. rewrite (At p c Wf Hc). destruct (Nat.eqb_spec (c mod 9) i) as [E | N1]; [ | destruct (Nat.eqb_spec (c mod 9) j) as [E | N2]].
    - rewrite Ej by (unfold col_of; lia). symmetry. apply Ei; assumption.
    - rewrite Ei by (unfold col_of; lia). symmetry. apply Ej; assumption.
    - f_equal. lia. }
  assert (Fs := unique_fixed a p s Oa Wf Fx So U). destruct So as [[L [R Di]] Ex]. assert (Ws : wf_grid s) by (apply solved_wf; split; [exact L | split; assumption]).
  assert (E := At s i Ws ltac:(lia)). rewrite Fs in E. replace (i mod 9) with i in E by lia. rewrite Nat.eqb_refl in E.
  apply (Di i (9 * (i / 9) + j)); [lia | lia | | exact E]. split; [lia | ]. left. unfold row_of. lia.
Qed.

(** What is left of the puzzles that [solution] may wrongly report as not uniquely solvable *)
Lemma solution_missed p s : wf_grid p -> solution_of p s -> (forall s', solution_of p s' -> s' = s) -> api_solution p <> Ok (Some s) ->
  api_solution p = Ok None /\ clue_count p <= 16 /\ 8 <= digit_count p /\
  (forall i j, i < 9 -> j < 9 -> i <> j -> i / 3 = j / 3 -> ~ (empty_row p i /\ empty_row p j) /\ ~ (empty_col p i /\ empty_col p j)).
Proof.
  intros Wf So U N. assert (Un : uniquely_solvable p) by (exists s; auto). assert (C : clue_count p <= 16).
  { destruct (Nat.le_gt_cases (clue_count p) 16) as [H | H]; [exact H | ]. exfalso. apply N. apply solution_complete_17; [exact Wf | lia | exact So | exact U]. }
  split; [ | split; [exact C | split]].
  - destruct (solution_exact p Wf) as [[t | ] [E [H _]]]; [ | exact E]. destruct (H t eq_refl) as [St _]. rewrite (U t St) in E. contradiction.
  - destruct (Nat.le_gt_cases 8 (digit_count p)) as [H | H]; [exact H | ]. exfalso. apply (few_digits_not_unique p); assumption.
  - intros i j Hi Hj Nij Ech. split; intros [A B]; [apply (empty_rows_not_unique p i j) | apply (empty_cols_not_unique p i j)]; assumption.
Qed.

(** * The number of equivalent grids *)

Lemma canonicalized_class s : solved s -> exists m n k, canonicalized s = Ok (Some (m, n)) /\ exactly k (equivalent s) /\ (N.of_nat k * N.of_nat n = 1218998108160)%N.
Proof.
  intros So. destruct (canonicalized_count s So) as [m [n [E [A _]]]]. destruct (class_size s (solved_wf s So)) as [n' [k [A' [K M]]]].
  rewrite (automorphism_count_fun s n' n A' A) in M. exists m, n, k. auto.
Qed.

(** * Lists of strategies in any order *)

Lemma puzzle2_solved : exists g ds, strat_solve [HiddenSingles; NakedSingles] (fresh puzzle2) = Ok (true, g, ds).
Proof. destruct (outcomeb_ok [HiddenSingles; NakedSingles] puzzle2 (fun ok _ _ => ok) ltac:(vm_compute; reflexivity)) as [ok [g [ds [E B]]]]. subst ok. exists g, ds. exact E. Qed.
Lemma any_order_refuted : exists p st l1 l2 g1 g2 ds1 ds2, wf_grid p /\ uniquely_solvable p /\ strat_from_sudoku p = Ok st /\
  implemented l1 /\ Permutation l1 l2 /\ strat_solve l1 st = Ok (true, g1, ds1) /\ strat_solve l2 st = Ok (false, g2, ds2).
Proof.
  assert (W : wf_grid puzzle2) by (apply wf_gridb_ok; vm_compute; reflexivity). destruct puzzle2_solved as [g1 [ds1 E1]].
  destruct (outcomeb_ok [NakedSingles; HiddenSingles] puzzle2 (fun ok _ _ => negb ok) ltac:(vm_compute; reflexivity)) as [[ | ] [g2 [ds2 [E2 B]]]]; [discriminate | ].
  exists puzzle2, (fresh puzzle2), [HiddenSingles; NakedSingles], [NakedSingles; HiddenSingles], g1, g2, ds1, ds2.
  split; [exact W | ]. split; [exact puzzle2_unique | ]. split; [apply fresh_ok, W | ]. split; [intros S [<- | [<- | []]]; discriminate | ].
  split; [apply perm_swap | ]. split; [exact E1 | exact E2].
Qed.
