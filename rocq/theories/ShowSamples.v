(** Grids for the examples about texts with candidates, and a run that differs from what is expected. *)
From Coq Require Import List Arith NArith ZArith Lia Bool.
From Verif Require Import Spec ParseSpec TableSpec Parse Bits Solver Api ApiProofs GridProofs Samples BlockProofs Geom Gen GeomProofs BitsProofs Strat StratSolve StratUse StratApi StratSamples Show ShowSpec ShowProofs ShowStrat.
Import ListNotations.

Lemma ok_cands m : (m < 512)%N -> ok_state (CCands m).
Proof. intros L i Hi. apply (proj2 (is_set_lt EDigit m) L i Hi). Qed.
Lemma table_shape g : exists n, forall l, In l (table g) -> length l = n.
Proof. exists (total g). exact (table_rectangular g). Qed.

Definition states_sample : list cell_state := [CDigit 5; CCands 3; CCands 0; CCands 8] ++ repeat (CCands 511) 73 ++ [CDigit 1; CCands 257; CDigit 9; CCands 85].
Lemma states_sample_ok : ok_states states_sample.
Proof.
  split; [reflexivity | ]. rewrite Forall_forall. intros x Hx. unfold states_sample in Hx. rewrite !in_app_iff in Hx. destruct Hx as [Hx | [Hx | Hx]].
  - repeat (destruct Hx as [<- | Hx]; [first [apply ok_cands; lia | cbn; lia] | ]). destruct Hx.
  - apply repeat_spec in Hx. subst x. apply ok_cands. lia.
  - repeat (destruct Hx as [<- | Hx]; [first [apply ok_cands; lia | cbn; lia] | ]). destruct Hx.
Qed.

Lemma words_sample : worded [32; 49; 51; 10; 97; 32; 95; 55]%N [[49; 51]; [97]; [95; 55]]%N /\ filter cell_word [[49; 51]; [97]; [95; 55]; [95]]%N = [[49; 51]; [95]]%N /\
  describes [49; 51]%N (CCands 5) /\ describes [49; 48; 49]%N (CDigit 1).
Proof.
  assert (Wt : forall c, is_white c = true -> white c) by (intros c; apply is_white_iff). assert (Nw : forall c, is_white c = false -> ~ white c) by (intros c E H; apply is_white_iff in H; congruence).
  split; [ | split; [vm_compute; reflexivity | split]].
  - apply (worded_cons [32%N] [49; 51]%N 10%N [97; 32; 95; 55]%N); [repeat constructor; apply Wt; reflexivity | discriminate | repeat constructor; apply Nw; reflexivity | apply Wt; reflexivity | ].
    apply (worded_cons [] [97]%N 32%N [95; 55]%N); [constructor | discriminate | repeat constructor; apply Nw; reflexivity | apply Wt; reflexivity | ].
    apply (worded_last [] [95; 55]%N); [constructor | discriminate | repeat constructor; apply Nw; reflexivity].
  - split.
    + intros i. destruct (le_lt_dec 9 i) as [Hi | Hi].
      * split; [intros H | lia]. assert (X := proj2 (is_set_lt EDigit 5) ltac:(reflexivity) i H). cbn in X. lia.
      * do 9 (destruct i as [ | i]; [vm_compute; split; [intros H; try discriminate; auto 6 | intros [_ H]; repeat (destruct H as [H | H]; try discriminate); try reflexivity; destruct H] | ]). lia.
    + intros d [R O]. pose proof (proj1 (O 1 ltac:(lia)) ltac:(left; reflexivity)). pose proof (proj1 (O 3 ltac:(lia)) ltac:(right; left; reflexivity)). lia.
  - split; [lia | ]. intros e He. do 10 (destruct e as [ | e]; [first [exfalso; lia | vm_compute; split; [intros H; repeat (destruct H as [H | H]; try discriminate); try reflexivity; destruct H | intros H; try discriminate; auto 6]] | ]). lia.
Qed.

Lemma display_sample : api (fresh puzzle3) (given puzzle3) nothing /\ (exists s, completion (given puzzle3) nothing s) /\
  (exists t, strat_text (fresh puzzle3) = Ok t /\ firstn 9 (skipn 66 t) = [9474; 32; 49; 55; 32; 32; 32; 32; 52]%N) /\
  (exists t, strat_text (fresh puzzle_none) = Ok t /\ length (filter (N.eqb 10) t) = 13).
Proof.
  assert (Wf : wf_grid puzzle3) by (apply wf_gridb_ok; vm_compute; reflexivity).
  split; [apply fresh_api, Wf | ]. split; [apply completion_ex; [exact Wf | exact puzzle3_unique] | ]. split; eexists; (split; [vm_compute; reflexivity | vm_compute; reflexivity]).
Qed.

Lemma none_sample : api (fresh puzzle_none) (given puzzle_none) nothing /\ (forall s, ~ completion (given puzzle_none) nothing s).
Proof.
  split; [apply fresh_api, wf_gridb_ok; vm_compute; reflexivity | ]. intros s [[_ [_ So]] [P1 _]].
  apply (So 0 1); [lia | lia | split; [lia | left; reflexivity] | ]. rewrite (P1 0 5), (P1 1 5); [reflexivity | | ]; (split; [lia | split; [lia | reflexivity]]).
Qed.

(** [solution1] without the digits of the first row *)
Definition puzzle_row : grid := repeat 0 9 ++ skipn 9 solution1.
Lemma looking_harms : exists p st cell st' x l, wf_grid p /\ uniquely_solvable p /\ strat_from_sudoku p = Ok st /\
  cell < 81 /\ strat_cell_state st cell = Ok (st', x) /\
  (exists g ds, strat_solve l st = Ok (true, g, ds)) /\ (exists g ds, strat_solve l st' = Ok (false, g, ds)).
Proof.
  assert (Wf : wf_grid puzzle_row) by (apply wf_gridb_ok; vm_compute; reflexivity).
  exists puzzle_row, (fresh puzzle_row), 40. do 2 eexists. exists [NakedSingles]. split; [exact Wf | ]. split; [apply unique_by_solver; vm_compute; reflexivity | ]. split; [apply fresh_ok, Wf | ]. split; [lia | ].
  split; [vm_compute; reflexivity | ]. split; do 2 eexists; vm_compute; reflexivity.
Qed.
