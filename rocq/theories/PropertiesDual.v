(** The strategy solver: subsets and fish of more than four cells, digits or lines. *)
From Coq Require Import List Arith NArith Lia Bool.
From Verif Require Import Spec GeomSpec Solver Gen GeomProofs GridProofs Strat StratSolve StratUse StratSpec StratOrderSpec StratWhy StratCount StratWhyLemmas StratApi StratOrder StratSamples Samples StratDual PropertiesStrat.
Import ListNotations.

(** * C94: subsets and fish come in pairs *)

(** Where a solution exists, every naked subset that removes a candidate comes with a hidden subset that removes a candidate;
    the two have at most nine cells together. *)
Theorem C94_naked_hidden : forall en el s n, completion (listed en) (listed el) s -> naked_subset (alive en el) n ->
  exists k, 1 <= k /\ n + k <= 9 /\ hidden_subset (alive en el) k.
Proof. intros en el s n Cs. exact (naked_turns en el s Cs n). Qed.
Print Assumptions C94_naked_hidden.

Theorem C94_hidden_naked : forall en el s n, completion (listed en) (listed el) s -> hidden_subset (alive en el) n ->
  exists k, 1 <= k /\ n + k <= 9 /\ naked_subset (alive en el) k.
Proof. intros en el s n Cs. exact (hidden_turns en el s Cs n). Qed.
Print Assumptions C94_hidden_naked.

(** A fish of rows comes with one of columns, unless there is a hidden single. *)
Theorem C94_fish_fish : forall en el s n, completion (listed en) (listed el) s -> fish (alive en el) n ->
  hidden_single (alive en el) \/ exists k, 1 <= k /\ n + k <= 9 /\ fish (alive en el) k.
Proof. intros en el s n Cs. exact (fish_turns en el s Cs n). Qed.
Print Assumptions C94_fish_fish.

(** Cells 0 to 4 have the candidates 1 to 5 only; digit 9 is possible in rows 0 to 4 in five columns only. *)
Definition five_cells : list (nat * nat) := list_prod [0; 1; 2; 3; 4] [6; 7; 8; 9].
Definition five_rows : list (nat * nat) := map (fun x => (9 * fst x + snd x, 9)) (list_prod [0; 1; 2; 3; 4] [0; 1; 3; 6]).
Example C94_case : completion (listed []) (listed five_cells) most_canonical /\ naked_subset (alive [] five_cells) 5 /\
  completion (listed []) (listed five_rows) most_canonical /\ fish (alive [] five_rows) 5.
Proof.
  assert (So : solved most_canonical) by (apply solvedb_ok; vm_compute; reflexivity).
  assert (Co : forall el, forallb (fun x => negb (at_ most_canonical (fst x) =? snd x)) el = true -> completion (listed []) (listed el) most_canonical).
  { intros el H. split; [exact So | ]. split; [intros c d [] | ]. intros c d Q E. rewrite forallb_forall in H. apply H in Q. cbn [fst snd] in Q. rewrite negb_true_iff, Nat.eqb_neq in Q. apply Q. exact E. }
  split; [apply Co; vm_compute; reflexivity | ]. split; [ | split; [apply Co; vm_compute; reflexivity | ]].
  - exists 0, [0; 1; 2; 3; 4], [1; 2; 3; 4; 5]. split; [lia | ]. split; [repeat constructor; cbn; lia | ]. split; [reflexivity | ]. split; [repeat constructor; cbn; lia | ]. split; [reflexivity | ].
    assert (P : forall c d, In c [0; 1; 2; 3; 4] -> In d [1; 2; 3; 4; 5] -> alive [] five_cells c d).
    { assert (B : forallb (fun c => forallb (fun d => possibleb [] five_cells (c, d)) [1; 2; 3; 4; 5]) [0; 1; 2; 3; 4] = true) by (vm_compute; reflexivity).
      intros c d Hc Hd. rewrite forallb_forall in B. specialize (B c Hc). rewrite forallb_forall in B. apply (proj1 (possibleb_iff [] five_cells c d)), B, Hd. }
    split; [ | split].
    + intros c Hc. split; [destruct Hc as [<- | [<- | [<- | [<- | [<- | []]]]]]; reflexivity | ]. exists 1. apply P; [exact Hc | left; reflexivity].
    + intros d. split; [intros Hd; exists 0; split; [left; reflexivity | apply P; [left; reflexivity | exact Hd]] | ]. intros [c [Hc [_ [Hd [N _]]]]].
      destruct (Nat.leb_spec d 5) as [L | L]; [cbn; lia | ]. exfalso. apply N. unfold listed, five_cells. apply in_prod; [exact Hc | cbn; lia].
    + exists 5, 1. split; [reflexivity | ]. split; [cbn; lia | ]. split; [left; reflexivity | ]. apply (proj1 (possibleb_iff [] five_cells 5 1)). vm_compute. reflexivity.
  - exists 9, true, [0; 1; 2; 3; 4], [11; 13; 14; 16; 17]. split; [repeat constructor; cbn; lia | ]. split; [reflexivity | ]. split; [repeat constructor; cbn; lia | ]. split; [reflexivity | ].
    assert (P : forall l k, In l [0; 1; 2; 3; 4] -> In k [2; 4; 5; 7; 8] -> in_house l (9 * l + k) /\ in_house (9 + k) (9 * l + k) /\ alive [] five_rows (9 * l + k) 9).
    { assert (B : forallb (fun l => forallb (fun k => in_houseb l (9 * l + k) && (in_houseb (9 + k) (9 * l + k) && possibleb [] five_rows (9 * l + k, 9))) [2; 4; 5; 7; 8]) [0; 1; 2; 3; 4] = true)
        by (vm_compute; reflexivity).
      intros l k Hl Hk. rewrite forallb_forall in B. specialize (B l Hl). rewrite forallb_forall in B. specialize (B k Hk). rewrite !andb_true_iff, !in_houseb_iff, possibleb_iff in B. exact B. }
    split; [intros l Hl; cbn in Hl; lia | ]. split; [ | split].
    + intros l Hl. destruct (P l 2 Hl) as [I2 [_ A2]]; [left; reflexivity | ]. destruct (P l 4 Hl) as [I4 [_ A4]]; [right; left; reflexivity | ].
      exists (9 * l + 2), (9 * l + 4). split; [lia | auto].
    + intros k. split.
      * intros Hk. split; [cbn in Hk; lia | ]. destruct (P 0 (k - 9)) as [I1 [I2 Al]]; [left; reflexivity | cbn in Hk |- *; lia | ].
        exists 0, (9 * 0 + (k - 9)). split; [left; reflexivity | ]. split; [exact I1 | ]. split; [ | exact Al]. replace (9 + (k - 9)) with k in I2 by (cbn in Hk; lia). exact I2.
      * intros [Rk [l [c [Hl [Il [Ik Al]]]]]]. assert (Hc : c < 81) by apply Al.
        assert (B : forallb (fun c => implb ((row_of c <? 5) && possibleb [] five_rows (c, 9)) (if in_dec Nat.eq_dec (9 + col_of c) [11; 13; 14; 16; 17] then true else false)) (seq 0 81) = true)
          by (vm_compute; reflexivity).
        rewrite forallb_forall in B. assert (Bc := B c). rewrite in_seq in Bc. specialize (Bc ltac:(lia)).
        assert (R5 : (row_of c <? 5) = true). { apply Nat.ltb_lt. unfold in_house in Il. replace (l <? 9) with true in Il by (symmetry; apply Nat.ltb_lt; cbn in Hl; lia). rewrite Il. cbn in Hl. lia. }
        assert (Pc := proj2 (possibleb_iff [] five_rows c 9) Al). rewrite R5, Pc in Bc. cbn [andb implb] in Bc.
        assert (Ek : 9 + col_of c = k). { unfold in_house in Ik. destruct (Nat.ltb_spec k 9); [lia | ]. destruct (Nat.ltb_spec k 18); [ | lia]. rewrite Ik. lia. }
        rewrite <- Ek. destruct (in_dec Nat.eq_dec (9 + col_of c) [11; 13; 14; 16; 17]) as [Y | Y]; [exact Y | discriminate Bc].
    + exists 11, 47. split; [left; reflexivity | ]. split; [reflexivity | ]. split; [ | apply (proj1 (possibleb_iff [] five_rows 47 9)); vm_compute; reflexivity].
      intros l [<- | [<- | [<- | [<- | [<- | []]]]]] Q; discriminate Q.
Qed.

(** * C95: nothing is missed by looking for at most four *)

(** When the solver gives up with a list that exhausts the subsets of up to four cells and the hidden singles, larger subsets
    remove nothing either, except where a naked single is left. *)
Theorem C95_subsets : forall l st pl el g ds, implemented l -> api st pl el -> (exists s, completion pl el s) -> strat_solve l st = Ok (false, g, ds) ->
  (forall S, In S [HiddenSingles; NakedPairs; NakedTriples; NakedQuads; HiddenPairs; HiddenTriples; HiddenQuads] -> exhausts l S) ->
  forall n, naked_subset (alive (d_entries ds) (d_elims ds)) n \/ hidden_subset (alive (d_entries ds) (d_elims ds)) n -> naked_single (alive (d_entries ds) (d_elims ds)).
Proof. exact subsets_exhausted. Qed.
Print Assumptions C95_subsets.

Theorem C95_no_subsets : forall l st pl el g ds, implemented l -> api st pl el -> (exists s, completion pl el s) -> strat_solve l st = Ok (false, g, ds) ->
  (forall S, In S [NakedSingles; HiddenSingles; NakedPairs; NakedTriples; NakedQuads; HiddenPairs; HiddenTriples; HiddenQuads] -> exhausts l S) ->
  forall n, ~ naked_subset (alive (d_entries ds) (d_elims ds)) n /\ ~ hidden_subset (alive (d_entries ds) (d_elims ds)) n.
Proof. exact subsets_exhausted_all. Qed.
Print Assumptions C95_no_subsets.

Theorem C95_no_fish : forall l st pl el g ds, implemented l -> api st pl el -> (exists s, completion pl el s) -> strat_solve l st = Ok (false, g, ds) ->
  (forall S, In S [HiddenSingles; XWing; Swordfish; Jellyfish] -> exhausts l S) -> forall n, ~ fish (alive (d_entries ds) (d_elims ds)) n.
Proof. exact fish_exhausted. Qed.
Print Assumptions C95_no_fish.

(** All strategies give up a puzzle with 60 empty cells left. *)
Example C95_case : implemented STRATEGY_ALL /\ api (fresh puzzle4) (given puzzle4) nothing /\ (exists s, completion (given puzzle4) nothing s) /\
  outcome STRATEGY_ALL puzzle4 (fun ok g _ => ok = false /\ length (filter (fun d => d =? 0) g) = 60) /\
  forall S, In S [HiddenSingles; NakedPairs; NakedTriples; NakedQuads; HiddenPairs; HiddenTriples; HiddenQuads; XWing; Swordfish; Jellyfish] -> exhausts STRATEGY_ALL S.
Proof.
  destruct C57_case as [Im [Ap [Co _]]]. split; [exact Im | ]. split; [exact Ap | ]. split; [exact Co | ]. split.
  - apply (outcome_weaken _ _ _ _ all_on_puzzle4). intros ok g ds [[A [B _]] _]. auto.
  - intros S Hs. left. cbn in Hs |- *. tauto.
Qed.
