(** The strategy solver finds all that its strategies can prove. *)
From Coq Require Import List Arith NArith ZArith Lia Bool Permutation.
From Verif Require Import Spec GeomSpec Solver Gen Strat StratSolve StratUse StratSpec StratOrderSpec StratWhy StratWhyLemmas StratApi StratCertify StratBound StratOrder RelateProofs.
Import ListNotations.

Lemma explained_range l : forall r pl el, explained l pl el r -> forall z c d, In z r -> places z c d -> c < 81 /\ 1 <= d <= 9.
Proof.
  induction r as [ | z r IH]; intros pl el X z' c d Hi Pz; [destruct Hi | ].
  destruct X as [[S [_ [_ W]]] X]. destruct Hi as [<- | Hi]; [ | exact (IH _ _ X z' c d Hi Pz)].
  destruct Pz as [-> | [h ->]]; cbn [why] in W; [destruct W as [_ [Hc [Hd _]]] | destruct W as [_ [Hc [Hd _]]]]; auto.
Qed.

Lemma any_proof_found l l' st pl el ok g ds r : implemented l -> l <> [] -> covers l l' -> api st pl el -> (exists s, completion pl el s) ->
  strat_solve l st = Ok (ok, g, ds) -> explained l' pl el r ->
  (forall c d, all_places pl r c d -> at_ g c = d) /\ (forall c d, all_removes el r c d -> ~ alive (d_entries ds) (d_elims ds) c d).
Proof.
  intros Im Ne Cv A Co R X. assert (Co' := Co). destruct Co' as [s Cs].
  destruct (solve_explained _ _ _ _ _ _ _ Im A R) as [r2 [_ [X2 [P2 Q2]]]].
  destruct (solve_grid _ _ _ _ _ _ _ Im A R) as [W2 [_ [S2 G2]]].
  destruct ok.
  - destruct (solve_ok _ _ _ _ _ _ Im A R) as [Sg [_ U]]. assert (Es := U s Cs).
    assert (Sd := explained_sound _ _ _ _ _ X Cs). rewrite Es in *. split; [apply Sd | ].
    intros c d _ [Hc [_ [_ V]]]. destruct (proj1 (proj2 Sg) c Hc) as [Lo _].
    destruct (V c (at_ g c)) as [N _]; [apply G2; auto | ]. apply N. reflexivity.
  - destruct l as [ | first rest]; [contradiction | ].
    assert (NF : forall S S', In S l' -> In S' (turns_into S) -> ~ fires (alive (d_entries ds) (d_elims ds)) S').
    { intros S S' Hs Hs'. apply (solve_gives_up first rest st pl el g ds S' Im A R Co). exact (Cv S S' Hs Hs'). }
    assert (Cs2 : completion (listed (d_entries ds)) (listed (d_elims ds)) s).
    { apply (completion_same (all_places pl r2) _ (all_removes el r2) _ s); [intros c d; symmetry; apply P2 | intros c d; symmetry; apply Q2 | ].
      apply (explained_sound _ _ _ _ _ X2 Cs). }
    destruct (run_order (d_entries ds) (d_elims ds) s Cs2 l' NF r pl el Cs X) as [H K].
    + intros c d Q. apply P2. left. exact Q.
    + intros c d Q [_ [_ [N _]]]. apply N, Q2. left. exact Q.
    + split; [ | exact K]. intros c d Q. apply H, G2 in Q. apply Q.
Qed.

Lemma solves_iff_proof l st pl el ok g ds : implemented l -> l <> [] -> covers l l -> api st pl el -> (exists s, completion pl el s) ->
  strat_solve l st = Ok (ok, g, ds) ->
  (ok = true <-> exists r, explained l pl el r /\ forall c, c < 81 -> exists d, all_places pl r c d).
Proof.
  intros Im Ne Cv A Co R. destruct (solve_grid _ _ _ _ _ _ _ Im A R) as [_ [_ [_ G]]]. split.
  - intros ->. destruct (solve_explained _ _ _ _ _ _ _ Im A R) as [r [_ [X [P _]]]]. exists r. split; [exact X | ].
    destruct (solve_ok _ _ _ _ _ _ Im A R) as [Sg _]. intros c Hc. exists (at_ g c). apply P, G. destruct (proj1 (proj2 Sg) c Hc). auto.
  - intros [r [X F]]. destruct ok; [reflexivity | exfalso]. destruct (any_proof_found l l st pl el false g ds r Im Ne Cv A Co R X) as [H _].
    destruct l as [ | first rest]; [contradiction | ]. destruct (gives_up_unfinished first rest st pl el g ds Im A Co R) as [c [Hc Z]].
    destruct (F c Hc) as [d Pd]. assert (E := H c d Pd). destruct Co as [s Cs]. assert (Q := proj1 (proj2 (explained_sound _ _ _ _ _ X Cs)) c d Pd).
    destruct (proj1 (proj2 (proj1 Cs)) c Hc). lia.
Qed.

Lemma left_iff_unrefuted l st pl el ok g ds : implemented l -> l <> [] -> covers l l -> api st pl el -> (exists s, completion pl el s) ->
  strat_solve l st = Ok (ok, g, ds) -> forall c d,
  (alive (d_entries ds) (d_elims ds) c d <-> forall r, explained l pl el r -> possible (all_places pl r) (all_removes el r) c d).
Proof.
  intros Im Ne Cv A Co R c d. destruct (solve_grid _ _ _ _ _ _ _ Im A R) as [_ [_ [_ G]]]. split.
  - intros Al r X. destruct (any_proof_found l l st pl el ok g ds r Im Ne Cv A Co R X) as [H K]. assert (Al' := Al). destruct Al' as [Hc [Hd [_ V]]].
    split; [exact Hc | ]. split; [exact Hd | ]. split; [intros Q; exact (K c d Q Al) | ]. intros c' d' Q. apply V. apply G.
    assert (E := H c' d' Q). destruct Co as [s Cs]. assert (Sd := explained_sound _ _ _ _ _ X Cs). assert (Es := proj1 (proj2 Sd) c' d' Q).
    assert (Hc' : c' < 81).
    { destruct Q as [Q | [z [Hz Pz]]]; [ | apply (explained_range l r pl el X z c' d' Hz Pz)].
      destruct (solve_explained _ _ _ _ _ _ _ Im A R) as [r2 [_ [_ [P2 _]]]]. apply (G c' d'), P2. left. exact Q. }
    split; [exact Hc' | ]. split; [ | exact E]. destruct (proj1 (proj2 (proj1 Cs)) c' Hc'). lia.
  - intros H. destruct (solve_explained _ _ _ _ _ _ _ Im A R) as [r [_ [X [P Q]]]]. destruct (H r X) as [Hc [Hd [N V]]].
    split; [exact Hc | ]. split; [exact Hd | ]. split; [intros I; apply N, Q, I | ]. intros c' d' I. apply V, P, I.
Qed.

Lemma explained_incl l l' : (forall S, In S l -> In S l') -> forall r pl el, explained l pl el r -> explained l' pl el r.
Proof.
  intros I. induction r as [ | z r IH]; intros pl el X; [exact X | ]. destruct X as [[S [Hs W]] X]. split; [exists S; auto | exact (IH _ _ X)].
Qed.

Lemma any_list_refuted : exists p st l g ds r, wf_grid p /\ uniquely_solvable p /\ strat_from_sudoku p = Ok st /\ implemented l /\
  strat_solve l st = Ok (false, g, ds) /\ explained l (given p) nothing r /\ forall c, c < 81 -> exists d, all_places (given p) r c d.
Proof.
  destruct any_order_refuted as [p [st [l1 [l2 [g1 [g2 [ds1 [ds2 [W [U [F [Im [Pm [R1 R2]]]]]]]]]]]]]].
  assert (A : api st (given p) nothing) by (apply (api_sudoku p st W F)).
  destruct (solve_explained _ _ _ _ _ _ _ Im A R1) as [r [_ [X [P _]]]]. exists p, st, l2, g2, ds2, r.
  split; [exact W | ]. split; [exact U | ]. split; [exact F | ].
  split; [intros S Hs; apply Im, (Permutation_in S (Permutation_sym Pm) Hs) | ]. split; [exact R2 | ].
  split; [apply (explained_incl l1 l2 (fun S => Permutation_in S Pm)), X | ].
  destruct (solve_ok _ _ _ _ _ _ Im A R1) as [Sg _]. destruct (solve_grid _ _ _ _ _ _ _ Im A R1) as [_ [_ [_ G]]].
  intros c Hc. exists (at_ g1 c). apply P, G. destruct (proj1 (proj2 Sg) c Hc). auto.
Qed.
