(** A sequence of calls after which [solve] returns [Ok] with a grid that breaks the rules. *)
From Coq Require Import List Arith NArith ZArith Lia Bool.
From Verif Require Import Spec Solver Api ApiProofs GridProofs Samples Geom Gen GeomProofs Strat StratSolve StratUse StratCallsSpec StratNever StratSamples.
Import ListNotations.

(** [solution1] with the last two digits exchanged: both columns have a digit twice *)
Definition wrong : grid := firstn 79 solution1 ++ [at_ solution1 80; at_ solution1 79].
(** The same without the last row, except for its last digit *)
Definition wrong_start : grid := firstn 72 wrong ++ [0; 0; 0; 0; 0; 0; 0; 0; at_ wrong 80].

(** Insert the digits of [w] into some cells; look at the first cell. *)
Fixpoint insert_all (w : grid) (l : list nat) (st : strat) : res strat :=
  match l with
  | [] => Ok st
  | c :: t => r <- insert_candidate st (c, at_ w c); if snd r then insert_all w t (fst r) else Panic
  end.
Definition look (st : strat) : res strat := r <- strat_cell_state st 0; Ok (fst r).
Definition some_calls (p w : grid) (l1 l2 : list nat) : res strat :=
  st <- strat_from_sudoku p; st <- look st; st <- insert_all w l1 st; st <- look st; st <- insert_all w l2 st; look st.
Definition state_of (r : res strat) : strat := match r with Ok st => st | _ => strat_empty end.
Definition is_ok (r : res strat) : bool := match r with Ok _ => true | _ => false end.
Definition result_of (r : res (bool * grid * deductions)) : bool * grid := match r with Ok (ok, g, _) => (ok, g) | _ => (false, []) end.
(** (a notation, not a definition: comparing the two must not make Coq run the calls) *)
Notation wrong_state := (state_of (some_calls wrong_start wrong [72; 73; 74; 75] [76; 77; 78; 79])).

Lemma is_ok_state r : is_ok r = true -> r = Ok (state_of r).
Proof. destruct r; cbn [is_ok state_of]; intros E; [reflexivity | discriminate E ..]. Qed.
Lemma result_of_ok r g : result_of r = (true, g) -> exists ds, r = Ok (true, g, ds).
Proof. destruct r as [[[ok g'] ds] | | | ]; cbn [result_of]; intros E; try discriminate E. injection E as -> ->. exists ds. reflexivity. Qed.

Definition digits_in (w : grid) (l : list nat) : bool := forallb (fun c => (c <? 81) && (1 <=? at_ w c) && (at_ w c <=? 9)) l.
Lemma insert_all_calls w l : digits_in w l = true ->
  forall st pl el st', calls st pl el -> insert_all w l st = Ok st' -> exists pl', calls st' pl' el.
Proof.
  unfold digits_in. induction l as [ | c t IH]; cbn [forallb insert_all]; intros F st pl el st' H E; [injection E as <-; exists pl; exact H | ].
  rewrite !andb_true_iff, Nat.ltb_lt, !Nat.leb_le in F. destruct F as [[[Hc D1] D2] F]. destruct (insert_candidate st (c, at_ w c)) as [[s [ | ]] | | | ] eqn:Ei; cbn [bind fst snd] in E; try discriminate.
  apply (IH F s _ _ st' (calls_insert st pl el c (at_ w c) s H Hc (conj D1 D2) Ei) E).
Qed.
Lemma look_calls st pl el st' : calls st pl el -> look st = Ok st' -> calls st' pl el.
Proof. unfold look. intros H E. destruct (strat_cell_state st 0) as [[s x] | | | ] eqn:Ec; cbn [bind fst] in E; try discriminate. injection E as <-. apply (calls_cell_state st pl el 0 s x H); [lia | exact Ec]. Qed.

Lemma some_calls_ok p w l1 l2 fin : wf_grid p -> digits_in w l1 = true -> digits_in w l2 = true -> some_calls p w l1 l2 = Ok fin -> exists pl el, calls fin pl el.
Proof.
  intros Wf D1 D2. unfold some_calls. destruct (strat_from_sudoku p) as [s0 | | | ] eqn:E0; cbn [bind]; try discriminate.
  assert (H0 := calls_sudoku p s0 Wf E0). destruct (look s0) as [s1 | | | ] eqn:E1; cbn [bind]; try discriminate. assert (H1 := look_calls _ _ _ _ H0 E1).
  destruct (insert_all w l1 s1) as [s2 | | | ] eqn:E2; cbn [bind]; try discriminate. destruct (insert_all_calls w l1 D1 _ _ _ _ H1 E2) as [p2 H2].
  destruct (look s2) as [s3 | | | ] eqn:E3; cbn [bind]; try discriminate. assert (H3 := look_calls _ _ _ _ H2 E3).
  destruct (insert_all w l2 s3) as [s4 | | | ] eqn:E4; cbn [bind]; try discriminate. destruct (insert_all_calls w l2 D2 _ _ _ _ H3 E4) as [p4 H4].
  intros E5. exists p4, nothing. apply (look_calls _ _ _ _ H4 E5).
Qed.

Lemma wrong_reached : some_calls wrong_start wrong [72; 73; 74; 75] [76; 77; 78; 79] = Ok wrong_state.
Proof. apply is_ok_state. vm_compute. reflexivity. Qed.
Lemma wrong_state_calls : exists pl el, calls wrong_state pl el.
Proof.
  assert (Wf : wf_grid wrong_start) by (apply wf_gridb_ok; vm_compute; reflexivity).
  assert (D1 : digits_in wrong [72; 73; 74; 75] = true) by (vm_compute; reflexivity). assert (D2 : digits_in wrong [76; 77; 78; 79] = true) by (vm_compute; reflexivity).
  exact (some_calls_ok _ _ _ _ _ Wf D1 D2 wrong_reached).
Qed.
Lemma wrong_solved : exists ds, strat_solve [NakedPairs; NakedSingles] wrong_state = Ok (true, wrong, ds).
Proof. apply result_of_ok. vm_compute. reflexivity. Qed.
Lemma wrong_breaks : ~ solved wrong.
Proof. intros [_ [_ So]]. apply (So 44 80); [lia | lia | split; [lia | right; left; reflexivity] | vm_compute; reflexivity]. Qed.

Lemma wrong_ok : exists l st pl el g ds, implemented l /\ calls st pl el /\ strat_solve l st = Ok (true, g, ds) /\ ~ solved g.
Proof.
  destruct wrong_state_calls as [pl [el H]]. destruct wrong_solved as [ds E]. exists [NakedPairs; NakedSingles], wrong_state, pl, el, wrong, ds.
  split; [intros S HS; repeat (destruct HS as [<- | HS]; [discriminate | ]); destruct HS | ]. split; [exact H | ]. split; [exact E | exact wrong_breaks].
Qed.

Lemma wrong_start_wf : wf_grid wrong_start.
Proof. apply wf_gridb_ok. vm_compute. reflexivity. Qed.

(** A cell is looked at, then the puzzle is solved. *)
Definition looked (p : grid) : res strat := st <- strat_from_sudoku p; look st.
Lemma looked_calls p fin : wf_grid p -> looked p = Ok fin -> calls fin (given p) nothing.
Proof.
  intros Wf. unfold looked. destruct (strat_from_sudoku p) as [s0 | | | ] eqn:E0; cbn [bind]; try discriminate.
  intros E. apply (look_calls s0); [apply (calls_sudoku p s0 Wf E0) | exact E].
Qed.
Lemma result_of_ex r : fst (result_of r) = true -> exists g ds, r = Ok (true, g, ds).
Proof. destruct r as [[[ok g] ds] | | | ]; cbn [result_of fst]; intros E; try discriminate E. subst ok. exists g, ds. reflexivity. Qed.
Lemma looked_solved : exists st s ds, implemented STRATEGY_ALL /\ calls st (given puzzle2) nothing /\ completion (given puzzle2) nothing s /\
  strat_solve STRATEGY_ALL st = Ok (true, s, ds) /\ puzzle2 <> s.
Proof.
  assert (Wf : wf_grid puzzle2) by (apply wf_gridb_ok; vm_compute; reflexivity). destruct (completion_ex puzzle2 Wf puzzle2_unique) as [s Cs].
  assert (B : is_ok (looked puzzle2) = true) by (vm_compute; reflexivity). assert (H := looked_calls puzzle2 _ Wf (is_ok_state _ B)).
  assert (Im : implemented STRATEGY_ALL) by (intros S HS; repeat (destruct HS as [<- | HS]; [discriminate | ]); destruct HS).
  assert (B2 : fst (result_of (strat_solve STRATEGY_ALL (state_of (looked puzzle2)))) = true) by (vm_compute; reflexivity).
  destruct (result_of_ex _ B2) as [g [ds E]]. assert (Eg := calls_ok _ _ _ _ _ _ s Im H Cs E). subst g.
  exists (state_of (looked puzzle2)), s, ds. split; [exact Im | ]. split; [exact H | ]. split; [exact Cs | ]. split; [exact E | ].
  intros X. destruct Cs as [[_ [D _]] _]. assert (Z : existsb (fun c => at_ puzzle2 c =? 0) (seq 0 81) = true) by (vm_compute; reflexivity).
  apply existsb_exists in Z. destruct Z as [c [Hc Z]]. apply in_seq in Hc. apply Nat.eqb_eq in Z. rewrite X in Z. destruct (D c ltac:(lia)) as [D1 _]. lia.
Qed.
