(** How the number of solutions depends on the clues *)
From Coq Require Import List Arith NArith ZArith Lia Bool.
From Verif Require Import Spec SplitSpec GeomSpec Solver Api ApiProofs Gen Strat StratSolve StratUse StratSpec StratApi.
Import ListNotations.

Lemma put_at p c d i : i < 81 -> at_ (put p c d) i = if i =? c then d else at_ p i.
Proof.
  intros Hi. unfold at_ at 1, put. rewrite (nth_indep _ 0 (if 0 =? c then d else at_ p 0)) by (rewrite map_length, seq_length; exact Hi).
  change (if 0 =? c then d else at_ p 0) with ((fun i => if i =? c then d else at_ p i) 0). rewrite map_nth, seq_nth by exact Hi. reflexivity.
Qed.

Lemma wf_at p : wf_grid p -> forall c, at_ p c <= 9.
Proof.
  intros [L F] c. destruct (Nat.lt_ge_cases c 81) as [H | H].
  - rewrite Forall_forall in F. apply F, nth_In. rewrite L. exact H.
  - unfold at_. rewrite nth_overflow by (rewrite L; exact H). lia.
Qed.

Lemma put_wf p c d : wf_grid p -> d <= 9 -> wf_grid (put p c d).
Proof.
  intros W Hd. split; [unfold put; rewrite map_length; apply seq_length | ]. apply Forall_forall. intros x Hx. unfold put in Hx.
  apply in_map_iff in Hx. destruct Hx as [i [<- _]]. destruct (i =? c); [exact Hd | apply wf_at, W].
Qed.

Lemma put_solution p c d s : c < 81 -> at_ p c = 0 -> 1 <= d -> (solution_of (put p c d) s <-> solution_of p s /\ at_ s c = d).
Proof.
  intros Hc Z Hd. split.
  - intros [So Ex]. split.
    + split; [exact So | ]. intros i Hi N. assert (Q := Ex i Hi). rewrite (put_at p c d i Hi) in Q.
      destruct (Nat.eqb_spec i c) as [-> | ]; [lia | apply Q, N].
    + assert (Q := Ex c Hc). rewrite (put_at p c d c Hc), Nat.eqb_refl in Q. apply Q. lia.
  - intros [[So Ex] Es]. split; [exact So | ]. intros i Hi N. rewrite (put_at p c d i Hi) in N |- *.
    destruct (Nat.eqb_spec i c) as [-> | ]; [exact Es | apply (Ex i Hi N)].
Qed.

(** The solutions of a puzzle, sorted by the digit of a cell *)
Lemma split_count p c n : c < 81 -> at_ p c = 0 -> n_solutions p n ->
  exists ns, Forall2 (fun d m => n_solutions (put p c d) m) (seq 1 9) ns /\ n = list_sum ns.
Proof.
  intros Hc Z Hn. destruct Hn as [L [Nd [Hi <-]]].
  set (part d := filter (fun s => at_ s c =? d) L).
  exists (map (fun d => length (part d)) (seq 1 9)). split.
  - assert (H : forall l, (forall d, In d l -> 1 <= d) -> Forall2 (fun d m => n_solutions (put p c d) m) l (map (fun d => length (part d)) l)).
    { induction l as [ | d l IH]; intros Hl; constructor; [ | apply IH; intros d' Hd'; apply Hl; right; exact Hd'].
      exists (part d). split; [apply NoDup_filter, Nd | ]. split; [ | reflexivity]. intros s. unfold part. rewrite filter_In, Hi, Nat.eqb_eq.
      symmetry. apply put_solution; [exact Hc | exact Z | apply Hl; left; reflexivity]. }
    apply H. intros d Hd. apply in_seq in Hd. lia.
  - assert (R : forall s, In s L -> 1 <= at_ s c <= 9) by (intros s Hs; apply Hi in Hs; apply (proj1 (proj2 (proj1 Hs)) c Hc)).
    clear - R. unfold part. induction L as [ | s L IH]; [reflexivity | ]. assert (Q := R s (or_introl eq_refl)).
    assert (IH' := IH (fun t Ht => R t (or_intror Ht))). clear IH R.
    cbn [length filter]. rewrite IH'. clear IH'.
    assert (C : forall l (f : nat -> nat), list_sum (map (fun d => length (if at_ s c =? d then s :: filter (fun t => at_ t c =? d) L else filter (fun t => at_ t c =? d) L)) l) =
      length (filter (fun d => at_ s c =? d) l) + list_sum (map (fun d => length (filter (fun t => at_ t c =? d) L)) l)).
    { intros l _. induction l as [ | d l IH]; [reflexivity | ]. cbn [map list_sum fold_right filter]. fold (list_sum). unfold list_sum in IH |- *. cbn [fold_right map].
      rewrite IH. destruct (at_ s c =? d); cbn [length]; lia. }
    rewrite (C _ (fun x => x)). assert (O : length (filter (fun d => at_ s c =? d) (seq 1 9)) = 1).
    { clear - Q. destruct (at_ s c) as [ | [ | [ | [ | [ | [ | [ | [ | [ | [ | k]]]]]]]]]]; try lia; reflexivity. }
    rewrite O. reflexivity.
Qed.

Lemma min_sum limit : forall ns, Nat.min limit (list_sum (map (Nat.min limit) ns)) = Nat.min limit (list_sum ns).
Proof. induction ns as [ | n ns IH]; [reflexivity | ]. cbn [map list_sum fold_right]. fold (list_sum (map (Nat.min limit) ns)) (list_sum ns). lia. Qed.

Lemma count_split p c limit : wf_grid p -> c < 81 -> at_ p c = 0 ->
  exists ns, Forall2 (fun d n => api_solutions_count_up_to (put p c d) limit = Ok n) (seq 1 9) ns /\
    api_solutions_count_up_to p limit = Ok (Nat.min limit (list_sum ns)).
Proof.
  intros W Hc Z. destruct (n_solutions_exists p W) as [n Hn]. destruct (split_count p c n Hc Z Hn) as [ns [F E]].
  exists (map (Nat.min limit) ns). split.
  - assert (B : Forall (fun d => d <= 9) (seq 1 9)) by (apply Forall_forall; intros d Hd; apply in_seq in Hd; lia). clear - W F B.
    induction F as [ | d m l ns H F IH]; cbn [map]; constructor; [apply count_exact; [apply put_wf; [exact W | inversion B; assumption] | exact H] | apply IH; inversion B; assumption].
  - rewrite min_sum, <- E. apply count_exact; assumption.
Qed.

Lemma fewer_solution p q s : fewer_clues p q -> solution_of q s -> solution_of p s.
Proof. intros F [So Ex]. split; [exact So | ]. intros c Hc N. rewrite <- (F c Hc N). apply (Ex c Hc). rewrite (F c Hc N). exact N. Qed.

Lemma count_monotone p q limit m n : wf_grid p -> wf_grid q -> fewer_clues p q ->
  api_solutions_count_up_to p limit = Ok n -> api_solutions_count_up_to q limit = Ok m -> m <= n.
Proof.
  intros Wp Wq F Ep Eq. destruct (n_solutions_exists p Wp) as [a Ha]. destruct (n_solutions_exists q Wq) as [b Hb].
  rewrite (count_exact p limit a Wp Ha) in Ep. rewrite (count_exact q limit b Wq Hb) in Eq. injection Ep as <-. injection Eq as <-.
  destruct Ha as [A [Na [Ia <-]]], Hb as [B [Nb [Ib <-]]]. assert (L : length B <= length A); [ | lia].
  apply NoDup_incl_length; [exact Nb | ]. intros s Hs. apply Ia, (fewer_solution p q s F), Ib, Hs.
Qed.

(** Clues taken from the solution keep it. *)
Lemma solution_kept p q s : wf_grid p -> wf_grid q -> fewer_clues p q -> fewer_clues q s -> solution_of p s ->
  solution_of q s /\ (api_is_uniquely_solvable p = Ok true -> api_is_uniquely_solvable q = Ok true /\ api_some_solution q = Ok (Some s)).
Proof.
  intros Wp Wq F G Sp. assert (Sq : solution_of q s) by (split; [apply Sp | exact G]). split; [exact Sq | ]. intros E.
  destruct (uniquely_solvable_exact p Wp) as [b [E' H]]. rewrite E in E'. injection E' as <-. destruct (proj1 H eq_refl) as [t [St U]].
  assert (Et := U s Sp). subst t. assert (Uq : forall s', solution_of q s' -> s' = s) by (intros s' Hs'; apply U, (fewer_solution p q s' F Hs')).
  split.
  - destruct (uniquely_solvable_exact q Wq) as [b [-> Hb]]. f_equal. apply Hb. exists s. auto.
  - destruct (some_solution_exact q Wq) as [[t [-> Ht]] | [_ N]]; [rewrite (Uq t Ht); reflexivity | destruct (N s Sq)].
Qed.

(** Two puzzles with the same solutions *)
Lemma same_solutions_count p q limit : wf_grid p -> wf_grid q -> (forall s, solution_of p s <-> solution_of q s) ->
  api_solutions_count_up_to p limit = api_solutions_count_up_to q limit.
Proof.
  intros Wp Wq H. destruct (n_solutions_exists p Wp) as [n Hn]. rewrite (count_exact p limit n Wp Hn). symmetry. apply count_exact; [exact Wq | ].
  destruct Hn as [L [Nd [Hi E]]]. exists L. split; [exact Nd | ]. split; [ | exact E]. intros s. rewrite Hi. apply H.
Qed.

Lemma deduced_same_solutions l p st ok g ds : wf_grid p -> implemented l -> api st (given p) nothing -> strat_solve l st = Ok (ok, g, ds) ->
  wf_grid g /\ fewer_clues p g /\ (forall s, solution_of g s <-> solution_of p s) /\
  forall limit, api_solutions_count_up_to g limit = api_solutions_count_up_to p limit.
Proof.
  intros W Im A R. destruct (solve_grid _ _ _ _ _ _ _ Im A R) as [Wg [Pl [So _]]].
  assert (F : fewer_clues p g). { intros c Hc N. apply Pl. split; [exact Hc | split; [exact N | reflexivity]]. }
  assert (H : forall s, solution_of g s <-> solution_of p s).
  { intros s. split; [apply fewer_solution, F | ]. intros Sp. split; [apply Sp | ]. intros c Hc N. apply (So c Hc N).
    split; [apply Sp | ]. split; [ | intros c' d' []]. intros c' d' Q. destruct Q as [Hc' [Nz <-]]. apply Sp; assumption. }
  split; [exact Wg | ]. split; [exact F | ]. split; [exact H | ]. intros limit. apply same_solutions_count; assumption.
Qed.
