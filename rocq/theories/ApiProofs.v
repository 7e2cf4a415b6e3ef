(** The public solving methods in terms of the set of solutions. *)
From Coq Require Import List Arith NArith ZArith ZifyNat Lia Bool.
From Verif Require Import Spec Tables Solver Api BitLemmas GridProofs SolverInv GuessProofs.
Import ListNotations.
Ltac Zify.zify_post_hook ::= Z.to_euclidean_division_equations.

Lemma push_vector l : forall v, push (Vector v) l = Vector (v ++ l).
Proof.
  induction l as [ | g t IH]; intros v; [rewrite app_nil_r; reflexivity | ].
  change (push (Vector v) (g :: t)) with (push (push1 (Vector v) g) t). cbn [push1]. rewrite IH, <- app_assoc. reflexivity.
Qed.

Lemma push_count l : forall n, push (Count n) l = Count (n + length l).
Proof.
  induction l as [ | g t IH]; intros n; [rewrite Nat.add_0_r; reflexivity | ].
  change (push (Count n) (g :: t)) with (push (push1 (Count n) g) t). cbn [push1 length]. rewrite IH. f_equal. lia.
Qed.

Lemma lset_split {A} (l : list A) : forall i x, i < length l -> lset l i x = firstn i l ++ x :: skipn (S i) l.
Proof.
  induction l as [ | h t IH]; intros [ | i] x H; cbn [length] in H; try lia; [reflexivity | ].
  cbn [lset firstn skipn app]. f_equal. apply IH. lia.
Qed.

Lemma skipn_skipn' {A} n : forall k (l : list A), skipn k (skipn n l) = skipn (n + k) l.
Proof.
  induction n as [ | n IH]; intros k l; [reflexivity | ].
  destruct l; [rewrite !skipn_nil; reflexivity | ]. cbn [skipn Nat.add]. apply IH.
Qed.

Lemma buffer_step {A} (buf : list A) n g (t : list A) : n < length buf ->
  firstn (S n) (lset buf n g) ++ firstn (length buf - S n) t ++ skipn (S n + length t) (lset buf n g) =
  firstn n buf ++ firstn (length buf - n) (g :: t) ++ skipn (n + S (length t)) buf.
Proof.
  intros H.
  assert (E0 : firstn (length buf - n) (g :: t) = g :: firstn (length buf - S n) t)
    by (replace (length buf - n) with (S (length buf - S n)) by lia; reflexivity).
  rewrite E0, lset_split by exact H.
  assert (E1 : firstn (S n) (firstn n buf ++ g :: skipn (S n) buf) = firstn n buf ++ [g]).
  { rewrite firstn_app, firstn_length, Nat.min_l by lia. rewrite firstn_firstn, Nat.min_r by lia.
    replace (S n - n) with 1 by lia. reflexivity. }
  rewrite E1, <- app_assoc. cbn [app]. do 3 f_equal.
  assert (E2 : forall k, skipn (n + S k) (firstn n buf ++ g :: skipn (S n) buf) = skipn (n + S k) buf).
  { intros k. rewrite <- (firstn_skipn n buf) at 3. rewrite !skipn_app, !firstn_length, !Nat.min_l by lia. f_equal.
    replace (n + S k - n) with (S k) by lia. change (skipn (S k) (g :: skipn (S n) buf)) with (skipn k (skipn (S n) buf)).
    rewrite !skipn_skipn'. f_equal. lia. }
  replace (S n + length t) with (n + S (length t)) by lia. apply E2.
Qed.

Lemma push_buffer l : forall buf n,
  push (Buffer buf n) l = Buffer (firstn n buf ++ firstn (length buf - n) l ++ skipn (n + length l) buf) (n + length l).
Proof.
  induction l as [ | g t IH]; intros buf n.
  - cbn [length]. rewrite Nat.add_0_r, firstn_nil. cbn [app]. rewrite firstn_skipn. reflexivity.
  - change (push (Buffer buf n) (g :: t)) with (push (push1 (Buffer buf n) g) t). cbn [push1 length].
    destruct (Nat.ltb_spec n (length buf)) as [H | H].
    + rewrite IH. rewrite lset_length. rewrite buffer_step by exact H. f_equal. lia.
    + rewrite IH. replace (length buf - n) with 0 by lia. replace (length buf - S n) with 0 by lia. rewrite !firstn_O.
      rewrite !firstn_all2 by lia. rewrite !skipn_all2 by lia. rewrite !app_nil_r. f_equal. lia.
Qed.

(** One list of solutions per puzzle explains every entry point. *)
Lemma api_list g : wf_grid g -> exists L, NoDup L /\ (forall s, In s L <-> solution_of g s) /\
  (forall limit, api_solutions_up_to g limit = Ok (firstn limit L)) /\
  (forall limit, api_solutions_count_up_to g limit = Ok (Nat.min limit (length L))) /\
  (forall buf limit, api_solutions_up_to_buffer g buf limit =
     Ok (Nat.min limit (length L), firstn (length buf) (firstn limit L) ++ skipn (Nat.min limit (length L)) buf)).
Proof.
  intros Hwf. destruct (run_sudoku_spec g Hwf) as [L [Hnd [Hin Hrun]]]. exists L.
  split; [exact Hnd | ]. split; [exact Hin | ].
  unfold run_sudoku in Hrun.
  split; [ | split].
  - intros limit. specialize (Hrun limit (Vector []) ltac:(cbn; lia)). unfold api_solutions_up_to.
    cbn [sols_len length] in Hrun. rewrite Nat.sub_0_r, push_vector in Hrun. cbn [app] in Hrun.
    destruct (from_sudoku g) as [st | | | ]; try discriminate Hrun.
    + unfold solver_solutions_up_to. rewrite Hrun. reflexivity.
    + injection Hrun as E. rewrite <- E. reflexivity.
  - intros limit. specialize (Hrun limit (Count 0) ltac:(cbn; lia)). unfold api_solutions_count_up_to.
    cbn [sols_len] in Hrun. rewrite Nat.sub_0_r, push_count, firstn_length in Hrun.
    destruct (from_sudoku g) as [st | | | ]; try discriminate Hrun.
    + unfold solver_solutions_count_up_to. rewrite Hrun. reflexivity.
    + injection Hrun as E. rewrite E. reflexivity.
  - intros buf limit. specialize (Hrun limit (Buffer buf 0) ltac:(cbn; lia)). unfold api_solutions_up_to_buffer.
    cbn [sols_len] in Hrun. rewrite Nat.sub_0_r, push_buffer, firstn_length in Hrun.
    cbn [firstn app] in Hrun. rewrite Nat.sub_0_r, Nat.add_0_l in Hrun.
    destruct (from_sudoku g) as [st | | | ]; try discriminate Hrun.
    + unfold solver_solutions_up_to_buffer. rewrite Hrun. reflexivity.
    + injection Hrun as E1 E2. rewrite <- E2 in E1 |- *. rewrite <- E1. reflexivity.
Qed.

(** ** Sound, complete, no repetition *)
Lemma solutions_sound g limit l s : wf_grid g -> api_solutions_up_to g limit = Ok l -> In s l -> solution_of g s.
Proof.
  intros Hwf E Hs. destruct (api_list g Hwf) as [L [_ [Hin [H _]]]]. rewrite H in E. injection E as <-.
  apply Hin. revert Hs. rewrite <- (firstn_skipn limit L) at 2. intros Hs. apply in_or_app. left. exact Hs.
Qed.

Lemma solutions_complete g limit l : wf_grid g -> api_solutions_up_to g limit = Ok l -> length l < limit ->
  forall s, solution_of g s -> In s l.
Proof.
  intros Hwf E Hlen s Hs. destruct (api_list g Hwf) as [L [_ [Hin [H _]]]]. rewrite H in E. injection E as <-.
  rewrite firstn_length in Hlen. rewrite firstn_all2 by lia. apply Hin. exact Hs.
Qed.

Lemma NoDup_firstn {A} n (l : list A) : NoDup l -> NoDup (firstn n l).
Proof.
  intros H. revert n. induction H as [ | x l Hx Hl IH]; intros [ | n]; cbn [firstn]; constructor; [ | apply IH].
  intros Hin. apply Hx. rewrite <- (firstn_skipn n l). apply in_or_app. left. exact Hin.
Qed.

Lemma solutions_nodup g limit l : wf_grid g -> api_solutions_up_to g limit = Ok l -> NoDup l /\ length l <= limit.
Proof.
  intros Hwf E. destruct (api_list g Hwf) as [L [Hnd [_ [H _]]]]. rewrite H in E. injection E as <-.
  split; [apply NoDup_firstn; exact Hnd | rewrite firstn_length; lia].
Qed.

Lemma solutions_prefix g m n lm ln : wf_grid g -> m <= n -> api_solutions_up_to g m = Ok lm ->
  api_solutions_up_to g n = Ok ln -> lm = firstn m ln.
Proof.
  intros Hwf Hmn Em En. destruct (api_list g Hwf) as [L [_ [_ [H _]]]]. rewrite H in Em, En.
  injection Em as <-. injection En as <-. rewrite firstn_firstn, Nat.min_l by lia. reflexivity.
Qed.

(** ** Counting *)
Lemma n_solutions_unique g n L : NoDup L -> (forall s, In s L <-> solution_of g s) -> n_solutions g n -> n = length L.
Proof.
  intros Hnd Hin [l [Hnd' [Hin' <-]]]. apply Nat.le_antisymm; apply NoDup_incl_length; auto;
    intros s Hs; [apply Hin, Hin' | apply Hin', Hin]; exact Hs.
Qed.

Lemma n_solutions_exists g : wf_grid g -> exists n, n_solutions g n.
Proof.
  intros Hwf. destruct (api_list g Hwf) as [L [Hnd [Hin _]]]. exists (length L), L. auto.
Qed.

Lemma count_exact g limit n : wf_grid g -> n_solutions g n -> api_solutions_count_up_to g limit = Ok (Nat.min limit n).
Proof.
  intros Hwf Hn. destruct (api_list g Hwf) as [L [Hnd [Hin [_ [H _]]]]]. rewrite H.
  rewrite (n_solutions_unique g n L Hnd Hin Hn). reflexivity.
Qed.

Lemma count_length g limit : wf_grid g -> exists l, api_solutions_up_to g limit = Ok l /\
  api_solutions_count_up_to g limit = Ok (length l).
Proof.
  intros Hwf. destruct (api_list g Hwf) as [L [_ [_ [H [Hc _]]]]]. exists (firstn limit L).
  rewrite H, Hc, firstn_length. auto.
Qed.

Lemma buffer_exact g buf limit : wf_grid g -> exists l, api_solutions_up_to g limit = Ok l /\
  api_solutions_up_to_buffer g buf limit = Ok (length l, firstn (length buf) l ++ skipn (length l) buf).
Proof.
  intros Hwf. destruct (api_list g Hwf) as [L [_ [_ [H [_ Hb]]]]]. exists (firstn limit L).
  rewrite H, Hb, firstn_length. auto.
Qed.

(** The buffer result slot by slot. *)
Lemma buffer_slots g buf limit : wf_grid g -> exists l buf', api_solutions_up_to g limit = Ok l /\
  api_solutions_up_to_buffer g buf limit = Ok (length l, buf') /\
  length buf' = length buf /\
  (forall i d, i < length buf -> i < length l -> nth i buf' d = nth i l d) /\
  (forall i d, i < length buf -> length l <= i -> nth i buf' d = nth i buf d).
Proof.
  intros Hwf. destruct (buffer_exact g buf limit Hwf) as [l [E1 E2]]. exists l. eexists.
  split; [exact E1 | ]. split; [exact E2 | ].
  split; [rewrite app_length, firstn_length, skipn_length; lia | ]. split; intros i d Hb Hl.
  - rewrite app_nth1 by (rewrite firstn_length; lia). rewrite <- (firstn_skipn (length buf) l) at 2.
    rewrite app_nth1 by (rewrite firstn_length; lia). reflexivity.
  - rewrite app_nth2 by (rewrite firstn_length; lia). rewrite firstn_length, Nat.min_r by lia.
    rewrite <- (firstn_skipn (length l) buf) at 2.
    rewrite app_nth2 by (rewrite firstn_length; lia). rewrite firstn_length, Nat.min_l by lia. reflexivity.
Qed.

(** ** Single solutions *)
Lemma some_solution_exact g : wf_grid g ->
  (exists s, api_some_solution g = Ok (Some s) /\ solution_of g s) \/
  (api_some_solution g = Ok None /\ forall s, ~ solution_of g s).
Proof.
  intros Hwf. destruct (api_list g Hwf) as [L [_ [Hin [_ [_ Hb]]]]]. unfold api_some_solution. rewrite Hb. cbn [bind fst snd].
  destruct L as [ | s L].
  - right. cbn [length Nat.min Nat.eqb]. split; [reflexivity | ]. intros s Hs. apply Hin in Hs. destruct Hs.
  - left. exists s. split; [ | apply Hin; left; reflexivity].
    cbn [length Nat.min Nat.eqb firstn repeat app]. reflexivity.
Qed.

Lemma unique_iff_length g L : NoDup L -> (forall s, In s L <-> solution_of g s) ->
  (uniquely_solvable g <-> length L = 1).
Proof.
  intros Hnd Hin. split.
  - intros [s [Hs Hu]]. destruct L as [ | a [ | b t]].
    + apply Hin in Hs. destruct Hs.
    + reflexivity.
    + exfalso. inversion Hnd as [ | x y Hna Hnd']; subst. apply Hna. left.
      transitivity s; [ | symmetry]; apply Hu, Hin; [right; left | left]; reflexivity.
  - destruct L as [ | a [ | b t]]; cbn [length]; try lia. intros _. exists a.
    split; [apply Hin; left; reflexivity | ]. intros s' Hs'. apply Hin in Hs'. destruct Hs' as [-> | []]. reflexivity.
Qed.

Lemma uniquely_solvable_exact g : wf_grid g -> exists b, api_is_uniquely_solvable g = Ok b /\
  (b = true <-> uniquely_solvable g).
Proof.
  intros Hwf. destruct (api_list g Hwf) as [L [Hnd [Hin [_ [Hc _]]]]]. unfold api_is_uniquely_solvable. rewrite Hc.
  cbn [bind]. eexists. split; [reflexivity | ]. rewrite (unique_iff_length g L Hnd Hin).
  rewrite Nat.eqb_eq. lia.
Qed.

(** [solution] without the early exits. *)
Lemma solution_buffer g : wf_grid g -> exists o,
  (r <- api_solutions_up_to_buffer g [repeat 0 81] 2;
   if fst r =? 1 then s <- aget (snd r) 0; Ok (Some s) else Ok None) = Ok o /\
  forall s, o = Some s <-> solution_of g s /\ forall s', solution_of g s' -> s' = s.
Proof.
  intros Hwf. destruct (api_list g Hwf) as [L [Hnd [Hin [_ [_ Hb]]]]]. rewrite Hb. cbn [bind fst snd].
  destruct L as [ | a [ | b t]].
  - exists None. cbn [length Nat.min Nat.eqb]. split; [reflexivity | ]. intros s. split; [discriminate | ].
    intros [Hs _]. apply Hin in Hs. destruct Hs.
  - exists (Some a). cbn [length Nat.min Nat.eqb firstn app skipn repeat]. split; [reflexivity | ]. intros s. split.
    + intros E. injection E as <-. split; [apply Hin; left; reflexivity | ]. intros s' Hs'.
      apply Hin in Hs'. destruct Hs' as [-> | []]. reflexivity.
    + intros [_ Hu]. f_equal. apply Hu, Hin. left. reflexivity.
  - exists None. cbn [length Nat.min Nat.eqb]. split; [reflexivity | ]. intros s. split; [discriminate | ].
    intros [_ Hu]. exfalso. inversion Hnd as [ | x y Hna Hnd']; subst. apply Hna. left.
    transitivity s; [ | symmetry]; apply Hu, Hin; [right; left | left]; reflexivity.
Qed.

(** ** Early exits of [solution] *)
Lemma tb_div2 m i : tb (N.div2 m) i = tb m (S i).
Proof. unfold tb. rewrite N.div2_spec. rewrite N.shiftr_spec'. f_equal. lia. Qed.

Lemma count_ones_div2 m : count_ones m = (if tb m 0 then 1 else 0) + count_ones (N.div2 m).
Proof. destruct m as [ | [p | p | ]]; reflexivity. Qed.

Lemma count_ones_spec n : forall m, (m < 2 ^ N.of_nat n)%N -> count_ones m = length (filter (tb m) (seq 0 n)).
Proof.
  induction n as [ | n IH]; intros m H.
  - cbn in H. replace m with 0%N by lia. reflexivity.
  - rewrite count_ones_div2. rewrite IH.
    2: { apply N.div2_spec in H || idtac. rewrite N.div2_div. apply N.div_lt_upper_bound; [lia | ].
         rewrite Nat2N.inj_succ, N.pow_succ_r' in H. exact H. }
    change (seq 0 (S n)) with (0 :: seq 1 n). cbn [filter].
    assert (E : length (filter (tb (N.div2 m)) (seq 0 n)) = length (filter (tb m) (seq 1 n))).
    { rewrite <- seq_shift. generalize (seq 0 n). intros l. induction l as [ | x t IHl]; [reflexivity | ].
      cbn [filter map]. rewrite tb_div2. destruct (tb m (S x)); cbn [length]; rewrite IHl; reflexivity. }
    rewrite E. destruct (tb m 0); reflexivity.
Qed.

Lemma nums_spec g : forall acc, Forall (fun d => d <= 9) g ->
  let r := fold_left (fun acc d => if d =? 0 then acc
                          else (N.lor (fst acc) (N.shiftl 1 (N.of_nat d)), S (snd acc))) g acc in
  (forall i, tb (fst r) i = tb (fst acc) i || (negb (i =? 0) && existsb (Nat.eqb i) g)) /\
  snd r = snd acc + length (filter (fun d => negb (d =? 0)) g).
Proof.
  induction g as [ | d t IH]; intros acc HF; cbn zeta.
  - cbn [fold_left existsb filter length]. split; [intros i; rewrite andb_false_r, orb_false_r; reflexivity | lia].
  - inversion HF; subst. cbn [fold_left filter existsb].
    destruct (Nat.eqb_spec d 0) as [-> | Hd]; cbn [negb].
    + specialize (IH acc H2). cbn zeta in IH. destruct IH as [IH1 IH2]. split; [ | exact IH2].
      intros i. rewrite IH1. destruct (Nat.eqb_spec i 0); reflexivity.
    + specialize (IH (N.lor (fst acc) (N.shiftl 1 (N.of_nat d)), S (snd acc)) H2). cbn zeta in IH. cbn [fst snd] in IH.
      destruct IH as [IH1 IH2]. split.
      * intros i. rewrite IH1, tb_lor, tb_shiftl1. destruct (tb (fst acc) i); [reflexivity | ]. cbn [orb].
        destruct (Nat.eqb_spec i d); destruct (Nat.eqb_spec i 0); cbn [orb negb andb]; try reflexivity; lia.
      * rewrite IH2. cbn [length]. lia.
Qed.

Lemma filter_at_seq (g : grid) : forall k, length (filter (fun d => negb (d =? 0)) g) =
  length (filter (fun c => negb (nth (c - k) g 0 =? 0)) (seq k (length g))).
Proof.
  induction g as [ | d t IH]; intros k; [reflexivity | ]. cbn [length seq filter].
  rewrite Nat.sub_diag. change (nth 0 (d :: t) 0) with d.
  assert (E : filter (fun c => negb (nth (c - k) (d :: t) 0 =? 0)) (seq (S k) (length t)) =
              filter (fun c => negb (nth (c - S k) t 0 =? 0)) (seq (S k) (length t))).
  { apply filter_ext_in. intros a Ha. apply in_seq in Ha. replace (a - k) with (S (a - S k)) by lia. reflexivity. }
  rewrite E. destruct (negb (d =? 0)); cbn [length]; rewrite (IH (S k)); reflexivity.
Qed.

Lemma clue_count_filter g : length g = 81 -> length (filter (fun d => negb (d =? 0)) g) = clue_count g.
Proof.
  intros H. rewrite (filter_at_seq g 0), H. unfold clue_count.
  rewrite (filter_ext _ (fun c => negb (at_ g c =? 0))); [reflexivity | ]. intros c.
  rewrite Nat.sub_0_r. reflexivity.
Qed.

Lemma n_clues_exact g : wf_grid g -> api_n_clues g = clue_count g.
Proof. intros [H _]. apply clue_count_filter. exact H. Qed.

Lemma in_at g d : length g = 81 -> (In d g <-> exists c, c < 81 /\ at_ g c = d).
Proof.
  intros H. split.
  - intros Hin. apply (In_nth g d 0) in Hin. destruct Hin as [c [Hc E]]. exists c. unfold at_. rewrite <- H. auto.
  - intros [c [Hc <-]]. apply nth_In. lia.
Qed.

Lemma filter_partition_length {A} (f : A -> bool) l :
  length (filter f l) + length (filter (fun x => negb (f x)) l) = length l.
Proof.
  induction l as [ | a t IH]; [reflexivity | ]. cbn [filter]. destruct (f a); cbn [negb length]; lia.
Qed.

(** Exchanging two digits that are not clues gives another solution. *)
Definition swap_digit (a b d : nat) : nat := if d =? a then b else if d =? b then a else d.
Lemma swap_digit_inj a b d d' : swap_digit a b d = swap_digit a b d' -> d = d'.
Proof.
  unfold swap_digit. destruct (Nat.eqb_spec d a), (Nat.eqb_spec d b), (Nat.eqb_spec d' a), (Nat.eqb_spec d' b); lia.
Qed.

Lemma swap_solution g s a b : solution_of g s -> 1 <= a <= 9 -> 1 <= b <= 9 ->
  (forall c, c < 81 -> at_ g c <> a) -> (forall c, c < 81 -> at_ g c <> b) ->
  solution_of g (of_fun (fun c => swap_digit a b (at_ s c))).
Proof.
  intros [[Hl [Hr Hp]] Hx] Ha Hb Hga Hgb. split; [split; [ | split] | ].
  - apply of_fun_length.
  - intros c Hc. rewrite (at_of_fun (fun c => swap_digit a b (at_ s c))) by exact Hc. specialize (Hr c Hc).
    unfold swap_digit. destruct (at_ s c =? a), (at_ s c =? b); lia.
  - intros c c' Hc Hc' Hpe. rewrite !(at_of_fun (fun c => swap_digit a b (at_ s c))) by assumption.
    intros E. apply swap_digit_inj in E. apply (Hp c c' Hc Hc' Hpe E).
  - intros c Hc Hn. rewrite (at_of_fun (fun c => swap_digit a b (at_ s c))) by exact Hc. rewrite (Hx c Hc Hn).
    unfold swap_digit. destruct (Nat.eqb_spec (at_ g c) a); [exfalso; apply (Hga c Hc); assumption | ].
    destruct (Nat.eqb_spec (at_ g c) b); [exfalso; apply (Hgb c Hc); assumption | reflexivity].
Qed.

Lemma two_absent_not_unique g a b : 1 <= a <= 9 -> 1 <= b <= 9 -> a <> b ->
  (forall c, c < 81 -> at_ g c <> a) -> (forall c, c < 81 -> at_ g c <> b) -> ~ uniquely_solvable g.
Proof.
  intros Ha Hb Hab Hga Hgb [s [Hs Hu]].
  pose proof (Hu _ (swap_solution g s a b Hs Ha Hb Hga Hgb)) as E.
  destruct (row_has_digit s 0 a (proj1 Hs) ltac:(lia) Ha) as [c [Hc [_ Ec]]].
  assert (E' : at_ (of_fun (fun c => swap_digit a b (at_ s c))) c = at_ s c) by (rewrite E; reflexivity).
  rewrite (at_of_fun (fun c => swap_digit a b (at_ s c))) in E' by exact Hc.
  rewrite Ec in E'. unfold swap_digit in E'. rewrite Nat.eqb_refl in E'. lia.
Qed.

Lemma digit_used_iff g d : digit_used g d = true <-> exists c, c < 81 /\ at_ g c = d.
Proof.
  unfold digit_used. rewrite existsb_exists. split; intros [c [H1 H2]]; exists c.
  - apply in_seq in H1. apply Nat.eqb_eq in H2. split; [lia | exact H2].
  - split; [apply in_seq; lia | apply Nat.eqb_eq; exact H2].
Qed.

Lemma few_digits_not_unique g : digit_count g < 8 -> ~ uniquely_solvable g.
Proof.
  intros H. unfold digit_count in H.
  pose proof (filter_partition_length (digit_used g) (seq 1 9)) as P. rewrite seq_length in P.
  pose proof (NoDup_filter (fun x => negb (digit_used g x)) (seq_NoDup 9 1)) as ND.
  assert (Hin : forall x, In x (filter (fun x => negb (digit_used g x)) (seq 1 9)) ->
      1 <= x <= 9 /\ forall c, c < 81 -> at_ g c <> x).
  { intros x Hx. apply filter_In in Hx. destruct Hx as [H1 H2]. apply in_seq in H1. split; [lia | ].
    intros c Hc E. apply negb_true_iff in H2. assert (digit_used g x = true) by (apply digit_used_iff; eauto). congruence. }
  destruct (filter (fun x => negb (digit_used g x)) (seq 1 9)) as [ | a [ | b t]]; cbn [length] in P; try lia.
  destruct (Hin a ltac:(left; reflexivity)) as [Ha Hga]. destruct (Hin b ltac:(right; left; reflexivity)) as [Hb Hgb].
  apply (two_absent_not_unique g a b Ha Hb); auto.
  intros ->. inversion ND as [ | x y Hn _]. apply Hn. left. reflexivity.
Qed.

Lemma nums_and_clues_spec g : wf_grid g ->
  count_ones (fst (nums_and_clues g)) = digit_count g /\ snd (nums_and_clues g) = clue_count g.
Proof.
  intros [Hl HF]. unfold nums_and_clues. pose proof (nums_spec g (0%N, 0) HF) as H. cbn zeta in H. cbn [fst snd] in H.
  destruct H as [H1 H2]. split.
  - rewrite (count_ones_spec 10).
    + change (seq 0 10) with (0 :: seq 1 9). cbn [filter].
      rewrite H1, tb_0. cbn [Nat.eqb negb andb orb]. unfold digit_count.
      rewrite (filter_ext_in _ (digit_used g)); [reflexivity | ]. intros i Hi.
      apply in_seq in Hi. rewrite H1, tb_0. cbn [orb]. replace (i =? 0) with false by (symmetry; apply Nat.eqb_neq; lia).
      cbn [negb andb]. apply eq_true_iff_eq. rewrite existsb_nat_eq, digit_used_iff. apply in_at. exact Hl.
    + apply bits_lt_pow2. intros i Hi. specialize (H1 (N.to_nat i)). unfold tb in H1. rewrite N2Nat.id in H1.
      rewrite H1, N.bits_0. cbn [orb]. apply andb_false_iff. right.
      destruct (existsb (Nat.eqb (N.to_nat i)) g) eqn:E; [ | reflexivity]. exfalso.
      apply existsb_nat_eq in E. rewrite Forall_forall in HF. specialize (HF _ E). lia.
  - rewrite H2. cbn [Nat.add]. apply clue_count_filter. exact Hl.
Qed.

(** [solution]: [None] with fewer than 17 clues, otherwise exact. *)
Lemma solution_exact g : wf_grid g -> exists o, api_solution g = Ok o /\
  (forall s, o = Some s -> solution_of g s /\ forall s', solution_of g s' -> s' = s) /\
  (17 <= clue_count g -> forall s, solution_of g s -> (forall s', solution_of g s' -> s' = s) -> o = Some s).
Proof.
  intros Hwf. unfold api_solution. destruct (nums_and_clues_spec g Hwf) as [E1 E2].
  destruct (nums_and_clues g) as [nums n]. cbn [fst snd] in E1, E2. rewrite E1, E2.
  destruct (Nat.ltb_spec (clue_count g) 17) as [H17 | H17]; cbn [orb].
  - exists None. split; [reflexivity | ]. split; [discriminate | lia].
  - destruct (Nat.ltb_spec (digit_count g) 8) as [H8 | H8].
    + exists None. split; [reflexivity | ]. split; [discriminate | ].
      intros _ s Hs Hu. exfalso. apply (few_digits_not_unique g H8). exists s. auto.
    + destruct (solution_buffer g Hwf) as [o [E H]]. exists o. split; [exact E | ].
      split; intros; apply H; auto.
Qed.

(** ** is_solved *)
Lemma solved_once g : solved g -> once_in row_of g /\ once_in col_of g /\ once_in block_of g.
Proof.
  intros Hs. pose proof Hs as [_ [_ Hp]].
  split; [ | split]; intros h d Hh Hd.
  - destruct (row_has_digit g h d Hs Hh Hd) as [c [Hc [E1 E2]]]. exists c. split; [auto | ].
    intros c' [Hc' [E1' E2']]. destruct (Nat.eq_dec c c') as [ | N]; [assumption | ]. exfalso.
    apply (Hp c c' Hc Hc'); [split; [exact N | left; congruence] | congruence].
  - destruct (col_has_digit g h d Hs Hh Hd) as [c [Hc [E1 E2]]]. exists c. split; [auto | ].
    intros c' [Hc' [E1' E2']]. destruct (Nat.eq_dec c c') as [ | N]; [assumption | ]. exfalso.
    apply (Hp c c' Hc Hc'); [split; [exact N | right; left; congruence] | congruence].
  - destruct (block_has_digit g h d Hs Hh Hd) as [c [Hc [E1 E2]]]. exists c. split; [auto | ].
    intros c' [Hc' [E1' E2']]. destruct (Nat.eq_dec c c') as [ | N]; [assumption | ]. exfalso.
    apply (Hp c c' Hc Hc'); [split; [exact N | right; right; congruence] | congruence].
Qed.

Lemma once_solved g : length g = 81 -> (forall c, c < 81 -> 1 <= at_ g c <= 9) ->
  once_in row_of g -> once_in col_of g -> once_in block_of g -> solved g.
Proof.
  intros Hl Hr H1 H2 H3. split; [exact Hl | ]. split; [exact Hr | ].
  intros c c' Hc Hc' [N [E | [E | E]]] Ed.
  - destruct (H1 (row_of c) (at_ g c) (row_lt c Hc) (Hr c Hc)) as [x [_ Hu]]. apply N.
    transitivity x; [symmetry | ]; apply Hu; auto.
  - destruct (H2 (col_of c) (at_ g c) (col_lt c) (Hr c Hc)) as [x [_ Hu]]. apply N.
    transitivity x; [symmetry | ]; apply Hu; auto.
  - destruct (H3 (block_of c) (at_ g c) (block_lt c Hc) (Hr c Hc)) as [x [_ Hu]]. apply N.
    transitivity x; [symmetry | ]; apply Hu; auto.
Qed.

Lemma cell_block_of c : cell_block c = block_of c.
Proof. unfold cell_block, block_of, row_of, col_of. lia. Qed.

Definition house_hit (h c : nat) : bool :=
  (h =? row_of c) || (h =? 9 + col_of c) || (h =? 18 + block_of c).

Lemma is_solved_loop_spec g l : (forall c, In c l -> c < 81) -> (forall c, In c l -> at_ g c <= 9) ->
  forall hd, length hd = 27 ->
  (exists c, In c l /\ at_ g c = 0 /\ is_solved_loop (map (fun c => (c, at_ g c)) l) hd = Ok None) \/
  (exists hd', is_solved_loop (map (fun c => (c, at_ g c)) l) hd = Ok (Some hd') /\ length hd' = 27 /\
    (forall c, In c l -> at_ g c <> 0) /\
    forall h i, h < 27 -> tb (nth h hd' 0%N) i = tb (nth h hd 0%N) i ||
       existsb (fun c => house_hit h c && (i =? at_ g c - 1)) l).
Proof.
  induction l as [ | c t IH]; intros Hl H9 hd Hhd.
  - right. exists hd. split; [reflexivity | ]. split; [exact Hhd | ]. split; [intros c [] | ].
    intros h i _. cbn [existsb]. rewrite orb_false_r. reflexivity.
  - assert (Hc : c < 81) by (apply Hl; left; reflexivity).
    specialize (IH (fun x Hx => Hl x (or_intror Hx)) (fun x Hx => H9 x (or_intror Hx))).
    cbn [map is_solved_loop]. pose proof (H9 c ltac:(left; reflexivity)) as Hd.
    replace (9 <? at_ g c) with false by (symmetry; apply Nat.ltb_ge; lia). cbn [orb].
    destruct (Nat.eqb_spec (at_ g c) 0) as [E0 | E0].
    + left. exists c. split; [left; reflexivity | auto].
    + cbv zeta. rewrite amod_ok by (unfold cell_row; lia). cbn [bind].
      rewrite amod_ok by (rewrite lset_length; unfold cell_col; lia). cbn [bind].
      rewrite amod_ok by (rewrite !lset_length; unfold cell_block; lia). cbn [bind].
      match goal with |- context [is_solved_loop _ ?h3] => set (hd3 := h3) end.
      assert (Hlen : length hd3 = 27) by (unfold hd3; rewrite !lset_length; exact Hhd).
      assert (Hhd3 : forall h i, h < 27 -> tb (nth h hd3 0%N) i = tb (nth h hd 0%N) i || (house_hit h c && (i =? at_ g c - 1))).
      { intros h i Hh. unfold hd3. pose proof (row_lt c Hc). pose proof (col_lt c). pose proof (block_lt c Hc).
        rewrite cell_block_of. change (cell_row c) with (row_of c). change (cell_col c) with (col_of c).
        rewrite nth_lset by (rewrite !lset_length; lia).
        rewrite nth_lset by (rewrite !lset_length; lia).
        rewrite nth_lset by lia. rewrite !nth_lset by (rewrite ?lset_length; lia).
        unfold house_hit.
        destruct (Nat.eqb_spec h (row_of c)), (Nat.eqb_spec h (9 + col_of c)), (Nat.eqb_spec h (18 + block_of c)); try lia; try subst h.
        all: cbn [orb andb];
          repeat match goal with |- context [Nat.eqb ?a ?b] =>
            first [ replace (Nat.eqb a b) with true by (symmetry; apply Nat.eqb_eq; lia)
                  | replace (Nat.eqb a b) with false by (symmetry; apply Nat.eqb_neq; lia) ] end;
          rewrite ?tb_lor, ?tb_shiftl1; try reflexivity.
        all: rewrite orb_false_r; reflexivity. }
      destruct (IH hd3 Hlen) as [[c' [H1 [H2 H3]]] | [hd' [H1 [H2 [H3 H4]]]]].
      * left. exists c'. split; [right; exact H1 | auto].
      * right. exists hd'. split; [exact H1 | ]. split; [exact H2 | ]. split.
        { intros x [<- | Hx]; auto. }
        intros h i Hh. rewrite H4, Hhd3 by exact Hh. cbn [existsb]. rewrite orb_assoc. reflexivity.
Qed.

Lemma is_solved_exact g : wf_grid g -> exists b, api_is_solved g = Ok b /\ (b = true <-> solved g).
Proof.
  intros Hwf. pose proof Hwf as [Hl HF]. unfold api_is_solved.
  replace (combine (seq 0 81) g) with (map (fun i => (i, at_ g i)) (seq 0 81)).
  2: { rewrite <- Hl. rewrite (combine_seq 0). apply map_ext. intros i. rewrite Nat.sub_0_r. reflexivity. }
  destruct (is_solved_loop_spec g (seq 0 81)) with (hd := repeat 0%N 27) as [[c [H1 [H2 H3]]] | [hd [H1 [H2 [H3 H4]]]]].
  - intros c Hc. apply in_seq in Hc. lia.
  - intros c _. apply wf_at. exact Hwf.
  - reflexivity.
  - rewrite H3. cbn [bind]. exists false. split; [reflexivity | ]. split; [discriminate | ].
    intros [_ [Hr _]]. apply in_seq in H1. specialize (Hr c ltac:(lia)). lia.
  - rewrite H1. cbn [bind]. eexists. split; [reflexivity | ]. rewrite H2, Nat.eqb_refl, andb_true_r.
    assert (Hr : forall c, c < 81 -> 1 <= at_ g c <= 9).
    { intros c Hc. specialize (H3 c ltac:(apply in_seq; lia)). pose proof (wf_at g c Hwf). lia. }
    assert (Hfull : forallb (N.eqb 511) hd = true <->
      forall h d, h < 27 -> 1 <= d <= 9 -> exists c, c < 81 /\ house_hit h c = true /\ at_ g c = d).
    { rewrite forallb_forall. split.
      - intros H h d Hh Hd. assert (E : nth h hd 0%N = 511%N).
        { symmetry. apply N.eqb_eq, H, nth_In. lia. }
        specialize (H4 h (d - 1) Hh). rewrite E in H4.
        assert (E5 : tb 511 (d - 1) = true).
        { change 511%N with LOW9. rewrite tb_LOW9. apply Nat.ltb_lt. lia. }
        rewrite E5 in H4. rewrite nth_repeat_in in H4 by exact Hh. rewrite tb_0 in H4. cbn [orb] in H4. symmetry in H4.
        apply existsb_exists in H4. destruct H4 as [c [Hc Hx]]. apply in_seq in Hc. apply andb_true_iff in Hx.
        destruct Hx as [Hx1 Hx2]. apply Nat.eqb_eq in Hx2. exists c. specialize (Hr c ltac:(lia)). split; [lia | ].
        split; [exact Hx1 | lia].
      - intros H x Hx. apply (In_nth hd x 0%N) in Hx. destruct Hx as [h [Hh <-]]. rewrite H2 in Hh.
        apply N.eqb_eq, tb_ext. intros i. change 511%N with LOW9. rewrite tb_LOW9, H4 by exact Hh.
        rewrite nth_repeat_in by exact Hh. rewrite tb_0. cbn [orb].
        apply eq_true_iff_eq. rewrite Nat.ltb_lt, existsb_exists. split.
        + intros Hi. destruct (H h (i + 1) Hh ltac:(lia)) as [c [Hc [Hx E]]]. exists c. split; [apply in_seq; lia | ].
          rewrite Hx. cbn [andb]. apply Nat.eqb_eq. lia.
        + intros [c [Hc Hx]]. apply in_seq in Hc. apply andb_true_iff in Hx. destruct Hx as [_ Hx].
          apply Nat.eqb_eq in Hx. specialize (Hr c ltac:(lia)). lia. }
    rewrite Hfull. split.
    + intros H. split; [exact Hl | ]. split; [exact Hr | ].
      assert (Hinj : forall l h, is_house l -> h < 27 -> (forall c, c < 81 -> house_hit h c = true -> In c l) ->
        forall c c', In c l -> In c' l -> at_ g c = at_ g c' -> c = c').
      { intros l h [Hlen [Hnd [Hlt _]]] Hh Hin c c' Hc Hc' E.
        apply (surj_inj9 l (fun c => at_ g c - 1) Hlen Hnd); [ | exact Hc | exact Hc' | ].
        - intros d Hd. destruct (H h (d + 1) Hh ltac:(lia)) as [x [Hx [Hhit Ex]]]. exists x.
          split; [apply Hin; auto | lia].
        - cbv beta. rewrite E. reflexivity. }
      intros c c' Hc Hc' [N [E | [E | E]]] Ed; apply N.
      * pose proof (row_lt c Hc). apply (Hinj (row_cells (row_of c)) (row_of c)); auto.
        -- apply row_is_house; lia.
        -- lia.
        -- intros x Hx Hh. apply in_row_cells; [exact Hx | lia | ]. unfold house_hit in Hh.
           pose proof (row_lt x Hx). pose proof (col_lt x). pose proof (block_lt x Hx).
           rewrite !orb_true_iff, !Nat.eqb_eq in Hh. lia.
        -- apply in_row_cells; auto.
        -- apply in_row_cells; auto.
      * pose proof (col_lt c). apply (Hinj (col_cells (col_of c)) (9 + col_of c)); auto.
        -- apply col_is_house; lia.
        -- lia.
        -- intros x Hx Hh. apply in_col_cells; [exact Hx | lia | ]. unfold house_hit in Hh.
           pose proof (row_lt x Hx). pose proof (col_lt x). pose proof (block_lt x Hx).
           rewrite !orb_true_iff, !Nat.eqb_eq in Hh. lia.
        -- apply in_col_cells; auto.
        -- apply in_col_cells; auto.
      * pose proof (block_lt c Hc). apply (Hinj (block_cells (block_of c)) (18 + block_of c)); auto.
        -- apply block_is_house; lia.
        -- lia.
        -- intros x Hx Hh. apply in_block_cells; [exact Hx | lia | ]. unfold house_hit in Hh.
           pose proof (row_lt x Hx). pose proof (col_lt x). pose proof (block_lt x Hx).
           rewrite !orb_true_iff, !Nat.eqb_eq in Hh. lia.
        -- apply in_block_cells; auto.
        -- apply in_block_cells; auto.
    + intros Hs h d Hh Hd. unfold house_hit.
      destruct (Nat.lt_ge_cases h 9) as [H9 | H9].
      { destruct (row_has_digit g h d Hs H9 Hd) as [c [Hc [E1 E2]]]. exists c. rewrite E1, Nat.eqb_refl. auto. }
      destruct (Nat.lt_ge_cases h 18) as [H18 | H18].
      { destruct (col_has_digit g (h - 9) d Hs ltac:(lia) Hd) as [c [Hc [E1 E2]]]. exists c. rewrite E1.
        replace (9 + (h - 9)) with h by lia. rewrite Nat.eqb_refl, orb_true_r. auto. }
      destruct (block_has_digit g (h - 18) d Hs ltac:(lia) Hd) as [c [Hc [E1 E2]]]. exists c. rewrite E1.
      replace (18 + (h - 18)) with h by lia. rewrite Nat.eqb_refl, !orb_true_r. auto.
Qed.

(** ** Forms used by the properties *)
Lemma solutions_sound_once g limit l s : wf_grid g -> api_solutions_up_to g limit = Ok l -> In s l ->
  solution_of g s /\ once_in row_of s /\ once_in col_of s /\ once_in block_of s.
Proof.
  intros H1 H2 H3. pose proof (solutions_sound g limit l s H1 H2 H3) as H. split; [exact H | apply solved_once, H].
Qed.

Lemma count_both g limit : wf_grid g ->
  exists n l, n_solutions g n /\ api_solutions_count_up_to g limit = Ok (Nat.min limit n) /\
  api_solutions_up_to g limit = Ok l /\ length l = Nat.min limit n.
Proof.
  intros Hwf. destruct (api_list g Hwf) as [L [Hnd [Hin [H [Hc _]]]]]. exists (length L), (firstn limit L).
  split; [exists L; auto | ]. split; [apply Hc | ]. split; [apply H | apply firstn_length].
Qed.

Lemma n_solutions_fun g n m : n_solutions g n -> n_solutions g m -> n = m.
Proof. intros Hn [l [H1 [H2 <-]]]. apply (n_solutions_unique g n l H1 H2 Hn). Qed.

Lemma buffer_all g buf limit : wf_grid g ->
  exists l buf', api_solutions_up_to g limit = Ok l /\
  api_solutions_count_up_to g limit = Ok (length l) /\
  api_solutions_up_to_buffer g buf limit = Ok (length l, buf') /\
  length buf' = length buf /\
  (forall i d, i < length buf -> i < length l -> nth i buf' d = nth i l d) /\
  (forall i d, i < length buf -> length l <= i -> nth i buf' d = nth i buf d).
Proof.
  intros Hwf. destruct (buffer_slots g buf limit Hwf) as [l [buf' [E1 H]]]. exists l, buf'. split; [exact E1 | ].
  destruct (count_length g limit Hwf) as [l' [E1' E2']]. rewrite E1 in E1'. injection E1' as <-.
  split; [exact E2' | exact H].
Qed.

Lemma solution_sound g s : wf_grid g -> api_solution g = Ok (Some s) ->
  solution_of g s /\ forall s', solution_of g s' -> s' = s.
Proof.
  intros Hwf E. destruct (solution_exact g Hwf) as [o [E' [H _]]]. rewrite E in E'. injection E' as <-.
  apply H. reflexivity.
Qed.

Lemma solution_complete_17 g s : wf_grid g -> 17 <= clue_count g -> solution_of g s ->
  (forall s', solution_of g s' -> s' = s) -> api_solution g = Ok (Some s).
Proof.
  intros Hwf H17 Hs Hu. destruct (solution_exact g Hwf) as [o [E' [_ H]]]. rewrite E'. f_equal. apply H; assumption.
Qed.

Lemma solution_complete_if : (forall p, wf_grid p -> clue_count p < 17 -> ~ uniquely_solvable p) ->
  forall g s, wf_grid g -> solution_of g s -> (forall s', solution_of g s' -> s' = s) -> api_solution g = Ok (Some s).
Proof.
  intros Hmc g s Hwf Hs Hu. apply solution_complete_17; auto. destruct (Nat.lt_ge_cases (clue_count g) 17) as [H | H]; [ | exact H].
  exfalso. apply (Hmc g Hwf H). exists s. auto.
Qed.

Lemma solver_total g limit buf : wf_grid g ->
  (exists l, api_solutions_up_to g limit = Ok l) /\
  (exists n, api_solutions_count_up_to g limit = Ok n) /\
  (exists n buf', api_solutions_up_to_buffer g buf limit = Ok (n, buf')) /\
  (exists o, api_some_solution g = Ok o) /\
  (exists o, api_solution g = Ok o) /\
  (exists b, api_is_uniquely_solvable g = Ok b) /\
  (exists b, api_is_solved g = Ok b).
Proof.
  intros Hwf. destruct (api_list g Hwf) as [L [_ [_ [H1 [H2 H3]]]]].
  split; [eauto | ]. split; [eauto | ]. split; [eauto | ]. split.
  { destruct (some_solution_exact g Hwf) as [[s [E _]] | [E _]]; eauto. }
  split; [destruct (solution_exact g Hwf) as [o [E _]]; eauto | ].
  split; [destruct (uniquely_solvable_exact g Hwf) as [o [E _]]; eauto | ].
  destruct (is_solved_exact g Hwf) as [o [E _]]; eauto.
Qed.

Lemma is_solved_once g : wf_grid g -> exists b, api_is_solved g = Ok b /\
  (b = true <-> (forall c, c < 81 -> 1 <= at_ g c <= 9) /\ once_in row_of g /\ once_in col_of g /\ once_in block_of g).
Proof.
  intros Hwf. destruct (is_solved_exact g Hwf) as [b [E H]]. exists b. split; [exact E | ]. rewrite H. split.
  - intros Hs. split; [apply Hs | apply solved_once, Hs].
  - intros [Hr [H1 [H2 H3]]]. apply once_solved; auto. apply Hwf.
Qed.

Lemma filter_all_length {A} (f : A -> bool) l : length (filter f l) = length l -> forall x, In x l -> f x = true.
Proof.
  induction l as [ | a t IH]; intros H x Hx; [destruct Hx | ]. cbn [filter] in H. pose proof (filter_length_le f t).
  destruct (f a) eqn:E; cbn [length] in H; [ | lia]. destruct Hx as [<- | Hx]; [exact E | apply IH; [lia | exact Hx]].
Qed.

Lemma filter_all_true {A} (f : A -> bool) l : (forall x, In x l -> f x = true) -> filter f l = l.
Proof.
  induction l as [ | a t IH]; intros H; [reflexivity | ]. cbn [filter]. rewrite (H a (or_introl eq_refl)). f_equal.
  apply IH. intros x Hx. apply H. right. exact Hx.
Qed.

Lemma n_clues_both g : wf_grid g ->
  api_n_clues g = clue_count g /\ (api_n_clues g = 81 <-> forall c, c < 81 -> at_ g c <> 0).
Proof.
  intros Hwf. rewrite (n_clues_exact g Hwf). split; [reflexivity | ]. unfold clue_count. split.
  - intros H c Hc E. pose proof (filter_all_length (fun c => negb (at_ g c =? 0)) (seq 0 81)) as F.
    rewrite seq_length in F. specialize (F H c ltac:(apply in_seq; lia)). cbv beta in F. rewrite E in F. discriminate F.
  - intros H. rewrite filter_all_true; [apply seq_length | ]. intros c Hc. apply in_seq in Hc.
    apply negb_true_iff, Nat.eqb_neq, H. lia.
Qed.
