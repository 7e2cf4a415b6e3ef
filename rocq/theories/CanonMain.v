(** Proofs about Canon: the canonical form of a solved grid is the smallest equivalent grid and the count is the
    number of automorphisms. *)
From Coq Require Import List Arith NArith ZArith ZifyNat ZifyN ZifyBool Lia Bool Permutation Sorted.
From Verif Require Import Spec CanonSpec Solver Parse Canon BitLemmas GridProofs GenProofs EquivProofs TransProofs MinlexProofs CanonProofs.
Import ListNotations.
Ltac Zify.zify_post_hook ::= Z.to_euclidean_division_equations.

Lemma NoDup_map_inj {A B} (f : A -> B) l : (forall x y, In x l -> In y l -> f x = f y -> x = y) -> NoDup l -> NoDup (map f l).
Proof.
  induction l as [ | a l IH]; intros H N; [constructor | ]. apply NoDup_cons_iff in N. destruct N as [Na N]. cbn [map]. constructor.
  - rewrite in_map_iff. intros [y [E Hy]]. apply Na. rewrite (H a y); [exact Hy | left; reflexivity | right; exact Hy | symmetry; exact E].
  - apply IH; [ | exact N]. intros x y Hx Hy. apply H; right; assumption.
Qed.

Lemma filter_nil {A} (f : A -> bool) l : (forall x, In x l -> f x = false) -> filter f l = [].
Proof.
  induction l as [ | a l IH]; intros H; [reflexivity | ]. cbn [filter]. rewrite (H a (or_introl eq_refl)). apply IH. intros x Hx. apply H. right. exact Hx.
Qed.

(** * The loops of the search *)

Section Search.
Variable g : grid.
Hypothesis S_g : solved g.

Definition reg1 (tr : bool) (b fb : nat) (rp : p3) (m : min_band) : Prop :=
  wfm g m /\ m_transposed m = tr /\ m_band m = b /\ fst (m_stack m) = fb /\ m_row m = rp.
Definition reg2 (tr : bool) (b fb : nat) (m : min_band) : Prop :=
  wfm g m /\ m_transposed m = tr /\ m_band m = b /\ fst (m_stack m) = fb.
Definition reg3 (tr : bool) (b : nat) (m : min_band) : Prop := wfm g m /\ m_transposed m = tr /\ m_band m = b.
Definition reg4 (tr : bool) (m : min_band) : Prop := wfm g m /\ m_transposed m = tr.

Lemma wfm_col0 m : wfm g m -> p3ok (nth 0 (m_cols m) id3).
Proof. intros [[_ [_ [_ [c0 [c1 [c2 [E [C0 _]]]]]]]] _]. rewrite E. exact C0. Qed.

Lemma reg0_code tr b fb rp k m : k < 6 ->
  (reg0 g tr b fb rp (k mod 3, k / 3) m <-> reg1 tr b fb rp m /\ code (nth 0 (m_cols m) id3) = k).
Proof.
  intros Hk. unfold reg0, reg1. split.
  - intros [W [E1 [E2 [E3 [E4 E5]]]]]. split; [auto | ]. apply code_eq; [apply wfm_col0; exact W | exact Hk | exact E5].
  - intros [[W [E1 [E2 [E3 E4]]]] E5]. repeat (split; [assumption | ]). apply code_eq; [apply wfm_col0; exact W | exact Hk | exact E5].
Qed.

Lemma rows_loop_spec tr b fb k (V : min_band -> Prop) st : b < 3 -> fb < 3 -> k < 6 -> inv g V st ->
  (forall m, reg1 tr b fb (k mod 3, k / 3) m -> ~ V m) ->
  post (rows_loop b tr fb (CB (base tr g) b id3 (lp3 (fb, 0) id3 id3 id3)) k st)
    (inv g (fun m => V m \/ reg1 tr b fb (k mod 3, k / 3) m)) False.
Proof.
  intros Hb Hf Hk I D. set (rp := (k mod 3, k / 3)) in *. assert (Hr : p3ok rp) by (split; cbn; lia).
  unfold rows_loop. rewrite (proj1 (p3_new_ok k Hk)). cbn [bind]. fold rp. rewrite bandrows_op by exact Hr. cbn [bind].
  eapply post_impl; [apply (for_seq _ (fun n => inv g (fun m => V m \/ (reg1 tr b fb rp m /\ code (nth 0 (m_cols m) id3) < n))) 6 0 st) | | auto].
  - eapply inv_ext; [ | exact I]. intros m. cbv beta. split; [tauto | ]. intros [H | [_ H]]; [exact H | lia].
  - intros j st' Hj I'. assert (Hj6 : j < 6) by lia.
    eapply post_impl; [apply (cols_loop_spec g S_g tr b fb rp (j mod 3, j / 3) Hb Hf Hr) with (V := fun m => V m \/ (reg1 tr b fb rp m /\ code (nth 0 (m_cols m) id3) < j)) | | auto].
    + split; cbn; lia.
    + exact Hj6.
    + reflexivity.
    + exact I'.
    + intros m Hm. apply reg0_code in Hm; [ | exact Hj6]. intros [Hv | [_ Hc]]; [exact (D m (proj1 Hm) Hv) | lia].
    + intros st'' I''. eapply inv_ext; [ | exact I'']. intros m. cbv beta. rewrite reg0_code by exact Hj6. split.
      * intros [[Hv | [Hm Hc]] | [Hm Hc]]; [left; exact Hv | right; split; [exact Hm | lia] | right; split; [exact Hm | lia]].
      * intros [Hv | [Hm Hc]]; [left; left; exact Hv | ].
        destruct (Nat.eq_dec (code (nth 0 (m_cols m) id3)) j) as [Q | Q]; [right; auto | left; right; split; [exact Hm | lia]].
  - intros st' I'. eapply inv_ext; [ | exact I']. intros m. cbv beta. split; [intros [H | [H _]]; auto | ].
    intros [H | H]; [left; exact H | right; split; [exact H | apply code_lt, wfm_col0; apply H]].
Qed.

Lemma box_loop_spec tr b fb (V : min_band -> Prop) st : b < 3 -> fb < 3 -> inv g V st -> (forall m, reg2 tr b fb m -> ~ V m) ->
  post (band <- swap_stack_in_band (CB (base tr g) b id3 idl) 0 fb; for_each (seq 0 6) (rows_loop b tr fb band) st)
    (inv g (fun m => V m \/ reg2 tr b fb m)) False.
Proof.
  intros Hb Hf I D. rewrite stack0_op by exact Hf. cbn [bind].
  replace (comp_l idl (lp3 (fb, 0) id3 id3 id3)) with (lp3 (fb, 0) id3 id3 id3).
  2: { symmetry. apply listb_eq_iff. apply (sweep1 3 (fun fb => listb_eq (comp_l idl (lp3 (fb, 0) id3 id3 id3)) (lp3 (fb, 0) id3 id3 id3))); [vm_compute; reflexivity | exact Hf]. }
  assert (Rc : forall m, wfm g m -> p3ok (m_row m)) by (intros m [P _]; apply P).
  eapply post_impl; [apply (for_seq _ (fun n => inv g (fun m => V m \/ (reg2 tr b fb m /\ code (m_row m) < n))) 6 0 st) | | auto].
  - eapply inv_ext; [ | exact I]. intros m. cbv beta. split; [tauto | ]. intros [H | [_ H]]; [exact H | lia].
  - intros j st' Hj I'. assert (Hj6 : j < 6) by lia.
    assert (X : forall m, reg1 tr b fb (j mod 3, j / 3) m <-> reg2 tr b fb m /\ code (m_row m) = j).
    { intros m. unfold reg1, reg2. split.
      - intros [W [E1 [E2 [E3 E4]]]]. split; [auto | ]. apply code_eq; [apply Rc; exact W | exact Hj6 | exact E4].
      - intros [[W [E1 [E2 E3]]] E4]. repeat (split; [assumption | ]). apply code_eq; [apply Rc; exact W | exact Hj6 | exact E4]. }
    eapply post_impl; [apply (rows_loop_spec tr b fb j (fun m => V m \/ (reg2 tr b fb m /\ code (m_row m) < j)) st' Hb Hf Hj6 I') | | auto].
    + intros m Hm. apply X in Hm. intros [Hv | [_ Hc]]; [exact (D m (proj1 Hm) Hv) | lia].
    + intros st'' I''. eapply inv_ext; [ | exact I'']. intros m. cbv beta. rewrite X. split.
      * intros [[Hv | [Hm Hc]] | [Hm Hc]]; [left; exact Hv | right; split; [exact Hm | lia] | right; split; [exact Hm | lia]].
      * intros [Hv | [Hm Hc]]; [left; left; exact Hv | ].
        destruct (Nat.eq_dec (code (m_row m)) j) as [Q | Q]; [right; auto | left; right; split; [exact Hm | lia]].
  - intros st' I'. eapply inv_ext; [ | exact I']. intros m. cbv beta. split; [intros [H | [H _]]; auto | ].
    intros [H | H]; [left; exact H | right; split; [exact H | apply code_lt, Rc; apply H]].
Qed.

Lemma slice_band h b : length h = 81 -> b < 3 -> slice h (b * 27) 27 = Ok (CB h b id3 idl).
Proof.
  intros L Hb. unfold slice, assert_. replace (_ <=? _) with true by lia. cbn [bind]. f_equal.
  apply (list_ext_n _ _ 27); [rewrite firstn_length, skipn_length; lia | apply CB_length | ].
  intros i Hi. rewrite firstn_nth by exact Hi. rewrite skipn_nth, nth_CB by exact Hi.
  unfold idl. rewrite seq_nth by lia. change (nth (b * 27 + i) h 0) with (at_ h (b * 27 + i)). f_equal.
  assert (E : nth (i / 9) (p3l id3) 0 = i / 9).
  { assert (D : i / 9 < 3) by lia. destruct (i / 9) as [ | [ | [ | x]]]; [reflexivity | reflexivity | reflexivity | lia]. }
  rewrite E. lia.
Qed.

Lemma band_loop_spec tr b (V : min_band -> Prop) st : b < 3 -> inv g V st -> (forall m, reg3 tr b m -> ~ V m) ->
  post (find_minlex_band (base tr g) tr b st) (inv g (fun m => V m \/ reg3 tr b m)) False.
Proof.
  intros Hb I D. unfold find_minlex_band. rewrite slice_band by (try assumption; apply base_length, S_g). cbn [bind].
  eapply post_impl; [apply (for_seq _ (fun n => inv g (fun m => V m \/ (reg3 tr b m /\ fst (m_stack m) < n))) 3 0 st) | | auto].
  - eapply inv_ext; [ | exact I]. intros m. cbv beta. split; [tauto | ]. intros [H | [_ H]]; [exact H | lia].
  - intros j st' Hj I'.
    assert (X : forall m, reg2 tr b j m <-> reg3 tr b m /\ fst (m_stack m) = j) by (intros m; unfold reg2, reg3; tauto).
    eapply post_impl; [apply (box_loop_spec tr b j (fun m => V m \/ (reg3 tr b m /\ fst (m_stack m) < j)) st' Hb ltac:(lia) I') | | auto].
    + intros m Hm. apply X in Hm. intros [Hv | [_ Hc]]; [exact (D m (proj1 Hm) Hv) | lia].
    + intros st'' I''. eapply inv_ext; [ | exact I'']. intros m. cbv beta. rewrite X. split.
      * intros [[Hv | [Hm Hc]] | [Hm Hc]]; [left; exact Hv | right; split; [exact Hm | lia] | right; split; [exact Hm | lia]].
      * intros [Hv | [Hm Hc]]; [left; left; exact Hv | ].
        destruct (Nat.eq_dec (fst (m_stack m)) j) as [Q | Q]; [right; auto | left; right; split; [exact Hm | lia]].
  - intros st' I'. eapply inv_ext; [ | exact I']. intros m. cbv beta. split; [intros [H | [H _]]; auto | ].
    intros [H | H]; [left; exact H | right; split; [exact H | ]]. destruct H as [[[_ [_ [[H _] _]]] _] _]. exact H.
Qed.

Lemma transp_loop_spec tr (V : min_band -> Prop) st : inv g V st -> (forall m, reg4 tr m -> ~ V m) ->
  post (for_each (seq 0 3) (find_minlex_band (base tr g) tr) st) (inv g (fun m => V m \/ reg4 tr m)) False.
Proof.
  intros I D.
  eapply post_impl; [apply (for_seq _ (fun n => inv g (fun m => V m \/ (reg4 tr m /\ m_band m < n))) 3 0 st) | | auto].
  - eapply inv_ext; [ | exact I]. intros m. cbv beta. split; [tauto | ]. intros [H | [_ H]]; [exact H | lia].
  - intros j st' Hj I'.
    assert (X : forall m, reg3 tr j m <-> reg4 tr m /\ m_band m = j) by (intros m; unfold reg3, reg4; tauto).
    eapply post_impl; [apply (band_loop_spec tr j (fun m => V m \/ (reg4 tr m /\ m_band m < j)) st' ltac:(lia) I') | | auto].
    + intros m Hm. apply X in Hm. intros [Hv | [_ Hc]]; [exact (D m (proj1 Hm) Hv) | lia].
    + intros st'' I''. eapply inv_ext; [ | exact I'']. intros m. cbv beta. rewrite X. split.
      * intros [[Hv | [Hm Hc]] | [Hm Hc]]; [left; exact Hv | right; split; [exact Hm | lia] | right; split; [exact Hm | lia]].
      * intros [Hv | [Hm Hc]]; [left; left; exact Hv | ].
        destruct (Nat.eq_dec (m_band m) j) as [Q | Q]; [right; auto | left; right; split; [exact Hm | lia]].
  - intros st' I'. eapply inv_ext; [ | exact I']. intros m. cbv beta. split; [intros [H | [H _]]; auto | ].
    intros [H | H]; [left; exact H | right; split; [exact H | ]]. destruct H as [[[H _] _] _]. exact H.
Qed.

Lemma find_min_bands_spec : post (find_min_bands g) (inv g (wfm g)) False.
Proof.
  unfold find_min_bands. cbn [for_each].
  assert (I0 : inv g (fun _ => False) (repeat 9 16, [])).
  { split; [reflexivity | split; [constructor | split; [ | split; [ | left; reflexivity]]]]; cbn [snd]; [ | tauto].
    intros m. split; [intros [] | tauto]. }
  cbn [bind]. eapply post_bind with (E0 := False) (Q0 := inv g (fun m => False \/ reg4 false m)); [ | auto | ].
  - apply (transp_loop_spec false (fun _ => False) _ I0). tauto.
  - intros st1 _ I1. rewrite transpose_op by apply S_g. cbn [bind].
    change (tpose g) with (base true g). eapply post_bind with (E0 := False); [ | auto | ].
    + apply (transp_loop_spec true _ _ I1). intros m [_ H] [[] | [_ H']]. congruence.
    + intros st2 _ I2. cbn [post]. eapply inv_ext; [ | exact I2]. intros m. cbv beta. unfold reg4.
      destruct (m_transposed m); split; intros; intuition congruence.
Qed.
End Search.

(** * There is a candidate *)

Lemma exists_good g : solved g -> exists m, wfm g m /\ good g m.
Proof.
  intros S. set (E := CB g 0 id3 idl). assert (VE : bvalid E) by (apply CB_valid; [exact S | lia | apply id3_ok | apply seq_line]).
  pose proof (row1_perm E (CB_length _ _ _ _) VE) as P. destruct (digits_facts _ P) as [L9 [N D]]. destruct VE as [R V].
  assert (X : forall j, j < 3 -> exists p, 3 <= p < 9 /\ nth p E 0 = nth (9 + j) E 0).
  { intros j Hj. assert (I : In (nth (9 + j) E 0) (firstn 9 E)) by (apply D, R; lia). apply (In_nth _ _ 0) in I. destruct I as [p [Hp Ep]].
    rewrite L9 in Hp. rewrite firstn_nth in Ep by exact Hp. exists p. split; [ | exact Ep].
    destruct (Nat.lt_ge_cases p 3) as [H | H]; [exfalso | lia]. revert Ep. apply V; lia. }
  destruct (X 0) as [p0 [B0 E0]]; [lia | ]. destruct (X 1) as [p1 [B1 E1]]; [lia | ]. destruct (X 2) as [p2 [B2 E2]]; [lia | ].
  assert (N01 : p0 <> p1) by (intros ->; assert (Q : nth 9 E 0 <> nth 10 E 0) by (apply V; cbn; lia); apply Q; cbn [Nat.add] in *; congruence).
  assert (N02 : p0 <> p2) by (intros ->; assert (Q : nth 9 E 0 <> nth 11 E 0) by (apply V; cbn; lia); apply Q; cbn [Nat.add] in *; congruence).
  assert (N12 : p1 <> p2) by (intros ->; assert (Q : nth 10 E 0 <> nth 11 E 0) by (apply V; cbn; lia); apply Q; cbn [Nat.add] in *; congruence).
  (* two of the three lie in the same box *)
  assert (W : exists x c0 c1, p3ok (0, x) /\ p3ok c0 /\ p3ok c1 /\
    let k := lp3 (0, x) c0 c1 id3 in nth 0 k 0 < 3 /\ nth 1 k 0 < 3 /\ nth (nth 0 k 0) [p0; p1; p2] 0 = nth 3 k 0 /\ nth (nth 1 k 0) [p0; p1; p2] 0 = nth 4 k 0).
  { pose proof (sweep3 9 9 9 (fun p0 p1 p2 => implb ((3 <=? p0) && (3 <=? p1) && (3 <=? p2) && negb (p0 =? p1) && negb (p0 =? p2) && negb (p1 =? p2))
      (existsb (fun '(xx, c0, c1, _) => let k := lp3 (0, snd xx) c0 c1 id3 in
         (nth 0 k 0 <? 3) && (nth 1 k 0 <? 3) && (nth (nth 0 k 0) [p0; p1; p2] 0 =? nth 3 k 0) && (nth (nth 1 k 0) [p0; p1; p2] 0 =? nth 4 k 0)) all_lp)) ltac:(vm_compute; reflexivity)
      p0 p1 p2 ltac:(lia) ltac:(lia) ltac:(lia)) as Sw. cbv beta in Sw.
    replace ((3 <=? p0) && (3 <=? p1) && (3 <=? p2) && negb (p0 =? p1) && negb (p0 =? p2) && negb (p1 =? p2)) with true in Sw by (clear - B0 B1 B2 N01 N02 N12; lia).
    cbn [implb] in Sw. apply existsb_exists in Sw. destruct Sw as [[[[xx c0] c1] c2] [I T]]. apply in_all_lp in I. cbv zeta in T.
    rewrite !andb_true_iff, !Nat.eqb_eq, !Nat.ltb_lt in T. destruct I as [I1 [I2 [I3 I4]]].
    exists (snd xx), c0, c1. split; [split; [cbn; lia | apply I1] | ]. split; [exact I2 | split; [exact I3 | ]]. cbv zeta. tauto. }
  destruct W as [x [c0 [c1 [Hx [H0 [H1 [K0 [K1 [K3 K4]]]]]]]]]. set (k := lp3 (0, x) c0 c1 id3) in *.
  assert (Hk : line_perm k) by (apply lp3_line; try assumption; apply id3_ok).
  set (m := mkMinBand 0 false id3 (0, x) [c0; c1; id3] (inv_d (firstn 9 (CB g 0 id3 k)))). exists m.
  assert (Ec : cells g m = CB g 0 id3 k) by reflexivity. split.
  - split; [ | reflexivity]. split; [cbn; lia | split; [apply id3_ok | split; [exact Hx | ]]]. exists c0, c1, id3. split; [reflexivity | ].
    split; [exact H0 | split; [exact H1 | apply id3_ok]].
  - unfold good. rewrite Ec.
    assert (Mv : forall c, c < 27 -> nth c (CB g 0 id3 k) 0 = nth (9 * (c / 9) + nth (c mod 9) k 0) E 0).
    { intros c Hc. pose proof (line_lt k (c mod 9) Hk) as Lk. unfold E. rewrite !nth_CB by lia. generalize dependent (nth (c mod 9) k 0). intros y Ly.
      replace ((9 * (c / 9) + y) / 9) with (c / 9) by lia. replace ((9 * (c / 9) + y) mod 9) with y by lia. unfold idl. rewrite seq_nth by lia. reflexivity. }
    rewrite (Mv 9), (Mv 3), (Mv 10), (Mv 4) by lia. change (9 / 9) with 1. change (9 mod 9) with 0. change (3 / 9) with 0. change (3 mod 9) with 3.
    change (10 / 9) with 1. change (10 mod 9) with 1. change (4 / 9) with 0. change (4 mod 9) with 4.
    replace (9 * 0 + nth 3 k 0) with (nth 3 k 0) by lia. replace (9 * 0 + nth 4 k 0) with (nth 4 k 0) by lia. replace (9 * 1) with 9 by lia.
    rewrite <- K3, <- K4.
    assert (Pn : forall i, i < 3 -> nth (9 + i) E 0 = nth (nth i [p0; p1; p2] 0) E 0).
    { intros i Hi. destruct i as [ | [ | [ | i]]]; [symmetry; exact E0 | symmetry; exact E1 | symmetry; exact E2 | lia]. }
    split; apply Pn; assumption.
Qed.

Lemma le_nines v : Forall (fun d => d <= 9) v -> le_l (repeat 9 (length v)) v -> v = repeat 9 (length v).
Proof.
  induction v as [ | d v IH]; intros F H; [reflexivity | ]. apply Forall_cons_iff in F. destruct F as [Fd F]. cbn [length repeat] in *.
  unfold le_l in *. cbn [lex_nat] in H. destruct (Nat.compare_spec 9 d) as [<- | C | C]; [f_equal; apply IH; assumption | lia | congruence].
Qed.

Lemma value_le9 g m : solved g -> params m -> Forall (fun d => d <= 9) (value g m).
Proof.
  intros S P. apply Forall_forall. intros d Hd. apply (In_nth _ _ 0) in Hd. destruct Hd as [i [Hi <-]]. rewrite value_length in Hi.
  unfold value. rewrite skipn_nth, nth_norm by lia. apply rename_le; [apply mdig_perm; assumption | ].
  destruct (cells_valid g m S P) as [R _]. specialize (R (11 + i) ltac:(lia)). lia.
Qed.

Lemma inv_nonempty g st : solved g -> inv g (wfm g) st -> snd st <> [].
Proof.
  intros S [I1 [I2 [I3 [I4 I5]]]]. destruct I5 as [E | E]; [ | exact E]. destruct (exists_good g S) as [m [W G]].
  pose proof (I4 m W G) as Le. rewrite E in Le. pose proof (value_length g m) as Lv.
  assert (Ev : value g m = repeat 9 16). { rewrite <- Lv. apply le_nines; [apply value_le9; [exact S | apply W] | rewrite Lv; exact Le]. }
  assert (Im : In m (snd st)) by (apply I3; rewrite E; auto). intros X. rewrite X in Im. exact Im.
Qed.

(** * The choice among the candidates *)

Definition same (a b : list nat) : bool := match lex_nat a b with Eq => true | _ => false end.

Lemma same_iff a b : same a b = true <-> a = b.
Proof. unfold same. destruct (lex_nat a b) eqn:E; split; try discriminate; try (intros ->; rewrite lex_refl in E; discriminate). - intros _. apply lex_eq. exact E. - reflexivity. Qed.

Lemma choose_min_spec g (R : min_band -> list nat * transformation) L : L <> [] -> (forall m, In m L -> find_minimal_for_band g m = Ok (R m)) ->
  exists m0, In m0 L /\ choose_min g L = Ok (fst (R m0), snd (R m0), length (filter (fun m => same (fst (R m0)) (fst (R m))) L)) /\
    forall m, In m L -> le_l (fst (R m0)) (fst (R m)).
Proof.
  intros NE H. unfold choose_min.
  set (f := fun m (acc : option (list nat * transformation * nat)) => _).
  (* after a nonempty prefix *)
  assert (Step : forall l done m0, (forall m, In m l -> find_minimal_for_band g m = Ok (R m)) -> In m0 done -> (forall m, In m done -> le_l (fst (R m0)) (fst (R m))) ->
    exists m1, In m1 (done ++ l) /\ for_each l f (Some (R m0, length (filter (fun m => same (fst (R m0)) (fst (R m))) done))) =
      Ok (Some (R m1, length (filter (fun m => same (fst (R m1)) (fst (R m))) (done ++ l)))) /\ forall m, In m (done ++ l) -> le_l (fst (R m1)) (fst (R m))).
  { intros l. induction l as [ | m l IH]; intros done m0 Hl I0 Le.
    - exists m0. rewrite app_nil_r. cbn [for_each]. auto.
    - cbn [for_each]. unfold f at 1. rewrite (Hl m (or_introl eq_refl)). cbn [bind].
      assert (Hl' : forall x, In x l -> find_minimal_for_band g x = Ok (R x)) by (intros x Hx; apply Hl; right; exact Hx).
      assert (Fa : forall m', filter (fun x => same (fst (R m')) (fst (R x))) (done ++ [m]) =
        filter (fun x => same (fst (R m')) (fst (R x))) done ++ if same (fst (R m')) (fst (R m)) then [m] else []).
      { intros m'. rewrite filter_app. cbn [filter]. destruct (same _ _); reflexivity. }
      replace (done ++ m :: l) with ((done ++ [m]) ++ l) by (rewrite <- app_assoc; reflexivity).
      destruct (lex_nat (fst (R m0)) (fst (R m))) eqn:C.
      + replace (Datatypes.S (length (filter (fun x => same (fst (R m0)) (fst (R x))) done))) with (length (filter (fun x => same (fst (R m0)) (fst (R x))) (done ++ [m]))).
        2: { rewrite Fa, app_length. unfold same at 2. rewrite C. cbn [length]. lia. }
        apply IH; [exact Hl' | apply in_or_app; left; exact I0 | ]. intros x Hx. apply in_app_or in Hx. destruct Hx as [Hx | [<- | []]]; [apply Le; exact Hx | ].
        unfold le_l. rewrite C. discriminate.
      + replace (length (filter (fun x => same (fst (R m0)) (fst (R x))) done)) with (length (filter (fun x => same (fst (R m0)) (fst (R x))) (done ++ [m]))).
        2: { rewrite Fa, app_length. unfold same at 2. rewrite C. cbn [length]. lia. }
        apply IH; [exact Hl' | apply in_or_app; left; exact I0 | ]. intros x Hx. apply in_app_or in Hx. destruct Hx as [Hx | [<- | []]]; [apply Le; exact Hx | ].
        unfold le_l. rewrite C. discriminate.
      + assert (Lt' : lex_nat (fst (R m)) (fst (R m0)) = Lt) by (apply gt_lt; exact C).
        replace 1 with (length (filter (fun x => same (fst (R m)) (fst (R x))) (done ++ [m]))).
        2: { rewrite Fa, app_length. unfold same at 2. rewrite lex_refl. cbn [length].
             assert (Z : filter (fun x => same (fst (R m)) (fst (R x))) done = []).
             { apply filter_nil. intros x Hx. unfold same. rewrite (lt_trans_l _ _ _ Lt' (Le x Hx)). reflexivity. }
             rewrite Z. reflexivity. }
        apply IH; [exact Hl' | apply in_or_app; right; left; reflexivity | ]. intros x Hx. apply in_app_or in Hx. destruct Hx as [Hx | [<- | []]]; [ | apply le_refl_l].
        apply lt_le_l. apply (lt_trans_l _ _ _ Lt' (Le x Hx)). }
  destruct L as [ | m L]; [congruence | ]. cbn [for_each]. unfold f at 1. rewrite (H m (or_introl eq_refl)). cbn [bind].
  destruct (Step L [m] m) as [m1 [I1 [E1 Le1]]].
  - intros x Hx. apply H. right. exact Hx.
  - left. reflexivity.
  - intros x [<- | []]. apply le_refl_l.
  - cbn [filter] in E1. unfold same in E1 at 1. rewrite lex_refl in E1. cbn [length] in E1. rewrite E1. cbn [bind].
    exists m1. split; [exact I1 | ]. split; [ | exact Le1]. cbn [app]. destruct (R m1) as [a t]. reflexivity.
Qed.

(** * From symmetries to candidates *)

(** the candidate a transformation belongs to *)
Definition cand_of (t : transformation) : min_band :=
  mkMinBand (fst (t_band t)) (t_transpose t) (nth 0 (t_rows t) id3) (t_stack t) (t_cols t) (t_digits t).

Lemma trans_of_cand t : trans_ok t -> params (cand_of t) /\ exists r1 r2, snd (t_band t) < 2 /\ p3ok r1 /\ p3ok r2 /\ t = trans_of (cand_of t) (snd (t_band t)) r1 r2.
Proof.
  intros [Hb [Hs [[r0 [r1 [r2 [Er [R0 [R1 R2]]]]]] [Hc Hd]]]]. unfold cand_of. rewrite Er. cbn [nth]. split.
  - split; [apply Hb | split; [exact R0 | split; [exact Hs | exact Hc]]].
  - exists r1, r2. split; [apply Hb | split; [exact R1 | split; [exact R2 | ]]]. destruct t as [tt [tb1 tb2] ts tr tc td]. cbn in *. subst. reflexivity.
Qed.

Lemma act_first g t i : trans_ok t -> i < 27 -> nth i (act (sym_of t) g) 0 = rename (t_digits t) (nth i (cells g (cand_of t)) 0).
Proof.
  intros Ht Hi. destruct (trans_of_cand t Ht) as [P [r1 [r2 [B [R1 [R2 E]]]]]]. rewrite act_RC by (apply sym_of_ok; exact Ht).
  set (h := RC _ _ _). assert (Lh : length h = 81) by apply RC_length.
  rewrite (nth_indep _ 0 (rename (s_digits (sym_of t)) 0)) by (rewrite map_length; lia). rewrite map_nth. f_equal.
  unfold h, RC. rewrite (nth_map_seq (fun c => at_ (base (s_tr (sym_of t)) g) (9 * nth (c / 9) (s_rows (sym_of t)) 0 + nth (c mod 9) (s_cols (sym_of t)) 0)) 81 i 0) by lia.
  unfold cells. rewrite nth_CB by exact Hi. rewrite E at 1 2 3. rewrite sym_trans_of. cbn [s_tr s_rows s_cols s_digits].
  f_equal. f_equal. f_equal.
  assert (X : forall b r0, p3ok b -> p3ok r0 -> forall j, j < 3 -> nth j (lp3 b r0 r1 r2) 0 = 3 * fst b + nth j (p3l r0) 0).
  { intros b r0 Hb0 H0 j Hj. rewrite (proj1 (lp_facts b r0 r1 r2 Hb0 H0 R1 R2) j Hj).
    pose proof (lp4_sweep (fun b r0 _ _ => forallb (fun j => nth j (lp3 (fst b, 0) r0 id3 id3) 0 =? 3 * fst b + nth j (p3l r0) 0) (seq 0 3)) ltac:(vm_compute; reflexivity) b r0 id3 id3 Hb0 H0 id3_ok id3_ok) as Sw.
    cbv beta in Sw. apply Nat.eqb_eq. apply (sweep1 3 _ Sw j Hj). }
  destruct P as [P1 [P2 _]]. apply X; [split; assumption | exact P2 | ]. clear - Hi. lia.
Qed.

Lemma firstn27 g t : trans_ok t -> firstn 27 (act (sym_of t) g) = map (rename (t_digits t)) (cells g (cand_of t)).
Proof.
  intros Ht. apply (list_ext_n _ _ 27); [rewrite firstn_length, act_length; reflexivity | rewrite map_length; apply CB_length | ].
  intros i Hi. rewrite firstn_nth by exact Hi. rewrite act_first by assumption.
  symmetry. rewrite (nth_indep (map _ _) 0 (rename (t_digits t) 0)) by (rewrite map_length; unfold cells; rewrite CB_length; exact Hi). apply map_nth.
Qed.

(** The first eleven cells of a solved grid *)
Lemma form_le A : solved A -> le_l form (firstn 11 A).
Proof.
  intros [L [R V]].
  assert (V9 : forall i j, i < 27 -> j < 27 -> i <> j -> i / 9 = j / 9 \/ (i mod 9) / 3 = (j mod 9) / 3 -> nth i A 0 <> nth j A 0).
  { intros i j Hi Hj N P. apply V; try lia. split; [exact N | ]. unfold block_of, row_of, col_of. destruct P as [P | P]; [left; exact P | right; right].
    rewrite P. f_equal. lia. }
  assert (L9 : length (firstn 9 A) = 9) by (rewrite firstn_length; lia).
  assert (P : Permutation (seq 1 9) (firstn 9 A)).
  { symmetry. apply NoDup_Permutation_bis.
    - apply (NoDup_nth _ 0). rewrite L9. intros i j Hi Hj E. rewrite !firstn_nth in E by assumption.
      destruct (Nat.eq_dec i j) as [Q | Q]; [exact Q | exfalso]. revert E. apply V9; lia.
    - rewrite L9, seq_length. lia.
    - intros x Hx. apply (In_nth _ _ 0) in Hx. destruct Hx as [i [Hi <-]]. rewrite L9 in Hi. rewrite firstn_nth by exact Hi. apply in_seq.
      specialize (R i ltac:(lia)). unfold at_ in R. lia. }
  assert (Split : firstn 11 A = firstn 9 A ++ [nth 9 A 0; nth 10 A 0]).
  { apply (list_ext_n _ _ 11); [rewrite firstn_length; lia | rewrite app_length, L9; reflexivity | ]. intros i Hi. rewrite firstn_nth by exact Hi.
    destruct (Nat.lt_ge_cases i 9) as [H | H].
    - rewrite app_nth1 by lia. rewrite firstn_nth by exact H. reflexivity.
    - rewrite app_nth2 by lia. rewrite L9. assert (i = 9 \/ i = 10) as [-> | ->] by lia; reflexivity. }
  rewrite Split. change form with (seq 1 9 ++ [4; 5]). unfold le_l. rewrite lex_app by (rewrite L9; reflexivity).
  assert (Le : le_l (seq 1 9) (firstn 9 A)).
  { apply sorted_min; [ | exact P]. repeat (apply SSorted_cons; [ | repeat (apply Forall_cons; [lia | ]); apply Forall_nil]). apply SSorted_nil. }
  destruct (le_cases _ _ Le) as [E | E]; [ | rewrite E; discriminate].
  rewrite <- E, lex_refl. cbn [lex_nat].
  assert (Ai : forall i, i < 9 -> nth i A 0 = S i). { intros i Hi. rewrite <- (firstn_nth A 9 i Hi), <- E. apply seq_nth. exact Hi. }
  pose proof (Ai 0 ltac:(lia)) as A0. pose proof (Ai 1 ltac:(lia)) as A1. pose proof (Ai 2 ltac:(lia)) as A2.
  pose proof (V9 9 0 ltac:(lia) ltac:(lia) ltac:(lia) ltac:(cbn; lia)) as N0. pose proof (V9 9 1 ltac:(lia) ltac:(lia) ltac:(lia) ltac:(cbn; lia)) as N1.
  pose proof (V9 9 2 ltac:(lia) ltac:(lia) ltac:(lia) ltac:(cbn; lia)) as N2. pose proof (V9 10 0 ltac:(lia) ltac:(lia) ltac:(lia) ltac:(cbn; lia)) as M0.
  pose proof (V9 10 1 ltac:(lia) ltac:(lia) ltac:(lia) ltac:(cbn; lia)) as M1. pose proof (V9 10 2 ltac:(lia) ltac:(lia) ltac:(lia) ltac:(cbn; lia)) as M2.
  pose proof (V9 10 9 ltac:(lia) ltac:(lia) ltac:(lia) ltac:(cbn; lia)) as M9. pose proof (R 9 ltac:(lia)) as R9. pose proof (R 10 ltac:(lia)) as R10. unfold at_ in R9, R10.
  destruct (Nat.compare_spec 4 (nth 9 A 0)) as [C | C | C]; [ | discriminate | lia].
  destruct (Nat.compare_spec 5 (nth 10 A 0)) as [C' | C' | C']; [discriminate | discriminate | lia].
Qed.

(** A symmetry whose result starts like that belongs to a good candidate *)
Lemma form_cand g t : solved g -> trans_ok t -> firstn 11 (act (sym_of t) g) = form ->
  wfm g (cand_of t) /\ good g (cand_of t).
Proof.
  intros S Ht F. destruct (trans_of_cand t Ht) as [P _].
  assert (X : forall i, i < 11 -> rename (t_digits t) (nth i (cells g (cand_of t)) 0) = nth i form 0).
  { intros i Hi. rewrite <- act_first by (try assumption; lia). rewrite <- F. symmetry. apply firstn_nth. exact Hi. }
  pose proof Ht as [_ [_ [_ [_ Hd]]]]. destruct (cells_valid g (cand_of t) S P) as [R V].
  assert (Ed : m_digits (cand_of t) = mdig g (cand_of t)).
  { apply mapping_is_inv; [apply (Permutation_length Hd) | apply CB_length | apply cells_valid; assumption | ].
    intros i Hi. specialize (X i ltac:(lia)). specialize (R i ltac:(lia)). unfold rename in X. replace (_ =? 0) with false in X by lia.
    cbn [cand_of m_digits]. rewrite X. do 9 (destruct i as [ | i]; [reflexivity | ]). lia. }
  split; [split; assumption | ]. split.
  - apply (rename_inj (t_digits t)); [exact Hd | specialize (R 9 ltac:(lia)); lia | specialize (R 3 ltac:(lia)); lia | rewrite !X by lia; reflexivity].
  - apply (rename_inj (t_digits t)); [exact Hd | specialize (R 10 ltac:(lia)); lia | specialize (R 4 ltac:(lia)); lia | rewrite !X by lia; reflexivity].
Qed.

Lemma act_form g t : solved g -> trans_ok t -> wfm g (cand_of t) -> good g (cand_of t) ->
  act (sym_of t) g = (form ++ value g (cand_of t)) ++ skipn 27 (act (sym_of t) g).
Proof.
  intros S Ht W G. rewrite <- good_form by (try assumption; apply W). rewrite <- (firstn_skipn 27 (act (sym_of t) g)) at 1. f_equal.
  rewrite firstn27 by exact Ht. unfold norm. destruct W as [_ <-]. reflexivity.
Qed.

(** * The main theorem *)

Theorem canon_main g : solved g -> exists t n, find_canonical g = Ok (act (sym_of t) g, t, n) /\ trans_ok t /\
  (forall s, sym_ok s -> le_l (act (sym_of t) g) (act s g)) /\ automorphism_count g n.
Proof.
  intros S. pose proof (find_min_bands_spec g S) as FM. unfold find_canonical.
  destruct (find_min_bands g) as [st | | | ]; cbn [post] in FM; try contradiction. cbn [bind].
  pose proof (inv_nonempty g st S FM) as NE. destruct FM as [I1 [I2 [I3 [I4 _]]]]. destruct st as [bm L]. cbn [fst snd] in *.
  (* results for the candidates *)
  set (R := fun m => match find_minimal_for_band g m with Ok r => r | _ => ([], mkTrans false id3 id3 [] [] []) end).
  assert (HR : forall m, wfm g m -> find_minimal_for_band g m = Ok (R m) /\ exists c2 r1 r2, c2 < 2 /\ p3ok r1 /\ p3ok r2 /\
    R m = (act (sym_of (trans_of m c2 r1 r2)) g, trans_of m c2 r1 r2) /\
    forall c2' r1' r2', c2' < 2 -> p3ok r1' -> p3ok r2' ->
      le_l (fst (R m)) (act (sym_of (trans_of m c2' r1' r2')) g) /\
      (fst (R m) = act (sym_of (trans_of m c2' r1' r2')) g -> trans_of m c2' r1' r2' = snd (R m))).
  { intros m W. destruct (find_minimal_spec g m S (wfm_wfm0 g m S W)) as [c2 [r1 [r2 [B [R1 [R2 [E H]]]]]]].
    assert (Er : R m = (act (sym_of (trans_of m c2 r1 r2)) g, trans_of m c2 r1 r2)) by (unfold R; rewrite E; reflexivity).
    split; [rewrite Er; exact E | ]. exists c2, r1, r2. split; [exact B | split; [exact R1 | split; [exact R2 | split; [exact Er | ]]]].
    intros c2' r1' r2' B' R1' R2'. destruct (H c2' r1' r2' B' R1' R2') as [H1 H2]. rewrite Er. cbn [fst snd]. split; [exact H1 | ].
    intros Q. specialize (H2 Q). injection H2 as -> -> ->. reflexivity. }
  assert (WL : forall m, In m L -> wfm g m) by (intros m Hm; apply I3 in Hm; tauto).
  destruct (choose_min_spec g R L NE) as [m0 [In0 [Ech Le]]]; [intros m Hm; apply HR, WL; exact Hm | ]. rewrite Ech.
  set (gm := fst (R m0)) in *. set (t0 := snd (R m0)) in *.
  assert (TR : forall m, In m L -> trans_ok (snd (R m)) /\ fst (R m) = act (sym_of (snd (R m))) g /\ cand_of (snd (R m)) = m).
  { intros m Hm. destruct (HR m (WL m Hm)) as [_ [c2 [r1 [r2 [B [R1 [R2 [E _]]]]]]]]. rewrite E. cbn [fst snd]. split; [ | split; [reflexivity | ]].
    - apply trans_of_ok; try assumption. apply (wfm_wfm0 g); [exact S | apply WL; exact Hm].
    - destruct m; reflexivity. }
  destruct (TR m0 In0) as [T0 [Eg C0]]. fold gm in Eg. fold t0 in T0, Eg, C0.
  (* every symmetry is at least as large, and the equal ones come from the list *)
  assert (Main : forall s, sym_ok s -> le_l gm (act s g) /\ (gm = act s g -> exists m, In m L /\ fst (R m) = gm /\ s = sym_of (snd (R m)))).
  { intros s Hs. destruct (sym_of_surj s Hs) as [t [Ht <-]].
    assert (F0 : gm = (form ++ bm) ++ skipn 27 gm).
    { rewrite Eg. rewrite (act_form g t0 S T0) at 1; rewrite ?C0; [ | apply WL; exact In0 | apply I3; exact In0].
      apply I3 in In0. destruct In0 as [_ [_ ->]]. reflexivity. }
    assert (L0 : length (form ++ bm) = 27) by (rewrite app_length, I1; reflexivity).
    pose proof (form_le (act (sym_of t) g) (act_solved _ _ Hs S)) as FL.
    assert (LA : length (act (sym_of t) g) = 81) by apply act_length.
    destruct (le_cases _ _ FL) as [F | F].
    - symmetry in F. destruct (form_cand g t S Ht F) as [W G]. destruct (trans_of_cand t Ht) as [_ [r1 [r2 [B [R1 [R2 Et]]]]]].
      pose proof (act_form g t S Ht W G) as A. pose proof (I4 (cand_of t) W G) as Lv.
      destruct (HR (cand_of t) W) as [_ [_ [_ [_ [_ [_ [_ [_ HM]]]]]]]]. destruct (HM _ r1 r2 B R1 R2) as [HM1 HM2]. rewrite <- Et in HM1, HM2.
      destruct (le_cases _ _ Lv) as [Ev | Ev].
      + assert (Im : In (cand_of t) L) by (apply I3; auto). specialize (Le _ Im). split; [apply (le_trans_l _ _ _ Le HM1) | ].
        intros Q. assert (Q' : fst (R (cand_of t)) = gm) by (apply le_anti; [rewrite Q; exact HM1 | exact Le]).
        exists (cand_of t). split; [exact Im | split; [exact Q' | ]]. rewrite <- HM2; [reflexivity | congruence].
      + assert (C : lex_nat gm (act (sym_of t) g) = Lt).
        { rewrite F0, A. rewrite lex_app by (rewrite L0, app_length, value_length; reflexivity). rewrite lex_app by reflexivity. rewrite lex_refl, Ev. reflexivity. }
        split; [apply lt_le_l; exact C | ]. intros Q. rewrite Q, lex_refl in C. discriminate C.
    - assert (C : lex_nat gm (act (sym_of t) g) = Lt).
      { rewrite F0. rewrite <- (firstn_skipn 11 (act (sym_of t) g)). rewrite <- app_assoc. rewrite lex_app by (rewrite firstn_length, LA; reflexivity). rewrite F. reflexivity. }
      split; [apply lt_le_l; exact C | ]. intros Q. rewrite Q, lex_refl in C. discriminate C. }
  exists t0, (length (filter (fun m => same gm (fst (R m))) L)). split; [rewrite <- Eg; reflexivity | ]. split; [exact T0 | ]. split.
  { intros s Hs. rewrite <- Eg. apply Main. exact Hs. }
  (* the automorphisms *)
  pose proof (solved_wf' g S) as Wg. pose proof (sym_of_ok t0 T0) as O0. set (a0 := sym_of t0) in *.
  set (Ls := map (fun m => sym_of (snd (R m))) (filter (fun m => same gm (fst (R m))) L)).
  assert (InL : forall m, In m (filter (fun m => same gm (fst (R m))) L) <-> In m L /\ fst (R m) = gm).
  { intros m. rewrite filter_In, same_iff. split; intros [? ?]; auto. }
  assert (InS : forall s, In s Ls <-> sym_ok s /\ act s g = gm).
  { intros s. unfold Ls. rewrite in_map_iff. split.
    - intros [m [<- Hm]]. apply InL in Hm. destruct Hm as [Hm E]. destruct (TR m Hm) as [Tm [Em _]]. split; [apply sym_of_ok; exact Tm | congruence].
    - intros [Hs E]. destruct (proj2 (Main s Hs) (eq_sym E)) as [m [Im [Em Es]]]. exists m. split; [symmetry; exact Es | apply InL; auto]. }
  assert (NS : NoDup Ls).
  { unfold Ls. apply NoDup_map_inj; [ | apply NoDup_filter; exact I2]. intros m m' Hm Hm' E. apply InL in Hm, Hm'.
    destruct (TR m (proj1 Hm)) as [Tm [_ Cm]]. destruct (TR m' (proj1 Hm')) as [Tm' [_ Cm']].
    apply sym_of_inj in E; try assumption. congruence. }
  exists (map (scomp (sinv a0)) Ls). split; [ | split].
  - apply NoDup_map_inj; [ | exact NS]. intros s s' Hs Hs' E. apply InS in Hs, Hs'.
    rewrite <- (proj2 (scomp_inv a0 s O0 (proj1 Hs))), E. apply scomp_inv; [exact O0 | apply Hs'].
  - intros s. rewrite in_map_iff. split.
    + intros [s' [<- Hs']]. apply InS in Hs'. destruct Hs' as [Hs' E]. pose proof (sinv_ok a0 O0) as Oi. split; [apply scomp_ok; assumption | ].
      rewrite act_scomp by assumption. rewrite E, Eg. apply act_inv; assumption.
    + intros [Hs E]. exists (scomp a0 s). split; [apply scomp_inv; assumption | ]. apply InS. split; [apply scomp_ok; assumption | ].
      rewrite act_scomp by assumption. rewrite E. symmetry. exact Eg.
  - unfold Ls. rewrite !map_length. reflexivity.
Qed.
