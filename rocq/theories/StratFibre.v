(** The strategy solver: how many instances of its pattern a strategy can find for one candidate, or for one pair of cells of a
    house, when the puzzle has a solution. *)
From Coq Require Import List Arith NArith ZArith ZifyNat ZifyN ZifyBool Lia Bool.
From Verif Require Import Spec TableSpec GeomSpec Solver Bits Geom Gen BitLemmas GridProofs BitsProofs GeomProofs GenProofs GuessProofs Strat StratFind StratSolve StratUse StratWhy StratWhyLemmas StratFound StratWalk StratWing StratOnce StratLog StratCertify.
Import ListNotations.
Ltac Zify.zify_post_hook ::= Z.to_euclidean_division_equations.

(** * Sets of a given size *)

Definition all9 : list N := map N.of_nat (seq 0 512).
(** The sets of [n] numbers below 9 with [a] and without [b] *)
Definition with_without (n a b : nat) : list N := filter (fun F => (count 9 F =? n) && N.testbit F (N.of_nat a) && negb (N.testbit F (N.of_nat b))) all9.
Lemma with_without_len n a b : 2 <= n <= 4 -> a < 9 -> b < 9 -> length (with_without n a b) <= 35.
Proof.
  intros Hn Ha Hb. assert (X : forallb (fun n => forallb (fun a => forallb (fun b => length (with_without n a b) <=? 35) (seq 0 9)) (seq 0 9)) (seq 2 3) = true) by (vm_compute; reflexivity).
  rewrite forallb_forall in X. specialize (X n ltac:(apply in_seq; lia)). cbv beta in X. rewrite forallb_forall in X. specialize (X a ltac:(apply in_seq; lia)). cbv beta in X. rewrite forallb_forall in X.
  apply Nat.leb_le, X, in_seq. lia.
Qed.
Lemma with_without_in n a b F : (forall i, mem F i -> i < 9) -> count 9 F = n -> mem F a -> ~ mem F b -> In F (with_without n a b).
Proof.
  intros H E A B. apply filter_In. split.
  - apply in_map_iff. exists (N.to_nat F). assert (L : (F < 512)%N) by (apply (proj1 (is_set_lt EDigit F)); exact H). split; [apply N2Nat.id | ]. apply in_seq. lia.
  - rewrite !andb_true_iff, negb_true_iff, Nat.eqb_eq. split; [split; [exact E | exact A] | ]. unfold mem in B. destruct (N.testbit F (N.of_nat b)); [destruct B; reflexivity | reflexivity].
Qed.

(** [related_le] with equal lengths *)
Lemma related_onto {A} (R : A -> nat -> Prop) (Rd : forall a b, {R a b} + {~ R a b}) (l1 : list A) l2 b : NoDup l1 -> (forall a, In a l1 -> exists b, In b l2 /\ R a b) ->
  (forall a a' b, In a l1 -> In a' l1 -> R a b -> R a' b -> a = a') -> length l2 <= length l1 -> In b l2 -> exists a, In a l1 /\ R a b.
Proof.
  intros ND H Inj L Hb. destruct (Exists_dec (fun a => R a b) l1 (fun a => Rd a b)) as [Y | N]; [apply Exists_exists in Y; exact Y | exfalso].
  assert (X : length l1 <= length (remove Nat.eq_dec b l2)).
  { apply (related_le R); [exact ND | | exact Inj]. intros a Ha. destruct (H a Ha) as [y [Hy Ry]]. exists y. split; [ | exact Ry]. apply in_in_remove; [ | exact Hy]. intros ->. apply N, Exists_exists. exists a. auto. }
  pose proof (remove_length_lt Nat.eq_dec l2 b Hb). lia.
Qed.

Lemma both_dec (A B : Prop) : {A} + {~ A} -> {B} + {~ B} -> {A /\ B} + {~ (A /\ B)}.
Proof. tauto. Qed.

Lemma count_split (F : N) : (forall i, mem F i -> i < 9) -> count 18 F = count 9 F.
Proof.
  intros H. unfold count. replace (seq 0 18) with (seq 0 9 ++ seq 9 9) by reflexivity. rewrite filter_app, app_length. replace (filter _ (seq 9 9)) with (@nil nat); [cbn; lia | ].
  symmetry. destruct (filter (fun i => N.testbit F (N.of_nat i)) (seq 9 9)) as [ | i l] eqn:E; [reflexivity | exfalso]. assert (X : In i (i :: l)) by (left; reflexivity). rewrite <- E in X. apply filter_In in X. destruct X as [X M]. apply in_seq in X. specialize (H i M). lia.
Qed.
(** A set of columns, numbered from 0 *)
Lemma columns_set (F : N) : (forall i, mem F i -> 9 <= i < 18) -> exists F', (F = F' * 512)%N /\ (forall i, mem F' i <-> mem F (i + 9)) /\ (forall i, mem F' i -> i < 9) /\ count 9 F' = count 18 F.
Proof.
  intros H. exists (N.shiftr F 9). assert (M : forall i, mem (N.shiftr F 9) i <-> mem F (i + 9)).
  { intros i. unfold mem. rewrite N.shiftr_spec by lia. replace (N.of_nat i + 9)%N with (N.of_nat (i + 9)) by lia. reflexivity. }
  split; [ | split; [exact M | split; [intros i Hi; apply M, H in Hi; lia | ]]].
  - change 512%N with (2 ^ 9)%N. rewrite <- N.shiftl_mul_pow2. apply N.bits_inj. intros i. destruct (N.lt_ge_cases i 9) as [L | G].
    + rewrite N.shiftl_spec_low by exact L. destruct (N.testbit F i) eqn:T; [exfalso | reflexivity]. specialize (H (N.to_nat i)). unfold mem in H. rewrite N2Nat.id in H. specialize (H T). lia.
    + rewrite N.shiftl_spec_high' by exact G. rewrite N.shiftr_spec by lia. f_equal. lia.
  - unfold count. replace (seq 0 18) with (seq 0 9 ++ map (fun i => i + 9) (seq 0 9)) by reflexivity. rewrite filter_app, app_length.
    replace (filter (fun i => N.testbit F (N.of_nat i)) (seq 0 9)) with (@nil nat).
    + cbn [length]. assert (X : forall l, length (filter (fun i => N.testbit (N.shiftr F 9) (N.of_nat i)) l) = length (filter (fun i => N.testbit F (N.of_nat i)) (map (fun i => i + 9) l))); [ | apply X].
      induction l as [ | i l IH]; [reflexivity | ]. cbn [map filter]. assert (E : N.testbit (N.shiftr F 9) (N.of_nat i) = N.testbit F (N.of_nat (i + 9))) by (rewrite N.shiftr_spec by lia; f_equal; lia). rewrite E.
      destruct (N.testbit F (N.of_nat (i + 9))); cbn [length]; rewrite IH; reflexivity.
    + symmetry. destruct (filter (fun i => N.testbit F (N.of_nat i)) (seq 0 9)) as [ | i l] eqn:E; [reflexivity | exfalso]. assert (X : In i (i :: l)) by (left; reflexivity). rewrite <- E in X. apply filter_In in X. destruct X as [X Mi]. apply in_seq in X. specialize (H i Mi). lia.
Qed.

(** A set with two elements *)
Definition pair_set (a b : nat) : N := N.lor (N.shiftl 1 (N.of_nat a)) (N.shiftl 1 (N.of_nat b)).
Lemma pair_set_mem a b i : mem (pair_set a b) i <-> i = a \/ i = b.
Proof.
  unfold pair_set, mem. rewrite N.lor_spec, orb_true_iff, !N.shiftl_1_l, !N.pow2_bits_eqb, !N.eqb_eq. lia.
Qed.

(** The elements of a set with as many elements as the list that holds them *)
Lemma exact_set m l : is_set EDigit m -> set_len m = length l -> (forall i, mem m i -> In i l) -> forall i, In i l -> mem m i.
Proof.
  intros Sm L H. assert (X : incl l (members EDigit m)).
  { apply NoDup_length_incl; [apply NoDup_filter, seq_NoDup | rewrite <- (len_members EDigit m Sm); lia | intros i Hi; apply H, (members_in EDigit m i Sm), Hi]. }
  intros i Hi. apply (members_in EDigit m i Sm), X, Hi.
Qed.
Lemma hd_only {A} (x0 x : A) l : In x l -> (forall y, In y l -> y = x) -> hd x0 l = x.
Proof. destruct l as [ | y l]; [intros [] | ]. intros _ H. apply H. left. reflexivity. Qed.

Definition hid (S0 : strategy) : bool := match S0 with HiddenPairs | HiddenTriples | HiddenQuads => true | _ => false end.
Definition is_sub (S0 : strategy) : Prop := match S0 with NakedPairs | NakedTriples | NakedQuads | HiddenPairs | HiddenTriples | HiddenQuads => True | _ => False end.

Section Fibre.
Variables (pl el : facts) (s : grid).
Hypothesis Cs : completion pl el s.

(** The place of a digit in a house of the solution *)
Definition place (d h : nat) : nat := match find (fun k => in_houseb h k && (at_ s k =? d)) (seq 0 81) with Some k => k | None => 0 end.
Lemma place_of d h k : h < 27 -> k < 81 -> in_house h k -> at_ s k = d -> place d h = k.
Proof.
  intros Hh Hk Ik E. unfold place. destruct (find _ (seq 0 81)) as [k' | ] eqn:F.
  - apply find_some in F. destruct F as [Hk' T]. apply in_seq in Hk'. apply andb_true_iff in T. destruct T as [T1 T2]. apply in_houseb_iff in T1. apply Nat.eqb_eq in T2.
    apply (one_place pl el s Cs h); try assumption; [lia | congruence].
  - exfalso. assert (X := find_none _ _ F k ltac:(apply in_seq; lia)). cbv beta in X. rewrite (proj2 (in_houseb_iff h k) Ik), E, Nat.eqb_refl in X. discriminate.
Qed.
Definition near (d c : nat) : list nat := [place d (row_of c); place d (9 + col_of c); place d (18 + block_of c)].
Lemma near_in d c k : c < 81 -> k < 81 -> peers c k -> at_ s k = d -> In k (near d c).
Proof.
  intros Hc Hk [_ Pe] E. pose proof (row_lt c Hc) as L1. pose proof (col_lt c) as L2. pose proof (block_lt c Hc) as L3. unfold near. cbn [In]. destruct Pe as [Pe | [Pe | Pe]].
  - left. apply place_of; [lia | exact Hk | | exact E]. unfold in_house. destruct (Nat.ltb_spec (row_of c) 9); [symmetry; exact Pe | lia].
  - right. left. apply place_of; [lia | exact Hk | | exact E]. unfold in_house. destruct (Nat.ltb_spec (9 + col_of c) 9); [lia | ]. destruct (Nat.ltb_spec (9 + col_of c) 18); lia.
  - right. right. left. apply place_of; [lia | exact Hk | | exact E]. unfold in_house. destruct (Nat.ltb_spec (18 + block_of c) 9); [lia | ]. destruct (Nat.ltb_spec (18 + block_of c) 18); lia.
Qed.

(** ** Locked candidates *)

Definition locked_keys (x : cand) : list key :=
  map (fun mp => (fst mp, snd x, if (snd mp : bool) then 1%N else 0%N)) (filter (fun mp => in_houseb (if (snd mp : bool) then miniline_line (fst mp) else miniline_block (fst mp)) (fst x)) (list_prod (seq 0 54) [true; false])).
Lemma locked_keys_len x : fst x < 81 -> length (locked_keys x) <= 81.
Proof.
  intros Hc. unfold locked_keys. rewrite map_length.
  assert (X : forallb (fun c => length (filter (fun mp => in_houseb (if (snd mp : bool) then miniline_line (fst mp) else miniline_block (fst mp)) c) (list_prod (seq 0 54) [true; false])) <=? 81) (seq 0 81) = true) by (vm_compute; reflexivity).
  rewrite forallb_forall in X. apply Nat.leb_le, X, in_seq. lia.
Qed.
Lemma locked_keys_in z x : why pl el LockedCandidates z -> In x (removes z) -> In (key_of false z) (locked_keys x).
Proof.
  destruct x as [c d]. intros Wy Hi. destruct z as [[k e] | [k e] t | v m ptg cs | h ps ds cs | v ls ps cs | v b cv cs | hi hd pin cs | ln cs]; cbn [removes] in Hi; cbn [why] in Wy; try contradiction; try (exfalso; tauto).
  destruct Wy as [_ [Hm [Hx [_ [Ab [Q R]]]]]]. destruct (R c d Hi) as [Hc [-> [Ic _]]]. cbn [key_of]. unfold locked_keys. apply in_map_iff. exists (m, ptg). split; [reflexivity | ]. apply filter_In. cbn [fst snd]. split.
  - apply in_prod; [apply in_seq; lia | destruct ptg; cbn [In]; auto].
  - apply in_houseb_iff. exact Ic.
Qed.

(** ** Fish *)

Definition fish_keys (n : nat) (x : cand) : list key := let (c, d) := x in
  map (fun F => (d, 0, F)) (with_without n (row_of (place d (9 + col_of c))) (row_of c)) ++
  map (fun F => (d, 0, (F * 512)%N)) (with_without n (col_of (place d (row_of c))) (col_of c)).
Lemma place_lt d h : place d h < 81.
Proof. unfold place. destruct (find _ (seq 0 81)) as [k' | ] eqn:F; [ | lia]. apply find_some in F. destruct F as [Hk' _]. apply in_seq in Hk'. lia. Qed.
Lemma fish_keys_len n x : 2 <= n <= 4 -> fst x < 81 -> length (fish_keys n x) <= 81.
Proof.
  destruct x as [c d]. cbn [fst]. intros Hn Hc. unfold fish_keys. rewrite app_length, !map_length.
  pose proof (with_without_len n (row_of (place d (9 + col_of c))) (row_of c) Hn (row_lt _ (place_lt _ _)) (row_lt c Hc)).
  pose proof (with_without_len n (col_of (place d (row_of c))) (col_of c) Hn (col_lt _) (col_lt c)). lia.
Qed.
Lemma fish_keys_in S0 z x : match S0 with XWing | Swordfish | Jellyfish => True | _ => False end -> why pl el S0 z -> In x (removes z) -> In (key_of false z) (fish_keys (pattern_size S0) x).
Proof.
  destruct x as [c d]. intros HS Wy Hi. destruct z as [[k e] | [k e] t | v m ptg cs | h ps ds cs | v ls ps cs | v b cv cs | hi hd pin cs | ln cs]; cbn [removes] in Hi; cbn [why] in Wy; try contradiction.
  - destruct Wy as [-> _]. destruct HS.
  - destruct Wy as [_ [_ [_ [_ Wy]]]]. destruct S0; contradiction.
  - destruct Wy as [Hx [_ [Ll [Lp [_ [rows [V [In_ R]]]]]]]]. destruct (R c d Hi) as [Hc [-> [l0 [Pl [Nl [Il Mp]]]]]]. assert (L27 : forall l, (if rows then l < 9 else 9 <= l < 18) -> l < 18) by (intros l; destruct rows; lia).
    destruct (cell_at_inv l0 c ltac:(specialize (L27 l0 Pl); lia) Hc Il) as [Lp0 Cc].
    assert (X : exists l, In l (below_list 18 ls) /\ pos_in_house l0 c < 9 /\ at_ s (cell_at l (pos_in_house l0 c)) = v).
    { apply (related_onto (fun l p => p < 9 /\ at_ s (cell_at l p) = v) (fun l p => both_dec _ _ (lt_dec _ _) (Nat.eq_dec _ _)) (below_list 18 ls) (below_list 9 ps)).
      - apply below_nodup.
      - intros l Hl. apply below_in in Hl. destruct Hl as [L18 Ml]. destruct (V l Ml) as [Pl' Ab]. destruct (absent_possible pl el s Cs l v ltac:(lia) Hx Ab) as [k [Hk [Ik [E A]]]].
        destruct (cell_at_inv l k ltac:(lia) Hk Ik) as [Lk Ck]. exists (pos_in_house l k). rewrite Ck. split; [ | split; assumption]. apply below_in. split; [exact Lk | ]. apply (In_ l k); assumption.
      - intros l l' p Hl Hl' [L9 E] [_ E']. apply below_in in Hl. apply below_in in Hl'. destruct (V l (proj2 Hl)) as [Pl1 _]. destruct (V l' (proj2 Hl')) as [Pl2 _].
        destruct (Nat.eq_dec l l') as [ | N]; [assumption | exfalso]. destruct (cell_at_ok l p ltac:(specialize (L27 l Pl1); lia) L9) as [_ [Lk _]]. destruct (cell_at_ok l' p ltac:(specialize (L27 l' Pl2); lia) L9) as [_ [Lk' _]].
        apply (differ pl el s Cs _ _ Lk Lk' (parallel_peers rows l l' p Pl1 Pl2 N L9)). congruence.
      - unfold count in Ll, Lp. fold (below_list 18 ls) in Ll. fold (below_list 9 ps) in Lp. lia.
      - apply below_in. split; assumption. }
    destruct X as [l [Hl [_ E]]]. apply below_in in Hl. destruct Hl as [L18 Ml]. destruct (V l Ml) as [Pl1 _]. destruct (cell_at_ok l (pos_in_house l0 c) ltac:(lia) Lp0) as [_ [Lk [Ik Pk]]].
    set (k := cell_at l (pos_in_house l0 c)) in *. cbn [key_of]. unfold fish_keys. apply in_app_iff. destruct rows.
    + left. apply in_map_iff. exists ls. split; [reflexivity | ]. unfold in_house, pos_in_house in *. destruct (Nat.ltb_spec l 9); [ | lia]. destruct (Nat.ltb_spec l0 9); [ | lia].
      assert (Ek : place v (9 + col_of c) = k). { apply place_of; [pose proof (col_lt c); lia | exact Lk | | exact E]. unfold in_house. destruct (Nat.ltb_spec (9 + col_of c) 9); [lia | ]. pose proof (col_lt c). destruct (Nat.ltb_spec (9 + col_of c) 18); lia. }
      rewrite Ek. assert (L9 : forall i, mem ls i -> i < 9) by (intros i Hi'; apply (V i Hi')). apply with_without_in; [exact L9 | rewrite <- (count_split ls L9); exact Ll | rewrite Ik; exact Ml | rewrite Il; exact Nl].
    + right. unfold in_house, pos_in_house in *. destruct (Nat.ltb_spec l 9); [lia | ]. destruct (Nat.ltb_spec l0 9); [lia | ]. destruct (Nat.ltb_spec l 18); [ | lia]. destruct (Nat.ltb_spec l0 18); [ | lia].
      assert (Ek : place v (row_of c) = k). { apply place_of; [pose proof (row_lt c Hc); lia | exact Lk | | exact E]. unfold in_house. pose proof (row_lt c Hc). destruct (Nat.ltb_spec (row_of c) 9); lia. }
      rewrite Ek. destruct (columns_set ls) as [F [EF [MF [BF CF]]]]; [intros i Hi'; apply (V i Hi') | ]. apply in_map_iff. exists F. split; [rewrite EF; reflexivity | ].
      apply with_without_in; [exact BF | congruence | apply MF; replace (col_of k + 9) with l by lia; exact Ml | rewrite MF; replace (col_of c + 9) with l0 by lia; exact Nl].
  - destruct Wy as [_ [_ [Wy _]]]. destruct S0; contradiction.
Qed.

(** ** Subsets *)

(** The eliminated digit is in another cell of the house, and the digit of the cell is not possible there. *)
Lemma subset_slot S0 z c e : is_sub S0 -> why pl el S0 z -> In (c, e) (removes z) -> K_sub (key_of (hid S0) z) ->
  exists h F q, key_of (hid S0) z = (h, 0, F) /\ h < 27 /\ c < 81 /\ in_house h c /\ q < 9 /\ q <> pos_in_house h c /\ at_ s (cell_at h q) = e /\ ~ possible pl el (cell_at h q) (at_ s c) /\
    In F (if hid S0 then with_without (pattern_size S0) (at_ s c - 1) (e - 1) else with_without (pattern_size S0) q (pos_in_house h c)).
Proof.
  intros HS Wy Hi Ks. destruct z as [[k y] | [k y] t | v m ptg cs | h ps ds cs | v ls ps cs | v b cv cs | hi hd pin cs | ln cs]; cbn [removes] in Hi; cbn [why] in Wy; try contradiction.
  - destruct Wy as [-> _]. destruct HS.
  - destruct Wy as [Hh [_ [Lp [Ld Q]]]].
    assert (Nk : hid S0 = false -> ((forall c, c < 81 -> in_house h c -> mem ps (pos_in_house h c) -> vacant pl c) /\
          (forall c d, in_house h c -> mem ps (pos_in_house h c) -> possible pl el c d -> mem ds (d - 1)) /\
          forall c d, In (c, d) cs -> c < 81 /\ 1 <= d <= 9 /\ in_house h c /\ ~ mem ps (pos_in_house h c) /\ mem ds (d - 1)) ->
        exists h0 F q, key_of (hid S0) (DSubsets h ps ds cs) = (h0, 0, F) /\ h0 < 27 /\ c < 81 /\ in_house h0 c /\ q < 9 /\ q <> pos_in_house h0 c /\ at_ s (cell_at h0 q) = e /\ ~ possible pl el (cell_at h0 q) (at_ s c) /\
          In F (if hid S0 then with_without (pattern_size S0) (at_ s c - 1) (e - 1) else with_without (pattern_size S0) q (pos_in_house h0 c))).
    { intros Hn [V [In_ R]]. rewrite Hn in *. cbn [key_of] in *. destruct (R c e Hi) as [Hc [He [Ic [Np Md]]]]. destruct (cell_at_inv h c Hh Hc Ic) as [Lc Cc].
      assert (On : forall x, x < 9 -> mem ds x -> exists p, In p (below_list 9 ps) /\ x = at_ s (cell_at h p) - 1).
      { intros x Lx Mx. apply (related_onto (fun p x => x = at_ s (cell_at h p) - 1) (fun p x => Nat.eq_dec _ _) (below_list 9 ps) (below_list 9 ds)).
        - apply below_nodup.
        - intros p Hp. apply below_in in Hp. destruct Hp as [L9 Mp]. destruct (cell_at_ok h p Hh L9) as [_ [Lk [Ik Pk]]]. eexists. split; [ | reflexivity]. assert (Rk := range_s pl el s Cs _ Lk). apply below_in. split; [lia | ].
          apply (In_ (cell_at h p)); [exact Ik | rewrite Pk; exact Mp | ]. apply (vacant_possible pl el s Cs); [exact Lk | ]. apply V; [exact Lk | exact Ik | rewrite Pk; exact Mp].
        - intros p p' y Hp Hp' E E'. apply below_in in Hp. apply below_in in Hp'. apply (solved_pos s h p p' (proj1 Cs) Hh); [apply Hp | apply Hp' | ].
          destruct (cell_at_ok h p Hh (proj1 Hp)) as [_ [Lk _]]. destruct (cell_at_ok h p' Hh (proj1 Hp')) as [_ [Lk' _]]. assert (R1 := range_s pl el s Cs _ Lk). assert (R2 := range_s pl el s Cs _ Lk'). lia.
        - unfold count in Lp, Ld. fold (below_list 9 ps) in Lp. fold (below_list 9 ds) in Ld. lia.
        - apply below_in. auto. }
      destruct (On (e - 1) ltac:(lia) Md) as [q [Hq Eq]]. apply below_in in Hq. destruct Hq as [Lq Mq]. destruct (cell_at_ok h q Hh Lq) as [_ [Lk [Ik Pk]]]. assert (Rk := range_s pl el s Cs _ Lk).
      exists h, ps, q. split; [reflexivity | ]. repeat (split; [assumption | ]). split; [intros Z; apply Np; rewrite <- Z; exact Mq | ]. split; [lia | ]. split.
      - intros A. apply In_ in A; [ | exact Ik | rewrite Pk; exact Mq]. assert (Rc := range_s pl el s Cs _ Hc). destruct (On (at_ s c - 1) ltac:(lia) A) as [p [Hp Ep]]. apply below_in in Hp. destruct (cell_at_ok h p Hh (proj1 Hp)) as [_ [Lk' [Ik' Pk']]].
        assert (R2 := range_s pl el s Cs _ Lk'). assert (X : c = cell_at h p) by (apply (one_place pl el s Cs h); try assumption; lia). apply Np. rewrite X, Pk'. apply Hp.
      - apply with_without_in; assumption. }
    assert (Hd' : hid S0 = true -> ((forall d, 1 <= d <= 9 -> mem ds (d - 1) -> absent pl h d) /\
          (forall c d, in_house h c -> mem ds (d - 1) -> possible pl el c d -> mem ps (pos_in_house h c)) /\
          forall c d, In (c, d) cs -> c < 81 /\ 1 <= d <= 9 /\ in_house h c /\ mem ps (pos_in_house h c) /\ ~ mem ds (d - 1)) ->
        exists h0 F q, key_of (hid S0) (DSubsets h ps ds cs) = (h0, 0, F) /\ h0 < 27 /\ c < 81 /\ in_house h0 c /\ q < 9 /\ q <> pos_in_house h0 c /\ at_ s (cell_at h0 q) = e /\ ~ possible pl el (cell_at h0 q) (at_ s c) /\
          In F (if hid S0 then with_without (pattern_size S0) (at_ s c - 1) (e - 1) else with_without (pattern_size S0) q (pos_in_house h0 c))).
    { intros Hn [V [In_ R]]. rewrite Hn in *. cbn [key_of] in *. destruct (R c e Hi) as [Hc [He [Ic [Mp Nd]]]]. destruct (cell_at_inv h c Hh Hc Ic) as [Lc Cc].
      assert (On : forall p, p < 9 -> mem ps p -> exists x, In x (below_list 9 ds) /\ at_ s (cell_at h p) = x + 1).
      { intros p0 Lx Mx. apply (related_onto (fun x p => at_ s (cell_at h p) = x + 1) (fun p x => Nat.eq_dec _ _) (below_list 9 ds) (below_list 9 ps)).
        - apply below_nodup.
        - intros x Hx. apply below_in in Hx. destruct Hx as [L9 Mx']. assert (Mx2 : mem ds (x + 1 - 1)) by (replace (x + 1 - 1) with x by lia; exact Mx').
          destruct (absent_possible pl el s Cs h (x + 1) Hh ltac:(lia) (V (x + 1) ltac:(lia) Mx2)) as [k [Hk [Ik [E A]]]]. destruct (cell_at_inv h k Hh Hk Ik) as [Lk Ck].
          exists (pos_in_house h k). rewrite Ck. split; [ | exact E]. apply below_in. split; [exact Lk | ]. apply (In_ k (x + 1)); assumption.
        - intros x x' p _ _ E E'. lia.
        - unfold count in Lp, Ld. fold (below_list 9 ps) in Lp. fold (below_list 9 ds) in Ld. lia.
        - apply below_in. auto. }
      destruct (any_house_has_digit s h e (proj1 Cs) Hh He) as [k [Hk [Ik E]]]. destruct (cell_at_inv h k Hh Hk Ik) as [Lk Ck]. destruct (On (pos_in_house h c) Lc Mp) as [x [Hx Ex]]. rewrite Cc in Ex. apply below_in in Hx.
      assert (Nq : ~ mem ps (pos_in_house h k)).
      { intros Mq. destruct (On _ Lk Mq) as [y [Hy Ey]]. rewrite Ck in Ey. apply below_in in Hy. apply Nd. replace (e - 1) with y by lia. apply Hy. }
      assert (Mc : mem ds (at_ s c - 1)) by (replace (at_ s c - 1) with x by lia; apply Hx).
      exists h, ds, (pos_in_house h k). rewrite Ck. split; [reflexivity | ]. repeat (split; [assumption | ]). split; [intros Z; apply Nq; rewrite Z; exact Mp | ]. split; [exact E | ]. split.
      - intros A. apply Nq. apply (In_ k (at_ s c)); assumption.
      - apply with_without_in; assumption. }
    destruct S0; try contradiction; auto.
  - destruct Wy as [_ [_ [_ [_ [Wy _]]]]]. destruct S0; contradiction.
  - destruct Wy as [_ [_ [Wy _]]]. destruct S0; contradiction.
Qed.

(** ** Wings *)

(** The candidates of the cells *)
Variable P : nat -> N.
Hypothesis Ps : forall c, c < 81 -> is_set EDigit (P c).
Hypothesis Pm : forall c d, c < 81 -> 1 <= d <= 9 -> (mem (P c) (d - 1) <-> possible pl el c d).

(** A candidate of the cell that is not in the list *)
Definition rest_digit (c : nat) (l : list nat) : nat := hd 0 (filter (fun d => N.testbit (P c) (N.of_nat (d - 1)) && negb (existsb (Nat.eqb d) l)) (seq 1 9)).
Lemma rest_in c l d : In d (filter (fun d => N.testbit (P c) (N.of_nat (d - 1)) && negb (existsb (Nat.eqb d) l)) (seq 1 9)) <-> 1 <= d <= 9 /\ mem (P c) (d - 1) /\ ~ In d l.
Proof.
  rewrite filter_In, in_seq, andb_true_iff, negb_true_iff. unfold mem. assert (X : existsb (Nat.eqb d) l = false <-> ~ In d l).
  { split.
    - intros E Hi. assert (Y : existsb (Nat.eqb d) l = true) by (apply existsb_exists; exists d; split; [exact Hi | apply Nat.eqb_refl]). congruence.
    - intros N. destruct (existsb (Nat.eqb d) l) eqn:E; [ | reflexivity]. apply existsb_exists in E. destruct E as [y [Hy Ey]]. apply Nat.eqb_eq in Ey. subst y. contradiction. }
  rewrite X. split; [intros [A [B C]]; split; [lia | auto] | intros [A [B C]]; split; [lia | auto]].
Qed.
(** The candidates of the cell are [x] and the digits of [l]. *)
Lemma rest_only c l x : 1 <= x <= 9 -> mem (P c) (x - 1) -> ~ In x l -> (forall d, 1 <= d <= 9 -> mem (P c) (d - 1) -> d = x \/ In d l) -> rest_digit c l = x.
Proof.
  intros Rx Mx Nx H. apply hd_only; [apply rest_in; auto | ]. intros d Hd. apply rest_in in Hd. destruct Hd as [A [B C]]. destruct (H d A B); [assumption | contradiction].
Qed.
Lemma rest_one c l x : 1 <= x <= 9 -> mem (P c) (x - 1) -> ~ In x l -> mem (P c) (rest_digit c l - 1) /\ 1 <= rest_digit c l <= 9 /\ ~ In (rest_digit c l) l.
Proof.
  intros Rx Mx Nx. assert (Hx := proj2 (rest_in c l x) (conj Rx (conj Mx Nx))). unfold rest_digit. destruct (filter _ (seq 1 9)) as [ | y t] eqn:E; [destruct Hx | ]. cbn [hd].
  assert (Hy : In y (y :: t)) by (left; reflexivity). rewrite <- E in Hy. apply rest_in in Hy. tauto.
Qed.

Definition wing_keys (x : cand) : list key := let (k, z) := x in
  flat_map (fun p => flat_map (fun h => map (fun o => (h, 0, pair_set p o)) (near (rest_digit h [rest_digit p [z]; z]) h ++ near z h)) (near (rest_digit p [z]) p)) (near z k) ++
  flat_map (fun h => flat_map (fun a => map (fun b => (h, 0, pair_set a b)) (near (rest_digit h [z; rest_digit h [z]]) h)) (near (rest_digit h [z]) h)) (near z k).
Lemma wing_keys_len x : length (wing_keys x) = 81.
Proof. destruct x as [k z]. unfold wing_keys, near. cbn [flat_map map app length]. reflexivity. Qed.

Lemma wing_first p o h k z x y : h < 81 -> p < 81 -> o < 81 -> k < 81 -> peers k p -> peers p h -> peers h o -> at_ s p = z -> at_ s h = x -> at_ s o = y \/ at_ s o = z ->
  rest_digit p [z] = x -> rest_digit h [x; z] = y -> In (h, 0, pair_set p o) (wing_keys (k, z)).
Proof.
  intros Hh Hp Ho Hk A B C Ep Eh Eo E1 E2. unfold wing_keys. apply in_app_iff. left. apply in_flat_map. exists p. split; [apply near_in; assumption | ]. apply in_flat_map. exists h.
  rewrite E1. split; [apply near_in; assumption | ]. apply in_map_iff. exists o. split; [reflexivity | ]. rewrite E2. apply in_app_iff. destruct Eo as [Eo | Eo]; [left | right]; apply near_in; assumption.
Qed.

Lemma wing_keys_in S0 z x : (S0 = XyWing \/ S0 = XyzWing) -> why pl el S0 z -> In x (removes z) ->
  (exists h c1 c2 F, key_of false z = (h, 0, F) /\ c1 < 81 /\ c2 < 81 /\ set_len (P h) = (match S0 with XyWing => 2 | _ => 3 end) /\ set_len (P c1) = 2 /\ set_len (P c2) = 2 /\ forall i, mem F i <-> i = c1 \/ i = c2) ->
  In (key_of false z) (wing_keys x).
Proof.
  destruct x as [k e]. intros HS Wy Hi Kw. destruct z as [[k0 e0] | [k0 e0] t | v m ptg cs | h ps ds cs | v ls ps cs | v b cv cs | hi hdg pin cs | ln cs]; cbn [removes] in Hi; cbn [why] in Wy; try contradiction.
  - destruct Wy as [Z _]. destruct HS; congruence.
  - destruct Wy as [_ [_ [_ [_ Wy]]]]. destruct HS as [-> | ->]; contradiction.
  - destruct Wy as [_ [_ [_ [_ [Wy _]]]]]. destruct HS as [-> | ->]; contradiction.
  - destruct Wy as [Hh [_ [_ [c1 [c2 [x [y [z Q]]]]]]]]. destruct Q as [ND [[Rx [Ry Rz]] [H1 [H2 [N12 [G1 [G2 [_ [Mp [Mh [Vh [V1 [V2 [Ah [A1 [A2 R]]]]]]]]]]]]]]]].
    destruct (R k e Hi) as [Hk [-> [K1 [K2 K3]]]]. destruct Kw as [h' [c1' [c2' [F [Ek [H1' [H2' [Lh [L1' [L2' MF]]]]]]]]]]. cbn [key_of] in Ek. injection Ek as <- <-.
    assert (L12 : set_len (P c1) = 2 /\ set_len (P c2) = 2).
    { assert (X1 := proj1 (MF c1) (proj2 (Mp c1) (or_introl eq_refl))). assert (X2 := proj1 (MF c2) (proj2 (Mp c2) (or_intror eq_refl))). split; [destruct X1 as [-> | ->] | destruct X2 as [-> | ->]]; assumption. }
    destruct L12 as [L1 L2]. apply NoDup_cons_iff in ND. destruct ND as [Nx ND]. apply NoDup_cons_iff in ND. destruct ND as [Ny _]. cbn [In] in Nx, Ny.
    assert (Nxy : x <> y) by (intros Z; apply Nx; left; symmetry; exact Z). assert (Nxz : x <> z) by (intros Z; apply Nx; right; left; symmetry; exact Z). assert (Nyz : y <> z) by (intros Z; apply Ny; left; symmetry; exact Z). clear Nx Ny.
    assert (Ck : forall c a b, c < 81 -> set_len (P c) = 2 -> 1 <= a <= 9 -> 1 <= b <= 9 -> (forall d, possible pl el c d -> d = a \/ d = b) -> mem (P c) (a - 1) /\ mem (P c) (b - 1) /\ forall d, 1 <= d <= 9 -> mem (P c) (d - 1) -> d = a \/ d = b).
    { intros c a b Hc L Ra Rb H. assert (In_ : forall d, 1 <= d <= 9 -> mem (P c) (d - 1) -> d = a \/ d = b) by (intros d Hd M; apply H, Pm; assumption).
      assert (X := exact_set (P c) [a - 1; b - 1] (Ps c Hc) L). assert (Y : forall i, mem (P c) i -> In i [a - 1; b - 1]).
      { intros i Mi. assert (Li := Ps c Hc i Mi). change (esize EDigit) with 9 in Li. destruct (In_ (i + 1) ltac:(lia)) as [Z | Z]; [replace (i + 1 - 1) with i by lia; exact Mi | left; lia | right; left; lia]. }
      specialize (X Y). split; [apply X; left; reflexivity | ]. split; [apply X; right; left; reflexivity | exact In_]. }
    destruct (Ck c1 x z H1 L1 Rx Rz A1) as [M1x [M1z O1]]. destruct (Ck c2 y z H2 L2 Ry Rz A2) as [M2y [M2z O2]].
    assert (Oh : forall d, 1 <= d <= 9 -> mem (P hi) (d - 1) -> d = x \/ d = y \/ (S0 = XyzWing /\ d = z)).
    { intros d Hd M. apply (Pm hi d Hh Hd), Ah, Mh in M. replace (d - 1 + 1) with d in M by lia. exact M. }
    assert (Mhs : mem (P hi) (x - 1) /\ mem (P hi) (y - 1)).
    { set (l := match S0 with XyWing => [x - 1; y - 1] | _ => [x - 1; y - 1; z - 1] end). assert (X : forall i, In i l -> mem (P hi) i).
      { apply exact_set; [apply Ps, Hh | rewrite Lh; unfold l; destruct HS as [-> | ->]; reflexivity | ]. intros i Mi. assert (Li := Ps hi Hh i Mi). change (esize EDigit) with 9 in Li.
        assert (Z := Oh (i + 1) ltac:(lia)). replace (i + 1 - 1) with i in Z by lia. specialize (Z Mi). unfold l. destruct HS as [-> | ->]; cbn [In].
        - destruct Z as [Z | [Z | [Z _]]]; [left; lia | right; left; lia | discriminate].
        - destruct Z as [Z | [Z | [_ Z]]]; [left; lia | right; left; lia | right; right; left; lia]. }
      split; apply X; unfold l; destruct HS as [-> | ->]; cbn [In]; auto. }
    destruct Mhs as [Mhx Mhy].
    assert (D1 := differ pl el s Cs c1 k H1 Hk K1). assert (D2 := differ pl el s Cs c2 k H2 Hk K2). assert (D3 := differ pl el s Cs hi c1 Hh H1 G1). assert (D4 := differ pl el s Cs hi c2 Hh H2 G2).
    assert (P1 := A1 _ (vacant_possible pl el s Cs c1 H1 V1)). assert (P2 := A2 _ (vacant_possible pl el s Cs c2 H2 V2)). assert (Ph := Ah _ (vacant_possible pl el s Cs hi Hh Vh)). apply Mh in Ph. assert (Rh := range_s pl el s Cs hi Hh).
    replace (at_ s hi - 1 + 1) with (at_ s hi) in Ph by lia.
    assert (Ep : pin = pair_set c1 c2) by (apply set_ext; intros i; rewrite Mp, pair_set_mem; reflexivity). assert (Ep' : pin = pair_set c2 c1) by (apply set_ext; intros i; rewrite Mp, pair_set_mem; tauto).
    assert (E1 : rest_digit c1 [z] = x) by (apply rest_only; [exact Rx | exact M1x | intros [Z | []]; congruence | intros d Hd M; destruct (O1 d Hd M); [left; assumption | right; left; congruence]]).
    assert (E2 : rest_digit c2 [z] = y) by (apply rest_only; [exact Ry | exact M2y | intros [Z | []]; congruence | intros d Hd M; destruct (O2 d Hd M); [left; assumption | right; left; congruence]]).
    assert (Ey : rest_digit hi [x; z] = y).
    { apply rest_only; [exact Ry | exact Mhy | cbn [In]; intros [Z | [Z | []]]; congruence | ]. intros d Hd M. cbn [In]. destruct (Oh d Hd M) as [-> | [-> | [_ ->]]]; auto. }
    assert (Ex : rest_digit hi [y; z] = x).
    { apply rest_only; [exact Rx | exact Mhx | cbn [In]; intros [Z | [Z | []]]; congruence | ]. intros d Hd M. cbn [In]. destruct (Oh d Hd M) as [-> | [-> | [_ ->]]]; auto. }
    cbn [key_of]. destruct Ph as [Ph | [Ph | [Es Ph]]].
    + rewrite Ep. apply (wing_first c1 c2 hi k z x y); try assumption; [apply peers_sym, K1 | apply peers_sym, G1 | ]. destruct P1; [exfalso; congruence | assumption].
    + rewrite Ep'. apply (wing_first c2 c1 hi k z y x); try assumption; [apply peers_sym, K2 | apply peers_sym, G2 | ]. destruct P2; [exfalso; congruence | assumption].
    + specialize (K3 Es). unfold wing_keys. apply in_app_iff. right. apply in_flat_map. exists hi. split; [apply near_in; [exact Hk | exact Hh | apply peers_sym, K3 | exact Ph] | ].
      assert (F1 : at_ s c1 = x) by (destruct P1; [assumption | congruence]). assert (F2 : at_ s c2 = y) by (destruct P2; [assumption | congruence]).
      destruct (rest_one hi [z] x Rx Mhx) as [W1 [W2 W3]]; [intros [Z | []]; congruence | ]. destruct (Oh _ W2 W1) as [W | [W | [_ W]]]; rewrite ?W.
      * assert (Ey' : rest_digit hi [z; x] = y).
        { apply rest_only; [exact Ry | exact Mhy | cbn [In]; intros [Z | [Z | []]]; congruence | ]. intros d Hd M. cbn [In]. destruct (Oh d Hd M) as [-> | [-> | [_ ->]]]; auto. }
        rewrite Ey'. apply in_flat_map. exists c1. split; [apply near_in; assumption | ]. apply in_map_iff. exists c2. split; [rewrite Ep; reflexivity | apply near_in; assumption].
      * assert (Ex' : rest_digit hi [z; y] = x).
        { apply rest_only; [exact Rx | exact Mhx | cbn [In]; intros [Z | [Z | []]]; congruence | ]. intros d Hd M. cbn [In]. destruct (Oh d Hd M) as [-> | [-> | [_ ->]]]; auto. }
        rewrite Ex'. apply in_flat_map. exists c2. split; [apply near_in; assumption | ]. apply in_map_iff. exists c1. split; [rewrite Ep'; reflexivity | apply near_in; assumption].
      * exfalso. apply W3. left. symmetry. exact W.
Qed.
End Fibre.
