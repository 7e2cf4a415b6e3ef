(** The generator of solved grids: invariant, completeness and termination. *)
From Coq Require Import List Arith NArith ZArith ZifyNat ZifyN ZifyBool Lia Bool Permutation.
From Verif Require Import Spec TableSpec GeomSpec Solver Api Bits Geom Gen BitLemmas GridProofs ApiProofs BitsProofs GeomProofs Samples SymSpec SymGen SymProofs.
Import ListNotations.
Ltac Zify.zify_post_hook ::= Z.to_euclidean_division_equations.

(** * Outcomes *)

(** The result satisfies [Q], or it is [Err] and [E] holds; no panic, enough fuel. *)
Definition post {A} (r : res A) (Q : A -> Prop) (E : Prop) : Prop :=
  match r with Ok a => Q a | Unsolv => E | _ => False end.

Lemma post_bind {A B} (r : res A) (f : A -> res B) (Q0 : A -> Prop) (E0 : Prop) (Q : B -> Prop) (E : Prop) : post r Q0 E0 -> (E0 -> E) ->
  (forall a, r = Ok a -> Q0 a -> post (f a) Q E) -> post (bind r f) Q E.
Proof. destruct r as [a | | | ]; cbn; auto. Qed.

Lemma post_impl {A} (r : res A) (Q Q' : A -> Prop) (E E' : Prop) : post r Q E -> (forall a, Q a -> Q' a) -> (E -> E') -> post r Q' E'.
Proof. destruct r as [a | | | ]; cbn; auto. Qed.

(** * Houses *)

Lemma in_house_iff c h : c < 81 -> (h < 27 /\ in_house h c <-> h = row_of c \/ h = 9 + col_of c \/ h = 18 + block_of c).
Proof.
  intros Hc. pose proof (row_lt c Hc). pose proof (col_lt c). pose proof (block_lt c Hc). unfold in_house.
  destruct (Nat.ltb_spec h 9), (Nat.ltb_spec h 18); lia.
Qed.

Lemma house_peers h c c' : in_house h c -> in_house h c' -> c <> c' -> peers c c'.
Proof.
  intros H H' N. split; [exact N | ]. unfold in_house in *. destruct (h <? 9), (h <? 18); [left | left | right; left | right; right]; congruence.
Qed.

Lemma peers_house c c' : c < 81 -> c' < 81 -> peers c c' -> exists h, h < 27 /\ in_house h c /\ in_house h c'.
Proof.
  intros Hc Hc' [_ [E | [E | E]]].
  - exists (row_of c). destruct (proj2 (in_house_iff c (row_of c) Hc)) as [? ?]; auto.
    destruct (proj2 (in_house_iff c' (row_of c) Hc')) as [? ?]; auto.
  - exists (9 + col_of c). destruct (proj2 (in_house_iff c (9 + col_of c) Hc)) as [? ?]; auto.
    destruct (proj2 (in_house_iff c' (9 + col_of c) Hc')) as [? ?]; [rewrite E; auto | auto].
  - exists (18 + block_of c). destruct (proj2 (in_house_iff c (18 + block_of c) Hc)) as [? ?]; auto.
    destruct (proj2 (in_house_iff c' (18 + block_of c) Hc')) as [? ?]; [rewrite E; auto | auto].
Qed.

Lemma any_house_has_digit s h v : solved s -> h < 27 -> 1 <= v <= 9 -> exists c, c < 81 /\ in_house h c /\ at_ s c = v.
Proof.
  intros S H V. unfold in_house. destruct (Nat.ltb_spec h 9); [ | destruct (Nat.ltb_spec h 18)].
  - apply row_has_digit; assumption.
  - apply col_has_digit; [assumption | lia | assumption].
  - apply block_has_digit; [assumption | lia | assumption].
Qed.

(** * State invariant *)

Definition P (st : gen) (c : nat) : N := nth c (g_poss st) 0%N.
Definition Hd (st : gen) (h : nat) : N := nth h (g_houses st) 0%N.
Definition G (st : gen) (c : nat) : nat := at_ (g_grid st) c.

Record inv (st : gen) : Prop := {
  i_lg : length (g_grid st) = 81;
  i_lp : length (g_poss st) = 81;
  i_lh : length (g_houses st) = 27;
  i_g : forall c, c < 81 -> G st c <= 9;
  i_p : forall c, c < 81 -> is_set EDigit (P st c);
  i_h : forall h x, h < 27 -> (mem (Hd st h) x <-> exists c, c < 81 /\ in_house h c /\ G st c = S x);
  i_live : forall c, c < 81 -> (P st c = 0%N <-> G st c <> 0);
  i_valid : forall c c', c < 81 -> c' < 81 -> peers c c' -> G st c <> 0 -> G st c <> G st c';
  i_n : g_solved st = clue_count (g_grid st);
  i_last : g_last st < 81
}.

(** Candidates are not among the placed digits of the houses. *)
Definition disj (st : gen) : Prop :=
  forall c x h, c < 81 -> h < 27 -> in_house h c -> mem (P st c) x -> ~ mem (Hd st h) x.

(** [s] is a solved grid that keeps the entries and candidates. *)
Definition comp (st : gen) (s : grid) : Prop :=
  solved s /\ forall c, c < 81 -> (G st c <> 0 -> at_ s c = G st c) /\ (G st c = 0 -> mem (P st c) (at_ s c - 1)).

Definition scomp (stack : list cand) (s : grid) : Prop := forall c d, In (c, d) stack -> at_ s c = d.
Definition okst (stack : list cand) : Prop := forall c d, In (c, d) stack -> c < 81 /\ 1 <= d <= 9.
Definition live (st : gen) (stack : list cand) : Prop := forall c d, In (c, d) stack -> G st c = 0.
Definition le_st (st st' : gen) : Prop := forall c x, c < 81 -> mem (P st' c) x -> mem (P st c) x.
(** same entries *)
Definition same (st st' : gen) : Prop := g_grid st' = g_grid st /\ g_houses st' = g_houses st /\ g_last st' = g_last st.

Lemma le_refl st : le_st st st. Proof. intros c x _ Hx. exact Hx. Qed.
Lemma le_trans a b c : le_st a b -> le_st b c -> le_st a c. Proof. intros H1 H2 k x Hk Hx. auto. Qed.
Lemma same_refl st : same st st. Proof. repeat split. Qed.
Lemma same_trans a b c : same a b -> same b c -> same a c.
Proof. intros [A1 [A2 A3]] [B1 [B2 B3]]. repeat split; congruence. Qed.
Lemma same_G st st' c : same st st' -> G st' c = G st c.
Proof. intros [E _]. unfold G. rewrite E. reflexivity. Qed.
Lemma same_H st st' h : same st st' -> Hd st' h = Hd st h.
Proof. intros [_ [E _]]. unfold Hd. rewrite E. reflexivity. Qed.

Lemma mem0 x : ~ mem 0 x. Proof. apply (mem_none EDigit). Qed.
Lemma nonzero_mem m : m <> 0%N -> exists x, mem m x.
Proof. intros N. apply N.eqb_neq in N. apply eqb0_tb in N. exact N. Qed.
Lemma empty_iff e m : is_set e m -> (set_is_empty m = true <-> m = 0%N).
Proof.
  intros S. rewrite (is_empty_meaning e m S). split.
  - intros E. destruct (N.eq_dec m 0) as [ | N]; [assumption | ]. destruct (nonzero_mem m N) as [x Hx]. destruct (E x Hx).
  - intros -> i. apply mem0.
Qed.

Lemma digit_set_ok d : 1 <= d <= 9 -> exists m, digit_set d = Ok m /\ is_set EDigit m /\ forall i, mem m i <-> i = d - 1.
Proof.
  intros Hd. unfold digit_set. destruct (as_set_total EDigit (d - 1)) as [m E]; [simpl; lia | ]. exists m. split; [exact E | ].
  assert (M := fun i => mem_single EDigit (d - 1) m i E). split; [ | exact M]. intros i Hi. apply M in Hi. simpl. lia.
Qed.

Lemma from_index_ok x : x < 9 -> digit_from_index x = Ok (S x).
Proof.
  intros Hx. unfold digit_from_index, digit_new_checked. do 9 (destruct x as [ | x]; [reflexivity | ]). lia.
Qed.

Lemma unique_cases e m : is_set e m ->
  (set_unique e m = Ok UEmpty /\ (forall i, ~ mem m i)) \/
  (exists x, set_unique e m = Ok (UOk (Some x)) /\ (forall i, mem m i <-> i = x)) \/
  (set_unique e m = Ok (UOk None) /\ exists i j, mem m i /\ mem m j /\ i <> j).
Proof.
  intros S. destruct (unique_meaning e m S) as [U1 [U2 U3]].
  destruct (N.eq_dec m 0) as [-> | N].
  - left. split; [apply U1; intros i; apply mem0 | intros i; apply mem0].
  - destruct (nonzero_mem m N) as [x Hx].
    destruct (N.eq_dec (set_xor m (N.shiftl 1 (N.of_nat x))) 0) as [E | E].
    + right. left. exists x. assert (Q : forall i, mem m i <-> i = x).
      { intros i. assert (X : tb (set_xor m (N.shiftl 1 (N.of_nat x))) i = tb 0 i) by (rewrite E; reflexivity).
        unfold set_xor in X. rewrite tb_lxor, tb_shiftl1, tb_0 in X. destruct (Nat.eqb_spec i x) as [Ex | Nx].
        - subst i. tauto.
        - rewrite xorb_false_r in X. unfold mem. fold (tb m i). split; [rewrite X; discriminate | tauto]. }
      split; [apply U2; exact Q | exact Q].
    + right. right. assert (Q : exists i j, mem m i /\ mem m j /\ i <> j).
      { destruct (nonzero_mem _ E) as [y Hy]. apply mem_xor in Hy.
        assert (X : forall z, mem (N.shiftl 1 (N.of_nat x)) z <-> z = x).
        { intros z. unfold mem. fold (tb (N.shiftl 1 (N.of_nat x)) z). rewrite tb_shiftl1. apply Nat.eqb_eq. }
        rewrite X in Hy. destruct Hy as [[Hy Nx] | [Ny ->]]; [exists x, y; auto | contradiction]. }
      split; [apply U3; exact Q | exact Q].
Qed.

(** * Number of candidates *)

Lemma list_sum_le l : forall l', length l = length l' -> (forall i, nth i l 0 <= nth i l' 0) -> list_sum l <= list_sum l'.
Proof.
  induction l as [ | a l IH]; intros [ | b l'] L Q; cbn [length] in L; try lia; cbn [list_sum fold_right].
  assert (Q0 := Q 0). cbn [nth] in Q0. assert (list_sum l <= list_sum l') by (apply IH; [lia | intros i; apply (Q (S i))]).
  unfold list_sum in *. lia.
Qed.
Lemma list_sum_lt l : forall l' k, length l = length l' -> (forall i, nth i l 0 <= nth i l' 0) -> nth k l 0 < nth k l' 0 ->
  list_sum l < list_sum l'.
Proof.
  induction l as [ | a l IH]; intros [ | b l'] k L Q K; cbn [length] in L; try lia.
  assert (Q0 := Q 0). cbn [nth] in Q0. cbn [list_sum fold_right]. destruct k as [ | k]; cbn [nth] in K.
    + assert (X := list_sum_le l l' ltac:(lia) (fun i => Q (S i))). unfold list_sum in *. lia.
    + assert (X := IH l' k ltac:(lia) (fun i => Q (S i)) K). unfold list_sum in *. lia.
Qed.

Lemma set_len_mono e a b : is_set e b -> (forall i, mem a i -> mem b i) -> set_len a <= set_len b.
Proof.
  intros Sb I. assert (Sa : is_set e a) by (intros i Hi; apply Sb; auto).
  rewrite (len_members e a Sa), (len_members e b Sb). apply NoDup_incl_length; [apply NoDup_filter, seq_NoDup | ].
  intros i Hi. apply (members_in e b i Sb), I, (members_in e a i Sa), Hi.
Qed.
Lemma set_len_strict e a b x : is_set e b -> (forall i, mem a i -> mem b i) -> mem b x -> ~ mem a x -> set_len a < set_len b.
Proof.
  intros Sb I Bx Ax. assert (Sa : is_set e a) by (intros i Hi; apply Sb; auto).
  rewrite (len_members e a Sa), (len_members e b Sb).
  assert (L : length (x :: members e a) <= length (members e b)); [ | cbn [length] in L; lia].
  apply NoDup_incl_length.
  - constructor; [intros Hi; apply Ax, (members_in e a x Sa), Hi | apply NoDup_filter, seq_NoDup].
  - intros i [<- | Hi]; apply (members_in e b _ Sb); [exact Bx | apply I, (members_in e a i Sa), Hi].
Qed.

Lemma nth_map_len l i : nth i (map set_len l) 0 = set_len (nth i l 0%N).
Proof. change 0 with (set_len 0%N) at 1. apply map_nth. Qed.

Lemma n_poss_le st st' : inv st -> inv st' -> le_st st st' -> n_poss st' <= n_poss st.
Proof.
  intros I I' L. unfold n_poss. apply list_sum_le; [rewrite !map_length, (i_lp _ I), (i_lp _ I'); reflexivity | ].
  intros i. rewrite !nth_map_len. destruct (Nat.lt_ge_cases i 81) as [Hi | Hi].
  - apply (set_len_mono EDigit); [apply (i_p _ I i Hi) | intros x; apply (L i x Hi)].
  - rewrite !nth_overflow by (rewrite ?(i_lp _ I), ?(i_lp _ I'); exact Hi). lia.
Qed.
Lemma n_poss_lt st st' c x : inv st -> inv st' -> le_st st st' -> c < 81 -> mem (P st c) x -> ~ mem (P st' c) x ->
  n_poss st' < n_poss st.
Proof.
  intros I I' L Hc M N. unfold n_poss. apply (list_sum_lt _ _ c); [rewrite !map_length, (i_lp _ I), (i_lp _ I'); reflexivity | | ].
  - intros i. rewrite !nth_map_len. destruct (Nat.lt_ge_cases i 81) as [Hi | Hi].
    + apply (set_len_mono EDigit); [apply (i_p _ I i Hi) | intros y; apply (L i y Hi)].
    + rewrite !nth_overflow by (rewrite ?(i_lp _ I), ?(i_lp _ I'); exact Hi). lia.
  - rewrite !nth_map_len. apply (set_len_strict EDigit _ _ x); [apply (i_p _ I c Hc) | intros y; apply (L c y Hc) | exact M | exact N].
Qed.

(** * Removing candidates of one cell *)

Lemma P_set st c m k : c < 81 -> length (g_poss st) = 81 -> P (set_gposs st (lset (g_poss st) c m)) k = if k =? c then m else P st k.
Proof. intros Hc L. unfold P. cbn [g_poss set_gposs]. rewrite nth_lset by lia. reflexivity. Qed.

Lemma remove_spec st c m stack : inv st -> c < 81 -> G st c = 0 ->
  post (remove_impossibilities st c m stack)
    (fun r => let st' := fst r in inv st' /\ same st st' /\ le_st st st' /\
       (forall x, mem (P st' c) x <-> mem (P st c) x /\ ~ mem m x) /\
       (forall k, k < 81 -> k <> c -> P st' k = P st k) /\
       (snd r = stack \/ exists d, snd r = (c, d) :: stack /\ 1 <= d <= 9 /\ forall x, mem (P st' c) x <-> x = d - 1))
    (forall x, mem (P st c) x -> mem m x).
Proof.
  intros I Hc Gc. unfold remove_impossibilities.
  rewrite (aget_ok _ _ 0%N) by (rewrite (i_lp _ I); exact Hc). cbn [bind]. fold (P st c).
  assert (Sp := i_p _ I c Hc). set (m' := set_without EDigit (P st c) m).
  assert (M : forall x, mem m' x <-> mem (P st c) x /\ ~ mem m x) by (intros x; apply mem_without; exact Sp).
  assert (Sm : is_set EDigit m') by (intros x Hx; apply M in Hx; apply Sp, Hx).
  rewrite aset_ok by (rewrite (i_lp _ I); exact Hc). cbn [bind].
  set (st' := set_gposs st (lset (g_poss st) c m')).
  assert (Pc : P st' c = m') by (unfold st'; rewrite P_set by (try exact Hc; apply (i_lp _ I)); rewrite Nat.eqb_refl; reflexivity).
  assert (Pk : forall k, k <> c -> P st' k = P st k).
  { intros k Nk. unfold st'. rewrite P_set by (try exact Hc; apply (i_lp _ I)). apply Nat.eqb_neq in Nk. rewrite Nk. reflexivity. }
  assert (L : le_st st st').
  { intros k x Hk Hx. destruct (Nat.eq_dec k c) as [-> | Nk]; [rewrite Pc in Hx; apply M in Hx; tauto | rewrite Pk in Hx by exact Nk; exact Hx]. }
  assert (S : same st st') by (repeat split).
  assert (J : m' <> 0%N -> inv st').
  { intros Nz. constructor; try apply I.
    - unfold st'. cbn [g_poss set_gposs]. rewrite lset_length. apply I.
    - intros k Hk. intros x Hx. apply (i_p _ I k Hk). apply (L k x Hk Hx).
    - intros k Hk. destruct (Nat.eq_dec k c) as [-> | Nk].
      + rewrite Pc. change (G st' c) with (G st c). rewrite Gc. tauto.
      + rewrite (Pk k Nk). apply (i_live _ I k Hk). }
  destruct (unique_cases EDigit m' Sm) as [[U E] | [[x [U E]] | [U [i [j [Hi [Hj _]]]]]]]; rewrite U; cbn [bind post fst snd].
  - intros x Hx. destruct (N.eq_dec 0 0) as [_ | []]; [ | reflexivity].
    destruct (N.testbit m (N.of_nat x)) eqn:T; [exact T | ]. exfalso. apply (E x). apply M. split; [exact Hx | unfold mem; rewrite T; discriminate].
  - assert (x < 9) by (apply Sm, E; reflexivity). rewrite from_index_ok by assumption. cbn [bind post fst snd].
    split; [apply J; intros Z; apply (mem0 x); rewrite <- Z; apply E; reflexivity | ]. split; [exact S | ]. split; [exact L | ].
    rewrite Pc. split; [exact M | ]. split; [intros k _; apply Pk | ]. right. exists (Datatypes.S x). split; [reflexivity | ]. split; [lia | ].
    intros y. rewrite E. lia.
  - split; [apply J; intros Z; apply (mem0 i); rewrite <- Z; exact Hi | ]. split; [exact S | ]. split; [exact L | ].
    rewrite Pc. split; [exact M | ]. split; [intros k _; apply Pk | ]. left. reflexivity.
Qed.

(** Removing candidates that no compatible grid uses keeps the compatible grids. *)
Lemma comp_remove st st' s : same st st' -> comp st s ->
  (forall c, c < 81 -> G st c = 0 -> mem (P st c) (at_ s c - 1) -> mem (P st' c) (at_ s c - 1)) -> comp st' s.
Proof.
  intros S [So C] R. split; [exact So | ]. intros c Hc. rewrite (same_G _ _ c S). destruct (C c Hc) as [C1 C2]. split; [exact C1 | ].
  intros Z. auto.
Qed.

(** * Inserting an entry *)

Lemma H_add hs k m : k < 27 -> length hs = 27 -> house_add hs k m = Ok (lset hs k (set_or (nth k hs 0%N) m)).
Proof.
  intros Hk L. unfold house_add. rewrite (aget_ok _ _ 0%N) by lia. cbn [bind]. apply aset_ok. lia.
Qed.

Lemma insert_entry_eq st c d : inv st -> c < 81 -> 1 <= d <= 9 -> exists hs,
  insert_entry st (c, d) = Ok (mkGen (lset (g_grid st) c d) (S (g_solved st)) (lset (g_poss st) c 0%N) hs (g_last st)) /\
  length hs = 27 /\ forall h x, h < 27 -> (mem (nth h hs 0%N) x <-> mem (Hd st h) x \/ (in_house h c /\ x = d - 1)).
Proof.
  intros I Hc Hd'. unfold insert_entry. rewrite aset_ok by (rewrite (i_lg _ I); exact Hc). cbn [bind].
  rewrite aset_ok by (rewrite (i_lp _ I); exact Hc). cbn [bind]. destruct (digit_set_ok d Hd') as [m [E [Sm M]]]. rewrite E. cbn [bind].
  destruct (cell_conversions c Hc) as [E1 [E2 [E3 _]]].
  pose proof (row_lt c Hc). pose proof (col_lt c). pose proof (block_lt c Hc).
  rewrite E1. cbn [bind]. unfold house_of_row. rewrite chk_ok by lia. cbn [bind].
  rewrite H_add by (try apply (i_lh _ I); lia). cbn [bind]. rewrite E2. cbn [bind]. unfold house_of_col, COL_OFFSET. rewrite chk_ok by lia. cbn [bind].
  rewrite H_add by (rewrite ?lset_length; try apply (i_lh _ I); lia). cbn [bind]. rewrite E3. cbn [bind]. unfold house_of_block, BLOCK_OFFSET.
  rewrite chk_ok by lia. cbn [bind]. rewrite H_add by (rewrite ?lset_length; try apply (i_lh _ I); lia). cbn [bind].
  eexists. split; [reflexivity | ]. split; [rewrite !lset_length; apply (i_lh _ I) | ]. intros h x Hh.
  rewrite (nth_lset _ (block_of c + 18)) by (rewrite !lset_length, (i_lh _ I); lia).
  rewrite (nth_lset _ (col_of c + 9) _ h) by (rewrite !lset_length, (i_lh _ I); lia).
  rewrite (nth_lset _ (row_of c) _ h) by (rewrite (i_lh _ I); lia).
  rewrite (nth_lset _ (col_of c + 9) _ (block_of c + 18)) by (rewrite !lset_length, (i_lh _ I); lia).
  rewrite (nth_lset _ (row_of c) _ (block_of c + 18)) by (rewrite (i_lh _ I); lia).
  rewrite (nth_lset _ (row_of c) _ (col_of c + 9)) by (rewrite (i_lh _ I); lia).
  assert (Q := in_house_iff c h Hc). unfold Hd.
  destruct (Nat.eqb_spec h (block_of c + 18)) as [Eb | Nb].
  - subst h. destruct (Nat.eqb_spec (block_of c + 18) (col_of c + 9)); [lia | ]. destruct (Nat.eqb_spec (block_of c + 18) (row_of c)); [lia | ].
    rewrite mem_or, M. assert (in_house (block_of c + 18) c) by (apply Q; lia). tauto.
  - destruct (Nat.eqb_spec h (col_of c + 9)) as [Ec | Nc].
    + subst h. destruct (Nat.eqb_spec (col_of c + 9) (row_of c)); [lia | ].
      rewrite mem_or, M. assert (in_house (col_of c + 9) c) by (apply Q; lia). tauto.
    + destruct (Nat.eqb_spec h (row_of c)) as [Er | Nr].
      * subst h. rewrite mem_or, M. assert (in_house (row_of c) c) by (apply Q; lia). tauto.
      * assert (~ in_house h c) by (intros X; destruct (proj1 Q (conj Hh X)) as [? | [? | ?]]; lia). tauto.
Qed.

Lemma clue_count_lset g c d : length g = 81 -> c < 81 -> at_ g c = 0 -> d <> 0 -> clue_count (lset g c d) = S (clue_count g).
Proof.
  intros L Hc Z Nd. rewrite <- !clue_count_filter by (rewrite ?lset_length; exact L).
  assert (Hc' : c < length g) by lia. clear L Hc. unfold at_ in Z. revert c Z Hc'.
  induction g as [ | a g IH]; intros c Z Hc'; [cbn in Hc'; lia | ]. destruct c as [ | c].
  - cbn [nth] in Z. subst a. cbn [lset filter]. apply Nat.eqb_neq in Nd. rewrite Nd. reflexivity.
  - cbn [nth length] in Z, Hc'. cbn [lset filter]. destruct (negb (a =? 0)); cbn [length]; rewrite IH by (assumption || lia); reflexivity.
Qed.

Lemma insert_spec st c d : inv st -> c < 81 -> 1 <= d <= 9 -> G st c = 0 ->
  (forall h, h < 27 -> in_house h c -> ~ mem (Hd st h) (d - 1)) ->
  exists st', insert_entry st (c, d) = Ok st' /\ inv st' /\ le_st st st' /\
    (forall k, k < 81 -> G st' k = if k =? c then d else G st k) /\
    (forall k, k < 81 -> P st' k = if k =? c then 0%N else P st k) /\
    (forall h x, h < 27 -> (mem (Hd st' h) x <-> mem (Hd st h) x \/ (in_house h c /\ x = d - 1))) /\
    (forall s, comp st s -> at_ s c = d -> comp st' s).
Proof.
  intros I Hc Hd' Z V. destruct (insert_entry_eq st c d I Hc Hd') as [hs [E [L M]]].
  eexists. split; [exact E | ].
  match goal with |- inv ?x /\ _ => set (st' := x) end.
  assert (Gk : forall k, k < 81 -> G st' k = if k =? c then d else G st k).
  { intros k Hk. unfold G, at_, st'. cbn [g_grid]. rewrite nth_lset by (rewrite (i_lg _ I); exact Hc). reflexivity. }
  assert (Pk : forall k, k < 81 -> P st' k = if k =? c then 0%N else P st k).
  { intros k Hk. unfold P, st'. cbn [g_poss]. rewrite nth_lset by (rewrite (i_lp _ I); exact Hc). reflexivity. }
  assert (Hk : forall h x, h < 27 -> (mem (Hd st' h) x <-> mem (Hd st h) x \/ (in_house h c /\ x = d - 1))) by exact M.
  assert (Le : le_st st st').
  { intros k x Hx. rewrite Pk by exact Hx. destruct (k =? c); [intros Q; destruct (mem0 x Q) | auto]. }
  split.
  { constructor.
    - unfold st'. cbn [g_grid]. rewrite lset_length. apply (i_lg _ I).
    - unfold st'. cbn [g_poss]. rewrite lset_length. apply (i_lp _ I).
    - exact L.
    - intros k Hx. rewrite Gk by exact Hx. destruct (k =? c); [lia | apply (i_g _ I k Hx)].
    - intros k Hx x Q. apply (i_p _ I k Hx). apply (Le k x Hx Q).
    - intros h x Hh. rewrite Hk by exact Hh. rewrite (i_h _ I h x Hh). split.
      + intros [[k [K1 [K2 K3]]] | [Q ->]].
        * exists k. split; [exact K1 | ]. split; [exact K2 | ]. rewrite Gk by exact K1. destruct (Nat.eqb_spec k c) as [-> | _]; [lia | exact K3].
        * exists c. split; [exact Hc | ]. split; [exact Q | ]. rewrite Gk by exact Hc. rewrite Nat.eqb_refl. lia.
      + intros [k [K1 [K2 K3]]]. rewrite Gk in K3 by exact K1. destruct (Nat.eqb_spec k c) as [-> | _].
        * right. split; [exact K2 | lia].
        * left. exists k. auto.
    - intros k Hx. rewrite Gk, Pk by exact Hx. destruct (k =? c); [split; [intros _; lia | reflexivity] | apply (i_live _ I k Hx)].
    - intros k k' K K' Pe N. rewrite Gk in N by exact K. rewrite !Gk by assumption.
      assert (X : forall y, y < 81 -> y <> c -> peers c y -> d <> G st y).
      { intros y Hy Ny Py Ed. destruct (peers_house c y Hc Hy Py) as [h [Hh [A B]]]. apply (V h Hh A). apply (i_h _ I h _ Hh).
        exists y. split; [exact Hy | ]. split; [exact B | lia]. }
      destruct (Nat.eqb_spec k c) as [-> | Nk], (Nat.eqb_spec k' c) as [-> | Nk'].
      + destruct Pe as [[] _]. reflexivity.
      + apply X; assumption.
      + apply not_eq_sym. apply X; [assumption | assumption | apply peers_sym; exact Pe].
      + apply (i_valid _ I); assumption.
    - unfold st'. cbn [g_grid g_solved]. rewrite (clue_count_lset (g_grid st) c d (i_lg _ I) Hc Z ltac:(lia)), (i_n _ I). reflexivity.
    - apply (i_last _ I). }
  split; [exact Le | ]. split; [exact Gk | ]. split; [exact Pk | ]. split; [exact Hk | ].
  intros s [S C] Es. split; [exact S | ]. intros k Hx. rewrite Gk, Pk by exact Hx. destruct (Nat.eqb_spec k c) as [-> | Nk]; [split; [auto | lia] | apply C; exact Hx].
Qed.

(** * The entry loops *)

Lemma is_empty_G st c : inv st -> c < 81 -> set_is_empty (P st c) = negb (G st c =? 0).
Proof.
  intros I Hc. apply eq_iff_eq_true. rewrite (empty_iff EDigit _ (i_p _ I c Hc)), (i_live _ I c Hc), negb_true_iff, Nat.eqb_neq. reflexivity.
Qed.

Lemma okst_cons c d st : okst ((c, d) :: st) <-> (c < 81 /\ 1 <= d <= 9) /\ okst st.
Proof.
  unfold okst. split.
  - intros Q. split; [apply Q; left; reflexivity | intros c' d' Hi; apply Q; right; exact Hi].
  - intros [Q1 Q2] c' d' [[= <- <-] | Hi]; auto.
Qed.
Lemma scomp_cons c d st s : scomp ((c, d) :: st) s <-> at_ s c = d /\ scomp st s.
Proof.
  unfold scomp. split.
  - intros Q. split; [apply Q; left; reflexivity | intros c' d' Hi; apply Q; right; exact Hi].
  - intros [Q1 Q2] c' d' [[= <- <-] | Hi]; auto.
Qed.

(** Entry pushed by [remove_impossibilities]: forced in all compatible grids. *)
Lemma pushed_scomp st c d s : inv st -> comp st s -> c < 81 -> 1 <= d <= 9 -> (forall x, mem (P st c) x <-> x = d - 1) -> at_ s c = d.
Proof.
  intros I [S C] Hc Hd' E. destruct (C c Hc) as [C1 C2].
  assert (Z : G st c = 0).
  { destruct (Nat.eq_dec (G st c) 0) as [ | N]; [assumption | ]. apply (i_live _ I c Hc) in N. exfalso. apply (mem0 (d - 1)).
    rewrite <- N. apply E. reflexivity. }
  specialize (C2 Z). apply E in C2. destruct S as [_ [R _]]. specialize (R c Hc). lia.
Qed.

Lemma neighbors_loop_spec c d mask : c < 81 -> (forall i, mem mask i <-> i = d - 1) -> 1 <= d <= 9 ->
  forall cells st stack, inv st -> okst stack -> (forall k, In k cells -> k < 81 /\ peers c k) -> G st c = d ->
  post (neighbors_loop cells mask st stack)
    (fun r => let '(st', stack') := r in inv st' /\ same st st' /\ le_st st st' /\ okst stack' /\
       length stack' <= length stack + length cells /\
       (forall k, In k cells -> ~ mem (P st' k) (d - 1)) /\
       (forall s, comp st s -> scomp stack s -> comp st' s /\ scomp stack' s))
    (forall s, ~ comp st s).
Proof.
  intros Hc M Hd' cells. induction cells as [ | k cells IH]; intros st stack I O Cs Gc; cbn [neighbors_loop].
  - cbn [post]. split; [exact I | ]. split; [apply same_refl | ]. split; [apply le_refl | ]. split; [exact O | ]. split; [cbn [length]; lia | ].
    split; [intros k [] | auto].
  - destruct (Cs k (or_introl eq_refl)) as [Hk Pk].
    assert (Cs' : forall k', In k' cells -> k' < 81 /\ peers c k') by (intros k' Hi; apply Cs; right; exact Hi).
    rewrite (aget_ok _ _ 0%N) by (rewrite (i_lp _ I); exact Hk). cbn [bind]. fold (P st k).
    destruct (set_overlaps EDigit mask (P st k)) eqn:Ov.
    + apply overlaps_iff in Ov. destruct Ov as [x [Hx Hx']]. apply M in Hx. subst x.
      assert (Z : G st k = 0).
      { destruct (Nat.eq_dec (G st k) 0) as [ | N]; [assumption | ]. apply (i_live _ I k Hk) in N. rewrite N in Hx'. destruct (mem0 _ Hx'). }
      eapply post_bind; [apply (remove_spec st k mask stack I Hk Z) | | ].
      * intros Ex s C. assert (C' := C). destruct C' as [S C']. destruct (C' k Hk) as [_ Ck]. specialize (Ck Z). apply Ex, M in Ck.
        destruct (C' c Hc) as [Cc _]. rewrite Gc in Cc. specialize (Cc ltac:(lia)). destruct S as [_ [R S]]. specialize (R k Hk).
        apply (S c k Hc Hk Pk). lia.
      * intros [st1 stack1] _ [I1 [S1 [L1 [M1 [P1 St1]]]]]. cbn [fst snd] in *.
        assert (O1 : okst stack1).
        { destruct St1 as [-> | [d' [-> [Hd1 _]]]]; [exact O | ]. apply okst_cons. auto. }
        assert (Le1 : length stack1 <= S (length stack)) by (destruct St1 as [-> | [d' [-> _]]]; cbn [length]; lia).
        assert (C1 : forall s, comp st s -> scomp stack s -> comp st1 s /\ scomp stack1 s).
        { intros s C Sc. assert (C1 : comp st1 s).
          { apply (comp_remove st st1 s S1 C). intros c' Hc' Zc' Mc'. destruct (Nat.eq_dec c' k) as [-> | Nk].
            - apply M1. split; [exact Mc' | ]. intros Mm. apply M in Mm. destruct C as [S C]. destruct (C c Hc) as [Cc _]. rewrite Gc in Cc.
              specialize (Cc ltac:(lia)). destruct S as [_ [R S]]. specialize (R k Hk). apply (S c k Hc Hk Pk). lia.
            - rewrite P1 by assumption. exact Mc'. }
          split; [exact C1 | ]. destruct St1 as [-> | [d' [-> [Hd1 U]]]]; [exact Sc | ]. apply scomp_cons. split; [ | exact Sc].
          apply (pushed_scomp st1 k d' s I1 C1 Hk Hd1 U). }
        eapply post_impl; [apply (IH st1 stack1 I1 O1 Cs'); rewrite (same_G _ _ c S1); exact Gc | | ].
        -- intros [st2 stack2] [I2 [S2 [L2 [O2 [Le2 [D2 C2]]]]]]. split; [exact I2 | ]. split; [eapply same_trans; eassumption | ].
           split; [eapply le_trans; eassumption | ]. split; [exact O2 | ]. split; [cbn [length]; lia | ]. split.
           ++ intros k' [<- | Hi]; [ | apply D2; exact Hi]. intros Q. apply (L2 k _ Hk) in Q. apply M1 in Q. destruct Q as [_ Q]. apply Q, M. reflexivity.
           ++ intros s C Sc. destruct (C1 s C Sc). apply C2; assumption.
        -- intros E s C. apply (E s). apply (comp_remove st st1 s S1 C). intros c' Hc' Zc' Mc'. destruct (Nat.eq_dec c' k) as [-> | Nk].
           ++ apply M1. split; [exact Mc' | ]. intros Mm. apply M in Mm. destruct C as [S C]. destruct (C c Hc) as [Cc _]. rewrite Gc in Cc.
              specialize (Cc ltac:(lia)). destruct S as [_ [R S]]. specialize (R k Hk). apply (S c k Hc Hk Pk). lia.
           ++ rewrite P1 by assumption. exact Mc'.
    + eapply post_impl; [apply (IH st stack I O Cs' Gc) | | auto].
      intros [st2 stack2] [I2 [S2 [L2 [O2 [Le2 [D2 C2]]]]]]. split; [exact I2 | ]. split; [exact S2 | ]. split; [exact L2 | ].
      split; [exact O2 | ]. split; [cbn [length]; lia | ]. split; [ | exact C2].
      intros k' [<- | Hi]; [ | apply D2; exact Hi]. intros Q. apply (L2 k _ Hk) in Q.
      assert (set_overlaps EDigit mask (P st k) = true) by (apply overlaps_iff; exists (d - 1); split; [apply M; reflexivity | exact Q]). congruence.
Qed.

Lemma singly_spec fuel : forall st stack, inv st -> disj st -> okst stack -> 21 * n_poss st + length stack < fuel ->
  post (insert_singly_f fuel st stack)
    (fun r => let '(st', stack') := r in inv st' /\ disj st' /\ le_st st st' /\ okst stack' /\
       (stack' = [] \/ n_poss st' < n_poss st) /\
       (forall e t, stack = e :: t -> G st (fst e) = 0 -> n_poss st' < n_poss st) /\
       (forall s, comp st s -> scomp stack s -> comp st' s /\ scomp stack' s))
    (forall s, comp st s -> ~ scomp stack s).
Proof.
  induction fuel as [ | f IH]; intros st stack I D O F; [lia | ]. cbn [insert_singly_f]. destruct stack as [ | [c d] stack].
  - cbn [post]. split; [exact I | ]. split; [exact D | ]. split; [apply le_refl | ]. split; [exact O | ]. split; [left; reflexivity | ].
    split; [discriminate | auto].
  - apply okst_cons in O. destruct O as [[Hc Hd'] O]. destruct (digit_set_ok d Hd') as [mask [Em [Sm M]]]. rewrite Em. cbn [bind].
    rewrite (aget_ok _ _ 0%N) by (rewrite (i_lp _ I); exact Hc). cbn [bind]. fold (P st c). rewrite (is_empty_G st c I Hc).
    cbn [length] in F. destruct (Nat.eqb_spec (G st c) 0) as [Z | NZ]; cbn [negb].
    2:{ eapply post_impl; [apply (IH st stack I D O); lia | | ].
        - intros [st' stack'] [I' [D' [L' [O' [W' [V' C']]]]]]. split; [exact I' | ]. split; [exact D' | ]. split; [exact L' | ]. split; [exact O' | ].
          split; [exact W' | ]. split; [ | intros s C Sc; apply scomp_cons in Sc; apply C'; tauto].
          intros e t [= <- <-] Q. destruct (NZ Q).
        - intros E s C Sc. apply scomp_cons in Sc. apply (E s C). tauto. }
    assert (Sand : is_set EDigit (set_and (P st c) mask)) by (intros i Hi; apply mem_and in Hi; apply Sm; tauto).
    destruct (set_is_empty (set_and (P st c) mask)) eqn:Em2.
    + cbn [post]. intros s [S C] Sc. apply scomp_cons in Sc. destruct Sc as [Es _]. destruct (C c Hc) as [_ C2]. specialize (C2 Z). rewrite Es in C2.
      apply (is_empty_meaning EDigit _ Sand) with (i := d - 1) in Em2. apply Em2. apply mem_and. split; [exact C2 | apply M; reflexivity].
    + assert (Pd : mem (P st c) (d - 1)).
      { destruct (N.eq_dec (set_and (P st c) mask) 0) as [E0 | N0].
        - exfalso. rewrite (proj2 (empty_iff EDigit _ Sand) E0) in Em2. discriminate.
        - destruct (nonzero_mem _ N0) as [x Hx]. apply mem_and in Hx. destruct Hx as [Hx Hy]. apply M in Hy. subst x. exact Hx. }
      destruct (insert_spec st c d I Hc Hd' Z) as [st1 [E1 [I1 [L1 [G1 [P1 [H1 C1]]]]]]].
      { intros h Hh A. apply (D c (d - 1) h Hc Hh A Pd). }
      rewrite E1. cbn [bind]. destruct (neighbors_exact c Hc) as [nb [En [ND [Ln In']]]]. rewrite En. cbn [bind].
      assert (Gc : G st1 c = d) by (rewrite G1 by exact Hc; rewrite Nat.eqb_refl; reflexivity).
      eapply post_bind; [apply (neighbors_loop_spec c d mask Hc M Hd' nb st1 stack I1 O (fun k Hk => proj1 (In' k) Hk) Gc) | | ].
      { intros E s C Sc. apply scomp_cons in Sc. apply (E s). apply C1; tauto. }
      intros [st2 stack2] _ [I2 [S2 [L2 [O2 [Le2 [D2 C2]]]]]].
      assert (L12 : le_st st st2) by (eapply le_trans; eassumption).
      assert (Lt : n_poss st2 < n_poss st).
      { apply (n_poss_lt st st2 c (d - 1) I I2 L12 Hc Pd). intros Q. apply (L2 c _ Hc) in Q. rewrite P1 in Q by exact Hc.
        rewrite Nat.eqb_refl in Q. destruct (mem0 _ Q). }
      assert (D2' : disj st2).
      { intros k x h Hk Hh A Px Hx. rewrite (same_H _ _ h S2) in Hx. apply (H1 h x Hh) in Hx. destruct Hx as [Hx | [B ->]].
        - apply (D k x h Hk Hh A (L12 k x Hk Px) Hx).
        - destruct (Nat.eq_dec k c) as [-> | Nk].
          + apply (L2 c _ Hc) in Px. rewrite P1 in Px by exact Hc. rewrite Nat.eqb_refl in Px. destruct (mem0 _ Px).
          + apply (D2 k); [ | exact Px]. apply In'. split; [exact Hk | ]. apply (house_peers h); auto. }
      assert (C' : forall s, comp st s -> scomp ((c, d) :: stack) s -> comp st2 s /\ scomp stack2 s).
      { intros s C Sc. apply scomp_cons in Sc. apply C2; [apply C1; tauto | tauto]. }
      destruct (Nat.ltb_spec 4 (length stack2)).
      * cbn [post]. split; [exact I2 | ]. split; [exact D2' | ]. split; [exact L12 | ]. split; [exact O2 | ]. split; [right; exact Lt | ].
        split; [intros e t _ _; exact Lt | exact C'].
      * eapply post_impl; [apply (IH st2 stack2 I2 D2' O2); lia | | ].
        -- intros [st3 stack3] [I3 [D3 [L3 [O3 [W3 [V3 C3]]]]]]. assert (n_poss st3 <= n_poss st2) by (apply n_poss_le; assumption).
           split; [exact I3 | ]. split; [exact D3 | ]. split; [eapply le_trans; eassumption | ]. split; [exact O3 | ].
           split; [right; lia | ]. split; [intros; lia | ]. intros s C Sc. destruct (C' s C Sc). apply C3; assumption.
        -- intros E s C Sc. destruct (C' s C Sc) as [A B]. apply (E s A B).
Qed.

(** * Batch insertion *)

Lemma houses_of st c : inv st -> c < 81 ->
  row_of_cell c = Ok (row_of c) /\ house_of_row (row_of c) = Ok (row_of c) /\ house_get (g_houses st) (row_of c) = Ok (Hd st (row_of c)) /\
  col_of_cell c = Ok (col_of c) /\ house_of_col (col_of c) = Ok (9 + col_of c) /\ house_get (g_houses st) (9 + col_of c) = Ok (Hd st (9 + col_of c)) /\
  block_of_cell c = Ok (block_of c) /\ house_of_block (block_of c) = Ok (18 + block_of c) /\
  house_get (g_houses st) (18 + block_of c) = Ok (Hd st (18 + block_of c)).
Proof.
  intros I Hc. destruct (cell_conversions c Hc) as [E1 [E2 [E3 _]]].
  pose proof (row_lt c Hc). pose proof (col_lt c). pose proof (block_lt c Hc).
  unfold house_of_row, house_of_col, house_of_block, COL_OFFSET, BLOCK_OFFSET, house_get, Hd. rewrite !chk_ok by lia.
  rewrite !(aget_ok _ _ 0%N) by (rewrite (i_lh _ I); lia). rewrite (Nat.add_comm (col_of c) 9), (Nat.add_comm (block_of c) 18). auto 10.
Qed.

Lemma batch_loop_spec entries : forall st, inv st -> okst entries ->
  post (batch_loop entries st)
    (fun st' => inv st' /\ le_st st st' /\
       (forall e t, entries = e :: t -> G st (fst e) = 0 -> n_poss st' < n_poss st) /\
       (forall s, comp st s -> scomp entries s -> comp st' s))
    (forall s, comp st s -> ~ scomp entries s).
Proof.
  induction entries as [ | [c d] t IH]; intros st I O; cbn [batch_loop].
  - cbn [post]. split; [exact I | ]. split; [apply le_refl | ]. split; [discriminate | auto].
  - apply okst_cons in O. destruct O as [[Hc Hd'] O].
    rewrite (aget_ok _ _ 0%N) by (rewrite (i_lp _ I); exact Hc). cbn [bind]. fold (P st c). rewrite (is_empty_G st c I Hc).
    destruct (Nat.eqb_spec (G st c) 0) as [Z | NZ]; cbn [negb].
    2:{ eapply post_impl; [apply (IH st I O) | | ].
        - intros st' [I' [L' [V' C']]]. split; [exact I' | ]. split; [exact L' | ].
          split; [ | intros s C Sc; apply scomp_cons in Sc; apply C'; tauto]. intros e t' [= <- <-] Q. destruct (NZ Q).
        - intros E s C Sc. apply scomp_cons in Sc. apply (E s C). tauto. }
    destruct (digit_set_ok d Hd') as [mask [Em [Sm M]]]. rewrite Em. cbn [bind].
    destruct (houses_of st c I Hc) as [A1 [A2 [A3 [A4 [A5 [A6 [A7 [A8 A9]]]]]]]].
    rewrite A1. cbn [bind]. rewrite A2. cbn [bind]. rewrite A3. cbn [bind]. rewrite A4. cbn [bind]. rewrite A5. cbn [bind].
    rewrite A6. cbn [bind]. rewrite A7. cbn [bind]. rewrite A8. cbn [bind]. rewrite A9. cbn [bind]. clear A1 A2 A3 A4 A5 A6 A7 A8 A9.
    match goal with |- post (if ?b then _ else _) _ _ => destruct b eqn:B end.
    + cbn [post]. intros s C Sc. apply scomp_cons in Sc. destruct Sc as [Es _].
      assert (X : exists h, h < 27 /\ in_house h c /\ mem (Hd st h) (d - 1)).
      { rewrite !orb_true_iff, !overlaps_iff in B.
        destruct B as [[[x [X1 X2]] | [x [X1 X2]]] | [x [X1 X2]]]; apply M in X2; subst x; eexists; (split; [ | split; [ | exact X1]]); apply (in_house_iff c _ Hc); auto. }
      destruct X as [h [Hh [A X]]]. apply (i_h _ I h _ Hh) in X. destruct X as [k [Hk [B' Gk]]]. destruct C as [S C].
      destruct (C k Hk) as [Ck _]. specialize (Ck ltac:(lia)). destruct S as [_ [R S]]. apply (S c k Hc Hk); [ | lia].
      apply (house_peers h); [exact A | exact B' | ]. intros <-. lia.
    + destruct (insert_spec st c d I Hc Hd' Z) as [st1 [E1 [I1 [L1 [G1 [P1 [H1 C1]]]]]]].
      { intros h Hh A Q. rewrite !orb_false_iff in B. destruct B as [[B1 B2] B3].
        destruct (proj1 (in_house_iff c h Hc) (conj Hh A)) as [-> | [-> | ->]].
        - assert (set_overlaps EDigit (Hd st (row_of c)) mask = true) by (apply overlaps_iff; exists (d - 1); rewrite M; auto). congruence.
        - assert (set_overlaps EDigit (Hd st (9 + col_of c)) mask = true) by (apply overlaps_iff; exists (d - 1); rewrite M; auto). congruence.
        - assert (set_overlaps EDigit (Hd st (18 + block_of c)) mask = true) by (apply overlaps_iff; exists (d - 1); rewrite M; auto). congruence. }
      rewrite E1. cbn [bind]. eapply post_impl; [apply (IH st1 I1 O) | | ].
      * intros st2 [I2 [L2 [V2 C2]]]. split; [exact I2 | ]. split; [eapply le_trans; eassumption | ]. split.
        -- intros e t' _ _. assert (n_poss st2 <= n_poss st1) by (apply n_poss_le; assumption).
           assert (Np : P st c <> 0%N) by (rewrite (i_live _ I c Hc); lia). destruct (nonzero_mem _ Np) as [x Hx].
           assert (n_poss st1 < n_poss st); [ | lia]. apply (n_poss_lt st st1 c x I I1 L1 Hc Hx). rewrite P1 by exact Hc. rewrite Nat.eqb_refl. apply mem0.
        -- intros s C Sc. apply scomp_cons in Sc. apply C2; [apply C1; tauto | tauto].
      * intros E s C Sc. apply scomp_cons in Sc. apply (E s); [apply C1; tauto | tauto].
Qed.

Lemma update_loop_spec cells : forall st stack, inv st -> okst stack -> live st stack -> (forall c, In c cells -> c < 81) ->
  post (update_loop cells st stack)
    (fun r => let '(st', stack') := r in inv st' /\ same st st' /\ le_st st st' /\ okst stack' /\ live st' stack' /\
       (forall c x h, In c cells -> h < 27 -> in_house h c -> mem (P st' c) x -> ~ mem (Hd st h) x) /\
       (forall s, comp st s -> scomp stack s -> comp st' s /\ scomp stack' s))
    (forall s, ~ comp st s).
Proof.
  induction cells as [ | c cells IH]; intros st stack I O Lv Cs; cbn [update_loop].
  - cbn [post]. split; [exact I | ]. split; [apply same_refl | ]. split; [apply le_refl | ]. split; [exact O | ]. split; [exact Lv | ].
    split; [intros c x h [] | auto].
  - assert (Hc := Cs c (or_introl eq_refl)). assert (Cs' : forall k, In k cells -> k < 81) by (intros k Hi; apply Cs; right; exact Hi).
    rewrite (aget_ok _ _ 0%N) by (rewrite (i_lp _ I); exact Hc). cbn [bind]. fold (P st c). rewrite (is_empty_G st c I Hc).
    destruct (Nat.eqb_spec (G st c) 0) as [Z | NZ]; cbn [negb].
    2:{ eapply post_impl; [apply (IH st stack I O Lv Cs') | | auto].
        intros [st2 stack2] [I2 [S2 [L2 [O2 [V2 [D2 C2]]]]]]. split; [exact I2 | ]. split; [exact S2 | ]. split; [exact L2 | ].
        split; [exact O2 | ]. split; [exact V2 | ]. split; [ | exact C2]. intros k x h [<- | Hi] Hh A Px; [ | apply (D2 k x h); assumption].
        apply (L2 c x Hc) in Px. apply (i_live _ I c Hc) in NZ. rewrite NZ in Px. destruct (mem0 _ Px). }
    destruct (houses_of st c I Hc) as [A1 [A2 [A3 [A4 [A5 [A6 [A7 [A8 A9]]]]]]]].
    rewrite A1. cbn [bind]. rewrite A2. cbn [bind]. rewrite A3. cbn [bind]. rewrite A4. cbn [bind]. rewrite A5. cbn [bind].
    rewrite A6. cbn [bind]. rewrite A7. cbn [bind]. rewrite A8. cbn [bind]. rewrite A9. cbn [bind]. clear A1 A2 A3 A4 A5 A6 A7 A8 A9.
    set (mask := set_or (set_or (Hd st (row_of c)) (Hd st (9 + col_of c))) (Hd st (18 + block_of c))).
    assert (M : forall x, mem mask x <-> exists h, h < 27 /\ in_house h c /\ mem (Hd st h) x).
    { intros x. unfold mask. rewrite !mem_or. split.
      - intros [[Q | Q] | Q]; eexists; (split; [ | split; [ | exact Q]]); apply (in_house_iff c _ Hc); auto.
      - intros [h [Hh [A Q]]]. destruct (proj1 (in_house_iff c h Hc) (conj Hh A)) as [-> | [-> | ->]]; auto. }
    assert (NM : forall s, comp st s -> ~ mem mask (at_ s c - 1)).
    { intros s [S C] Q. apply M in Q. destruct Q as [h [Hh [A Q]]]. apply (i_h _ I h _ Hh) in Q. destruct Q as [k [Hk [B Gk]]].
      destruct (C k Hk) as [Ck _]. specialize (Ck ltac:(lia)). destruct S as [_ [R S]]. specialize (R c Hc).
      apply (S c k Hc Hk); [ | lia]. apply (house_peers h); [exact A | exact B | ]. intros <-. lia. }
    eapply post_bind; [apply (remove_spec st c mask stack I Hc Z) | | ].
    + intros Ex s C. apply (NM s C). apply Ex. apply C; assumption.
    + intros [st1 stack1] _ [I1 [S1 [L1 [M1 [P1 St1]]]]]. cbn [fst snd] in *.
      assert (O1 : okst stack1) by (destruct St1 as [-> | [d' [-> [Hd1 _]]]]; [exact O | apply okst_cons; auto]).
      assert (V1 : live st1 stack1).
      { intros k d Hi. rewrite (same_G _ _ k S1). destruct St1 as [-> | [d' [-> [Hd1 _]]]]; [apply (Lv k d Hi) | ].
        destruct Hi as [[= <- <-] | Hi]; [exact Z | apply (Lv k d Hi)]. }
      assert (C1 : forall s, comp st s -> comp st1 s).
      { intros s C. apply (comp_remove st st1 s S1 C). intros c' Hc' Zc' Mc'. destruct (Nat.eq_dec c' c) as [-> | Nk].
        - apply M1. split; [exact Mc' | apply NM; exact C].
        - rewrite P1 by assumption. exact Mc'. }
      assert (C1' : forall s, comp st s -> scomp stack s -> scomp stack1 s).
      { intros s C Sc. destruct St1 as [-> | [d' [-> [Hd1 U]]]]; [exact Sc | ]. apply scomp_cons. split; [ | exact Sc].
        apply (pushed_scomp st1 c d' s I1 (C1 s C) Hc Hd1 U). }
      eapply post_impl; [apply (IH st1 stack1 I1 O1 V1 Cs') | | ].
      * intros [st2 stack2] [I2 [S2 [L2 [O2 [V2 [D2 C2]]]]]]. split; [exact I2 | ]. split; [eapply same_trans; eassumption | ].
        split; [eapply le_trans; eassumption | ]. split; [exact O2 | ]. split; [exact V2 | ]. split.
        -- intros k x h [<- | Hi] Hh A Px Hx.
           ++ apply (L2 c x Hc) in Px. apply M1 in Px. apply (proj2 Px). apply M. exists h. auto.
           ++ rewrite <- (same_H _ _ h S1) in Hx. apply (D2 k x h Hi Hh A Px Hx).
        -- intros s C Sc. apply C2; auto.
      * intros E s C. apply (E s). auto.
Qed.

Lemma live_le st st' stack : inv st -> inv st' -> le_st st st' -> okst stack -> live st' stack -> live st stack.
Proof.
  intros I I' L O V c d Hi. specialize (V c d Hi). destruct (O c d Hi) as [Hc _]. destruct (Nat.eq_dec (G st c) 0) as [ | N]; [assumption | ].
  apply (i_live _ I c Hc) in N. assert (N' : P st' c <> 0%N) by (rewrite (i_live _ I' c Hc); lia). destruct (nonzero_mem _ N') as [x Hx].
  apply (L c x Hc) in Hx. rewrite N in Hx. destruct (mem0 _ Hx).
Qed.

Lemma batch_spec st stack : inv st -> okst stack ->
  post (batch_insert st stack)
    (fun r => let '(st', stack') := r in inv st' /\ disj st' /\ le_st st st' /\ okst stack' /\ live st' stack' /\
       (stack <> [] -> live st stack -> n_poss st' < n_poss st) /\
       (forall s, comp st s -> scomp stack s -> comp st' s /\ scomp stack' s))
    (forall s, comp st s -> ~ scomp stack s).
Proof.
  intros I O. unfold batch_insert.
  assert (O' : okst (rev stack)) by (intros c d Hi; apply O, in_rev, Hi).
  assert (Sr : forall s, scomp stack s -> scomp (rev stack) s) by (intros s Q c d Hi; apply Q, in_rev, Hi).
  eapply post_bind; [apply (batch_loop_spec (rev stack) st I O') | | ].
  - intros E s C Sc. apply (E s C). auto.
  - intros st1 _ [I1 [L1 [V1 C1]]].
    eapply post_impl; [apply (update_loop_spec (seq 0 81) st1 [] I1) | | ].
    + intros c d [].
    + intros c d [].
    + intros c Hi. apply in_seq in Hi. lia.
    + intros [st2 stack2] [I2 [S2 [L2 [O2 [V2 [D2 C2]]]]]]. split; [exact I2 | ]. split.
      { intros c x h Hc Hh A Px Hx. rewrite (same_H _ _ h S2) in Hx. apply (D2 c x h); try assumption. apply in_seq. lia. }
      split; [eapply le_trans; eassumption | ]. split; [exact O2 | ]. split; [exact V2 | ]. split.
      { intros Ne V. assert (n_poss st2 <= n_poss st1) by (apply n_poss_le; assumption).
        destruct (rev stack) as [ | [c d] t] eqn:Er; [destruct Ne; rewrite <- (rev_involutive stack), Er; reflexivity | ].
        specialize (V1 (c, d) t eq_refl). cbn [fst] in V1. assert (n_poss st1 < n_poss st); [ | lia]. apply V1. apply (V c d). apply (proj2 (in_rev stack (c, d))). rewrite Er. left. reflexivity. }
      intros s C Sc. apply C2; [apply C1; auto | intros c d []].
    + intros E s C Sc. apply (E s). apply C1; auto.
Qed.

(** * insert_entries *)

Definition livebit (st : gen) (stack : list cand) (b : nat) : Prop := b <= 1 /\ (b = 0 -> live st stack).

Lemma insert_entries_spec fuel : forall st stack b, inv st -> disj st -> okst stack -> livebit st stack b ->
  2 * n_poss st + b + 2 <= fuel ->
  post (insert_entries_f fuel st stack)
    (fun st' => inv st' /\ disj st' /\ le_st st st' /\
       (stack <> [] -> b = 0 -> n_poss st' < n_poss st) /\
       (forall s, comp st s -> scomp stack s -> comp st' s))
    (forall s, comp st s -> ~ scomp stack s).
Proof.
  induction fuel as [ | f IH]; intros st stack b I D O B F; [lia | ]. cbn [insert_entries_f].
  assert (Done : forall st0 f0, inv st0 -> disj st0 -> 0 < f0 -> insert_entries_f f0 st0 [] = Ok st0).
  { intros st0 f0 _ _ F0. destruct f0; [lia | reflexivity]. }
  assert (Single : stack <> [] -> post (r <- insert_singly st stack; let '(st0, stack0) := r in insert_entries_f f st0 stack0)
    (fun st' => inv st' /\ disj st' /\ le_st st st' /\
       (stack <> [] -> b = 0 -> n_poss st' < n_poss st) /\
       (forall s, comp st s -> scomp stack s -> comp st' s))
    (forall s, comp st s -> ~ scomp stack s)).
  { intros Ne. eapply post_bind; [apply (singly_spec _ st stack I D O); lia | auto | ].
    intros [st1 stack1] _ [I1 [D1 [L1 [O1 [W1 [V1 C1]]]]]].
    assert (Le1 : n_poss st1 <= n_poss st) by (apply n_poss_le; assumption).
    assert (V1' : b = 0 -> n_poss st1 < n_poss st).
    { intros Eb. destruct stack as [ | [c d] t]; [destruct (Ne eq_refl) | ]. apply (V1 (c, d) t eq_refl). destruct B as [_ B]. apply (B Eb c d). left. reflexivity. }
    destruct W1 as [-> | W1].
    - rewrite Done by (try assumption; lia). cbn [post]. split; [exact I1 | ]. split; [exact D1 | ]. split; [exact L1 | ]. split; [auto | ].
      intros s C Sc. apply C1; assumption.
    - eapply post_impl; [apply (IH st1 stack1 1 I1 D1 O1); [split; [lia | discriminate] | lia] | | ].
      + intros st2 [I2 [D2 [L2 [_ C2]]]]. split; [exact I2 | ]. split; [exact D2 | ]. split; [eapply le_trans; eassumption | ].
        split; [ | intros s C Sc; apply C2; apply C1; assumption]. intros _ _. assert (n_poss st2 <= n_poss st1) by (apply n_poss_le; assumption). lia.
      + intros E s C Sc. apply (E s); apply (C1 s C Sc). }
  assert (Batch : stack <> [] -> post (r <- batch_insert st stack; let '(st0, stack0) := r in insert_entries_f f st0 stack0)
    (fun st' => inv st' /\ disj st' /\ le_st st st' /\
       (stack <> [] -> b = 0 -> n_poss st' < n_poss st) /\
       (forall s, comp st s -> scomp stack s -> comp st' s))
    (forall s, comp st s -> ~ scomp stack s)).
  { intros Ne. eapply post_bind; [apply (batch_spec st stack I O) | auto | ].
    intros [st1 stack1] _ [I1 [D1 [L1 [O1 [W1 [V1 C1]]]]]].
    assert (Le1 : n_poss st1 <= n_poss st) by (apply n_poss_le; assumption).
    assert (V1' : b = 0 -> n_poss st1 < n_poss st) by (intros Eb; apply V1; [exact Ne | apply B; exact Eb]).
    eapply post_impl; [apply (IH st1 stack1 0 I1 D1 O1); [split; [lia | auto] | ] | | ].
    - destruct B as [B _]. destruct b as [ | b]; [specialize (V1' eq_refl); lia | lia].
    - intros st2 [I2 [D2 [L2 [_ C2]]]]. split; [exact I2 | ]. split; [exact D2 | ]. split; [eapply le_trans; eassumption | ].
      split; [ | intros s C Sc; apply C2; apply C1; assumption]. intros _ Eb. assert (n_poss st2 <= n_poss st1) by (apply n_poss_le; assumption).
      specialize (V1' Eb). lia.
    - intros E s C Sc. apply (E s); apply (C1 s C Sc). }
  destruct stack as [ | e1 stack]; [cbn [length post] | ].
  { split; [exact I | ]. split; [exact D | ]. split; [apply le_refl | ]. split; [intros []; reflexivity | auto]. }
  specialize (Single ltac:(discriminate)). specialize (Batch ltac:(discriminate)).
  cbn [length]. destruct (length stack) as [ | [ | [ | [ | ]]]]; assumption.
Qed.

(** * Hidden singles *)

Lemma occurrences_spec poss : length poss = 81 -> forall cells u m, (forall c, In c cells -> c < 81) ->
  exists u' m', occurrences cells poss u m = Ok (u', m') /\
    (forall x, mem u' x <-> mem u x \/ exists c, In c cells /\ mem (nth c poss 0%N) x) /\
    (forall x, ~ mem m' x -> ~ mem m x /\ (mem u x -> forall c, In c cells -> ~ mem (nth c poss 0%N) x) /\
       forall c c', In c cells -> In c' cells -> mem (nth c poss 0%N) x -> mem (nth c' poss 0%N) x -> c = c').
Proof.
  intros L cells. induction cells as [ | k t IH]; intros u m Cs; cbn [occurrences].
  - exists u, m. split; [reflexivity | ]. split.
    + intros x. split; [auto | ]. intros [Q | [c [[] _]]]. exact Q.
    + intros x Nm. split; [exact Nm | ]. split; [intros _ c [] | intros c c' []].
  - rewrite (aget_ok _ _ 0%N) by (rewrite L; apply Cs; left; reflexivity). cbn [bind].
    destruct (IH (set_or u (nth k poss 0%N)) (set_or m (set_and u (nth k poss 0%N)))) as [u' [m' [E [U M]]]].
    { intros c Hi. apply Cs. right. exact Hi. }
    exists u', m'. split; [exact E | ]. split.
    + intros x. rewrite U, mem_or. split.
      * intros [[Q | Q] | [c [Hi Q]]]; [auto | right; exists k; split; [left; reflexivity | exact Q] | right; exists c; split; [right; exact Hi | exact Q]].
      * intros [Q | [c [[<- | Hi] Q]]]; [auto | auto | right; exists c; auto].
    + intros x Nm. destruct (M x Nm) as [M1 [M2 M3]]. rewrite mem_or, mem_and in M1. rewrite mem_or in M2.
      split; [tauto | ]. split.
      * intros Ux c [<- | Hi]; [tauto | apply M2; auto].
      * intros c c' [<- | Hi] [<- | Hi'] Q Q'; [reflexivity | | | apply M3; assumption].
        -- exfalso. apply (M2 (or_intror Q) c' Hi' Q').
        -- exfalso. apply (M2 (or_intror Q') c Hi Q).
Qed.

Lemma singles_loop_spec poss : length poss = 81 -> (forall c, c < 81 -> is_set EDigit (nth c poss 0%N)) ->
  forall cells singles stack, (forall c, In c cells -> c < 81) -> is_set EDigit singles ->
  post (singles_loop cells poss singles stack)
    (fun stack' => forall c d, In (c, d) stack' -> In (c, d) stack \/
       (In c cells /\ 1 <= d <= 9 /\ mem (nth c poss 0%N) (d - 1) /\ mem singles (d - 1)))
    (exists c x y, In c cells /\ x <> y /\ mem (nth c poss 0%N) x /\ mem (nth c poss 0%N) y /\ mem singles x /\ mem singles y).
Proof.
  intros L Sp cells. induction cells as [ | k t IH]; intros singles stack Cs Ss; cbn [singles_loop].
  - cbn [post]. auto.
  - assert (Hk := Cs k (or_introl eq_refl)). assert (Cs' : forall c, In c t -> c < 81) by (intros c Hi; apply Cs; right; exact Hi).
    rewrite (aget_ok _ _ 0%N) by lia. cbn [bind].
    assert (Sa : is_set EDigit (set_and (nth k poss 0%N) singles)) by (intros x Hx; apply mem_and in Hx; apply Ss; tauto).
    destruct (unique_cases EDigit _ Sa) as [[U E] | [[x [U E]] | [U [i [j [Hi [Hj Nij]]]]]]]; rewrite U; cbn [bind].
    + eapply post_impl; [apply (IH singles stack Cs' Ss) | | ].
      * intros stack' Q c d Hi. destruct (Q c d Hi) as [Q1 | [Q1 Q2]]; [auto | right; split; [right; exact Q1 | exact Q2]].
      * intros [c [x [y [Hi Q]]]]. exists c, x, y. split; [right; exact Hi | exact Q].
    + assert (Ex := proj2 (E x) eq_refl). assert (x < 9) by (apply (Sa x Ex)). apply mem_and in Ex. destruct Ex as [Ex1 Ex2].
      rewrite from_index_ok by assumption. cbn [bind]. destruct (digit_set_ok (S x)) as [m [Em [Sm M]]]; [lia | ]. rewrite Em. cbn [bind].
      assert (New : 1 <= S x <= 9 /\ mem (nth k poss 0%N) (S x - 1) /\ mem singles (S x - 1)).
      { replace (S x - 1) with x by lia. split; [lia | auto]. }
      destruct (set_is_empty (set_without EDigit singles m)).
      * cbn [post]. intros c d [[= <- <-] | Hi]; [right; split; [left; reflexivity | exact New] | auto].
      * eapply post_impl; [apply (IH (set_without EDigit singles m) ((k, S x) :: stack) Cs') | | ].
        -- intros y Hy. apply mem_without in Hy; [ | exact Ss]. apply Ss. tauto.
        -- intros stack' Q c d Hi. destruct (Q c d Hi) as [[[= <- <-] | Q1] | [Q1 [Q2 [Q3 Q4]]]]; [right; split; [left; reflexivity | exact New] | auto | ].
           right. apply mem_without in Q4; [ | exact Ss]. split; [right; exact Q1 | ]. tauto.
        -- intros [c [y [z [Hi [Q1 [Q2 [Q3 [Q4 Q5]]]]]]]]. apply mem_without in Q4; [ | exact Ss]. apply mem_without in Q5; [ | exact Ss].
           exists c, y, z. split; [right; exact Hi | ]. tauto.
    + cbn [post]. apply mem_and in Hi. apply mem_and in Hj. exists k, i, j. split; [left; reflexivity | ]. tauto.
Qed.

Lemma not_all_digits m : is_set EDigit m -> m <> set_all EDigit -> exists x, x < 9 /\ ~ mem m x.
Proof.
  intros S N. destruct (forallb (fun x => N.testbit m (N.of_nat x)) (seq 0 9)) eqn:F.
  - exfalso. apply N. apply mem_ext. intros x. rewrite mem_all. split; [apply S | ]. intros Hx. rewrite forallb_forall in F. apply F. apply in_seq.
    cbn [esize] in Hx. lia.
  - assert (X : exists x, In x (seq 0 9) /\ N.testbit m (N.of_nat x) = false).
    { clear S N. induction (seq 0 9) as [ | a t IH]; [discriminate | ]. cbn [forallb] in F. apply andb_false_iff in F. destruct F as [F | F].
      - exists a. split; [left; reflexivity | exact F].
      - destruct (IH F) as [x [Hx Tx]]. exists x. split; [right; exact Hx | exact Tx]. }
    destruct X as [x [Hx Tx]]. exists x. apply in_seq in Hx. split; [lia | ]. unfold mem. rewrite Tx. discriminate.
Qed.

Lemma P_G st c x : inv st -> c < 81 -> mem (P st c) x -> G st c = 0.
Proof.
  intros I Hc M. destruct (Nat.eq_dec (G st c) 0) as [ | N]; [assumption | ]. apply (i_live _ I c Hc) in N. rewrite N in M. destruct (mem0 _ M).
Qed.

Lemma hidden_spec st : inv st -> disj st -> forall hs stack, (forall h, In h hs -> h < 27) -> okst stack -> live st stack ->
  post (hidden_loop hs st stack)
    (fun stack' => okst stack' /\ live st stack' /\ forall s, comp st s -> scomp stack s -> scomp stack' s)
    (forall s, ~ comp st s).
Proof.
  intros I D hs. induction hs as [ | h hs IH]; intros stack Hs O V; cbn [hidden_loop].
  - cbn [post]. auto.
  - assert (Hh := Hs h (or_introl eq_refl)). assert (Hs' : forall k, In k hs -> k < 27) by (intros k Hi; apply Hs; right; exact Hi).
    destruct (house_cells_exact h Hh) as [m [E [Sm M]]]. rewrite E. cbn [bind]. rewrite iter_exact by exact Sm. cbn [bind].
    set (cells := members ECell m). assert (Cs : forall c, In c cells <-> c < 81 /\ in_house h c).
    { intros c. unfold cells. rewrite (members_in ECell m c Sm). apply M. }
    destruct (occurrences_spec (g_poss st) (i_lp _ I) cells (set_none EDigit) (set_none EDigit)) as [u [mu [Eo [U Mu]]]]; [intros c Hi; apply Cs in Hi; tauto | ].
    rewrite Eo. cbn [bind]. unfold house_get. rewrite (aget_ok _ _ 0%N) by (rewrite (i_lh _ I); exact Hh). cbn [bind]. fold (Hd st h).
    assert (Su : is_set EDigit u).
    { intros x Hx. apply U in Hx. destruct Hx as [Hx | [c [Hi Hx]]]; [destruct (mem0 _ Hx) | ]. apply Cs in Hi. apply (i_p _ I c); tauto. }
    assert (Sh : is_set EDigit (Hd st h)).
    { intros x Hx. apply (i_h _ I h x Hh) in Hx. destruct Hx as [c [Hc [_ Gc]]]. assert (Q := i_g _ I c Hc). cbn [esize]. lia. }
    (* a digit to place in this house goes to one of its candidate cells *)
    assert (Place : forall s x, comp st s -> x < 9 -> ~ mem (Hd st h) x -> exists c, In c cells /\ mem (P st c) x /\ at_ s c = S x).
    { intros s x [S C] Hx NH. destruct (any_house_has_digit s h (Datatypes.S x) S Hh ltac:(lia)) as [c [Hc [A Es]]]. exists c.
      split; [apply Cs; auto | ]. split; [ | exact Es]. destruct (C c Hc) as [C1 C2]. destruct (Nat.eq_dec (G st c) 0) as [Z | N].
      - specialize (C2 Z). rewrite Es in C2. replace (Datatypes.S x - 1) with x in C2 by lia. exact C2.
      - exfalso. apply NH. apply (i_h _ I h x Hh). exists c. specialize (C1 N). rewrite Es in C1. auto. }
    destruct (N.eqb_spec (set_or u (Hd st h)) (set_all EDigit)) as [Ea | Na]; cbn [negb].
    2:{ cbn [post]. intros s C. destruct (not_all_digits (set_or u (Hd st h))) as [x [Hx Nx]]; [ | exact Na | ].
        - intros x Hx. apply mem_or in Hx. destruct Hx; [apply Su | apply Sh]; assumption.
        - rewrite mem_or in Nx. destruct (Place s x C Hx ltac:(tauto)) as [c [Hi [Px _]]]. apply Nx. left. apply U. right. exists c. auto. }
    set (singles := set_without EDigit u mu).
    assert (Ms : forall x, mem singles x <-> mem u x /\ ~ mem mu x) by (intros x; apply mem_without; exact Su).
    assert (Ss : is_set EDigit singles) by (intros x Hx; apply Ms in Hx; apply Su; tauto).
    assert (Forced : forall s c x, comp st s -> In c cells -> mem singles x -> mem (P st c) x -> at_ s c = S x).
    { intros s c x C Hi Hx Px. apply Cs in Hi as Hi'. destruct Hi' as [Hc A].
      destruct (Place s x C (Ss x Hx) (D c x h Hc Hh A Px)) as [c' [Hi' [Px' Es]]].
      apply Ms in Hx. destruct (Mu x (proj2 Hx)) as [_ [_ Q]]. rewrite (Q c c' Hi Hi' Px Px'). exact Es. }
    destruct (set_is_empty singles).
    + apply (IH stack Hs' O V).
    + eapply post_impl; [apply (singles_loop_spec (g_poss st) (i_lp _ I) (fun c Hc => i_p _ I c Hc) cells singles stack); [intros c Hi; apply Cs in Hi; tauto | exact Ss] | | ].
      * intros stack' Q. split; [ | split].
        -- intros c d Hi. destruct (Q c d Hi) as [Q1 | [Q1 [Q2 _]]]; [apply (O c d Q1) | ]. apply Cs in Q1. tauto.
        -- intros c d Hi. destruct (Q c d Hi) as [Q1 | [Q1 [Q2 [Q3 _]]]]; [apply (V c d Q1) | ]. apply Cs in Q1. apply (P_G st c (d - 1) I); tauto.
        -- intros s C Sc c d Hi. destruct (Q c d Hi) as [Q1 | [Q1 [Q2 [Q3 Q4]]]]; [apply (Sc c d Q1) | ]. rewrite (Forced s c (d - 1) C Q1 Q4 Q3). lia.
      * intros [c [x [y [Hi [N [Px [Py [Sx Sy]]]]]]]] s C. assert (Q := Forced s c x C Hi Sx Px). assert (Q' := Forced s c y C Hi Sy Py). lia.
Qed.

(** * The guess *)

Lemma min_poss_spec st last : inv st -> last < 81 -> forall fuel cell min best, cell < 81 -> min <= 10 ->
  (last + 81 - cell) mod 81 < fuel ->
  (best < 81 /\ G st best = 0) \/
  (min = 10 /\ exists c, c < 81 /\ G st c = 0 /\ (c + 81 - cell) mod 81 <= (last + 81 - cell) mod 81) ->
  exists b l, min_poss_f fuel (g_poss st) last cell min best = Ok (b, l) /\ b < 81 /\ G st b = 0 /\ l < 81.
Proof.
  intros I Hl. induction fuel as [ | f IH]; intros cell min best Hc Hm F J; [lia | ]. cbn [min_poss_f].
  rewrite (aget_ok _ _ 0%N) by (rewrite (i_lp _ I); exact Hc). cbn [bind]. fold (P st cell).
  assert (E := is_empty_G st cell I Hc). unfold set_is_empty in E.
  assert (L9 : set_len (P st cell) <= 9).
  { rewrite (len_members EDigit _ (i_p _ I cell Hc)). unfold members. eapply Nat.le_trans; [apply filter_length_le | ]. rewrite seq_length. cbn [esize]. lia. }
  set (n := set_len (P st cell)) in *.
  destruct ((0 <? n) && (n <? min)) eqn:Bt.
  - apply andb_true_iff in Bt. destruct Bt as [B1 B2]. apply Nat.ltb_lt in B1, B2.
    assert (Z : G st cell = 0) by (destruct (Nat.eqb_spec n 0); destruct (Nat.eqb_spec (G st cell) 0); cbn [negb] in E; lia || congruence).
    cbn [andb]. destruct (n =? 2); [exists cell, cell; auto | ].
    destruct (Nat.eqb_spec cell last) as [El | Nl]; [exists cell, cell; auto | ].
    apply IH; [destruct (Nat.eqb_spec cell 80); lia | lia | destruct (Nat.eqb_spec cell 80); lia | left; auto].
  - cbn [andb]. assert (K : best < 81 /\ G st best = 0 \/ G st cell <> 0).
    { destruct J as [J | [-> _]]; [left; exact J | right]. apply andb_false_iff in Bt. rewrite !Nat.ltb_ge in Bt.
      destruct (Nat.eqb_spec n 0); [ | lia]. destruct (Nat.eqb_spec (G st cell) 0); [discriminate | assumption]. }
    destruct (Nat.eqb_spec cell last) as [El | Nl].
    + exists best, cell. split; [reflexivity | ]. destruct K as [[K1 K2] | K]; [auto | ].
      destruct J as [[J1 J2] | [_ [c [C1 [C2 C3]]]]]; [auto | ]. exfalso. apply K. replace cell with c; [exact C2 | ].
      subst cell. lia.
    + apply IH; [destruct (Nat.eqb_spec cell 80); lia | exact Hm | destruct (Nat.eqb_spec cell 80); lia | ].
      destruct J as [J | [Em [c [C1 [C2 C3]]]]]; [left; exact J | ]. destruct K as [K | K]; [left; exact K | right].
      split; [exact Em | ]. exists c. split; [exact C1 | ]. split; [exact C2 | ].
      assert (c <> cell) by (intros ->; apply K; exact C2). destruct (Nat.eqb_spec cell 80); lia.
Qed.

Lemma inv_last st l : inv st -> l < 81 -> inv (set_glast st l).
Proof. intros I Hl. constructor; try apply I. exact Hl. Qed.

Lemma guess_cell_spec st : inv st -> (exists c, c < 81 /\ G st c = 0) ->
  exists c l, find_cell_min_poss st = Ok (c, set_glast st l) /\ c < 81 /\ G st c = 0 /\ l < 81.
Proof.
  intros I [u [Hu Gu]]. unfold find_cell_min_poss. assert (Hl := i_last _ I).
  destruct (min_poss_spec st (g_last st) I Hl 82 ((g_last st + 1) mod 81) 10 100) as [b [l [E [Hb [Gb Hl']]]]]; [lia | lia | lia | right; split; [reflexivity | exists u; split; [exact Hu | split; [exact Gu | lia]]] | ].
  rewrite E. cbn [bind]. rewrite chk_ok by exact Hb. cbn [bind]. exists b, l. auto.
Qed.

(** The cell of a guess depends on the state only; every candidate of it can be chosen. *)
Lemma guess_spec st rng i : inv st -> (exists c, c < 81 /\ G st c = 0) ->
  exists c l d, find_good_random_guess st rng i = Ok (set_glast st l, (c, d)) /\ c < 81 /\ G st c = 0 /\ l < 81 /\
    1 <= d <= 9 /\ mem (P st c) (d - 1).
Proof.
  intros I U. destruct (guess_cell_spec st I U) as [c [l [E [Hc [Gc Hl]]]]]. unfold find_good_random_guess. rewrite E. cbn [bind].
  cbn [g_poss set_glast]. rewrite (aget_ok _ _ 0%N) by (rewrite (i_lp _ I); exact Hc). cbn [bind]. fold (P st c).
  assert (Sp := i_p _ I c Hc). assert (N : P st c <> 0%N) by (rewrite (i_live _ I c Hc); lia).
  assert (Ln : set_len (P st c) <> 0).
  { intros Z. apply N. apply (empty_iff EDigit _ Sp). unfold set_is_empty. rewrite Z. reflexivity. }
  unfold gen_range. apply Nat.eqb_neq in Ln as Ln'. rewrite Ln'. cbn [bind]. rewrite iter_exact by exact Sp. cbn [bind].
  assert (Hr : rng i mod set_len (P st c) < length (members EDigit (P st c))).
  { rewrite <- (len_members EDigit _ Sp). apply Nat.mod_upper_bound. exact Ln. }
  rewrite (aget_ok _ _ 0) by exact Hr. cbn [bind].
  assert (Mx := nth_In _ 0 Hr). apply (members_in EDigit _ _ Sp) in Mx. set (x := nth _ _ 0) in *.
  assert (x < 9) by (apply (Sp x Mx)). rewrite from_index_ok by assumption. cbn [bind]. exists c, l, (S x). split; [reflexivity | ].
  split; [exact Hc | ]. split; [exact Gc | ]. split; [exact Hl | ]. split; [lia | ]. replace (S x - 1) with x by lia. exact Mx.
Qed.

Lemma guess_reach st s : inv st -> comp st s -> (exists c, c < 81 /\ G st c = 0) ->
  exists c l k, c < 81 /\ G st c = 0 /\ l < 81 /\
    forall rng i, rng i = k -> find_good_random_guess st rng i = Ok (set_glast st l, (c, at_ s c)).
Proof.
  intros I [S C] U. destruct (guess_cell_spec st I U) as [c [l [E [Hc [Gc Hl]]]]]. destruct (C c Hc) as [_ C2]. specialize (C2 Gc).
  assert (Sp := i_p _ I c Hc). assert (Mi := C2). apply (members_in EDigit _ _ Sp) in Mi. destruct (In_nth _ _ 0 Mi) as [k [Hk Ek]].
  exists c, l, k. split; [exact Hc | ]. split; [exact Gc | ]. split; [exact Hl | ]. intros rng i Er. unfold find_good_random_guess. rewrite E. cbn [bind].
  cbn [g_poss set_glast]. rewrite (aget_ok _ _ 0%N) by (rewrite (i_lp _ I); exact Hc). cbn [bind]. fold (P st c).
  assert (Ln := len_members EDigit _ Sp). unfold gen_range. destruct (Nat.eqb_spec (set_len (P st c)) 0) as [Z | N]; [lia | ]. cbn [bind].
  rewrite iter_exact by exact Sp. cbn [bind]. rewrite Er, Nat.mod_small by lia. rewrite (aget_ok _ _ 0) by exact Hk. cbn [bind]. rewrite Ek.
  destruct S as [_ [R _]]. specialize (R c Hc). rewrite from_index_ok by lia. cbn [bind]. do 3 f_equal. lia.
Qed.

(** * The search *)

Lemma count_full g : length g = 81 -> (clue_count g = 81 <-> forall c, c < 81 -> at_ g c <> 0).
Proof.
  intros L. unfold clue_count. split.
  - intros E c Hc. assert (X : negb (at_ g c =? 0) = true).
    { apply (filter_all_length (fun c => negb (at_ g c =? 0)) (seq 0 81)); [rewrite E, seq_length; reflexivity | apply in_seq; lia]. }
    apply negb_true_iff, Nat.eqb_neq in X. exact X.
  - intros A. rewrite filter_all_true; [apply seq_length | ]. intros c Hi. apply in_seq in Hi. apply negb_true_iff, Nat.eqb_neq. apply A. lia.
Qed.

Lemma full_solved st : inv st -> gen_is_solved st = true -> solved (g_grid st).
Proof.
  intros I E. unfold gen_is_solved in E. apply Nat.eqb_eq in E. rewrite (i_n _ I) in E. rewrite (count_full _ (i_lg _ I)) in E.
  split; [apply (i_lg _ I) | ]. split.
  - intros c Hc. assert (A := i_g _ I c Hc). specialize (E c Hc). unfold G in A. lia.
  - intros c c' Hc Hc' Pe. apply (i_valid _ I); auto. apply E. exact Hc.
Qed.

Lemma not_full st : inv st -> gen_is_solved st = false -> exists c, c < 81 /\ G st c = 0.
Proof.
  intros I E. unfold gen_is_solved in E. apply Nat.eqb_neq in E. rewrite (i_n _ I) in E.
  destruct (existsb (fun c => G st c =? 0) (seq 0 81)) eqn:X.
  - apply existsb_exists in X. destruct X as [c [Hi Z]]. apply in_seq in Hi. exists c. split; [lia | apply Nat.eqb_eq; exact Z].
  - exfalso. apply E. apply (count_full _ (i_lg _ I)). intros c Hc Z.
    assert (T : existsb (fun c => G st c =? 0) (seq 0 81) = true); [ | congruence]. apply existsb_exists. exists c.
    split; [apply in_seq; lia | apply Nat.eqb_eq; exact Z].
Qed.

Lemma disj_last st l : disj st -> disj (set_glast st l). Proof. intros D. exact D. Qed.
Lemma comp_last st l s : comp (set_glast st l) s <-> comp st s. Proof. split; intros C; exact C. Qed.

Definition rpost (st : gen) (stack : list cand) (r : res (list nat)) : Prop :=
  post r solved (forall s, comp st s -> ~ scomp stack s).

Lemma search_spec rng : forall fuel st stack b i, inv st -> disj st -> okst stack -> livebit st stack b -> (b = 0 -> stack <> []) ->
  2 * n_poss st + b < fuel -> rpost st stack (fst (randomized_solve_one_f fuel st stack rng i)).
Proof.
  induction fuel as [ | f IH]; intros st stack b i I D O B Ne F; [lia | ]. cbn [randomized_solve_one_f]. unfold rpost.
  assert (S1 := insert_entries_spec (2 * n_poss st + 3) st stack b I D O B). unfold insert_entries.
  destruct B as [B1 B2]. specialize (S1 ltac:(lia)).
  destruct (insert_entries_f (2 * n_poss st + 3) st stack) as [st1 | | | ]; cbn [bind fst post] in *; [ | exact S1 | exact S1 | exact S1].
  destruct S1 as [I1 [D1 [L1 [V1 C1]]]]. assert (Le1 : n_poss st1 <= n_poss st) by (apply n_poss_le; assumption).
  assert (Lt1 : 2 * n_poss st1 < f).
  { destruct b as [ | b]; [ | lia]. specialize (V1 (Ne eq_refl) eq_refl). lia. }
  destruct (gen_is_solved st1) eqn:Es; cbn [fst post]; [apply full_solved; assumption | ].
  assert (S2 := hidden_spec st1 I1 D1 (seq 0 27) []). unfold find_hidden_singles.
  specialize (S2 ltac:(intros h Hi; apply in_seq in Hi; lia) ltac:(intros c d []) ltac:(intros c d [])).
  destruct (hidden_loop (seq 0 27) st1 []) as [stack1 | | | ]; cbn [bind fst post] in *; [ | intros s C Sc; apply (S2 s); auto | exact S2 | exact S2].
  destruct S2 as [O1 [W1 C2]]. destruct stack1 as [ | e1 t1].
  - clear O1 W1 C2. destruct (guess_spec st1 rng i I1 (not_full st1 I1 Es)) as [c [l [d [E [Hc [Gc [Hl [Hd' Pd]]]]]]]]. rewrite E. cbn [bind].
    assert (I2 := inv_last st1 l I1 Hl). assert (D2 := disj_last st1 l D1).
    assert (R := IH (set_glast st1 l) [(c, d)] 0 (S i) I2 D2). unfold rpost in R.
    specialize (R ltac:(apply okst_cons; split; [auto | intros ? ? []]) ltac:(split; [lia | intros _ k x [[= <- <-] | []]; exact Gc]) ltac:(discriminate)).
    specialize (R ltac:(change (n_poss (set_glast st1 l)) with (n_poss st1); lia)).
    destruct (randomized_solve_one_f f (set_glast st1 l) [(c, d)] rng (S i)) as [r i'] eqn:Er. cbn [fst] in R.
    destruct r as [g | | | ]; cbn [fst post] in *; [exact R | | exact R | exact R].
    destruct (digit_set_ok d Hd') as [m [Em [Sm M]]]. rewrite Em. cbn [bind].
    assert (S3 := remove_spec (set_glast st1 l) c m [] I2 Hc Gc).
    destruct (remove_impossibilities (set_glast st1 l) c m []) as [[st3 stack3] | | | ]; cbn [fst snd post] in *; [ | | exact S3 | exact S3].
    + destruct S3 as [I3 [Sa3 [L3 [M3 [P3 St3]]]]].
      assert (Lt3 : n_poss st3 < n_poss st1).
      { apply (n_poss_lt (set_glast st1 l) st3 c (d - 1) I2 I3 L3 Hc Pd). rewrite M3, M. tauto. }
      assert (C3 : forall s, comp st1 s -> comp st3 s).
      { intros s C. apply (comp_remove (set_glast st1 l) st3 s Sa3 C). intros k Hk Zk Mk. destruct (Nat.eq_dec k c) as [-> | Nk].
        - apply M3. split; [exact Mk | ]. rewrite M. intros Q. apply (R s C). apply scomp_cons. split; [ | intros ? ? []].
          destruct C as [[_ [Rg _]] _]. specialize (Rg c Hc). lia.
        - rewrite P3 by assumption. exact Mk. }
      assert (R3 : rpost st3 stack3 (fst (randomized_solve_one_f f st3 stack3 rng i'))).
      { apply (IH st3 stack3 1 i' I3).
        - intros k x h Hk Hh A Px Hx. rewrite (same_H _ _ h Sa3) in Hx. apply (D2 k x h Hk Hh A (L3 k x Hk Px) Hx).
        - destruct St3 as [-> | [d' [-> [Hd3 _]]]]; [intros ? ? [] | apply okst_cons; split; [auto | intros ? ? []]].
        - split; [lia | discriminate].
        - discriminate.
        - lia. }
      unfold rpost in R3. eapply post_impl; [exact R3 | auto | ]. intros Ex s C Sc. assert (C' := C1 s C Sc). apply (Ex s (C3 s C')).
      destruct St3 as [-> | [d' [-> [Hd3 U]]]]; [intros ? ? [] | ]. apply scomp_cons. split; [ | intros ? ? []].
      apply (pushed_scomp st3 c d' s I3 (C3 s C') Hc Hd3 U).
    + intros s C Sc. assert (C' := C1 s C Sc). apply (R s C'). apply scomp_cons. split; [ | intros ? ? []].
      assert (Q := proj2 C' c Hc). destruct Q as [_ Q]. specialize (Q Gc). apply S3, M in Q. destruct C' as [[_ [Rg _]] _]. specialize (Rg c Hc). lia.
  - eapply post_impl; [apply (IH st1 (e1 :: t1) 0 i I1 D1 O1); [split; [lia | auto] | discriminate | lia] | auto | ].
    intros Ex s C Sc. assert (C' := C1 s C Sc). apply (Ex s C'). apply C2; [exact C' | intros ? ? []].
Qed.

(** With suitable random choices the search finds any compatible grid. *)
Lemma search_reach s : forall fuel st stack b i, inv st -> disj st -> okst stack -> livebit st stack b -> (b = 0 -> stack <> []) ->
  2 * n_poss st + b < fuel -> comp st s -> scomp stack s ->
  exists l, forall rng, (forall k, k < length l -> rng (i + k) = nth k l 0) ->
    fst (randomized_solve_one_f fuel st stack rng i) = Ok s.
Proof.
  induction fuel as [ | f IH]; intros st stack b i I D O B Ne F C Sc; [lia | ].
  assert (S1 := insert_entries_spec (2 * n_poss st + 3) st stack b I D O B). destruct B as [B1 B2]. specialize (S1 ltac:(lia)).
  destruct (insert_entries_f (2 * n_poss st + 3) st stack) as [st1 | | | ] eqn:E1; cbn [post] in S1; [ | destruct (S1 s C Sc) | destruct S1 | destruct S1].
  destruct S1 as [I1 [D1 [L1 [V1 C1]]]]. assert (Le1 : n_poss st1 <= n_poss st) by (apply n_poss_le; assumption).
  specialize (C1 s C Sc).
  assert (Lt1 : 2 * n_poss st1 < f).
  { destruct b as [ | b]; [ | lia]. specialize (V1 (Ne eq_refl) eq_refl). lia. }
  destruct (gen_is_solved st1) eqn:Es.
  { exists []. intros rng _. cbn [randomized_solve_one_f]. unfold insert_entries. rewrite E1. cbn [bind]. rewrite Es. cbn [fst]. f_equal.
    assert (Fs := full_solved st1 I1 Es). apply grid_ext; [apply Fs | apply C1 | ]. intros c Hc. destruct C1 as [_ C1]. destruct (C1 c Hc) as [C1' _].
    symmetry. apply C1'. destruct Fs as [_ [R _]]. specialize (R c Hc). unfold G. lia. }
  assert (S2 := hidden_spec st1 I1 D1 (seq 0 27) []).
  specialize (S2 ltac:(intros h Hi; apply in_seq in Hi; lia) ltac:(intros c d []) ltac:(intros c d [])).
  destruct (hidden_loop (seq 0 27) st1 []) as [stack1 | | | ] eqn:E2; cbn [post] in S2; [ | destruct (S2 s C1) | destruct S2 | destruct S2].
  destruct S2 as [O1 [W1 C2]]. destruct stack1 as [ | e1 t1].
  - destruct (guess_reach st1 s I1 C1 (not_full st1 I1 Es)) as [c [l [k [Hc [Gc [Hl E]]]]]].
    assert (I2 := inv_last st1 l I1 Hl). assert (D2 := disj_last st1 l D1).
    assert (Rg : 1 <= at_ s c <= 9) by (destruct C1 as [[_ [R _]] _]; apply R; exact Hc).
    destruct (IH (set_glast st1 l) [(c, at_ s c)] 0 (S i) I2 D2) as [ls R].
    + apply okst_cons. split; [auto | intros ? ? []].
    + split; [lia | intros _ k' x [[= <- <-] | []]; exact Gc].
    + discriminate.
    + change (n_poss (set_glast st1 l)) with (n_poss st1). lia.
    + exact C1.
    + apply scomp_cons. split; [reflexivity | intros ? ? []].
    + exists (k :: ls). intros rng Hr. cbn [randomized_solve_one_f]. unfold insert_entries, find_hidden_singles. rewrite E1. cbn [bind]. rewrite Es, E2. cbn [bind].
      rewrite (E rng i) by (specialize (Hr 0 ltac:(cbn [length]; lia)); rewrite Nat.add_0_r in Hr; exact Hr). cbn [bind].
      specialize (R rng ltac:(intros j Hj; specialize (Hr (S j) ltac:(cbn [length]; lia)); cbn [nth] in Hr; rewrite <- Hr; f_equal; lia)).
      destruct (randomized_solve_one_f f (set_glast st1 l) [(c, at_ s c)] rng (S i)) as [r i']. cbn [fst] in R. subst r. reflexivity.
  - destruct (IH st1 (e1 :: t1) 0 i I1 D1 O1) as [ls R]; [split; [lia | auto] | discriminate | lia | exact C1 | apply C2; [exact C1 | intros ? ? []] | ].
    exists ls. intros rng Hr. cbn [randomized_solve_one_f]. unfold insert_entries, find_hidden_singles. rewrite E1. cbn [bind]. rewrite Es, E2. cbn [bind].
    apply R. exact Hr.
Qed.

(** * From the empty grid *)

Lemma G_new c : G gen_new c = 0.
Proof.
  unfold G, at_, gen_new. cbn [g_grid]. destruct (Nat.lt_ge_cases c 81) as [Hc | Hc].
  - apply (sweep1 81 (fun c => nth c (repeat 0 81) 0 =? 0)) in Hc; [apply Nat.eqb_eq; exact Hc | vm_compute; reflexivity].
  - apply nth_overflow. rewrite repeat_length. exact Hc.
Qed.
Lemma P_new c : c < 81 -> P gen_new c = set_all EDigit.
Proof.
  intros Hc. unfold P, gen_new. cbn [g_poss]. apply (sweep1 81 (fun c => N.eqb (nth c (repeat (set_all EDigit) 81) 0%N) (set_all EDigit))) in Hc;
    [apply N.eqb_eq; exact Hc | vm_compute; reflexivity].
Qed.
Lemma H_new h : Hd gen_new h = 0%N.
Proof.
  unfold Hd, gen_new. cbn [g_houses]. destruct (Nat.lt_ge_cases h 27) as [Hc | Hc].
  - apply (sweep1 27 (fun c => N.eqb (nth c (repeat (set_none EDigit) 27) 0%N) 0)) in Hc; [apply N.eqb_eq; exact Hc | vm_compute; reflexivity].
  - apply nth_overflow. rewrite repeat_length. exact Hc.
Qed.

Lemma inv_new : inv gen_new.
Proof.
  constructor; try (vm_compute; reflexivity).
  - intros c _. rewrite G_new. lia.
  - intros c Hc. rewrite P_new by exact Hc. apply is_set_all.
  - intros h x Hh. rewrite H_new. split; [intros Q; destruct (mem0 _ Q) | ]. intros [c [_ [_ Q]]]. rewrite G_new in Q. discriminate.
  - intros c Hc. rewrite P_new, G_new by exact Hc. split; [intros Q; vm_compute in Q; discriminate | intros []; reflexivity].
  - intros c c' _ _ _ Q. rewrite G_new in Q. destruct Q. reflexivity.
  - vm_compute. lia.
Qed.
Lemma disj_new : disj gen_new.
Proof. intros c x h _ _ _ _ Q. rewrite H_new in Q. destruct (mem0 _ Q). Qed.
Lemma comp_new s : solved s -> comp gen_new s.
Proof.
  intros S. split; [exact S | ]. intros c Hc. rewrite G_new, P_new by exact Hc. split; [intros []; reflexivity | ]. intros _. apply mem_all.
  destruct S as [_ [R _]]. specialize (R c Hc). cbn [esize]. lia.
Qed.

Lemma first_row_spec : forall perm a acc, Forall (fun d => 1 <= d <= 9) perm -> a + length perm <= 81 ->
  exists stack, first_row (seq a (length perm)) perm acc = Ok stack /\
    forall c d, In (c, d) stack <-> In (c, d) acc \/ (a <= c < a + length perm /\ d = nth (c - a) perm 0).
Proof.
  induction perm as [ | d0 perm IH]; intros a acc Fp L; cbn [length seq first_row].
  - exists acc. split; [reflexivity | ]. intros c d. split; [auto | ]. intros [Q | [Q _]]; [exact Q | lia].
  - apply Forall_inv in Fp as F0. apply Forall_inv_tail in Fp as Ft. cbn [length] in L.
    rewrite (proj1 (candidate_new_exact a d0) ltac:(lia)). cbn [bind].
    destruct (IH (S a) ((a, d0) :: acc) Ft ltac:(lia)) as [stack [E Q]]. exists stack. split; [exact E | ]. intros c d. rewrite Q. split.
    + intros [[[= <- <-] | Hi] | [R ->]]; [right; split; [lia | rewrite Nat.sub_diag; reflexivity] | auto | right; split; [lia | ]].
      replace (c - a) with (S (c - S a)) by lia. reflexivity.
    + intros [Hi | [R ->]]; [left; right; exact Hi | ]. destruct (Nat.eq_dec c a) as [-> | N].
      * left. left. rewrite Nat.sub_diag. reflexivity.
      * right. split; [lia | ]. replace (c - a) with (S (c - S a)) by lia. reflexivity.
Qed.

(** A solved grid with the first row 1..9, and relabelling of its digits *)
Definition base : grid := of_fun (fun c => (3 * (row_of c mod 3) + row_of c / 3 + col_of c) mod 9 + 1).
Lemma base_solved : solved base.
Proof. apply solvedb_ok. vm_compute. reflexivity. Qed.

Lemma relabel_solved perm : Permutation perm (seq 1 9) -> let s := of_fun (fun c => nth (at_ base c - 1) perm 0) in
  solved s /\ forall c, c < 9 -> at_ s c = nth c perm 0.
Proof.
  intros Pm s. destruct base_solved as [_ [R V]]. assert (L : length perm = 9) by (rewrite (Permutation_length Pm); apply seq_length).
  assert (ND : NoDup perm) by (apply (Permutation_NoDup (Permutation_sym Pm)), seq_NoDup).
  split; [split; [apply of_fun_length | split] | ].
  - intros c Hc. unfold s. rewrite at_of_fun by exact Hc. specialize (R c Hc).
    assert (Q : In (nth (at_ base c - 1) perm 0) perm) by (apply nth_In; lia). apply (Permutation_in _ Pm), in_seq in Q. lia.
  - intros c c' Hc Hc' Pe E. unfold s in E. rewrite !at_of_fun in E by assumption. apply (V c c' Hc Hc' Pe).
    assert (R1 := R c Hc). assert (R2 := R c' Hc'). apply (proj1 (NoDup_nth perm 0)) in E; [lia | exact ND | lia | lia].
  - intros c Hc. unfold s. rewrite at_of_fun by lia.
    apply (sweep1 9 (fun c => at_ base c - 1 =? c)) in Hc; [apply Nat.eqb_eq in Hc; rewrite Hc; reflexivity | vm_compute; reflexivity].
Qed.

Lemma perm_facts perm : Permutation perm (seq 1 9) -> length perm = 9 /\ Forall (fun d => 1 <= d <= 9) perm.
Proof.
  intros Pm. split; [rewrite (Permutation_length Pm); apply seq_length | ]. apply Forall_forall. intros d Hi.
  apply (Permutation_in _ Pm), in_seq in Hi. lia.
Qed.

Lemma generate_start perm : Permutation perm (seq 1 9) -> exists stack, first_row (seq 0 9) perm [] = Ok stack /\ okst stack /\
  stack <> [] /\ forall s, scomp stack s <-> forall c, c < 9 -> at_ s c = nth c perm 0.
Proof.
  intros Pm. destruct (perm_facts perm Pm) as [L Fa]. destruct (first_row_spec perm 0 [] Fa ltac:(lia)) as [stack [E Q]]. rewrite L in E.
  exists stack. split; [exact E | ]. split; [ | split].
  - intros c d Hi. apply Q in Hi. destruct Hi as [[] | [Hc ->]]. rewrite L in Hc. split; [lia | ]. rewrite Forall_forall in Fa. apply Fa. apply nth_In. lia.
  - intros ->. destruct (proj2 (Q 0 (nth 0 perm 0))). right. rewrite L. split; [lia | reflexivity].
  - intros s. split.
    + intros Sc c Hc. apply Sc. apply Q. right. rewrite L, Nat.sub_0_r. split; [lia | reflexivity].
    + intros A c d Hi. apply Q in Hi. destruct Hi as [[] | [Hc ->]]. rewrite L in Hc. rewrite Nat.sub_0_r. apply A. lia.
Qed.

Definition unwrap (r : res (list nat)) : res (list nat) := match r with Unsolv => Panic | x => x end.
Lemma generate_solved_eq perm rng stack : first_row (seq 0 9) perm [] = Ok stack -> exists fuel, 2 * n_poss gen_new + 1 < fuel /\
  generate_solved perm rng = unwrap (fst (randomized_solve_one_f fuel gen_new stack rng 0)).
Proof. intros E. exists (2 * n_poss gen_new + 2). split; [lia | ]. unfold generate_solved, bind, unwrap. rewrite E.
  generalize (fst (randomized_solve_one_f (2 * n_poss gen_new + 2) gen_new stack rng 0)). intros [ | | | ]; reflexivity.
Qed.

Lemma generate_solved_total perm rng : Permutation perm (seq 1 9) -> exists g, generate_solved perm rng = Ok g /\ solved g.
Proof.
  intros Pm. destruct (generate_start perm Pm) as [stack [E [O [Ne Sc]]]]. destruct (generate_solved_eq perm rng stack E) as [fuel [F ->]].
  assert (R := search_spec rng fuel gen_new stack 1 0 inv_new disj_new O).
  specialize (R ltac:(split; [lia | discriminate]) ltac:(discriminate) F). unfold rpost in R.
  generalize dependent (fst (randomized_solve_one_f fuel gen_new stack rng 0)). intros r R. clear F.
  destruct r as [g | | | ]; cbn [post unwrap] in *; [exists g; auto | | destruct R | destruct R].
  exfalso. destruct (relabel_solved perm Pm) as [S A]. apply (R _ (comp_new _ S)). apply Sc. exact A.
Qed.

Lemma generate_solved_reach s : solved s -> exists perm rng, Permutation perm (seq 1 9) /\ generate_solved perm rng = Ok s.
Proof.
  intros S. set (perm := map (at_ s) (seq 0 9)).
  assert (L : length perm = 9) by reflexivity.
  assert (ND : NoDup perm).
  { apply NoDup_map_on; [apply seq_NoDup | ]. intros x y Hx Hy N. apply in_seq in Hx, Hy. apply S; [lia | lia | ]. split; [exact N | left; unfold row_of; lia]. }
  assert (Pm : Permutation perm (seq 1 9)).
  { apply NoDup_Permutation_bis; [exact ND | rewrite L; apply Nat.le_refl | ]. intros d Hi. apply in_map_iff in Hi. destruct Hi as [c [<- Hc]].
    apply in_seq in Hc. destruct S as [_ [R _]]. specialize (R c ltac:(lia)). apply in_seq. lia. }
  exists perm. destruct (generate_start perm Pm) as [stack [E [O [Ne Sc]]]].
  set (fuel := 2 * n_poss gen_new + 2). assert (F : 2 * n_poss gen_new + 1 < fuel) by (unfold fuel; lia).
  destruct (search_reach s fuel gen_new stack 1 0 inv_new disj_new O) as [l R];
    [split; [lia | discriminate] | discriminate | exact F | apply comp_new; exact S | | ].
  - apply Sc. intros c Hc. unfold perm. rewrite (nth_indep _ 0 (at_ s 0)) by (rewrite map_length, seq_length; exact Hc).
    rewrite map_nth, seq_nth by exact Hc. reflexivity.
  - exists (fun k => nth k l 0). split; [exact Pm | ]. specialize (R (fun k => nth k l 0) (fun k _ => eq_refl)).
    unfold generate_solved. rewrite E. unfold bind. fold fuel. rewrite R. reflexivity.
Qed.

(** * Number of guesses *)

Lemma guesses_bound rng : forall fuel st stack i, (N.of_nat (snd (randomized_solve_one_f fuel st stack rng i)) < N.of_nat i + 2 ^ N.of_nat fuel)%N.
Proof.
  induction fuel as [ | f IH]; intros st stack i; [cbn [randomized_solve_one_f snd]; change (2 ^ N.of_nat 0)%N with 1%N; lia | ].
  assert (E2 : (2 ^ N.of_nat (S f) = 2 * 2 ^ N.of_nat f)%N) by (rewrite Nat2N.inj_succ; apply N.pow_succ_r'). rewrite E2.
  assert (Pos := pow_pos (N.of_nat f)). cbn [randomized_solve_one_f].
  match goal with |- context [match ?x with Ok _ => _ | Unsolv => _ | Panic => _ | NoFuel => _ end] => destruct x as [[g | [[st1 stack1] | [st1 [c d]]]] | | | ] end;
    cbn [snd]; try lia.
  - specialize (IH st1 stack1 i). lia.
  - assert (B := IH st1 [(c, d)] (S i)). destruct (randomized_solve_one_f f st1 [(c, d)] rng (S i)) as [r i']. cbn [snd] in B.
    assert (B' : (N.of_nat i' <= N.of_nat i + 2 ^ N.of_nat f)%N) by lia.
    destruct r; cbn [snd]; try lia.
    match goal with |- context [match ?x with Ok _ => _ | Unsolv => _ | Panic => _ | NoFuel => _ end] => destruct x as [[st2 stack2] | | | ] end;
      cbn [snd]; try lia.
    specialize (IH st2 stack2 i'). lia.
Qed.

Lemma n_poss_new : n_poss gen_new = 729.
Proof. vm_compute. reflexivity. Qed.

Lemma search_bounded_f fuel perm rng stack : 2 * n_poss gen_new + 1 < fuel -> Permutation perm (seq 1 9) ->
  first_row (seq 0 9) perm [] = Ok stack ->
  let r := randomized_solve_one_f fuel gen_new stack rng 0 in
  (exists g, fst r = Ok g /\ solved g) /\ (N.of_nat (snd r) < 2 ^ N.of_nat fuel)%N.
Proof.
  intros F Pm E r. split; [ | exact (guesses_bound rng fuel gen_new stack 0)].
  destruct (generate_start perm Pm) as [stack' [E' [O [Ne Sc]]]]. rewrite E in E'. injection E' as <-.
  assert (R := search_spec rng fuel gen_new stack 1 0 inv_new disj_new O).
  specialize (R ltac:(split; [lia | discriminate]) ltac:(discriminate) F). unfold rpost in R. fold r in R. clearbody r.
  destruct (fst r) as [g | | | ]; cbn [post] in R; [exists g; auto | | destruct R | destruct R].
  exfalso. destruct (relabel_solved perm Pm) as [S A]. apply (R _ (comp_new _ S)). apply Sc. exact A.
Qed.

Lemma search_bounded perm rng stack : Permutation perm (seq 1 9) -> first_row (seq 0 9) perm [] = Ok stack ->
  let r := randomized_solve_one_f 1460 gen_new stack rng 0 in
  (exists g, fst r = Ok g /\ solved g) /\ (N.of_nat (snd r) < 2 ^ 1460)%N.
Proof.
  assert (F : 2 * n_poss gen_new + 1 < 1460) by (rewrite n_poss_new; lia).
  assert (E : (1460 = N.of_nat 1460)%N) by (vm_compute; reflexivity). rewrite E. generalize dependent 1460. intros fuel F _.
  exact (search_bounded_f fuel perm rng stack F).
Qed.

(** * Whole puzzles *)

Lemma generate_puzzle sym perm rng order : Permutation perm (seq 1 9) -> Permutation order (seq 0 81) ->
  exists g, generate_with_symmetry sym perm rng order = Ok g /\ wf_grid g /\ uniquely_solvable g /\ symmetric sym g /\
    forall c q, c < 81 -> at_ g c <> 0 -> class_removed sym c g q -> exists s1 s2, s1 <> s2 /\ solution_of q s1 /\ solution_of q s2.
Proof.
  intros Pm Po. destruct (generate_solved_total perm rng Pm) as [src [E S]]. unfold generate_with_symmetry. rewrite E. cbn [bind].
  assert (W := solved_wf src S). destruct (generate_total src sym order W Po) as [g [Eg Wg]]. exists g. split; [exact Eg | ]. split; [exact Wg | ].
  assert (U := solved_unique src S). split; [ | split].
  - destruct (generate_keeps src sym order g W Po Eg) as [_ K]. destruct U as [s [U1 U2]]. exists s. apply K; assumption.
  - apply (generate_symmetric_solved src sym order g S Po Eg).
  - intros c q Hc N Q. apply (generate_minimal src sym order g c q W Po U Eg Hc N Q).
Qed.

Lemma symmetric_not_minimal : exists src order g c q,
  solved src /\ Permutation order (seq 0 81) /\ generate_with_symmetry_from src HalfRotation order = Ok g /\ c < 81 /\ at_ g c <> 0 /\
  length q = 81 /\ at_ q c = 0 /\ (forall x, x < 81 -> x <> c -> at_ q x = at_ g x) /\ uniquely_solvable q.
Proof.
  set (g := [0; 0; 0; 0; 0; 0; 0; 0; 0; 0; 6; 0; 3; 0; 0; 0; 2; 0; 0; 0; 0; 0; 7;
         0; 4; 9; 3; 0; 4; 8; 0; 0; 2; 0; 0; 6; 0; 2; 9; 5; 0; 4; 1; 3; 0; 1;
         0; 0; 7; 0; 0; 2; 4; 0; 3; 7; 2; 0; 8; 0; 0; 0; 0; 0; 1; 0; 0; 0; 3;
         0; 6; 0; 0; 0; 0; 0; 0; 0; 0; 0; 0]).
  exists solution1, (seq 0 81), g, 37, (lset g 37 0).
  split; [apply solvedb_ok; vm_compute; reflexivity | ]. split; [reflexivity | ]. split; [vm_compute; reflexivity | ]. split; [lia | ].
  split; [vm_compute; discriminate | ]. split; [reflexivity | ]. split; [reflexivity | ]. split.
  - intros x Hx N. apply Nat.eqb_neq in N. assert (X : forallb (fun x => (x =? 37) || (at_ (lset g 37 0) x =? at_ g x)) (seq 0 81) = true) by (vm_compute; reflexivity).
    apply (sweep1 81 _ X) in Hx. rewrite N in Hx. apply Nat.eqb_eq. exact Hx.
  - assert (W : wf_grid (lset g 37 0)) by (apply wf_gridb_ok; vm_compute; reflexivity).
    destruct (uniquely_solvable_exact _ W) as [b [E U]]. apply U. assert (E' : api_is_uniquely_solvable (lset g 37 0) = Ok true) by (vm_compute; reflexivity).
    rewrite E' in E. injection E as <-. reflexivity.
Qed.
