(** The strategy solver: the search for mutant fish never finds one. *)
From Coq Require Import List Arith NArith ZArith ZifyNat ZifyN ZifyBool Lia Bool.
From Verif Require Import Spec TableSpec GeomSpec Solver Bits Geom Gen BitLemmas GridProofs BitsProofs GeomProofs GenProofs Strat StratFind StratSolve StratUse StratInv StratPos StratFound StratWalk.
Import ListNotations.
Ltac Zify.zify_post_hook ::= Z.to_euclidean_division_equations.

Lemma len_or e a b : is_set e a -> is_set e b -> (forall x, mem a x -> ~ mem b x) -> set_len (set_or a b) = set_len a + set_len b.
Proof.
  intros Sa Sb Dj. assert (So : is_set e (set_or a b)) by (intros x Q; apply mem_or in Q; destruct Q; auto).
  rewrite (len_members e _ So), (len_members e a Sa), (len_members e b Sb), <- app_length. apply Nat.le_antisymm.
  - apply NoDup_incl_length; [apply NoDup_filter, seq_NoDup | ]. intros x Hx. apply (members_in e _ x So), mem_or in Hx. apply in_app_iff.
    destruct Hx as [Hx | Hx]; [left; apply (members_in e a x Sa) | right; apply (members_in e b x Sb)]; exact Hx.
  - apply NoDup_incl_length.
    + assert (Na : NoDup (members e a)) by (apply NoDup_filter, seq_NoDup). assert (Nb : NoDup (members e b)) by (apply NoDup_filter, seq_NoDup).
      assert (X : forall x, In x (members e a) -> ~ In x (members e b)).
      { intros x Hx Hy. apply (members_in e a x Sa) in Hx. apply (members_in e b x Sb) in Hy. apply (Dj x Hx Hy). }
      revert X. induction Na as [ | x l Nx Na IH]; intros X; [exact Nb | ]. cbn [app]. constructor.
      * rewrite in_app_iff. intros [Q | Q]; [exact (Nx Q) | apply (X x (or_introl eq_refl) Q)].
      * apply IH. intros y Hy. apply X. right. exact Hy.
    + intros x Hx. apply in_app_iff in Hx. apply (members_in e _ x So), mem_or. destruct Hx as [Hx | Hx]; [left; apply (members_in e a x Sa) | right; apply (members_in e b x Sb)]; exact Hx.
Qed.

Section Mutant.
Variables (T : Type) (pos : list (list N)) (digit size : nat) (stop : bool) (on : nat -> N -> N -> N -> T -> res (T * bool)).
Hypotheses (Hp : Pw pos) (Hd' : 1 <= digit <= 9) (Hs : size <> 0).

Lemma base_walk_none : forall houses base cands s, NoDup houses -> (forall h, In h houses -> h < 27 /\ ~ mem base h) -> is_set EHouse base -> is_set ECell cands ->
  2 * set_len base <= set_len cands -> base_walk pos digit size stop on houses base cands s = Ok (s, false).
Proof.
  induction houses as [ | h t IH]; intros base cands s ND Hh Sb Sc L; cbn [base_walk]; [reflexivity | ].
  destruct (Hh h (or_introl eq_refl)) as [Lh Nh]. rewrite (pos_get_ok pos h digit Hp Lh Hd'). cbn [bind]. assert (Sp := pw_s _ Hp h digit Lh Hd').
  inversion ND as [ | ? ? Nt ND']; subst.
  assert (Ht : forall k, In k t -> k < 27 /\ ~ mem base k) by (intros k Hk; apply Hh; right; exact Hk).
  destruct (house_cells_at_exact h (pm pos h digit) Lh Sp) as [hc [E [Shc Mhc]]]. rewrite E. cbn [bind].
  destruct ((size <? set_len hc) || set_overlaps ECell hc cands) eqn:T1; [apply IH; assumption | ].
  destruct ((set_len (pm pos h digit) <? 2) || (size <? set_len (set_or cands hc))) eqn:T2; [apply IH; assumption | ].
  apply orb_false_iff in T1. destruct T1 as [_ T1]. apply orb_false_iff in T2. destruct T2 as [T2 _]. apply Nat.ltb_ge in T2.
  assert (Dj : forall x, mem cands x -> ~ mem hc x).
  { intros x A B. assert (X : set_overlaps ECell hc cands = true); [ | congruence]. apply (overlaps_iff ECell). exists x. auto. }
  assert (L2 : set_len (pm pos h digit) <= set_len hc).
  { rewrite (len_members EPosHouse _ Sp). apply (pigeon ECell hc _ (fun p => cell_at h p) Shc); [apply NoDup_filter, seq_NoDup | | ].
    - intros p Q. apply (members_in EPosHouse _ p Sp) in Q. assert (Lp := Sp p Q). cbn in Lp. destruct (cell_at_ok h p Lh Lp) as [_ [A [B D]]]. apply Mhc. rewrite D. auto.
    - intros p q P1 P2 Q. apply (members_in EPosHouse _ p Sp) in P1. apply (members_in EPosHouse _ q Sp) in P2. assert (A := Sp p P1). assert (B := Sp q P2). cbn in A, B.
      destruct (cell_at_ok h p Lh A) as [_ [_ [_ X]]]. destruct (cell_at_ok h q Lh B) as [_ [_ [_ Y]]]. congruence. }
  destruct (as_set_total EHouse h Lh) as [hs Ehs]. rewrite Ehs. cbn [bind].
  assert (Shs : is_set EHouse hs) by (intros k Q; rewrite (mem_single _ _ _ _ Ehs) in Q; subst k; exact Lh).
  assert (Lc : set_len (set_or cands hc) = set_len cands + set_len hc) by (apply (len_or ECell); assumption).
  assert (Lb : set_len (set_or base hs) <= set_len base + 1).
  { rewrite (len_or EHouse base hs Sb Shs) by (intros x A B; rewrite (mem_single _ _ _ _ Ehs) in B; subst x; contradiction).
    rewrite (len_members EHouse hs Shs). apply Nat.add_le_mono_l. change 1 with (length [h]). apply NoDup_incl_length; [apply NoDup_filter, seq_NoDup | ].
    intros k Q. apply (members_in EHouse hs k Shs) in Q. rewrite (mem_single _ _ _ _ Ehs) in Q. left. auto. }
  assert (R : base_walk pos digit size stop on t (set_or base hs) (set_or cands hc) s = Ok (s, false)).
  { apply IH; [exact ND' | | | | lia].
    - intros k Hk. split; [apply Ht, Hk | ]. rewrite mem_or, (mem_single _ _ _ _ Ehs). intros [Q | ->]; [apply (Ht k Hk), Q | contradiction].
    - intros k Q. apply mem_or in Q. destruct Q; auto.
    - intros k Q. apply mem_or in Q. destruct Q; auto. }
  unfold base_enter. destruct (Nat.eqb_spec (set_len (set_or base hs)) size) as [Es | _].
  - replace (set_len (set_or cands hc) =? size) with false by (symmetry; apply Nat.eqb_neq; lia). cbn [negb bind fst snd]. apply IH; assumption.
  - rewrite R. cbn [bind fst snd]. apply IH; assumption.
Qed.
End Mutant.

Lemma for_ctl_const {A T} (f : A -> T -> res (T * ctl)) s : forall l, (forall x, In x l -> f x s = Ok (s, Cont)) -> for_ctl l f s = Ok (s, Cont).
Proof.
  induction l as [ | x l IH]; intros H; [reflexivity | ]. cbn [for_ctl]. rewrite (H x (or_introl eq_refl)). cbn [bind fst snd].
  apply IH. intros y Hy. apply H. right. exact Hy.
Qed.

Lemma find_mutant_none {T} pos size stop (on : nat -> N -> N -> N -> T -> res (T * bool)) s : Pw pos -> size <> 0 -> find_mutant pos size stop on s = Ok (s, true).
Proof.
  intros Hp Hs. unfold find_mutant. rewrite for_ctl_const; [reflexivity | ]. intros d Hd'. apply in_seq in Hd'.
  rewrite (iter_exact EHouse) by apply is_set_all. cbn [bind]. unfold base_enter.
  assert (L0 : set_len (set_none EHouse) = 0) by reflexivity. rewrite L0. replace (0 =? size) with false by (symmetry; apply Nat.eqb_neq; lia).
  rewrite (base_walk_none T pos d size stop on Hp ltac:(lia) Hs); [reflexivity | | | | | ].
  - apply NoDup_filter, seq_NoDup.
  - intros h Hh. apply (members_in EHouse _ h (is_set_all EHouse)), mem_all in Hh. split; [exact Hh | ]. intros Q. destruct (mem_none _ _ Q).
  - intros x Q. destruct (mem_none _ _ Q).
  - intros x Q. destruct (mem_none _ _ Q).
  - reflexivity.
Qed.
