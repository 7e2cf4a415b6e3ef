(** The strategy solver: subsets and fish.  The searches visit every combination, and what they eliminate is right. *)
From Coq Require Import List Arith NArith ZArith ZifyNat ZifyN ZifyBool Lia Bool.
From Verif Require Import Spec TableSpec GeomSpec Solver Bits Geom Gen BitLemmas GridProofs BitsProofs GeomProofs GenProofs Strat StratFind StratSolve StratUse StratInv StratPos StratFound.
Import ListNotations.
Ltac Zify.zify_post_hook ::= Z.to_euclidean_division_equations.

(** * Counting *)

Lemma pigeon {A} e (U : N) (l : list A) (f : A -> nat) : is_set e U -> NoDup l -> (forall a, In a l -> mem U (f a)) ->
  (forall a b, In a l -> In b l -> f a = f b -> a = b) -> length l <= set_len U.
Proof.
  intros SU ND M Inj. rewrite (len_members e U SU), <- (map_length f l). apply NoDup_incl_length.
  - clear M. induction ND as [ | a l Na ND IH]; [constructor | ]. cbn [map]. constructor.
    + intros Hi. apply in_map_iff in Hi. destruct Hi as [b [E Hb]]. apply Na. rewrite <- (Inj b a); [exact Hb | right; exact Hb | left; reflexivity | exact E].
    + apply IH. intros x y Hx Hy. apply Inj; right; assumption.
  - intros y Hy. apply in_map_iff in Hy. destruct Hy as [a [<- Ha]]. apply (members_in e U _ SU). auto.
Qed.

Lemma pigeon_set e e' (U F : N) (f : nat -> nat) p y : is_set e U -> is_set e' F -> ~ mem F p -> mem U y ->
  (forall a, mem F a -> mem U (f a) /\ f a <> y) -> (forall a b, mem F a -> mem F b -> f a = f b -> a = b) -> set_len F < set_len U.
Proof.
  intros SU SF Np My M Inj. rewrite (len_members e' F SF).
  set (g := fun a => if a =? p then y else f a).
  assert (Gf : forall a, mem F a -> g a = f a) by (intros a Ha; unfold g; destruct (Nat.eqb_spec a p) as [-> | _]; [contradiction | reflexivity]).
  assert (Gp : g p = y) by (unfold g; rewrite Nat.eqb_refl; reflexivity).
  assert (Im : forall a, In a (members e' F) <-> mem F a) by (intros a; apply members_in; exact SF).
  apply (pigeon e U (p :: members e' F) g SU).
  - constructor; [rewrite Im; exact Np | apply NoDup_filter, seq_NoDup].
  - intros a [<- | Ha]; [rewrite Gp; exact My | ]. apply Im in Ha. rewrite Gf by exact Ha. apply M. exact Ha.
  - intros a b [<- | Ha] [<- | Hb]; try reflexivity.
    + apply Im in Hb. rewrite Gp, Gf by exact Hb. intros E. destruct (M b Hb) as [_ X]. destruct X. auto.
    + apply Im in Ha. rewrite Gp, Gf by exact Ha. intros E. destruct (M a Ha) as [_ X]. destruct X. auto.
    + apply Im in Ha. apply Im in Hb. rewrite !Gf by assumption. apply Inj; assumption.
Qed.

Lemma set_len_le e a b : is_set e b -> (forall i, mem a i -> mem b i) -> set_len a <= set_len b.
Proof. apply set_len_mono. Qed.

(** * Cells of a house by position *)

Definition cell_at (h p : nat) : nat := match house_cell_at h p with Ok c => c | _ => 0 end.
Lemma cell_at_ok h p : h < 27 -> p < 9 -> house_cell_at h p = Ok (cell_at h p) /\ cell_at h p < 81 /\ in_house h (cell_at h p) /\ pos_in_house h (cell_at h p) = p.
Proof. intros Hh Hp. unfold cell_at. destruct (house_cell_at_exact h p Hh Hp) as [c [E [A [B [Q _]]]]]. rewrite E. auto. Qed.
Lemma cell_at_inv h c : h < 27 -> c < 81 -> in_house h c -> pos_in_house h c < 9 /\ cell_at h (pos_in_house h c) = c.
Proof. intros Hh Hc Hi. destruct (house_cell_at_inv h c Hh Hc Hi) as [A E]. split; [exact A | ]. unfold cell_at. rewrite E. reflexivity. Qed.

(** In a solved grid the positions of a house have different digits. *)
Lemma solved_pos s h p q : solved s -> h < 27 -> p < 9 -> q < 9 -> at_ s (cell_at h p) = at_ s (cell_at h q) -> p = q.
Proof.
  intros [_ [_ V]] Hh Hp Hq E. destruct (cell_at_ok h p Hh Hp) as [_ [A1 [A2 A3]]]. destruct (cell_at_ok h q Hh Hq) as [_ [B1 [B2 B3]]].
  destruct (Nat.eq_dec (cell_at h p) (cell_at h q)) as [Q | N]; [congruence | ]. exfalso. apply (V _ _ A1 B1); [apply (house_peers h); assumption | exact E].
Qed.

Section Walk.
Variables (S0 : strategy) (st0 : strat) (stop : bool) (size : nat).

Definition grown (st : strat) : Prop := length (s_elims st0) < length (s_elims st).
(** Something has been found, or the state is the first one and [facts] hold. *)
Definition Iv (facts : Prop) (st : strat) : Prop := found S0 st0 st /\ (grown st \/ (st = st0 /\ facts)).
Definition Qv (st : strat) : Prop := found S0 st0 st /\ grown st.
(** What the callback must do with an instance of the pattern; [conf]: it eliminates something *)
Definition callback (r : strat -> res (strat * bool)) (conf : Prop) : Prop := forall st, found S0 st0 st ->
  exists st' b, r st = Ok (st', b) /\ found S0 st0 st' /\ (b = true -> grown st' /\ conf) /\ (b = false -> st' = st /\ ~ conf).

Lemma Iv_impl (A B : Prop) st : (A -> B) -> Iv A st -> Iv B st.
Proof. intros H [F [Q | [E Q]]]; split; auto. Qed.
Lemma Iv_grown (A : Prop) st : Qv st -> Iv A st.
Proof. intros [F Q]. split; auto. Qed.
Lemma Iv_callback r conf (A : Prop) st : callback r conf -> Iv A st -> exists st' b, r st = Ok (st', b) /\ (b = true -> Qv st') /\ (b = false -> Iv (A /\ ~ conf) st').
Proof.
  intros Cb [F Q]. destruct (Cb st F) as [st' [b [E [F' [T N]]]]]. exists st', b. split; [exact E | ]. split; intros Hb.
  - split; [exact F' | apply T, Hb].
  - destruct (N Hb) as [-> X]. split; [exact F | ]. destruct Q as [Q | [Q1 Q2]]; auto.
Qed.

Lemma okb_seq (r : res (strat * bool)) f (I I' Q : strat -> Prop) : okb r I Q -> (forall s, I s -> okb (f s) I' Q) ->
  okb (x <- r; if snd x then Ok (fst x, true) else f (fst x)) I' Q.
Proof. destruct r as [[s [ | ]] | | | ]; cbn; auto. Qed.

(** ** Naked subsets *)

Definition naked_pat (h : nat) (F T : N) : Prop := is_set EPosHouse F /\ set_len F = size /\
  (forall p, mem F p -> P st0 (cell_at h p) <> 0%N) /\
  (forall x, mem T x <-> exists p, mem F p /\ mem (P st0 (cell_at h p)) x) /\ set_len T = size.
(** Some other cell of the house has a digit of the subset. *)
Definition naked_conf (h : nat) (F T : N) : Prop := exists p x, p < 9 /\ ~ mem F p /\ mem (P st0 (cell_at h p)) x /\ mem T x.

Lemma naked_walk_rule on h : h < 27 -> W st0 -> (forall F T, naked_pat h F T -> callback (on h F T) (naked_conf h F T)) ->
  forall positions (R : Prop) pset total st, (forall p, In p positions -> p < 9) -> is_set EPosHouse pset ->
  (forall p, mem pset p -> P st0 (cell_at h p) <> 0%N) -> (forall x, mem total x <-> exists p, mem pset p /\ mem (P st0 (cell_at h p)) x) ->
  Iv R st ->
  okb (naked_walk (s_cell st0) h size stop on positions pset total st)
    (Iv (R /\ forall F T, naked_pat h F T -> (forall p, mem pset p -> mem F p) -> (forall p, mem F p -> mem pset p \/ In p positions) -> F <> pset -> ~ naked_conf h F T)) Qv.
Proof.
  intros Hh w Cb. induction positions as [ | p t IH]; intros R pset total st Hp Sp Op To Hs; cbn [naked_walk].
  - cbn [okb]. eapply Iv_impl; [ | exact Hs]. intros HR. split; [exact HR | ]. intros F T _ A B N. destruct N. apply mem_ext. intros i. split; [intros Q; destruct (B i Q) as [X | []]; exact X | apply A].
  - assert (Lp : p < 9) by (apply Hp; left; reflexivity). assert (Hp' : forall q, In q t -> q < 9) by (intros q Hq; apply Hp; right; exact Hq).
    destruct (cell_at_ok h p Hh Lp) as [E [Lc _]]. rewrite E. cbn [bind]. rewrite (aget_ok _ _ 0%N) by (rewrite (w_lp _ w); exact Lc). cbn [bind].
    fold (P st0 (cell_at h p)). assert (Sc := w_p _ w _ Lc). destruct (set_is_empty (P st0 (cell_at h p))) eqn:Em.
    + apply (empty_iff EDigit _ Sc) in Em. eapply okb_impl; [apply (IH R pset total st Hp' Sp Op To Hs) | | auto].
      intros st' Q. eapply Iv_impl; [ | exact Q]. intros [HR X]. split; [exact HR | ]. intros F T Pt A B N. apply (X F T Pt A); [ | exact N]. intros q Hq. destruct (B q Hq) as [Y | [<- | Y]]; auto.
      destruct Pt as [_ [_ [O _]]]. destruct (O p Hq Em).
    + assert (Nz : P st0 (cell_at h p) <> 0%N) by (intros Q; apply (empty_iff EDigit _ Sc) in Q; congruence).
      destruct (as_set_total EPosHouse p Lp) as [ps Eps]. rewrite Eps. cbn [bind].
      set (pset' := set_or pset ps). set (total' := set_or total (P st0 (cell_at h p))).
      assert (Mp : forall q, mem pset' q <-> mem pset q \/ q = p) by (intros q; unfold pset'; rewrite mem_or, (mem_single _ _ _ _ Eps); reflexivity).
      assert (Sp' : is_set EPosHouse pset') by (intros q Hq; apply Mp in Hq; destruct Hq as [Hq | ->]; [apply Sp; exact Hq | exact Lp]).
      assert (Op' : forall q, mem pset' q -> P st0 (cell_at h q) <> 0%N) by (intros q Hq; apply Mp in Hq; destruct Hq as [Hq | ->]; auto).
      assert (To' : forall x, mem total' x <-> exists q, mem pset' q /\ mem (P st0 (cell_at h q)) x).
      { intros x. unfold total'. rewrite mem_or, To. split.
        - intros [[q [A B]] | A]; [exists q; rewrite Mp; auto | exists p; rewrite Mp; auto].
        - intros [q [A B]]. apply Mp in A. destruct A as [A | ->]; [left; exists q; auto | auto]. }
      apply (okb_seq _ _ (Iv (R /\ forall F T, naked_pat h F T -> (forall q, mem pset' q -> mem F q) -> (forall q, mem F q -> mem pset' q \/ In q t) -> ~ naked_conf h F T))).
      * unfold naked_enter.
        assert (Rec : forall st, Iv (R /\ forall T, naked_pat h pset' T -> ~ naked_conf h pset' T) st -> okb (naked_walk (s_cell st0) h size stop on t pset' total' st)
          (Iv (R /\ forall F T, naked_pat h F T -> (forall q, mem pset' q -> mem F q) -> (forall q, mem F q -> mem pset' q \/ In q t) -> ~ naked_conf h F T)) Qv).
        { intros st1 H1. eapply okb_impl; [apply (IH _ pset' total' st1 Hp' Sp' Op' To' H1) | | auto].
          intros st2 H2. eapply Iv_impl; [ | exact H2]. intros [[HR Q3] Q2]. split; [exact HR | ]. intros F T Pt A B.
          destruct (N.eq_dec F pset') as [-> | N]; [apply (Q3 T Pt) | apply (Q2 F T Pt A B N)]. }
        destruct (Nat.ltb_spec size (set_len pset')) as [L | L].
        { cbn [okb]. eapply Iv_impl; [ | exact Hs]. intros HR. split; [exact HR | ]. intros F T [SF [LF _]] A _. exfalso.
          assert (set_len pset' <= set_len F) by (apply (set_len_mono EPosHouse); assumption). lia. }
        destruct ((set_len pset' =? size) && (set_len total' =? set_len pset')) eqn:Te.
        -- apply andb_true_iff in Te. rewrite !Nat.eqb_eq in Te. destruct Te as [T1 T2].
           assert (Pt : naked_pat h pset' total') by (split; [exact Sp' | split; [exact T1 | split; [exact Op' | split; [exact To' | congruence]]]]).
           destruct (Iv_callback _ _ _ _ (Cb pset' total' Pt) Hs) as [st1 [b [E1 [B1 B2]]]]. rewrite E1. cbn [bind fst snd].
           destruct b; cbn [andb].
           ++ specialize (B1 eq_refl). destruct stop eqn:Es; cbn [okb]; [exact B1 | apply Rec, Iv_grown, B1].
           ++ apply Rec. eapply Iv_impl; [ | apply (B2 eq_refl)]. intros [HR Nc]. split; [exact HR | ].
              intros T [_ [_ [_ [QT _]]]]. assert (ET : T = total') by (apply mem_ext; intros x; rewrite QT, To'; reflexivity). rewrite ET. exact Nc.
        -- apply Rec. eapply Iv_impl; [ | exact Hs]. intros HR. split; [exact HR | ]. intros T [_ [QL [_ [QT QN]]]]. exfalso.
           assert (ET : T = total') by (apply mem_ext; intros x; rewrite QT, To'; reflexivity). rewrite ET in QN. rewrite QL, QN, Nat.eqb_refl in Te. discriminate.
      * intros st1 H1. eapply okb_impl; [apply (IH _ pset total st1 Hp' Sp Op To H1) | | auto].
        intros st2 H2. eapply Iv_impl; [ | exact H2]. intros [[HR Q3] Q2]. split; [exact HR | ].
        intros F T Pt A B N. destruct (N.testbit F (N.of_nat p)) eqn:Tp.
        -- apply (Q3 F T Pt).
           ++ intros q Hq. apply Mp in Hq. destruct Hq as [Hq | ->]; [apply A; exact Hq | exact Tp].
           ++ intros q Hq. rewrite Mp. destruct (B q Hq) as [Y | [<- | Y]]; auto.
        -- apply (Q2 F T Pt A); [ | exact N]. intros q Hq. destruct (B q Hq) as [Y | [<- | Y]]; auto. unfold mem in Hq. congruence.
Qed.

Lemma find_naked_sub_rule on : W st0 -> size <> 0 -> (forall h F T, h < 27 -> naked_pat h F T -> callback (on h F T) (naked_conf h F T)) ->
  hp (find_naked_sub (s_cell st0) (s_house st0) size stop on st0)
    (fun st => found S0 st0 st /\ (grown st \/ (st = st0 /\
       forall h F T, h < 27 -> Hd st0 h <> set_all EDigit -> naked_pat h F T -> ~ naked_conf h F T)))
    (fun _ => False).
Proof.
  intros w Nz Cb. unfold find_naked_sub.
  set (fact := fun h => Hd st0 h <> set_all EDigit -> forall F T, naked_pat h F T -> ~ naked_conf h F T).
  eapply hp_impl; [apply (finish_rule _ (Iv (forall h, In h (seq 0 27) -> fact h)) Qv (fun _ => False)) | | auto].
  - apply (for_ctl_rule _ (fun hs => Iv (forall h, In h hs -> fact h)) Qv (fun _ => False) (seq 0 27) []).
    + intros pre h post st El Hs. cbn [app] in *. assert (Hh : h < 27) by (assert (X : In h (seq 0 27)) by (rewrite El; apply in_app_iff; right; left; reflexivity); apply in_seq in X; lia).
      unfold house_get. rewrite (aget_ok _ _ 0%N) by (rewrite (w_lh _ w); exact Hh). cbn [bind]. fold (Hd st0 h). assert (Sh := w_h _ w h Hh).
      destruct (set_is_full EDigit (Hd st0 h)) eqn:Fu.
      * cbn [okc]. eapply Iv_impl; [ | exact Hs]. intros Q k Hk. apply in_app_iff in Hk. destruct Hk as [Hk | [<- | []]]; [apply Q; exact Hk | ].
        intros N. destruct N. apply mem_ext. intros i. rewrite mem_all. split; [apply Sh | apply (proj1 (is_full_meaning EDigit _ Sh) Fu)].
      * rewrite (iter_exact EPosHouse) by apply is_set_all. cbn [bind]. unfold naked_enter.
        assert (L0 : set_len (set_none EPosHouse) = 0) by reflexivity. rewrite L0. replace (size <? 0) with false by (symmetry; apply Nat.ltb_ge; lia).
        replace (0 =? size) with false by (symmetry; apply Nat.eqb_neq; lia). cbn [andb].
        assert (R := naked_walk_rule on h Hh w (fun F T => Cb h F T Hh) (members EPosHouse (set_all EPosHouse)) (forall h, In h pre -> fact h) (set_none EPosHouse) (set_none EDigit) st).
        assert (X : okb (naked_walk (s_cell st0) h size stop on (members EPosHouse (set_all EPosHouse)) (set_none EPosHouse) (set_none EDigit) st)
           (Iv ((forall h, In h pre -> fact h) /\ forall F T, naked_pat h F T -> (forall p, mem (set_none EPosHouse) p -> mem F p) -> (forall p, mem F p -> mem (set_none EPosHouse) p \/ In p (members EPosHouse (set_all EPosHouse))) -> F <> set_none EPosHouse -> ~ naked_conf h F T)) Qv).
        { apply R.
          - intros p Hp. apply members_in in Hp; [ | apply is_set_all]. apply mem_all in Hp. exact Hp.
          - intros p Q. destruct (mem_none _ _ Q).
          - intros p Q. destruct (mem_none _ _ Q).
          - intros x. split; [intros Q; destruct (mem_none _ _ Q) | intros [p [Q _]]; destruct (mem_none _ _ Q)].
          - exact Hs. }
        destruct (naked_walk (s_cell st0) h size stop on (members EPosHouse (set_all EPosHouse)) (set_none EPosHouse) (set_none EDigit) st) as [[st1 [ | ]] | | | ]; cbn [okb] in X; try contradiction; cbn [bind fst snd stop_if okc]; [exact X | ].
        eapply Iv_impl; [ | exact X]. intros [Q' Q].
        intros k Hk. apply in_app_iff in Hk. destruct Hk as [Hk | [<- | []]]; [apply Q'; exact Hk | ]. intros _ F T Pt. apply (Q F T Pt).
        -- intros p Y. destruct (mem_none _ _ Y).
        -- intros p Y. right. apply members_in; [apply is_set_all | ]. apply mem_all. destruct Pt as [SF _]. apply SF. exact Y.
        -- intros ->. destruct Pt as [_ [Y _]]. rewrite L0 in Y. auto.
    + split; [apply found_refl | ]. right. split; [reflexivity | intros h []].
  - intros st [[F [Q | [E X]]] | [F Q]]; (split; [exact F | ]); [left; exact Q | right | left; exact Q]. split; [exact E | ].
    intros h F0 T Hh Nf. apply (X h ltac:(apply in_seq; lia) Nf).
Qed.

(** What a naked subset eliminates *)
Lemma naked_good D h F T p x : UP D st0 -> h < 27 -> naked_pat h F T -> p < 9 -> ~ mem F p -> mem (P st0 (cell_at h p)) x -> mem T x -> good st0 (cell_at h p, S x).
Proof.
  intros U Hh [SF [LF [Op [To LT]]]] Hp Np Mx MT. destruct (cell_at_ok h p Hh Hp) as [_ [Lc [Ic _]]].
  destruct (u_open D st0 _ x U Lc Mx) as [_ Hx]. split; [exact Lc | ]. cbn [fst snd]. split; [lia | ]. replace (S x - 1) with x by lia. split; [exact Mx | ].
  intros s So Ss E.
  assert (ST : is_set EDigit T).
  { intros y Hy. apply To in Hy. destruct Hy as [q [Hq Hy]]. destruct (cell_at_ok h q Hh (SF q Hq)) as [_ [Lq _]]. apply (w_p _ (u_w _ _ U) _ Lq y Hy). }
  assert (X : set_len F < set_len T); [ | lia].
  apply (pigeon_set EDigit EPosHouse T F (fun q => at_ s (cell_at h q) - 1) p x ST SF Np MT).
  - intros q Hq. assert (Lq := SF q Hq). cbn in Lq. destruct (cell_at_ok h q Hh Lq) as [_ [Lcq _]]. destruct (u_digit D st0 s (cell_at h q) U So Ss Lcq) as [Q | [_ Q]].
    + exfalso. apply (Op q Hq). destruct So as [_ [R _]]. specialize (R _ Lcq). apply (c_done _ _ (u_c _ _ U)). lia.
    + split; [apply To; exists q; auto | ]. intros Eq. assert (Rq := proj1 (proj2 So) _ Lcq). assert (q = p) by (apply (solved_pos s h); try assumption; lia). subst q. contradiction.
  - intros a b Ha Hb Eq. assert (La := SF a Ha). assert (Lb := SF b Hb). cbn in La, Lb. destruct (cell_at_ok h a Hh La) as [_ [Lca _]]. destruct (cell_at_ok h b Hh Lb) as [_ [Lcb _]].
    assert (Ra := proj1 (proj2 So) _ Lca). assert (Rb := proj1 (proj2 So) _ Lcb). apply (solved_pos s h); try assumption. lia.
Qed.

(** ** Hidden subsets *)

(** The cache of positions agrees with the candidates. *)
Definition pos_ok : Prop := Pw (s_pos st0) /\ forall h x p, h < 27 -> x < 9 -> (mem (pm (s_pos st0) h (S x)) p <-> p < 9 /\ mem (P st0 (cell_at h p)) x).

Definition hidden_pat (h : nat) (F T : N) : Prop := is_set EDigit F /\ set_len F = size /\
  (forall x, mem F x -> exists p, p < 9 /\ mem (P st0 (cell_at h p)) x) /\
  (forall p, mem T p <-> p < 9 /\ exists x, mem F x /\ mem (P st0 (cell_at h p)) x) /\ set_len T = size.
(** Some cell of the subset has another digit. *)
Definition hidden_conf (h : nat) (F T : N) : Prop := exists p x, mem T p /\ ~ mem F x /\ mem (P st0 (cell_at h p)) x.

Lemma hidden_walk_rule on h : h < 27 -> pos_ok -> (forall F T, hidden_pat h F T -> callback (on h F T) (hidden_conf h F T)) ->
  forall digits (R : Prop) dset total st, (forall d, In d digits -> 1 <= d <= 9) -> is_set EDigit dset ->
  (forall x, mem dset x -> exists p, p < 9 /\ mem (P st0 (cell_at h p)) x) -> (forall p, mem total p <-> p < 9 /\ exists x, mem dset x /\ mem (P st0 (cell_at h p)) x) ->
  Iv R st ->
  okb (hidden_walk (nth h (s_pos st0) []) h size stop on digits dset total st)
    (Iv (R /\ forall F T, hidden_pat h F T -> (forall x, mem dset x -> mem F x) -> (forall x, mem F x -> mem dset x \/ In (S x) digits) -> F <> dset -> ~ hidden_conf h F T)) Qv.
Proof.
  intros Hh [w Pm] Cb. induction digits as [ | d t IH]; intros R dset total st Hd' Sd Od To Hs; cbn [hidden_walk].
  - cbn [okb]. eapply Iv_impl; [ | exact Hs]. intros HR. split; [exact HR | ]. intros F T _ A B N. destruct N. apply mem_ext. intros i. split; [intros Q; destruct (B i Q) as [X | []]; exact X | apply A].
  - assert (Ld : 1 <= d <= 9) by (apply Hd'; left; reflexivity). assert (Hd2 : forall q, In q t -> 1 <= q <= 9) by (intros q Hq; apply Hd'; right; exact Hq).
    unfold digit_as_index. rewrite (aget_ok _ _ 0%N) by (rewrite (pw_r _ w h Hh); lia). cbn [bind].
    fold (pm (s_pos st0) h d). assert (Sc := pw_s _ w h d Hh Ld). assert (Pd : forall p, mem (pm (s_pos st0) h d) p <-> p < 9 /\ mem (P st0 (cell_at h p)) (d - 1)).
    { intros p. rewrite <- (Pm h (d - 1) p Hh ltac:(lia)). replace (S (d - 1)) with d by lia. reflexivity. }
    destruct (set_is_empty (pm (s_pos st0) h d)) eqn:Em.
    + apply (empty_iff EPosHouse _ Sc) in Em. eapply okb_impl; [apply (IH R dset total st Hd2 Sd Od To Hs) | | auto].
      intros st' Q. eapply Iv_impl; [ | exact Q]. intros [HR X]. split; [exact HR | ]. intros F T Pt A B N. apply (X F T Pt A); [ | exact N]. intros q Hq. destruct (B q Hq) as [Y | [Y | Y]]; auto.
      destruct Pt as [_ [_ [O _]]]. destruct (O q Hq) as [p [Lp Mp]]. assert (Z : mem (pm (s_pos st0) h d) p) by (apply Pd; split; [exact Lp | ]; replace (d - 1) with q by lia; exact Mp).
      rewrite Em in Z. destruct (mem0 _ Z).
    + assert (Nz : exists p, p < 9 /\ mem (P st0 (cell_at h p)) (d - 1)).
      { destruct (nonzero_mem (pm (s_pos st0) h d)) as [p Q]; [intros Q; apply (empty_iff EPosHouse _ Sc) in Q; congruence | ]. exists p. apply Pd. exact Q. }
      destruct (digit_set_ok d Ld) as [ds [Eds [_ Mds]]]. rewrite Eds. cbn [bind].
      set (dset' := set_or dset ds). set (total' := set_or total (pm (s_pos st0) h d)).
      assert (Md : forall q, mem dset' q <-> mem dset q \/ q = d - 1) by (intros q; unfold dset'; rewrite mem_or, Mds; reflexivity).
      assert (Sd' : is_set EDigit dset') by (intros q Hq; apply Md in Hq; destruct Hq as [Hq | ->]; [apply Sd; exact Hq | cbn; lia]).
      assert (Od' : forall q, mem dset' q -> exists p, p < 9 /\ mem (P st0 (cell_at h p)) q) by (intros q Hq; apply Md in Hq; destruct Hq as [Hq | ->]; auto).
      assert (To' : forall p, mem total' p <-> p < 9 /\ exists x, mem dset' x /\ mem (P st0 (cell_at h p)) x).
      { intros p. unfold total'. rewrite mem_or, To, Pd. split.
        - intros [[L [q [A B]]] | [L A]]; (split; [exact L | ]); [exists q; rewrite Md; auto | exists (d - 1); rewrite Md; auto].
        - intros [L [q [A B]]]. apply Md in A. destruct A as [A | ->]; [left; split; [exact L | exists q; auto] | auto]. }
      apply (okb_seq _ _ (Iv (R /\ forall F T, hidden_pat h F T -> (forall q, mem dset' q -> mem F q) -> (forall q, mem F q -> mem dset' q \/ In (S q) t) -> ~ hidden_conf h F T))).
      * unfold hidden_enter.
        assert (Rec : forall st, Iv (R /\ forall T, hidden_pat h dset' T -> ~ hidden_conf h dset' T) st -> okb (hidden_walk (nth h (s_pos st0) []) h size stop on t dset' total' st)
          (Iv (R /\ forall F T, hidden_pat h F T -> (forall q, mem dset' q -> mem F q) -> (forall q, mem F q -> mem dset' q \/ In (S q) t) -> ~ hidden_conf h F T)) Qv).
        { intros st1 H1. eapply okb_impl; [apply (IH _ dset' total' st1 Hd2 Sd' Od' To' H1) | | auto].
          intros st2 H2. eapply Iv_impl; [ | exact H2]. intros [[HR Q3] Q2]. split; [exact HR | ]. intros F T Pt A B.
          destruct (N.eq_dec F dset') as [-> | N]; [apply (Q3 T Pt) | apply (Q2 F T Pt A B N)]. }
        destruct (Nat.ltb_spec size (set_len dset')) as [L | L].
        { cbn [okb]. eapply Iv_impl; [ | exact Hs]. intros HR. split; [exact HR | ]. intros F T [SF [LF _]] A _. exfalso.
          assert (set_len dset' <= set_len F) by (apply (set_len_mono EDigit); assumption). lia. }
        destruct ((set_len dset' =? size) && (set_len total' =? size)) eqn:Te.
        -- apply andb_true_iff in Te. rewrite !Nat.eqb_eq in Te. destruct Te as [T1 T2].
           assert (Pt : hidden_pat h dset' total') by (split; [exact Sd' | split; [exact T1 | split; [exact Od' | split; [exact To' | exact T2]]]]).
           destruct (Iv_callback _ _ _ _ (Cb dset' total' Pt) Hs) as [st1 [b [E1 [B1 B2]]]]. rewrite E1. cbn [bind fst snd].
           destruct b; cbn [andb].
           ++ specialize (B1 eq_refl). destruct stop eqn:Es; cbn [okb]; [exact B1 | apply Rec, Iv_grown, B1].
           ++ apply Rec. eapply Iv_impl; [ | apply (B2 eq_refl)]. intros [HR Nc]. split; [exact HR | ].
              intros T [_ [_ [_ [QT _]]]]. assert (ET : T = total') by (apply mem_ext; intros x; rewrite QT, To'; reflexivity). rewrite ET. exact Nc.
        -- apply Rec. eapply Iv_impl; [ | exact Hs]. intros HR. split; [exact HR | ]. intros T [_ [QL [_ [QT QN]]]]. exfalso.
           assert (ET : T = total') by (apply mem_ext; intros x; rewrite QT, To'; reflexivity). rewrite ET in QN. rewrite QL, QN, Nat.eqb_refl in Te. discriminate.
      * intros st1 H1. eapply okb_impl; [apply (IH _ dset total st1 Hd2 Sd Od To H1) | | auto].
        intros st2 H2. eapply Iv_impl; [ | exact H2]. intros [[HR Q3] Q2]. split; [exact HR | ].
        intros F T Pt A B N. destruct (N.testbit F (N.of_nat (d - 1))) eqn:Tp.
        -- apply (Q3 F T Pt).
           ++ intros q Hq. apply Md in Hq. destruct Hq as [Hq | ->]; [apply A; exact Hq | exact Tp].
           ++ intros q Hq. rewrite Md. destruct (B q Hq) as [Y | [Y | Y]]; auto. left. right. lia.
        -- apply (Q2 F T Pt A); [ | exact N]. intros q Hq. destruct (B q Hq) as [Y | [Y | Y]]; auto. replace (d - 1) with q in Tp by lia. unfold mem in Hq. congruence.
Qed.

Lemma find_hidden_sub_rule on : W st0 -> pos_ok -> size <> 0 -> (forall h F T, h < 27 -> hidden_pat h F T -> callback (on h F T) (hidden_conf h F T)) ->
  hp (find_hidden_sub (s_house st0) (s_pos st0) size stop on st0)
    (fun st => found S0 st0 st /\ (grown st \/ (st = st0 /\
       forall h F T, h < 27 -> Hd st0 h <> set_all EDigit -> hidden_pat h F T -> ~ hidden_conf h F T)))
    (fun _ => False).
Proof.
  intros w Po Nz Cb. unfold find_hidden_sub.
  set (fact := fun h => Hd st0 h <> set_all EDigit -> forall F T, hidden_pat h F T -> ~ hidden_conf h F T).
  eapply hp_impl; [apply (finish_rule _ (Iv (forall h, In h (seq 0 27) -> fact h)) Qv (fun _ => False)) | | auto].
  - apply (for_ctl_rule _ (fun hs => Iv (forall h, In h hs -> fact h)) Qv (fun _ => False) (seq 0 27) []).
    + intros pre h post st El Hs. cbn [app] in *. assert (Hh : h < 27) by (assert (X : In h (seq 0 27)) by (rewrite El; apply in_app_iff; right; left; reflexivity); apply in_seq in X; lia).
      unfold house_get. rewrite (aget_ok _ _ 0%N) by (rewrite (w_lh _ w); exact Hh). cbn [bind]. fold (Hd st0 h). assert (Sh := w_h _ w h Hh).
      destruct (set_is_full EDigit (Hd st0 h)) eqn:Fu.
      * cbn [okc]. eapply Iv_impl; [ | exact Hs]. intros Q k Hk. apply in_app_iff in Hk. destruct Hk as [Hk | [<- | []]]; [apply Q; exact Hk | ].
        intros N. destruct N. apply mem_ext. intros i. rewrite mem_all. split; [apply Sh | apply (proj1 (is_full_meaning EDigit _ Sh) Fu)].
      * rewrite (aget_ok _ _ []) by (rewrite (pw_l _ (proj1 Po)); exact Hh). cbn [bind].
        destruct (digits_of_ok (set_all EDigit) (is_set_all EDigit)) as [dl [Edl [_ Idl]]]. rewrite Edl. cbn [bind]. unfold hidden_enter.
        assert (L0 : set_len (set_none EDigit) = 0) by reflexivity. rewrite L0. replace (size <? 0) with false by (symmetry; apply Nat.ltb_ge; lia).
        replace (0 =? size) with false by (symmetry; apply Nat.eqb_neq; lia). cbn [andb].
        assert (R := hidden_walk_rule on h Hh Po (fun F T => Cb h F T Hh) dl (forall h, In h pre -> fact h) (set_none EDigit) (set_none EPosHouse) st).
        assert (X : okb (hidden_walk (nth h (s_pos st0) []) h size stop on dl (set_none EDigit) (set_none EPosHouse) st)
           (Iv ((forall h, In h pre -> fact h) /\ forall F T, hidden_pat h F T -> (forall p, mem (set_none EDigit) p -> mem F p) -> (forall p, mem F p -> mem (set_none EDigit) p \/ In (S p) dl) -> F <> set_none EDigit -> ~ hidden_conf h F T)) Qv).
        { apply R.
          - intros p Hp. apply Idl in Hp. apply Hp.
          - intros p Q. destruct (mem_none _ _ Q).
          - intros p Q. destruct (mem_none _ _ Q).
          - intros x. split; [intros Q; destruct (mem_none _ _ Q) | intros [_ [p [Q _]]]; destruct (mem_none _ _ Q)].
          - exact Hs. }
        destruct (hidden_walk (nth h (s_pos st0) []) h size stop on dl (set_none EDigit) (set_none EPosHouse) st) as [[st1 [ | ]] | | | ]; cbn [okb] in X; try contradiction; cbn [bind fst snd stop_if okc]; [exact X | ].
        eapply Iv_impl; [ | exact X]. intros [Q' Q].
        intros k Hk. apply in_app_iff in Hk. destruct Hk as [Hk | [<- | []]]; [apply Q'; exact Hk | ]. intros _ F T Pt. apply (Q F T Pt).
        -- intros p Y. destruct (mem_none _ _ Y).
        -- intros p Y. right. apply Idl. destruct Pt as [SF _]. assert (Z := SF p Y). cbn in Z. split; [lia | ]. apply mem_all. cbn. lia.
        -- intros ->. destruct Pt as [_ [Y _]]. rewrite L0 in Y. auto.
    + split; [apply found_refl | ]. right. split; [reflexivity | intros h []].
  - intros st [[F [Q | [E X]]] | [F Q]]; (split; [exact F | ]); [left; exact Q | right | left; exact Q]. split; [exact E | ].
    intros h F0 T Hh Nf. apply (X h ltac:(apply in_seq; lia) Nf).
Qed.

(** What a hidden subset eliminates *)
Lemma hidden_good D h F T p y : UP D st0 -> h < 27 -> hidden_pat h F T -> mem T p -> ~ mem F y -> mem (P st0 (cell_at h p)) y -> good st0 (cell_at h p, S y).
Proof.
  intros U Hh [SF [LF [Op [To LT]]]] Mp Ny My. assert (Hp : p < 9) by (apply To in Mp; apply Mp). destruct (cell_at_ok h p Hh Hp) as [_ [Lc [Ic Pc]]].
  destruct (u_open D st0 _ y U Lc My) as [_ Hy]. split; [exact Lc | ]. cbn [fst snd]. split; [lia | ]. replace (S y - 1) with y by lia. split; [exact My | ].
  intros s So Ss E.
  assert (ST : is_set EPosHouse T) by (intros q Hq; apply To in Hq; apply Hq).
  (* where the solved grid has the digits of the subset *)
  assert (Wh : forall x, x < 9 -> exists q, q < 9 /\ at_ s (cell_at h q) = S x).
  { intros x Hx. destruct (any_house_has_digit s h (S x) So Hh ltac:(lia)) as [k [Hk [Ik Ek]]]. destruct (cell_at_inv h k Hh Hk Ik) as [A B]. exists (pos_in_house h k). split; [exact A | rewrite B; exact Ek]. }
  set (f := fun x => nth 0 (filter (fun q => at_ s (cell_at h q) =? S x) (seq 0 9)) 0).
  assert (Hf : forall x, x < 9 -> f x < 9 /\ at_ s (cell_at h (f x)) = S x).
  { intros x Hx. destruct (Wh x Hx) as [q [Lq Eq]]. unfold f.
    assert (I : In q (filter (fun q => at_ s (cell_at h q) =? S x) (seq 0 9))) by (apply filter_In; split; [apply in_seq; lia | apply Nat.eqb_eq; exact Eq]).
    assert (I2 : In (nth 0 (filter (fun q => at_ s (cell_at h q) =? S x) (seq 0 9)) 0) (filter (fun q => at_ s (cell_at h q) =? S x) (seq 0 9))).
    { apply nth_In. destruct (filter (fun q => at_ s (cell_at h q) =? S x) (seq 0 9)); [destruct I | cbn; lia]. }
    apply filter_In in I2. destruct I2 as [A B]. apply in_seq in A. apply Nat.eqb_eq in B. split; [lia | exact B]. }
  assert (X : set_len F < set_len T); [ | lia].
  apply (pigeon_set EPosHouse EDigit T F f y p ST SF Ny Mp).
  - intros x Hx. assert (Lx := SF x Hx). cbn in Lx. destruct (Hf x Lx) as [Lf Ef]. split.
    + apply To. split; [exact Lf | ]. exists x. split; [exact Hx | ]. destruct (Op x Hx) as [q [Lq Mq]]. destruct (cell_at_ok h q Hh Lq) as [_ [Lcq [Icq _]]].
      destruct (u_house D st0 s h (cell_at h q) x U So Ss Hh Lcq Icq Mq) as [k [Hk [Ik [Ek [Mk _]]]]].
      destruct (cell_at_inv h k Hh Hk Ik) as [A B]. assert (Q : f x = pos_in_house h k) by (apply (solved_pos s h); try assumption; rewrite B; congruence).
      rewrite Q, B. exact Mk.
    + intros Q. rewrite Q, E in Ef. injection Ef as ->. contradiction.
  - intros a b Ha Hb Q. destruct (Hf a (SF a Ha)) as [_ Ea]. destruct (Hf b (SF b Hb)) as [_ Eb]. rewrite Q in Ea. congruence.
Qed.

(** ** Fish *)

Definition fish_pat (all : N) (d : nat) (F U : N) : Prop := (forall l, mem F l -> mem all l) /\ set_len F = size /\
  (forall l, mem F l -> exists p q, p <> q /\ p < 9 /\ q < 9 /\ mem (P st0 (cell_at l p)) (d - 1) /\ mem (P st0 (cell_at l q)) (d - 1)) /\
  (forall p, mem U p <-> p < 9 /\ exists l, mem F l /\ mem (P st0 (cell_at l p)) (d - 1)) /\ set_len U = size.
(** Some other line has the digit at one of the positions. *)
Definition fish_conf (all : N) (d : nat) (F U : N) : Prop := exists l p, mem all l /\ ~ mem F l /\ mem U p /\ mem (P st0 (cell_at l p)) (d - 1).

Lemma len_two e m : is_set e m -> 2 <= set_len m -> exists a b, a <> b /\ mem m a /\ mem m b.
Proof.
  intros Sm L. rewrite (len_members e m Sm) in L. assert (ND : NoDup (members e m)) by (apply NoDup_filter, seq_NoDup).
  destruct (members e m) as [ | a [ | b t]] eqn:E; cbn [length] in L; try lia. exists a, b. split; [inversion ND as [ | ? ? X]; intros ->; apply X; left; reflexivity | ].
  split; apply (members_in e m _ Sm); rewrite E; [left; reflexivity | right; left; reflexivity].
Qed.
Lemma two_len e m a b : is_set e m -> a <> b -> mem m a -> mem m b -> 2 <= set_len m.
Proof.
  intros Sm N A B. rewrite (len_members e m Sm). change 2 with (length [a; b]). apply NoDup_incl_length.
  - constructor; [intros [Q | []]; auto | constructor; [intros [] | constructor]].
  - intros x [<- | [<- | []]]; apply (members_in e m _ Sm); assumption.
Qed.

Lemma as_line_set_ok m : is_set EPosHouse m -> as_line_set m = Ok m.
Proof.
  intros Sm. unfold as_line_set. assert (B : (m <= 511)%N).
  { destruct (N.le_gt_cases m 511) as [ | L]; [assumption | ]. exfalso.
    assert (L2 : (9 <= N.log2 m)%N) by (change 9%N with (N.log2 512); apply N.log2_le_mono; lia).
    assert (Q : N.testbit m (N.log2 m) = true) by (apply N.bit_log2; lia).
    assert (X := Sm (N.to_nat (N.log2 m))). unfold mem in X. rewrite N2Nat.id in X. specialize (X Q). cbn in X. lia. }
  change (set_all EPosLine) with 511%N. rewrite (proj2 (N.leb_le _ _) B). unfold from_bits. change (set_all EPosLine) with 511%N. rewrite (proj2 (N.leb_le _ _) B). reflexivity.
Qed.


Lemma fish_walk_rule on all d : (forall l, mem all l -> l < 18) -> 1 <= d <= 9 -> pos_ok ->
  (forall F U, fish_pat all d F U -> callback (on all d F U) (fish_conf all d F U)) ->
  forall lines (R : Prop) lset union st, (forall l, In l lines -> mem all l) -> (forall l, mem lset l -> mem all l) ->
  (forall l, mem lset l -> exists p q, p <> q /\ p < 9 /\ q < 9 /\ mem (P st0 (cell_at l p)) (d - 1) /\ mem (P st0 (cell_at l q)) (d - 1)) ->
  (forall p, mem union p <-> p < 9 /\ exists l, mem lset l /\ mem (P st0 (cell_at l p)) (d - 1)) ->
  Iv R st ->
  okb (fish_walk (s_pos st0) d size all stop on lines lset union st)
    (Iv (R /\ forall F U, fish_pat all d F U -> (forall x, mem lset x -> mem F x) -> (forall x, mem F x -> mem lset x \/ In x lines) -> F <> lset -> ~ fish_conf all d F U)) Qv.
Proof.
  intros Al Hd' [w Pm] Cb. induction lines as [ | l t IH]; intros R lset union st Hl Sl Ol To Hs; cbn [fish_walk].
  - cbn [okb]. eapply Iv_impl; [ | exact Hs]. intros HR. split; [exact HR | ]. intros F T _ A B N. destruct N. apply mem_ext. intros i. split; [intros Q; destruct (B i Q) as [X | []]; exact X | apply A].
  - assert (Ml : mem all l) by (apply Hl; left; reflexivity). assert (L18 := Al l Ml). assert (Hl2 : forall q, In q t -> mem all q) by (intros q Hq; apply Hl; right; exact Hq).
    unfold house_of_line. rewrite chk_ok by lia. cbn [bind]. rewrite (pos_get_ok _ l d w ltac:(lia) Hd'). cbn [bind].
    assert (Sc := pw_s _ w l d ltac:(lia) Hd'). rewrite (as_line_set_ok _ Sc). cbn [bind].
    assert (Pd : forall p, mem (pm (s_pos st0) l d) p <-> p < 9 /\ mem (P st0 (cell_at l p)) (d - 1)).
    { intros p. rewrite <- (Pm l (d - 1) p ltac:(lia) ltac:(lia)). replace (S (d - 1)) with d by lia. reflexivity. }
    set (union' := set_or union (pm (s_pos st0) l d)).
    assert (Mu : forall p, mem union' p <-> mem union p \/ (p < 9 /\ mem (P st0 (cell_at l p)) (d - 1))) by (intros p; unfold union'; rewrite mem_or, Pd; reflexivity).
    (* without the line *)
    assert (Skip : forall st1, Iv (R /\ forall F U, fish_pat all d F U -> (forall x, mem lset x -> mem F x) -> (forall x, mem F x -> mem lset x \/ In x (l :: t)) -> mem F l -> ~ fish_conf all d F U) st1 ->
      okb (fish_walk (s_pos st0) d size all stop on t lset union st1)
        (Iv (R /\ forall F U, fish_pat all d F U -> (forall x, mem lset x -> mem F x) -> (forall x, mem F x -> mem lset x \/ In x (l :: t)) -> F <> lset -> ~ fish_conf all d F U)) Qv).
    { intros st1 H1. eapply okb_impl; [apply (IH _ lset union st1 Hl2 Sl Ol To H1) | | auto].
      intros st2 H2. eapply Iv_impl; [ | exact H2]. intros [[HR Q3] Q2]. split; [exact HR | ].
      intros F T Pt A B N. destruct (N.testbit F (N.of_nat l)) eqn:Tp; [apply (Q3 F T Pt A B Tp) | ].
      apply (Q2 F T Pt A); [ | exact N]. intros q Hq. destruct (B q Hq) as [Y | [Y | Y]]; auto. subst q. unfold mem in Hq. congruence. }
    destruct ((set_len (pm (s_pos st0) l d) <? 2) || (size <? set_len union')) eqn:Te.
    + apply Skip. eapply Iv_impl; [ | exact Hs]. intros HR. split; [exact HR | ]. intros F U [AF [LF [OF [UF LU]]]] A B Fl. exfalso. apply orb_true_iff in Te. rewrite !Nat.ltb_lt in Te. destruct Te as [Te | Te].
      * destruct (OF l Fl) as [p [q [N [Lp [Lq [Mp Mq]]]]]]. assert (2 <= set_len (pm (s_pos st0) l d)); [ | lia]. apply (two_len EPosHouse _ p q Sc N); apply Pd; auto.
      * assert (set_len union' <= set_len U); [ | lia]. apply (set_len_mono EPosHouse); [intros p Hp; apply UF in Hp; apply Hp | ].
        intros p Hp. apply UF. apply Mu in Hp. destruct Hp as [Hp | [Lp Hp]].
        -- apply To in Hp. destruct Hp as [Lp [k [Hk Q]]]. split; [exact Lp | ]. exists k. auto.
        -- split; [exact Lp | ]. exists l. auto.
    + apply orb_false_iff in Te. rewrite !Nat.ltb_ge in Te. destruct Te as [T1 T2].
      destruct (as_set_total ELine l L18) as [ls Els]. rewrite Els. cbn [bind]. set (lset' := set_or lset ls).
      assert (Md : forall q, mem lset' q <-> mem lset q \/ q = l) by (intros q; unfold lset'; rewrite mem_or, (mem_single _ _ _ _ Els); reflexivity).
      assert (Sl' : forall q, mem lset' q -> mem all q) by (intros q Hq; apply Md in Hq; destruct Hq as [Hq | ->]; auto).
      assert (SL : is_set ELine lset') by (intros q Hq; apply Al, Sl', Hq).
      assert (Ol' : forall q, mem lset' q -> exists p1 q1, p1 <> q1 /\ p1 < 9 /\ q1 < 9 /\ mem (P st0 (cell_at q p1)) (d - 1) /\ mem (P st0 (cell_at q q1)) (d - 1)).
      { intros q Hq. apply Md in Hq. destruct Hq as [Hq | ->]; [apply Ol; exact Hq | ]. destruct (len_two EPosHouse _ Sc T1) as [a [b [N [A B]]]]. apply Pd in A. apply Pd in B.
        exists a, b. tauto. }
      assert (To' : forall p, mem union' p <-> p < 9 /\ exists x, mem lset' x /\ mem (P st0 (cell_at x p)) (d - 1)).
      { intros p. rewrite Mu, To. split.
        - intros [[L [q [A B]]] | [L A]]; (split; [exact L | ]); [exists q; rewrite Md; auto | exists l; rewrite Md; auto].
        - intros [L [q [A B]]]. apply Md in A. destruct A as [A | ->]; [left; split; [exact L | exists q; auto] | auto]. }
      apply (okb_seq _ _ (Iv (R /\ forall F U, fish_pat all d F U -> (forall x, mem lset x -> mem F x) -> (forall x, mem F x -> mem lset x \/ In x (l :: t)) -> mem F l -> ~ fish_conf all d F U)));
        [ | exact Skip].
      unfold fish_enter.
      assert (Rec : forall st, Iv (R /\ forall U, fish_pat all d lset' U -> ~ fish_conf all d lset' U) st -> okb (fish_walk (s_pos st0) d size all stop on t lset' union' st)
          (Iv (R /\ forall F U, fish_pat all d F U -> (forall x, mem lset x -> mem F x) -> (forall x, mem F x -> mem lset x \/ In x (l :: t)) -> mem F l -> ~ fish_conf all d F U)) Qv).
      { intros st1 H1. eapply okb_impl; [apply (IH _ lset' union' st1 Hl2 Sl' Ol' To' H1) | | auto].
        intros st2 H2. eapply Iv_impl; [ | exact H2]. intros [[HR Q3] Q2]. split; [exact HR | ]. intros F U Pt A B Fl.
        destruct (N.eq_dec F lset') as [-> | N]; [apply (Q3 U Pt) | ]. apply (Q2 F U Pt); [ | | exact N].
        - intros q Hq. apply Md in Hq. destruct Hq as [Hq | ->]; auto.
        - intros q Hq. rewrite Md. destruct (B q Hq) as [Y | [<- | Y]]; auto. }
      destruct (Nat.eqb_spec (set_len lset') size) as [Es' | Ns].
      * destruct (Nat.eqb_spec (set_len union') size) as [Eu | Nu]; cbn [negb].
        -- assert (Pt : fish_pat all d lset' union') by (split; [exact Sl' | split; [exact Es' | split; [exact Ol' | split; [exact To' | exact Eu]]]]).
           destruct (Iv_callback _ _ _ _ (Cb lset' union' Pt) Hs) as [st1 [b [E1 [B1 B2]]]]. rewrite E1. cbn [bind fst snd].
           destruct b.
           ++ specialize (B1 eq_refl). destruct stop eqn:Es; cbn [okb]; [exact B1 | apply Iv_grown, B1].
           ++ apply Rec. eapply Iv_impl; [ | apply (B2 eq_refl)]. intros [HR Nc]. split; [exact HR | ].
              intros U [_ [_ [_ [QT _]]]]. assert (ET : U = union') by (apply mem_ext; intros x; rewrite QT, To'; reflexivity). rewrite ET. exact Nc.
        -- cbn [okb]. eapply Iv_impl; [ | exact Hs]. intros HR. split; [exact HR | ]. intros F U [AF [LF [OF [UF LU]]]] A B Fl. exfalso. apply Nu.
           assert (SF : is_set ELine F) by (intros q Hq; apply Al, AF, Hq).
           assert (EF : F = lset').
           { assert (Inc : forall q, mem lset' q -> mem F q) by (intros q Hq; apply Md in Hq; destruct Hq as [Hq | ->]; auto).
             apply mem_ext. intros q. split; [ | apply Inc]. intros Hq. destruct (N.testbit lset' (N.of_nat q)) eqn:Tq; [exact Tq | ]. exfalso.
             assert (set_len lset' < set_len F); [ | lia]. apply (set_len_strict ELine lset' F q SF Inc Hq). unfold mem. rewrite Tq. discriminate. }
           subst F. assert (ET : U = union') by (apply mem_ext; intros x; rewrite UF, To'; reflexivity). congruence.
      * apply Rec. eapply Iv_impl; [ | exact Hs]. intros HR. split; [exact HR | ]. intros U [_ [Q _]]. contradiction.
Qed.

Lemma rows_mem l : mem LINE_ALL_ROWS l <-> l < 9.
Proof.
  unfold LINE_ALL_ROWS. change 511%N with (set_all EPosHouse). rewrite mem_all. reflexivity.
Qed.
Lemma cols_mem l : mem LINE_ALL_COLS l <-> 9 <= l < 18.
Proof.
  assert (X : forall l, mem LINE_ALL_COLS l <-> mem 511%N (l - 9) /\ 9 <= l).
  { intros k. unfold LINE_ALL_COLS, mem. change 261632%N with (N.shiftl 511 9). destruct (Nat.le_gt_cases 9 k) as [L | L].
    - rewrite N.shiftl_spec_high' by lia. replace (N.of_nat k - 9)%N with (N.of_nat (k - 9)) by lia. tauto.
    - rewrite N.shiftl_spec_low by lia. split; [discriminate | lia]. }
  rewrite X. assert (Y := rows_mem (l - 9)). unfold LINE_ALL_ROWS in Y. rewrite Y. lia.
Qed.

(** The lines of one direction *)
Definition direction (all : N) : Prop := all = LINE_ALL_ROWS \/ all = LINE_ALL_COLS.
Lemma direction_lt all l : direction all -> mem all l -> l < 18.
Proof. intros [-> | ->] M; [apply rows_mem in M | apply cols_mem in M]; lia. Qed.

(** Cells at the same position of two lines of one direction are in one line of the other direction. *)
Lemma cross all l l' p : direction all -> mem all l -> mem all l' -> l <> l' -> p < 9 -> cell_at l p <> cell_at l' p /\ peers (cell_at l p) (cell_at l' p).
Proof.
  intros Dr Ml Ml' N Hp. assert (L := direction_lt _ _ Dr Ml). assert (L' := direction_lt _ _ Dr Ml').
  destruct (cell_at_ok l p ltac:(lia) Hp) as [_ [A1 [A2 A3]]]. destruct (cell_at_ok l' p ltac:(lia) Hp) as [_ [B1 [B2 B3]]].
  set (a := cell_at l p) in *. set (b := cell_at l' p) in *.
  unfold in_house in A2, B2. unfold pos_in_house in A3, B3. unfold peers.
  destruct Dr as [-> | ->]; [apply rows_mem in Ml; apply rows_mem in Ml' | apply cols_mem in Ml; apply cols_mem in Ml'].
  - rewrite (proj2 (Nat.ltb_lt l 9)) in A2, A3 by lia. rewrite (proj2 (Nat.ltb_lt l' 9)) in B2, B3 by lia. unfold row_of, col_of in *. split; [intros Q; rewrite Q in *; congruence | ]. split; [intros Q; rewrite Q in *; congruence | ]. right. left. congruence.
  - replace (l <? 9) with false in A2, A3 by (symmetry; apply Nat.ltb_ge; lia). replace (l' <? 9) with false in B2, B3 by (symmetry; apply Nat.ltb_ge; lia).
    rewrite (proj2 (Nat.ltb_lt l 18)) in A2, A3 by lia. rewrite (proj2 (Nat.ltb_lt l' 18)) in B2, B3 by lia.
    unfold row_of, col_of in *. split; [intros Q; rewrite Q in *; lia | ]. split; [intros Q; rewrite Q in *; lia | ]. left. congruence.
Qed.


Lemma find_fish_rule on : pos_ok -> size <> 0 ->
  (forall all d F U, direction all -> 1 <= d <= 9 -> fish_pat all d F U -> callback (on all d F U) (fish_conf all d F U)) ->
  hp (find_fish (s_pos st0) size stop on st0)
    (fun st => found S0 st0 st /\ (grown st \/ (st = st0 /\
       forall all d F U, direction all -> 1 <= d <= 9 -> fish_pat all d F U -> ~ fish_conf all d F U)))
    (fun _ => False).
Proof.
  intros Po Nz Cb. unfold find_fish.
  set (fact := fun d => forall all F U, direction all -> fish_pat all d F U -> ~ fish_conf all d F U).
  eapply hp_impl; [apply (finish_rule _ (Iv (forall d, In d (seq 1 9) -> fact d)) Qv (fun _ => False)) | | auto].
  - apply (for_ctl_rule _ (fun hs => Iv (forall h, In h hs -> fact h)) Qv (fun _ => False) (seq 1 9) []).
    + intros pre d post st El Hs. cbn [app] in *. assert (Hd' : 1 <= d <= 9) by (assert (X : In d (seq 1 9)) by (rewrite El; apply in_app_iff; right; left; reflexivity); apply in_seq in X; lia).
      eapply okc_impl; [apply (for_ctl_rule _ (fun al => Iv ((forall h, In h pre -> fact h) /\ forall all, In all al -> forall F U, fish_pat all d F U -> ~ fish_conf all d F U)) Qv (fun _ => False) [LINE_ALL_ROWS; LINE_ALL_COLS] []) | | auto | auto].
      * intros pre' all post' st1 El' Hs1. cbn [app] in *.
        assert (Da : direction all) by (assert (X : In all [LINE_ALL_ROWS; LINE_ALL_COLS]) by (rewrite El'; apply in_app_iff; right; left; reflexivity); destruct X as [<- | [<- | []]]; [left | right]; reflexivity).
        assert (SA : is_set ELine all) by (intros l Hl; apply (direction_lt all l Da Hl)).
        rewrite (iter_exact ELine all SA). cbn [bind]. unfold fish_enter.
        assert (L0 : set_len (set_none ELine) = 0) by reflexivity. rewrite L0. replace (0 =? size) with false by (symmetry; apply Nat.eqb_neq; lia).
        match type of Hs1 with Iv ?X _ => set (R := X) in * end.
        assert (X : okb (fish_walk (s_pos st0) d size all stop on (members ELine all) (set_none ELine) (set_none EPosLine) st1)
           (Iv (R /\ forall F U, fish_pat all d F U -> (forall x, mem (set_none ELine) x -> mem F x) -> (forall x, mem F x -> mem (set_none ELine) x \/ In x (members ELine all)) -> F <> set_none ELine -> ~ fish_conf all d F U)) Qv).
        { apply fish_walk_rule.
          - intros l. apply direction_lt. exact Da.
          - exact Hd'.
          - exact Po.
          - intros F U. apply Cb; assumption.
          - intros l Hl. apply (members_in ELine all l SA). exact Hl.
          - intros p Q. destruct (mem_none _ _ Q).
          - intros p Q. destruct (mem_none _ _ Q).
          - intros x. split; [intros Q; destruct (mem_none _ _ Q) | intros [_ [p [Q _]]]; destruct (mem_none _ _ Q)].
          - exact Hs1. }
        destruct (fish_walk (s_pos st0) d size all stop on (members ELine all) (set_none ELine) (set_none EPosLine) st1) as [[st2 [ | ]] | | | ]; cbn [okb] in X; try contradiction; cbn [bind fst snd stop_if okc]; [exact X | ].
        eapply Iv_impl; [ | exact X]. intros [[Q1 Q2] Q]. split; [exact Q1 | ]. intros k Hk. apply in_app_iff in Hk. destruct Hk as [Hk | [<- | []]]; [apply Q2; exact Hk | ].
        intros F U Pt. apply (Q F U Pt).
        -- intros p Y. destruct (mem_none _ _ Y).
        -- intros p Y. right. apply (members_in ELine all p SA). destruct Pt as [AF _]. apply AF, Y.
        -- intros ->. destruct Pt as [_ [Y _]]. rewrite L0 in Y. auto.
      * eapply Iv_impl; [ | exact Hs]. intros Q. split; [exact Q | intros all []].
      * cbn [app]. intros st1 H1. eapply Iv_impl; [ | exact H1]. intros [Q1 Q2] k Hk. apply in_app_iff in Hk. destruct Hk as [Hk | [<- | []]]; [apply Q1; exact Hk | ].
        intros all F U Da. apply Q2. destruct Da as [-> | ->]; [left | right; left]; reflexivity.
    + split; [apply found_refl | ]. right. split; [reflexivity | intros h []].
  - intros st [[F [Q | [E X]]] | [F Q]]; (split; [exact F | ]); [left; exact Q | right | left; exact Q]. split; [exact E | ].
    intros all d F0 U Da Hd'. apply (X d ltac:(apply in_seq; lia) all F0 U Da).
Qed.

(** What a fish eliminates *)
Lemma fish_good D all d F U l p : UP D st0 -> direction all -> 1 <= d <= 9 -> fish_pat all d F U -> mem all l -> ~ mem F l -> mem U p ->
  mem (P st0 (cell_at l p)) (d - 1) -> good st0 (cell_at l p, d).
Proof.
  intros Up Da Hd' [AF [LF [OF [UF LU]]]] Al Nl Mp M. assert (L := direction_lt _ _ Da Al). assert (Hp : p < 9) by (apply UF in Mp; apply Mp).
  destruct (cell_at_ok l p ltac:(lia) Hp) as [_ [Lc [Ic Pc]]]. split; [exact Lc | ]. cbn [fst snd]. split; [exact Hd' | ]. split; [exact M | ].
  intros s So Ss E.
  assert (SU : is_set EPosHouse U) by (intros q Hq; apply UF in Hq; apply Hq).
  assert (SF : is_set ELine F) by (intros q Hq; apply (direction_lt all q Da), AF, Hq).
  assert (Wh : forall k, k < 18 -> exists q, q < 9 /\ at_ s (cell_at k q) = d).
  { intros k Hk. destruct (any_house_has_digit s k d So ltac:(lia) Hd') as [c [Hc [Ik Ek]]]. destruct (cell_at_inv k c ltac:(lia) Hc Ik) as [A B]. exists (pos_in_house k c). split; [exact A | rewrite B; exact Ek]. }
  set (f := fun k => nth 0 (filter (fun q => at_ s (cell_at k q) =? d) (seq 0 9)) 0).
  assert (Hf : forall k, k < 18 -> f k < 9 /\ at_ s (cell_at k (f k)) = d).
  { intros x Hx. destruct (Wh x Hx) as [q [Lq Eq]]. unfold f.
    assert (I : In q (filter (fun q => at_ s (cell_at x q) =? d) (seq 0 9))) by (apply filter_In; split; [apply in_seq; lia | apply Nat.eqb_eq; exact Eq]).
    assert (I2 : In (nth 0 (filter (fun q => at_ s (cell_at x q) =? d) (seq 0 9)) 0) (filter (fun q => at_ s (cell_at x q) =? d) (seq 0 9))).
    { apply nth_In. destruct (filter (fun q => at_ s (cell_at x q) =? d) (seq 0 9)); [destruct I | cbn; lia]. }
    apply filter_In in I2. destruct I2 as [A B]. apply in_seq in A. apply Nat.eqb_eq in B. split; [lia | exact B]. }
  (* two lines cannot have the digit at the same position *)
  assert (Ne : forall a b, mem all a -> mem all b -> a <> b -> f a <> f b).
  { intros a b Ma Mb N Q. destruct (Hf a (direction_lt _ _ Da Ma)) as [La Ea]. destruct (Hf b (direction_lt _ _ Da Mb)) as [_ Eb]. rewrite <- Q in Eb.
    destruct (cross all a b (f a) Da Ma Mb N La) as [_ X]. destruct So as [_ [_ V]]. apply (V (cell_at a (f a)) (cell_at b (f a))); [ | | exact X | congruence].
    - apply (cell_at_ok a (f a)); [ | exact La]. pose proof (direction_lt _ _ Da Ma). lia.
    - apply (cell_at_ok b (f a)); [ | exact La]. pose proof (direction_lt _ _ Da Mb). lia. }
  assert (Efl : f l = p).
  { destruct (Hf l L) as [A B]. apply (solved_pos s l); try assumption; [lia | congruence]. }
  assert (X : set_len F < set_len U); [ | lia].
  apply (pigeon_set EPosHouse ELine U F f l p SU SF Nl Mp).
  - intros k Hk. assert (Ak := AF k Hk). assert (Lk := direction_lt _ _ Da Ak). destruct (Hf k Lk) as [Lf Ef]. split.
    + apply UF. split; [exact Lf | ]. exists k. split; [exact Hk | ]. destruct (OF k Hk) as [q [_ [_ [Lq [_ [Mq _]]]]]]. destruct (cell_at_ok k q ltac:(lia) Lq) as [_ [Lcq [Icq _]]].
      destruct (u_house D st0 s k (cell_at k q) (d - 1) Up So Ss ltac:(lia) Lcq Icq Mq) as [c [Hc [Ik [Ek [Mk _]]]]].
      destruct (cell_at_inv k c ltac:(lia) Hc Ik) as [A B]. assert (Q : f k = pos_in_house k c) by (apply (solved_pos s k); try assumption; [lia | rewrite B; lia]).
      rewrite Q, B. exact Mk.
    + rewrite <- Efl. apply Ne; [exact Ak | exact Al | ]. intros ->. contradiction.
  - intros a b Ha Hb Q. destruct (Nat.eq_dec a b) as [ | N]; [assumption | ]. destruct (Ne a b (AF a Ha) (AF b Hb) N Q).
Qed.
End Walk.
