(** The strategy solver: where a search finds nothing, the pattern of the strategy does not occur. *)
From Coq Require Import List Arith NArith ZArith ZifyNat ZifyN ZifyBool Lia Bool.
From Verif Require Import Spec TableSpec GeomSpec Solver Bits Geom Gen BitLemmas GridProofs BitsProofs GeomProofs GenProofs Strat StratFind StratSolve StratUse StratInv StratPos StratFound StratWalk StratWing StratCall StratSpec.
Import ListNotations.
Ltac Zify.zify_post_hook ::= Z.to_euclidean_division_equations.

Fixpoint bits_of (l : list nat) : N := match l with [] => 0%N | i :: t => N.setbit (bits_of t) (N.of_nat i) end.
Lemma bits_of_mem l i : mem (bits_of l) i <-> In i l.
Proof.
  induction l as [ | j l IH]; cbn [bits_of In]; [split; [apply mem0 | intros []] | ]. unfold mem in *. rewrite N.setbit_iff, IH. split; intros [Q | Q]; auto; left; lia.
Qed.
Lemma bits_of_len e l : NoDup l -> (forall i, In i l -> i < esize e) -> set_len (bits_of l) = length l.
Proof. intros N L. apply (len_meaning e); [intros i Hi; apply L, bits_of_mem, Hi | exact N | intros i; symmetry; apply bits_of_mem]. Qed.

Lemma NoDup_map_on {A B} (f : A -> B) l : NoDup l -> (forall x y, In x l -> In y l -> f x = f y -> x = y) -> NoDup (map f l).
Proof.
  induction 1 as [ | x l N ND IH]; intros Inj; cbn [map]; constructor.
  - rewrite in_map_iff. intros [y [E Hy]]. apply N. replace x with y; [exact Hy | ]. apply Inj; [right; exact Hy | left; reflexivity | exact E].
  - apply IH. intros y z Hy Hz. apply Inj; right; assumption.
Qed.

Section Stuck.
Variables (D : nat -> nat) (st : strat).
Hypothesis U : UP D st.
Let A := alive (s_entries st) (s_elims st).

Lemma alive_iff c d : A c d <-> c < 81 /\ 1 <= d <= 9 /\ mem (P st c) (d - 1).
Proof.
  unfold A, alive. split.
  - intros [Hc [Hd' Q]]. split; [exact Hc | ]. split; [exact Hd' | ]. apply (cand_iff D st c d U Hc Hd'). exact Q.
  - intros [Hc [Hd' Q]]. split; [exact Hc | ]. split; [exact Hd' | ]. apply (cand_iff D st c d U Hc Hd'). exact Q.
Qed.
Lemma alive_mem c x : c < 81 -> (mem (P st c) x <-> A c (S x)).
Proof.
  intros Hc. rewrite alive_iff. replace (S x - 1) with x by lia. split; [ | tauto]. intros M. split; [exact Hc | ]. split; [ | exact M].
  apply (w_p _ (u_w _ _ U) c Hc) in M. cbn in M. lia.
Qed.

Lemma house_not_full h c d : h < 27 -> in_house h c -> A c d -> Hd st h <> set_all EDigit.
Proof.
  intros Hh Hi M E. apply alive_iff in M. destruct M as [Hc [Hd' M]]. apply (u_disj _ _ U c (d - 1) h Hc Hh Hi M). rewrite E. apply mem_all. cbn. lia.
Qed.

Lemma naked_stuck n : n <> 0 -> (forall h F T, h < 27 -> Hd st h <> set_all EDigit -> naked_pat st n h F T -> ~ naked_conf st h F T) -> ~ naked_subset A n.
Proof.
  intros Nz Q [h [cs [ds [Hh [Nc [Lc [Nd [Ld [Cs [Ds [c [d [Ic [Ni [Hi M]]]]]]]]]]]]]]].
  assert (Dr : forall d, In d ds -> 1 <= d <= 9) by (intros e He; apply Ds in He; destruct He as [k [_ X]]; apply alive_iff in X; apply X).
  assert (Cr : forall c, In c cs -> c < 81) by (intros k Hk; apply Cs in Hk; destruct Hk as [_ [e X]]; apply alive_iff in X; apply X).
  assert (Ac := proj1 (alive_iff c d) M). destruct Ac as [Hc [Hd' Mc]].
  apply (Q h (bits_of (map (pos_in_house h) cs)) (bits_of (map Nat.pred ds)) Hh (house_not_full h c d Hh Ic M)).
  - assert (Pos : forall p, mem (bits_of (map (pos_in_house h) cs)) p <-> exists k, In k cs /\ k < 81 /\ in_house h k /\ p = pos_in_house h k /\ p < 9 /\ cell_at h p = k).
    { intros p. rewrite bits_of_mem, in_map_iff. split.
      - intros [k [<- Hk]]. exists k. destruct (Cs k Hk) as [Ik _]. destruct (cell_at_inv h k Hh (Cr k Hk) Ik) as [L9 E]. auto 10.
      - intros [k [Hk [_ [_ [-> _]]]]]. exists k. auto. }
    split; [intros p Hp; apply Pos in Hp; destruct Hp as [k X]; apply X | ]. split; [ | split; [ | split]].
    + rewrite (bits_of_len EPosHouse), map_length; [exact Lc | | ].
      * apply NoDup_map_on; [exact Nc | ]. intros a b Ha Hb E. apply (pos_inj h); auto; apply Cs; assumption.
      * intros i Hi'. apply bits_of_mem, Pos in Hi'. destruct Hi' as [k X]. apply X.
    + intros p Hp Z. apply Pos in Hp. destruct Hp as [k [Hk [Lk [_ [_ [_ E]]]]]]. destruct (Cs k Hk) as [_ [e X]]. apply alive_iff in X. destruct X as [_ [_ X]]. rewrite E in Z. rewrite Z in X. destruct (mem0 _ X).
    + intros x. rewrite bits_of_mem, in_map_iff. split.
      * intros [e [<- He]]. assert (R := Dr e He). apply Ds in He. destruct He as [k [Hk X]]. exists (pos_in_house h k). destruct (Cs k Hk) as [Ik _]. destruct (cell_at_inv h k Hh (Cr k Hk) Ik) as [L9 E]. rewrite E.
        split; [apply Pos; exists k; auto 10 | ]. apply alive_iff in X. replace (Nat.pred e) with (e - 1) by lia. apply X.
      * intros [p [Hp X]]. apply Pos in Hp. destruct Hp as [k [Hk [Lk [_ [_ [_ E]]]]]]. rewrite E in X. exists (S x). split; [reflexivity | ]. apply Ds. exists k. split; [exact Hk | ]. apply (alive_mem k x Lk), X.
    + rewrite (bits_of_len EDigit), map_length; [exact Ld | | ].
      * apply NoDup_map_on; [exact Nd | ]. intros a b Ha Hb E. pose proof (Dr a Ha). pose proof (Dr b Hb). lia.
      * intros i Hi'. apply in_map_iff in Hi'. destruct Hi' as [e [<- He]]. pose proof (Dr e He). cbn. lia.
  - destruct (cell_at_inv h c Hh Hc Ic) as [L9 E]. exists (pos_in_house h c), (d - 1). split; [exact L9 | ]. rewrite E. split; [ | split; [exact Mc | ]].
    + rewrite bits_of_mem, in_map_iff. intros [k [Ek Hk]]. apply Ni. replace c with k; [exact Hk | ]. apply (pos_inj h); auto. apply Cs, Hk.
    + rewrite bits_of_mem, in_map_iff. exists d. split; [lia | exact Hi].
Qed.

Lemma hidden_stuck n : n <> 0 -> (forall h F T, h < 27 -> Hd st h <> set_all EDigit -> hidden_pat st n h F T -> ~ hidden_conf st h F T) -> ~ hidden_subset A n.
Proof.
  intros Nz Q [h [cs [ds [Hh [Nc [Lc [Nd [Ld [Ds [Cs [c [d [Hi [Ni M]]]]]]]]]]]]]].
  assert (Dr : forall d, In d ds -> 1 <= d <= 9) by (intros e He; apply Ds in He; destruct He as [k [_ X]]; apply alive_iff in X; apply X).
  assert (Cr : forall c, In c cs -> c < 81 /\ in_house h c) by (intros k Hk; apply Cs in Hk; destruct Hk as [Ik [e [_ X]]]; apply alive_iff in X; split; [apply X | exact Ik]).
  destruct (Cr c Hi) as [Hc Ic]. assert (Ac := proj1 (alive_iff c d) M). destruct Ac as [_ [Hd' Mc]].
  apply (Q h (bits_of (map Nat.pred ds)) (bits_of (map (pos_in_house h) cs)) Hh (house_not_full h c d Hh Ic M)).
  - split; [ | split; [ | split; [ | split]]].
    + intros i Hi'. apply bits_of_mem, in_map_iff in Hi'. destruct Hi' as [e [<- He]]. pose proof (Dr e He). cbn. lia.
    + rewrite (bits_of_len EDigit), map_length; [exact Ld | | ].
      * apply NoDup_map_on; [exact Nd | ]. intros a b Ha Hb E. pose proof (Dr a Ha). pose proof (Dr b Hb). lia.
      * intros i Hi'. apply in_map_iff in Hi'. destruct Hi' as [e [<- He]]. pose proof (Dr e He). cbn. lia.
    + intros x Hx. apply bits_of_mem, in_map_iff in Hx. destruct Hx as [e [<- He]]. pose proof (Dr e He). destruct (Ds e He) as [k [Ik X]]. apply alive_iff in X. destruct X as [Lk [_ X]].
      destruct (cell_at_inv h k Hh Lk Ik) as [L9 E]. exists (pos_in_house h k). rewrite E. replace (Nat.pred e) with (e - 1) by lia. auto.
    + intros p. rewrite bits_of_mem, in_map_iff. split.
      * intros [k [<- Hk]]. destruct (Cr k Hk) as [Lk Ik]. apply Cs in Hk. destruct Hk as [_ [e [He X]]]. destruct (cell_at_inv h k Hh Lk Ik) as [L9 E]. split; [exact L9 | ]. rewrite E.
        exists (e - 1). pose proof (Dr e He). split; [apply bits_of_mem, in_map_iff; exists e; split; [lia | exact He] | apply alive_iff in X; apply X].
      * intros [Lp [x [Hx X]]]. destruct (cell_at_ok h p Hh Lp) as [_ [Lk [Ik Pk]]]. exists (cell_at h p). split; [exact Pk | ]. apply Cs. split; [exact Ik | ].
        apply bits_of_mem, in_map_iff in Hx. destruct Hx as [e [<- He]]. exists e. split; [exact He | ]. pose proof (Dr e He). apply (alive_mem _ _ Lk) in X. replace (S (Nat.pred e)) with e in X by lia. exact X.
    + rewrite (bits_of_len EPosHouse), map_length; [exact Lc | | ].
      * apply NoDup_map_on; [exact Nc | ]. intros a b Ha Hb E. destruct (Cr a Ha), (Cr b Hb). apply (pos_inj h); assumption.
      * intros i Hi'. apply in_map_iff in Hi'. destruct Hi' as [k [<- Hk]]. destruct (Cr k Hk) as [Lk Ik]. apply (cell_at_inv h k Hh Lk Ik).
  - destruct (cell_at_inv h c Hh Hc Ic) as [L9 E]. exists (pos_in_house h c), (d - 1). rewrite E. split; [apply bits_of_mem, in_map; exact Hi | ]. split; [ | exact Mc].
    rewrite bits_of_mem, in_map_iff. intros [e [Ee He]]. pose proof (Dr e He). apply Ni. replace d with e by lia. exact He.
Qed.

Lemma locked_stuck : (forall m x ptg, locked_pat st m x ptg -> ~ locked_conf st m x ptg) -> ~ locked_candidates A.
Proof.
  intros Q [l [b [Hl [Hb Lk]]]].
  assert (Mini : forall c, c < 81 -> in_house l c -> in_house b c -> let m := mini_at (if l <? 9 then 0 else 27) c in m < 54 /\ miniline_line m = l /\ miniline_block m = b /\ in_miniline m c).
  { intros c Hc I1 I2 m. destruct (mini_of (if l <? 9 then 0 else 27) c ltac:(destruct (l <? 9); lia) Hc) as [Lm [E Im]]. fold m in Lm, E, Im. assert (Im' := Im). destruct Im' as [J1 J2].
    destruct (mini_houses m Lm) as [A1 [A2 [A3 A4]]]. split; [exact Lm | ]. split; [ | split; [ | exact Im]].
    - apply (house_uniq _ l c); try assumption; [lia | ]. rewrite A3, E. destruct (Nat.ltb_spec l 9); lia.
    - apply (house_uniq _ b c); try assumption; [lia | ]. rewrite A4. lia. }
  assert (Go : forall h1 h2 (ptg : bool), (if ptg then h1 = b /\ h2 = l else h1 = l /\ h2 = b) -> locked_in A h1 h2 -> False).
  { intros h1 h2 ptg Eh [d [[c [I1 M]] [All [c' [I2' [NI M']]]]]]. assert (I2 := All c I1 M). assert (R := proj1 (alive_iff c d) M). destruct R as [Hc [Hd' Mc]]. assert (R := proj1 (alive_iff c' d) M'). destruct R as [Hc' [_ Mc']].
    assert (Ilb : in_house l c /\ in_house b c) by (destruct ptg; destruct Eh as [-> ->]; auto). destruct (Mini c Hc (proj1 Ilb) (proj2 Ilb)) as [Lm [El [Eb Im]]]. set (m := mini_at (if l <? 9 then 0 else 27) c) in *.
    destruct (mini_houses m Lm) as [A1 [A2 [A3 A4]]].
    apply (Q m (d - 1) ptg).
    - split; [exact Lm | ]. split; [lia | ]. split; [exists c; auto | ]. intros m' Sm [k [Hk [[J1 J2] Mk]]]. apply (alive_mem k _ Hk) in Mk. replace (S (d - 1)) with d in Mk by lia.
      assert (Lm' : m' < 54 /\ m' <> m /\ m' / 27 = m / 27) by (destruct ptg; destruct Sm as [? [? [? _]]]; auto). destruct Lm' as [Lm' [Nm Om]]. destruct (mini_houses m' Lm') as [B1 [B2 [B3 B4]]].
      apply Nm. destruct ptg; destruct Eh as [-> ->]; destruct Sm as [_ [_ [_ Sm]]].
      + rewrite Sm, Eb in J2. assert (X := All k J2 Mk). apply mini_inj; try assumption. apply (house_uniq _ _ k); try assumption; [lia | rewrite El; exact X].
      + rewrite Sm, El in J1. assert (X := All k J1 Mk). apply mini_inj; try assumption. apply (house_uniq _ _ k); try assumption; [lia | rewrite Eb; exact X].
    - destruct (mini_of m c' Lm Hc') as [Lm' [Om Im']]. set (m' := mini_at m c') in *. assert (Im'' := Im'). destruct Im'' as [J1 J2]. destruct (mini_houses m' Lm') as [B1 [B2 [B3 B4]]].
      assert (Nm : m' <> m) by (intros E; rewrite E in J1, J2; rewrite El in J1; rewrite Eb in J2; destruct ptg; destruct Eh as [-> ->]; contradiction).
      exists m'. split; [ | exists c'; auto]. destruct ptg; destruct Eh as [-> ->]; (split; [exact Lm' | ]; split; [exact Nm | ]; split; [exact Om | ]).
      + apply (house_uniq _ _ c'); try assumption; [lia | rewrite El; exact I2'].
      + apply (house_uniq _ _ c'); try assumption; [lia | rewrite Eb; exact I2']. }
  destruct Lk as [Lk | Lk]; [apply (Go l b false) | apply (Go b l true)]; auto.
Qed.

(** ** Fish *)

Definition other (rows : bool) (p : nat) : nat := if rows then 9 + p else p.
Lemma other_house (rows : bool) l p c : (if rows then l < 9 else 9 <= l < 18) -> p < 9 -> c < 81 -> in_house l c -> (in_house (other rows p) c <-> pos_in_house l c = p).
Proof.
  intros Hl Hp Hc Hi. unfold in_house, pos_in_house, other in *. destruct rows.
  - rewrite (proj2 (Nat.ltb_lt l 9)) in * by lia. replace (9 + p <? 9) with false by (symmetry; apply Nat.ltb_ge; lia). rewrite (proj2 (Nat.ltb_lt (9 + p) 18)) by lia. replace (9 + p - 9) with p by lia. reflexivity.
  - rewrite (proj2 (Nat.ltb_lt p 9)) by lia. replace (l <? 9) with false in * by (symmetry; apply Nat.ltb_ge; lia). rewrite (proj2 (Nat.ltb_lt l 18)) in * by lia. reflexivity.
Qed.

Lemma fish_stuck n : n <> 0 -> (forall all d F T, direction all -> 1 <= d <= 9 -> fish_pat st n all d F T -> ~ fish_conf st all d F T) -> ~ fish A n.
Proof.
  intros Nz Q [d [rows [base [cover [Nb [Lb [Nc [Lc [Br [Two [Cov [k [c [Hk [Ik [Nl M]]]]]]]]]]]]]]]].
  assert (R := proj1 (alive_iff c d) M). destruct R as [Hc [Hd' Mc]].
  set (all := if rows then LINE_ALL_ROWS else LINE_ALL_COLS). assert (Da : direction all) by (unfold all, direction; destruct rows; auto).
  assert (Ma : forall l, mem all l <-> if rows then l < 9 else 9 <= l < 18) by (intros l; unfold all; destruct rows; [apply rows_mem | apply cols_mem]).
  assert (Lt : forall l, (if rows then l < 9 else 9 <= l < 18) -> l < 27) by (intros l X; destruct rows; lia).
  set (ps := map (fun k => if rows then k - 9 else k) cover).
  assert (Ps : forall p, In p ps <-> p < 9 /\ In (other rows p) cover).
  { intros p. unfold ps. rewrite in_map_iff. split.
    - intros [j [<- Hj]]. assert (X := proj1 (Cov j) Hj). destruct X as [X _]. unfold other. destruct rows; (split; [lia | ]); [replace (9 + (j - 9)) with j by lia | ]; exact Hj.
    - intros [Lp Hj]. exists (other rows p). split; [unfold other; destruct rows; lia | exact Hj]. }
  assert (Cp : forall p, p < 9 -> (In (other rows p) cover <-> exists l, In l base /\ A (cell_at l p) d)).
  { intros p Lp. rewrite Cov. split.
    - intros [_ [l [k' [Hl [I1 [I2 X]]]]]]. assert (L := Br l Hl). assert (Lk' : k' < 81) by (apply alive_iff in X; apply X). exists l. split; [exact Hl | ].
      apply (other_house rows l p k' L Lp Lk' I1) in I2. destruct (cell_at_inv l k' (Lt l L) Lk' I1) as [_ E]. rewrite I2 in E. rewrite E. exact X.
    - intros [l [Hl X]]. assert (L := Br l Hl). split; [unfold other; destruct rows; lia | ]. destruct (cell_at_ok l p (Lt l L) Lp) as [_ [Lk' [Ik' Pk]]]. exists l, (cell_at l p).
      split; [exact Hl | ]. split; [exact Ik' | ]. split; [ | exact X]. apply (other_house rows l p _ L Lp Lk' Ik'). exact Pk. }
  assert (Am : forall l p, l < 27 -> p < 9 -> (mem (P st (cell_at l p)) (d - 1) <-> A (cell_at l p) d)).
  { intros l p Ll Lp. destruct (cell_at_ok l p Ll Lp) as [_ [Lk' _]]. rewrite (alive_mem _ _ Lk'). replace (S (d - 1)) with d by lia. reflexivity. }
  apply (Q all d (bits_of base) (bits_of ps) Da Hd').
  - split; [intros l Hl; apply bits_of_mem in Hl; apply Ma, Br, Hl | ]. split; [ | split; [ | split]].
    + rewrite (bits_of_len ELine); [exact Lb | exact Nb | ]. intros l Hl. apply Br in Hl. cbn. destruct rows; lia.
    + intros l Hl. apply bits_of_mem in Hl. assert (L := Lt l (Br l Hl)). destruct (Two l Hl) as [a [b [Nab [Ia [Ib [Xa Xb]]]]]]. assert (Ra := proj1 (alive_iff a d) Xa). assert (Rb := proj1 (alive_iff b d) Xb).
      destruct (cell_at_inv l a L ltac:(apply Ra) Ia) as [La Ea]. destruct (cell_at_inv l b L ltac:(apply Rb) Ib) as [Lb' Eb]. exists (pos_in_house l a), (pos_in_house l b).
      split; [intros E; apply Nab; rewrite <- Ea, <- Eb, E; reflexivity | ]. split; [exact La | ]. split; [exact Lb' | ]. rewrite Ea, Eb. split; [apply Ra | apply Rb].
    + intros p. rewrite bits_of_mem, Ps. split.
      * intros [Lp X]. split; [exact Lp | ]. apply (Cp p Lp) in X. destruct X as [l [Hl X]]. exists l. split; [apply bits_of_mem; exact Hl | ]. apply (Am l p (Lt l (Br l Hl)) Lp), X.
      * intros [Lp [l [Hl X]]]. split; [exact Lp | ]. apply (Cp p Lp). apply bits_of_mem in Hl. exists l. split; [exact Hl | ]. apply (Am l p (Lt l (Br l Hl)) Lp), X.
    + rewrite (bits_of_len EPosLine); [unfold ps; rewrite map_length; exact Lc | | intros p Hp; apply Ps in Hp; apply Hp]. apply NoDup_map_on; [exact Nc | ].
      intros a b Ha Hb E. apply Cov in Ha, Hb. destruct Ha as [Ha _], Hb as [Hb _]. destruct rows; lia.
  - assert (Rk := proj1 (proj1 (Cov k) Hk)). set (l := if rows then row_of c else 9 + col_of c).
    assert (Ll : if rows then l < 9 else 9 <= l < 18) by (unfold l; destruct rows; [apply row_lt; exact Hc | pose proof (col_lt c); lia]).
    assert (Il : in_house l c) by (apply (in_house_iff c l Hc); unfold l; destruct rows; auto).
    set (p := if rows then k - 9 else k). assert (Lp : p < 9) by (unfold p; destruct rows; lia). assert (Ok : other rows p = k) by (unfold other, p; destruct rows; lia).
    assert (Pl : pos_in_house l c = p) by (apply (other_house rows l p c Ll Lp Hc Il); rewrite Ok; exact Ik).
    destruct (cell_at_inv l c (Lt l Ll) Hc Il) as [_ E]. rewrite Pl in E. exists l, p. split; [apply Ma, Ll | ]. split; [rewrite bits_of_mem; intros X; apply (Nl l X Il) | ].
    split; [apply bits_of_mem, Ps; rewrite Ok; auto | ]. rewrite E. exact Mc.
Qed.

(** ** Wings *)

Lemma block_eq a b : block_of a = block_of b -> row_of a / 3 = row_of b / 3 /\ col_of a / 3 = col_of b / 3.
Proof. unfold block_of. pose proof (col_lt a). pose proof (col_lt b). lia. Qed.
Lemma cell_eq a b : row_of a = row_of b -> col_of a = col_of b -> a = b.
Proof. unfold row_of, col_of. lia. Qed.

Lemma geo_cases h c1 c2 : peers h c1 -> peers h c2 -> ~ peers c1 c2 -> c1 <> c2 -> wing_geo true h c1 c2 \/ wing_geo true h c2 c1.
Proof.
  intros [N1 S1] [N2 S2] Np Nc. assert (Nr : row_of c1 <> row_of c2) by (intros E; apply Np; split; auto). assert (Nk : col_of c1 <> col_of c2) by (intros E; apply Np; split; auto).
  assert (Nb : block_of c1 <> block_of c2) by (intros E; apply Np; split; auto). unfold wing_geo.
  destruct (Nat.eq_dec (block_of c1) (block_of h)) as [B1 | B1].
  - destruct (Nat.eq_dec (block_of c2) (block_of h)) as [B2 | B2]; [congruence | ]. left. destruct S2 as [E | [E | E]]; [left | right; left | congruence].
    + split; [exact B1 | ]. split; [congruence | ]. split; [congruence | exact B2].
    + split; [exact B1 | ]. split; [congruence | ]. split; [congruence | exact B2].
  - destruct (Nat.eq_dec (block_of c2) (block_of h)) as [B2 | B2].
    + right. destruct S1 as [E | [E | E]]; [left | right; left | congruence].
      * split; [exact B2 | ]. split; [congruence | ]. split; [congruence | exact B1].
      * split; [exact B2 | ]. split; [congruence | ]. split; [congruence | exact B1].
    + destruct S1 as [E | [E | E]]; [ | | congruence]; destruct S2 as [E' | [E' | E']]; try congruence.
      * left. right. right. auto 10.
      * right. right. right. auto 10.
Qed.

Lemma geo_xyz h c1 c2 k : wing_geo true h c1 c2 -> peers h k -> peers c1 k -> peers c2 k -> wing_geo false h c1 c2.
Proof.
  intros [Q | [Q | [_ [R [B1 [K B2]]]]]] Ph P1 P2; [left; exact Q | right; left; exact Q | exfalso].
  assert (X1 : col_of c1 / 3 <> col_of h / 3) by (intros X; apply B1; unfold block_of; congruence).
  assert (X2 : row_of c2 / 3 <> row_of h / 3) by (intros X; apply B2; unfold block_of; congruence).
  destruct Ph as [Nh Sh]. destruct P1 as [N1 S1]. destruct P2 as [N2 S2].
  destruct Sh as [E | [E | E]].
  - destruct S2 as [F | [F | F]]; [congruence | apply Nh, cell_eq; congruence | apply block_eq in F; destruct F as [F _]; congruence].
  - destruct S1 as [F | [F | F]]; [apply Nh, cell_eq; congruence | congruence | apply block_eq in F; destruct F as [_ F]; congruence].
  - apply block_eq in E. destruct E as [E1 E2]. destruct S1 as [F | [F | F]].
    + destruct S2 as [F2 | [F2 | F2]]; [congruence | apply Nh, cell_eq; congruence | apply block_eq in F2; destruct F2; congruence].
    + congruence.
    + apply block_eq in F. destruct F. congruence.
Qed.

Lemma has_mem c l : has A c l -> l <> [] -> c < 81 /\ (forall d, In d l -> 1 <= d <= 9) /\ forall x, mem (P st c) x <-> In x (map Nat.pred l).
Proof.
  intros Hh Ne. assert (R : forall d, In d l -> c < 81 /\ 1 <= d <= 9 /\ mem (P st c) (d - 1)) by (intros d Hi; apply Hh, alive_iff in Hi; exact Hi).
  assert (Hc : c < 81) by (destruct l as [ | d t]; [destruct Ne; reflexivity | apply (R d (or_introl eq_refl))]). split; [exact Hc | ]. split; [intros d Hi; apply R, Hi | ].
  intros x. rewrite in_map_iff. split.
  - intros M. exists (S x). split; [reflexivity | ]. apply Hh, (alive_mem c x Hc), M.
  - intros [d [<- Hi]]. destruct (R d Hi) as [_ [L M]]. replace (Nat.pred d) with (d - 1) by lia. exact M.
Qed.

(** The number of elements of a set given by a list *)
Lemma len_is m l : NoDup l -> (forall i, In i l -> i < 9) -> (forall x, mem m x <-> In x l) -> set_len m = length l.
Proof. intros N L M. apply (len_meaning EDigit); [intros i Hi; apply L, M, Hi | exact N | intros i; symmetry; apply M]. Qed.

Lemma wing_stuck (xyz : bool) n common : n = (if xyz then 3 else 2) -> common = (if xyz then 2 else 1) ->
  (forall h c1 c2, h < 81 -> c1 < 81 -> c2 < 81 -> wing_geo (negb xyz) h c1 c2 -> wing_pat st n common h c1 c2 -> ~ wing_conf st xyz h c1 c2) ->
  ~ (if xyz then xyz_wing A else xy_wing A).
Proof.
  intros En Ec Q.
  assert (Main : forall h c1 c2 x y z, NoDup [x; y; z] -> has A h (if xyz then [x; y; z] else [x; y]) -> has A c1 [x; z] -> has A c2 [y; z] ->
    wing_geo (negb xyz) h c1 c2 -> forall k, (xyz = true -> peers h k) -> peers c1 k -> peers c2 k -> A k z -> False).
  { intros h c1 c2 x y z Nd Hh H1 H2 Geo k K0 K1 K2 M.
    destruct (has_mem h _ Hh) as [Lh [_ Mh]]; [destruct xyz; discriminate | ]. destruct (has_mem c1 _ H1) as [L1 [R1 M1]]; [discriminate | ]. destruct (has_mem c2 _ H2) as [L2 [R2 M2]]; [discriminate | ].
    assert (Rx := R1 x (or_introl eq_refl)). assert (Ry := R2 y (or_introl eq_refl)). assert (Rz := R1 z (or_intror (or_introl eq_refl))).
    assert (Nxyz : x <> y /\ x <> z /\ y <> z).
    { inversion Nd as [ | ? ? A1 A2]. inversion A2 as [ | ? ? A3 A4]. cbn [In] in *. repeat split; intros E; subst; tauto. }
    destruct Nxyz as [Nxy [Nxz Nyz]]. cbn [map] in M1, M2.
    assert (Mh' : forall i, mem (P st h) i <-> i = Nat.pred x \/ i = Nat.pred y \/ (xyz = true /\ i = Nat.pred z)).
    { intros i. rewrite Mh. destruct xyz; cbn [map In]; split.
      - intros [E | [E | [E | []]]]; auto.
      - intros [E | [E | [_ E]]]; auto.
      - intros [E | [E | []]]; auto.
      - intros [E | [E | [E _]]]; auto; discriminate. }
    apply (Q h c1 c2 Lh L1 L2 Geo).
    - split; [ | split; [split | split; [split | split]]].
      + rewrite En. destruct xyz; cbn [map] in Mh.
        * rewrite (len_is _ [Nat.pred x; Nat.pred y; Nat.pred z]); [reflexivity | repeat constructor; cbn [In]; lia | cbn [In]; intros i Hi; lia | exact Mh].
        * rewrite (len_is _ [Nat.pred x; Nat.pred y]); [reflexivity | repeat constructor; cbn [In]; lia | cbn [In]; intros i Hi; lia | exact Mh].
      + rewrite (len_is _ [Nat.pred x; Nat.pred z]); [reflexivity | repeat constructor; cbn [In]; lia | cbn [In]; intros i Hi; lia | exact M1].
      + rewrite Ec. destruct xyz.
        * rewrite (len_is _ [Nat.pred x; Nat.pred z]); [reflexivity | repeat constructor; cbn [In]; lia | cbn [In]; intros i Hi; lia | ]. intros i. rewrite mem_and, Mh', M1. cbn [In]. intuition lia.
        * rewrite (len_is _ [Nat.pred x]); [reflexivity | repeat constructor; cbn [In]; lia | cbn [In]; intros i Hi; lia | ]. intros i. rewrite mem_and, Mh', M1. cbn [In]. intuition (try discriminate; lia).
      + rewrite (len_is _ [Nat.pred y; Nat.pred z]); [reflexivity | repeat constructor; cbn [In]; lia | cbn [In]; intros i Hi; lia | exact M2].
      + rewrite Ec. destruct xyz.
        * rewrite (len_is _ [Nat.pred y; Nat.pred z]); [reflexivity | repeat constructor; cbn [In]; lia | cbn [In]; intros i Hi; lia | ]. intros i. rewrite mem_and, Mh', M2. cbn [In]. intuition lia.
        * rewrite (len_is _ [Nat.pred y]); [reflexivity | repeat constructor; cbn [In]; lia | cbn [In]; intros i Hi; lia | ]. intros i. rewrite mem_and, Mh', M2. cbn [In]. intuition (try discriminate; lia).
      + rewrite (len_is _ [Nat.pred z]); [reflexivity | repeat constructor; cbn [In]; lia | cbn [In]; intros i Hi; lia | ]. intros i. rewrite mem_and, M1, M2. cbn [In]. intuition lia.
      + rewrite (len_is _ [Nat.pred x; Nat.pred y; Nat.pred z]); [reflexivity | repeat constructor; cbn [In]; lia | cbn [In]; intros i Hi; lia | ]. intros i. rewrite !mem_or, Mh', M1, M2. cbn [In]. intuition lia.
    - assert (R := proj1 (alive_iff k z) M). destruct R as [Lk [_ Mk]]. exists k, (z - 1). split; [exact Lk | ]. split; [apply M1; cbn [In]; lia | ]. split; [apply M2; cbn [In]; lia | ]. auto. }
  assert (Swap : forall h c1 c2 x y z, NoDup [x; y; z] -> has A h (if xyz then [x; y; z] else [x; y]) -> has A c1 [x; z] -> has A c2 [y; z] ->
    peers h c1 -> peers h c2 -> ~ peers c1 c2 -> forall k, (xyz = true -> peers h k) -> peers c1 k -> peers c2 k -> A k z -> False).
  { intros h c1 c2 x y z Nd Hh H1 H2 P1 P2 Np k K0 K1 K2 M.
    assert (Nxyz : x <> y /\ x <> z /\ y <> z).
    { inversion Nd as [ | ? ? A1 A2]. inversion A2 as [ | ? ? A3 A4]. cbn [In] in *. repeat split; intros E; subst; tauto. }
    destruct Nxyz as [Nxy [Nxz Nyz]].
    assert (Nc : c1 <> c2). { intros E. subst c2. assert (X := proj2 (H1 x) (or_introl eq_refl)). apply H2 in X. cbn [In] in X. intuition congruence. }
    assert (Gx : forall c c', wing_geo true h c c' -> peers c k -> peers c' k -> wing_geo (negb xyz) h c c').
    { intros c c' Geo X X'. destruct xyz; [apply (geo_xyz h c c' k Geo (K0 eq_refl) X X') | exact Geo]. }
    destruct (geo_cases h c1 c2 P1 P2 Np Nc) as [Geo | Geo].
    - apply (Main h c1 c2 x y z Nd Hh H1 H2 (Gx _ _ Geo K1 K2) k); assumption.
    - apply (Main h c2 c1 y x z) with (k := k); try assumption; [ | | apply (Gx _ _ Geo K2 K1)].
      + repeat constructor; cbn [In]; intuition congruence.
      + destruct xyz; intros d; rewrite (Hh d); cbn [In]; tauto. }
  destruct xyz.
  - intros [h [c1 [c2 [x [y [z [Nd [Hh [H1 [H2 [P1 [P2 [Np [k [K0 [K1 [K2 M]]]]]]]]]]]]]]]]]. apply (Swap h c1 c2 x y z Nd Hh H1 H2 P1 P2 Np k); auto.
  - intros [h [c1 [c2 [x [y [z [Nd [Hh [H1 [H2 [P1 [P2 [Np [k [K1 [K2 M]]]]]]]]]]]]]]]]. apply (Swap h c1 c2 x y z Nd Hh H1 H2 P1 P2 Np k); auto; discriminate.
Qed.
End Stuck.
