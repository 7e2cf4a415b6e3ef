(** The almost locked sets that are collected are exactly the almost locked sets; the search that uses them always panics. *)
From Coq Require Import List Arith NArith ZArith ZifyNat ZifyN ZifyBool Lia Bool.
From Verif Require Import Spec TableSpec GeomSpec BitLemmas Solver Bits BitsProofs GridProofs Geom GeomProofs Gen GuessProofs Strat StratFound Wip WipSpec.
Import ListNotations.

Section Als.
Variable poss : list N.
Hypothesis Wp : digit_sets poss.
Notation P c := (nth c poss 0%N).

Lemma poss_digits c : is_set EDigit (P c).
Proof.
  destruct Wp as [L F]. rewrite Forall_forall in F. intros i Hi. destruct (le_lt_dec (length poss) c) as [G | G]; [rewrite nth_overflow in Hi by exact G; destruct (mem_none EDigit i Hi) | ].
  apply (F _ (nth_In poss 0%N G) i Hi).
Qed.
Lemma len_nine m : is_set EDigit m -> set_len m <= 9.
Proof. intros H. rewrite (len_members EDigit m H). unfold members. etransitivity; [apply filter_length_le | ]. rewrite seq_length. cbn [esize]. lia. Qed.

Lemma NoDup_app_2 {A} (l l' : list A) : NoDup l -> NoDup l' -> (forall x, In x l -> In x l' -> False) -> NoDup (l ++ l').
Proof.
  induction l as [ | x t IH]; intros N N' D; cbn [app]; [exact N' | ]. apply NoDup_cons_iff in N. destruct N as [Nx N]. constructor.
  - rewrite in_app_iff. intros [X | X]; [contradiction | exact (D x (or_introl eq_refl) X)].
  - apply IH; [exact N | exact N' | ]. intros y Hy. apply D. right. exact Hy.
Qed.
Lemma NoDup_remove_3 {A} (l l' : list A) x : NoDup (l ++ l') -> ~ In x (l ++ l') -> NoDup (l ++ x :: l').
Proof.
  induction l as [ | y t IH]; cbn [app]; intros N X; [constructor; assumption | ]. apply NoDup_cons_iff in N. destruct N as [Ny N]. constructor.
  - rewrite in_app_iff in *. cbn [In] in *. intros [Q | [Q | Q]]; [apply Ny; left; exact Q | apply X; left; symmetry; exact Q | apply Ny; right; exact Q].
  - apply IH; [exact N | ]. intros Q. apply X. right. exact Q.
Qed.

(** * The walk collects a list *)

Definition bitc (c : nat) : N := match as_set ECell c with Ok m => m | _ => 0%N end.
Lemma bitc_ok c : c < 81 -> as_set ECell c = Ok (bitc c).
Proof. intros H. unfold bitc. destruct (as_set_total ECell c) as [m E]; [cbn [esize]; lia | ]. rewrite E. reflexivity. Qed.
Lemma bitc_mem c i : c < 81 -> (mem (bitc c) i <-> i = c).
Proof. intros H. apply (mem_single ECell), bitc_ok, H. Qed.

Fixpoint als_list (cells : list nat) (cs ds : N) : list (N * N) :=
  match cells with
  | [] => []
  | c :: rest =>
      if set_len (P c) <=? 1 then als_list rest cs ds
      else (if set_len (set_or ds (P c)) =? set_len (set_or cs (bitc c)) + 1 then [(set_or cs (bitc c), set_or ds (P c))] else []) ++
           als_list rest (set_or cs (bitc c)) (set_or ds (P c)) ++ als_list rest cs ds
  end.

Definition shape (t : als_table) : Prop := length t = 8 /\ forall i, i < 8 -> length (nth i t []) = 27.
Definition tget (t : als_table) (i h : nat) : list (N * N) := nth h (nth i t []) [].

Lemma push_ok t i h x : shape t -> i < 8 -> h < 27 -> exists t', als_push t i h x = Ok t' /\ shape t' /\
  forall i' h', i' < 8 -> h' < 27 -> tget t' i' h' = tget t i' h' ++ (if (i' =? i) && (h' =? h) then [x] else []).
Proof.
  intros [L R] Hi Hh. unfold als_push. rewrite (aget_ok t i []) by lia. cbn [bind]. assert (Ri := R i Hi). rewrite (aget_ok _ h []) by lia. cbn [bind]. rewrite aset_ok by lia. cbn [bind]. rewrite aset_ok by lia.
  eexists. split; [reflexivity | ]. split.
  - split; [rewrite lset_length; exact L | ]. intros j Hj. rewrite nth_lset by lia. destruct (j =? i); [rewrite lset_length; exact Ri | apply R, Hj].
  - intros i' h' Hi' Hh'. unfold tget. rewrite nth_lset by lia. destruct (Nat.eqb_spec i' i) as [-> | N]; cbn [andb]; [ | rewrite app_nil_r; reflexivity].
    rewrite nth_lset by lia. destruct (Nat.eqb_spec h' h) as [-> | N]; [reflexivity | rewrite app_nil_r; reflexivity].
Qed.

Definition grown (t t' : als_table) (h : nat) (l : list (N * N)) : Prop :=
  shape t' /\ forall i' h', i' < 8 -> h' < 27 -> tget t' i' h' = tget t i' h' ++ (if h' =? h then filter (fun x => set_len (fst x) =? i' + 1) l else []).
Lemma grown_trans t t' t'' h l l' : grown t t' h l -> grown t' t'' h l' -> grown t t'' h (l ++ l').
Proof.
  intros [_ G] [S' G']. split; [exact S' | ]. intros i h' Hi Hh. rewrite G', G by assumption. rewrite <- app_assoc. f_equal. destruct (h' =? h); [ | reflexivity]. rewrite filter_app. reflexivity.
Qed.

Lemma walk_cons c rest cs ds t h depth : als_walk poss (c :: rest) cs ds t h depth =
  (m <- as_set ECell c;
   cands <- aget poss c;
   if set_len cands <=? 1 then als_walk poss rest cs ds t h depth
   else if negb (set_len (set_or cs m) =? depth + 1) then Panic
   else
     t <- (if set_len (set_or ds cands) =? set_len (set_or cs m) + 1
           then i <- usub (set_len (set_or cs m)) 1; als_push t i h (set_or cs m, set_or ds cands) else Ok t);
     t <- als_walk poss rest (set_or cs m) (set_or ds cands) t h (depth + 1);
     als_walk poss rest cs ds t h depth).
Proof. reflexivity. Qed.
Lemma list_cons c rest cs ds : als_list (c :: rest) cs ds =
  if set_len (P c) <=? 1 then als_list rest cs ds
  else (if set_len (set_or ds (P c)) =? set_len (set_or cs (bitc c)) + 1 then [(set_or cs (bitc c), set_or ds (P c))] else []) ++
       als_list rest (set_or cs (bitc c)) (set_or ds (P c)) ++ als_list rest cs ds.
Proof. reflexivity. Qed.
Lemma push_step t h nc nd depth : shape t -> h < 27 -> is_set EDigit nd -> set_len nc = depth + 1 ->
  exists t1, (if set_len nd =? depth + 1 + 1 then i <- usub (depth + 1) 1; als_push t i h (nc, nd) else Ok t) = Ok t1 /\ grown t t1 h (if set_len nd =? depth + 1 + 1 then [(nc, nd)] else []).
Proof.
  intros St Hh Sdn Ln. destruct (Nat.eqb_spec (set_len nd) (depth + 1 + 1)) as [El | El].
  - assert (B := len_nine nd Sdn). unfold usub. destruct (Nat.leb_spec 1 (depth + 1)) as [L1 | L1]; [ | lia]. cbn [bind]. destruct (push_ok t (depth + 1 - 1) h (nc, nd) St) as [t1 [Et [S1 G1]]]; [lia | exact Hh | ].
    exists t1. split; [exact Et | ]. split; [exact S1 | ]. intros i h' Hi Hh'. rewrite G1 by assumption. f_equal. cbn [filter fst]. rewrite Ln.
    assert (Eb : (depth + 1 =? i + 1) = (i =? depth + 1 - 1)) by (destruct (Nat.eqb_spec i (depth + 1 - 1)), (Nat.eqb_spec (depth + 1) (i + 1)); lia).
    rewrite Eb. destruct (i =? depth + 1 - 1), (h' =? h); reflexivity.
  - exists t. split; [reflexivity | ]. split; [exact St | ]. intros i h' _ _. cbn [filter]. destruct (h' =? h); rewrite app_nil_r; reflexivity.
Qed.

Lemma grown_len c cs : c < 81 -> is_set ECell cs -> ~ mem cs c -> is_set ECell (set_or cs (bitc c)) /\ set_len (set_or cs (bitc c)) = set_len cs + 1 /\ forall i, mem (set_or cs (bitc c)) i <-> mem cs i \/ i = c.
Proof.
  intros H Sc Nm. assert (Mn : forall i, mem (set_or cs (bitc c)) i <-> mem cs i \/ i = c) by (intros i; rewrite mem_or, bitc_mem by exact H; reflexivity).
  assert (Sn : is_set ECell (set_or cs (bitc c))) by (intros i Hi; apply Mn in Hi; destruct Hi as [Hi | ->]; [apply Sc, Hi | exact H]).
  split; [exact Sn | ]. split; [ | exact Mn].
  destruct (iter_meaning ECell cs Sc) as [l [_ [_ [Nl Il]]]]. rewrite (len_meaning ECell cs l Sc Nl Il).
  assert (Nd : NoDup (c :: l)) by (constructor; [rewrite Il; exact Nm | exact Nl]).
  assert (In' : forall i, In i (c :: l) <-> mem (set_or cs (bitc c)) i) by (intros i; rewrite Mn; cbn [In]; rewrite Il; split; intros [X | X]; auto).
  rewrite (len_meaning ECell _ (c :: l) Sn Nd In'). cbn [length]. lia.
Qed.

Lemma walk_list h : h < 27 -> forall cells cs ds t depth, (forall c, In c cells -> c < 81) -> NoDup cells -> is_set ECell cs -> (forall c, In c cells -> ~ mem cs c) -> is_set EDigit ds ->
  set_len cs = depth -> shape t -> exists t', als_walk poss cells cs ds t h depth = Ok t' /\ grown t t' h (als_list cells cs ds).
Proof.
  intros Hh. induction cells as [ | c rest IH]; intros cs ds t depth Hc Nd Sc Dj Sd Ld St.
  - exists t. split; [reflexivity | ]. split; [exact St | ]. intros i h' _ _. cbn [als_list filter]. destruct (h' =? h); rewrite app_nil_r; reflexivity.
  - assert (H := Hc c (or_introl eq_refl)). apply NoDup_cons_iff in Nd. destruct Nd as [Nc Nd]. rewrite walk_cons, list_cons, (bitc_ok c H). cbn [bind]. rewrite (aget_ok poss c 0%N) by (destruct Wp; lia). cbn [bind].
    assert (Hr : forall x, In x rest -> x < 81) by (intros x Hx; apply Hc; right; exact Hx). assert (Dr : forall x, In x rest -> ~ mem cs x) by (intros x Hx; apply Dj; right; exact Hx).
    destruct (set_len (P c) <=? 1) eqn:E1; [apply IH; assumption | ].
    set (nc := set_or cs (bitc c)). set (nd := set_or ds (P c)).
    destruct (grown_len c cs H Sc (Dj c (or_introl eq_refl))) as [Sn [Ln Mn]]. fold nc in Sn, Ln, Mn. rewrite Ld in Ln.
    assert (Sdn : is_set EDigit nd) by (intros i Hi; unfold nd in Hi; apply mem_or in Hi; destruct Hi as [Hi | Hi]; [apply Sd, Hi | apply (poss_digits c), Hi]).
    rewrite Ln, Nat.eqb_refl. cbn [negb].
    assert (Dn : forall x, In x rest -> ~ mem nc x) by (intros x Hx M; apply Mn in M; destruct M as [M | ->]; [exact (Dr x Hx M) | exact (Nc Hx)]).
    destruct (push_step t h nc nd depth St Hh Sdn Ln) as [t1 [E2 G1]]. rewrite E2. cbn [bind].
    destruct (IH nc nd t1 (depth + 1) Hr Nd Sn Dn Sdn Ln (proj1 G1)) as [t2 [E3 G2]]. rewrite E3. cbn [bind].
    destruct (IH cs ds t2 depth Hr Nd Sc Dr Sd Ld (proj1 G2)) as [t3 [E4 G3]]. exists t3. split; [exact E4 | ].
    fold nd. apply (grown_trans t t1 t3 h _ _ G1), (grown_trans t1 t2 t3 h _ _ G2 G3).
Qed.

(** * What the list contains *)

Lemma als_list_in : forall cells cs ds, (forall c, In c cells -> c < 81) -> NoDup cells -> is_set ECell cs -> (forall c, In c cells -> ~ mem cs c) -> is_set EDigit ds -> forall C D,
  In (C, D) (als_list cells cs ds) <->
  is_set ECell C /\ (forall i, mem cs i -> mem C i) /\ (forall i, mem C i -> mem cs i \/ (In i cells /\ 2 <= set_len (P i))) /\ (exists i, mem C i /\ ~ mem cs i) /\
  is_set EDigit D /\ (forall i, mem D i <-> mem ds i \/ exists c, mem C c /\ In c cells /\ mem (P c) i) /\ set_len D = set_len C + 1.
Proof.
  induction cells as [ | c rest IH]; intros cs ds Hc Nd Sc Dj Sd C D; cbn [als_list].
  - split; [intros [] | ]. intros [_ [_ [Q [[i [Hi Ni]] _]]]]. destruct (Q i Hi) as [X | [[] _]]. contradiction.
  - assert (H := Hc c (or_introl eq_refl)). apply NoDup_cons_iff in Nd. destruct Nd as [Nc Nd].
    assert (Hr : forall x, In x rest -> x < 81) by (intros x Hx; apply Hc; right; exact Hx). assert (Dr : forall x, In x rest -> ~ mem cs x) by (intros x Hx; apply Dj; right; exact Hx). assert (Dc := Dj c (or_introl eq_refl)).
    (* without [c] *)
    assert (Skip : (~ mem C c \/ set_len (P c) <= 1) -> (In (C, D) (als_list rest cs ds) <->
      is_set ECell C /\ (forall i, mem cs i -> mem C i) /\ (forall i, mem C i -> mem cs i \/ (In i (c :: rest) /\ 2 <= set_len (P i))) /\ (exists i, mem C i /\ ~ mem cs i) /\
      is_set EDigit D /\ (forall i, mem D i <-> mem ds i \/ exists x, mem C x /\ In x (c :: rest) /\ mem (P x) i) /\ set_len D = set_len C + 1)).
    { intros K. rewrite (IH cs ds Hr Nd Sc Dr Sd C D). split; intros [A1 [A2 [A3 [A4 [A5 [A6 A7]]]]]]; (split; [exact A1 | ]); (split; [exact A2 | ]).
      - split; [intros i Hi; destruct (A3 i Hi) as [X | [X Y]]; [left; exact X | right; split; [right; exact X | exact Y]] | ]. split; [exact A4 | ]. split; [exact A5 | ]. split; [ | exact A7]. intros i. rewrite A6. split; intros [X | [x [X1 [X2 X3]]]]; try (left; exact X).
        + right. exists x. split; [exact X1 | ]. split; [right; exact X2 | exact X3].
        + right. exists x. split; [exact X1 | ]. split; [ | exact X3]. destruct X2 as [<- | X2]; [ | exact X2]. exfalso. destruct (A3 c X1) as [Y | [Y _]]; [exact (Dc Y) | exact (Nc Y)].
      - assert (Cc : ~ mem C c). { intros X. destruct K as [K | K]; [exact (K X) | ]. destruct (A3 c X) as [Y | [_ Y]]; [exact (Dc Y) | lia]. }
        split; [intros i Hi; destruct (A3 i Hi) as [X | [[<- | X] Y]]; [left; exact X | contradiction | right; split; assumption] | ]. split; [exact A4 | ]. split; [exact A5 | ]. split; [ | exact A7]. intros i. rewrite A6. split; intros [X | [x [X1 [X2 X3]]]]; try (left; exact X).
        + right. exists x. split; [exact X1 | ]. split; [ | exact X3]. destruct X2 as [<- | X2]; [contradiction | exact X2].
        + right. exists x. split; [exact X1 | ]. split; [right; exact X2 | exact X3]. }
    destruct (Nat.leb_spec (set_len (P c)) 1) as [E1 | E1]; [apply Skip; right; exact E1 | ].
    set (nc := set_or cs (bitc c)) in *. set (nd := set_or ds (P c)) in *.
    assert (Mn : forall i, mem nc i <-> mem cs i \/ i = c) by (intros i; unfold nc; rewrite mem_or, bitc_mem by exact H; reflexivity).
    assert (Md : forall i, mem nd i <-> mem ds i \/ mem (P c) i) by (intros i; unfold nd; apply mem_or).
    assert (Sn : is_set ECell nc) by (intros i Hi; apply Mn in Hi; destruct Hi as [Hi | ->]; [apply Sc, Hi | exact H]).
    assert (Sdn : is_set EDigit nd) by (intros i Hi; apply Md in Hi; destruct Hi as [Hi | Hi]; [apply Sd, Hi | apply (poss_digits c), Hi]).
    assert (Dn : forall x, In x rest -> ~ mem nc x) by (intros x Hx M; apply Mn in M; destruct M as [M | ->]; [exact (Dr x Hx M) | exact (Nc Hx)]).
    rewrite !in_app_iff. assert (I2 := IH nc nd Hr Nd Sn Dn Sdn C D).
    assert (Here : In (C, D) (if set_len nd =? set_len nc + 1 then [(nc, nd)] else []) <-> C = nc /\ D = nd /\ set_len nd = set_len nc + 1).
    { destruct (Nat.eqb_spec (set_len nd) (set_len nc + 1)) as [E | E]; [ | split; [intros [] | intros [_ [_ X]]; contradiction]]. split; [intros [X | []]; injection X as <- <-; auto | intros [-> [-> _]]; left; reflexivity]. }
    destruct (N.testbit C (N.of_nat c)) eqn:Tc.
    + fold (mem C c) in Tc. assert (Tm : mem C c) by exact Tc. clear Tc. rewrite Here, I2. clear Here I2.
      assert (No : ~ In (C, D) (als_list rest cs ds)). { rewrite (IH cs ds Hr Nd Sc Dr Sd C D). intros [_ [_ [A3 _]]]. destruct (A3 c Tm) as [Y | [Y _]]; [exact (Dc Y) | exact (Nc Y)]. }
      split.
      * intros [[-> [-> L]] | [[A1 [A2 [A3 [A4 [A5 [A6 A7]]]]]] | X]]; [ | | contradiction].
        -- split; [exact Sn | ]. split; [intros i Hi; apply Mn; left; exact Hi | ]. split; [intros i Hi; apply Mn in Hi; destruct Hi as [Hi | ->]; [left; exact Hi | right; split; [left; reflexivity | lia]] | ].
           split; [exists c; split; [exact Tm | exact Dc] | ]. split; [exact Sdn | ]. split; [ | exact L]. intros i. rewrite Md. split; intros [X | X]; try (left; exact X); [right; exists c; split; [exact Tm | split; [left; reflexivity | exact X]] | ].
           destruct X as [x [X1 [X2 X3]]]. apply Mn in X1. destruct X1 as [X1 | ->]; [exfalso; exact (Dj x X2 X1) | right; exact X3].
        -- split; [exact A1 | ]. split; [intros i Hi; apply A2, Mn; left; exact Hi | ]. split.
           { intros i Hi. destruct (A3 i Hi) as [X | [X Y]]; [apply Mn in X; destruct X as [X | ->]; [left; exact X | right; split; [left; reflexivity | lia]] | right; split; [right; exact X | exact Y]]. }
           split; [exists c; split; [exact Tm | exact Dc] | ]. split; [exact A5 | ]. split; [ | exact A7]. intros i. rewrite A6, Md. split.
           { intros [[X | X] | [x [X1 [X2 X3]]]]; [left; exact X | right; exists c; split; [exact Tm | split; [left; reflexivity | exact X]] | right; exists x; split; [exact X1 | split; [right; exact X2 | exact X3]]]. }
           { intros [X | [x [X1 [[<- | X2] X3]]]]; [left; left; exact X | left; right; exact X3 | right; exists x; auto]. }
      * intros [A1 [A2 [A3 [A4 [A5 [A6 A7]]]]]].
        assert (Sub : forall i, mem nc i -> mem C i) by (intros i Hi; apply Mn in Hi; destruct Hi as [Hi | ->]; [apply A2, Hi | exact Tm]).
        assert (Md' : forall i, mem D i <-> mem nd i \/ exists x, mem C x /\ In x rest /\ mem (P x) i).
        { intros i. rewrite A6, Md. split.
          - intros [X | [x [X1 [[<- | X2] X3]]]]; [left; left; exact X | left; right; exact X3 | right; exists x; auto].
          - intros [[X | X] | [x [X1 [X2 X3]]]]; [left; exact X | right; exists c; split; [exact Tm | split; [left; reflexivity | exact X]] | right; exists x; split; [exact X1 | split; [right; exact X2 | exact X3]]]. }
        destruct (existsb (fun i => N.testbit C (N.of_nat i)) rest) eqn:Ex.
        -- right. left. apply existsb_exists in Ex. destruct Ex as [x [Ix Tx]]. split; [exact A1 | ]. split; [exact Sub | ]. split.
           { intros i Hi. destruct (A3 i Hi) as [X | [[<- | X] Y]]; [left; apply Mn; left; exact X | left; apply Mn; right; reflexivity | right; split; assumption]. }
           split; [exists x; split; [exact Tx | apply Dn, Ix] | ]. split; [exact A5 | ]. split; [exact Md' | exact A7].
        -- left. assert (NoR : forall x, In x rest -> ~ mem C x). { intros x Ix Tx. assert (existsb (fun i => N.testbit C (N.of_nat i)) rest = true) by (apply existsb_exists; exists x; split; [exact Ix | exact Tx]). congruence. }
           assert (EC : C = nc). { apply mem_ext. intros i. split; [ | apply Sub]. intros Hi. apply Mn. destruct (A3 i Hi) as [X | [[<- | X] _]]; [left; exact X | right; reflexivity | destruct (NoR i X Hi)]. }
           assert (ED : D = nd). { apply mem_ext. intros i. rewrite Md'. split; [intros [X | [x [X1 [X2 _]]]]; [exact X | destruct (NoR x X2 X1)] | auto]. }
           split; [exact EC | ]. split; [exact ED | ]. rewrite <- EC, <- ED. exact A7.
    + assert (Tm : ~ mem C c) by (unfold mem; congruence). rewrite <- (Skip (or_introl Tm)). rewrite Here, I2. split; [ | auto].
      intros [[-> _] | [[_ [A2 _]] | X]]; [exfalso; apply Tm, Mn; right; reflexivity | exfalso; apply Tm, A2, Mn; right; reflexivity | exact X].
Qed.

Lemma als_list_nodup : forall cells cs ds, (forall c, In c cells -> c < 81) -> NoDup cells -> is_set ECell cs -> (forall c, In c cells -> ~ mem cs c) -> is_set EDigit ds -> NoDup (als_list cells cs ds).
Proof.
  induction cells as [ | c rest IH]; intros cs ds Hc Nd Sc Dj Sd; cbn [als_list]; [constructor | ].
  assert (H := Hc c (or_introl eq_refl)). apply NoDup_cons_iff in Nd. destruct Nd as [Nc Nd].
  assert (Hr : forall x, In x rest -> x < 81) by (intros x Hx; apply Hc; right; exact Hx). assert (Dr : forall x, In x rest -> ~ mem cs x) by (intros x Hx; apply Dj; right; exact Hx). assert (Dc := Dj c (or_introl eq_refl)).
  destruct (set_len (P c) <=? 1); [apply IH; assumption | ].
  set (nc := set_or cs (bitc c)) in *. set (nd := set_or ds (P c)) in *.
  assert (Mn : forall i, mem nc i <-> mem cs i \/ i = c) by (intros i; unfold nc; rewrite mem_or, bitc_mem by exact H; reflexivity).
  assert (Sn : is_set ECell nc) by (intros i Hi; apply Mn in Hi; destruct Hi as [Hi | ->]; [apply Sc, Hi | exact H]).
  assert (Sdn : is_set EDigit nd) by (intros i Hi; unfold nd in Hi; apply mem_or in Hi; destruct Hi as [Hi | Hi]; [apply Sd, Hi | apply (poss_digits c), Hi]).
  assert (Dn : forall x, In x rest -> ~ mem nc x) by (intros x Hx M; apply Mn in M; destruct M as [M | ->]; [exact (Dr x Hx M) | exact (Nc Hx)]).
  assert (NA : NoDup (als_list rest nc nd ++ als_list rest cs ds)).
  { assert (N1 := IH nc nd Hr Nd Sn Dn Sdn). assert (N2 := IH cs ds Hr Nd Sc Dr Sd). apply NoDup_app_2; [exact N1 | exact N2 | ]. intros [C D] I1 I2.
    apply (als_list_in rest nc nd Hr Nd Sn Dn Sdn) in I1. apply (als_list_in rest cs ds Hr Nd Sc Dr Sd) in I2. destruct I1 as [_ [A _]]. destruct I2 as [_ [_ [B _]]].
    destruct (B c (A c (proj2 (Mn c) (or_intror eq_refl)))) as [X | [X _]]; contradiction. }
  destruct (set_len nd =? set_len nc + 1); [ | exact NA]. cbn [app]. constructor; [ | exact NA]. rewrite in_app_iff. intros [X | X].
  - apply (als_list_in rest nc nd Hr Nd Sn Dn Sdn) in X. destruct X as [_ [_ [_ [[i [A B]] _]]]]. contradiction.
  - apply (als_list_in rest cs ds Hr Nd Sc Dr Sd) in X. destruct X as [_ [_ [B _]]]. destruct (B c (proj2 (Mn c) (or_intror eq_refl))) as [X | [X _]]; contradiction.
Qed.

(** * All houses *)

Definition house_walk (h : nat) (t : als_table) : res als_table :=
  m <- cells_of_house h; l <- set_iter ECell m; als_walk poss l (set_none ECell) (set_none EDigit) t h 0.

Lemma none_set e : is_set e (set_none e).
Proof. intros i Hi. destruct (mem_none e i Hi). Qed.

(** The list of a house *)
Lemma house_list h : h < 27 -> exists L, NoDup L /\
  (forall C D, In (C, D) L <-> is_set ECell C /\ is_set EDigit D /\ (forall c, mem C c -> in_house h c /\ 2 <= set_len (P c)) /\ (exists c, mem C c) /\
     (forall i, mem D i <-> exists c, mem C c /\ mem (P c) i) /\ set_len D = set_len C + 1) /\
  forall t, shape t -> exists t', house_walk h t = Ok t' /\ grown t t' h L.
Proof.
  intros Hh. destruct (house_cells_exact h Hh) as [m [Em [Sm Im]]]. destruct (iter_meaning ECell m Sm) as [l [El [_ [Nl Il]]]].
  assert (Hl : forall c, In c l -> c < 81) by (intros c Hc; apply Il, Im in Hc; apply Hc).
  assert (Dj : forall c, In c l -> ~ mem (set_none ECell) c) by (intros c _; apply mem_none).
  exists (als_list l (set_none ECell) (set_none EDigit)). split; [apply als_list_nodup; try assumption; apply none_set | ]. split.
  - intros C D. rewrite (als_list_in l _ _ Hl Nl (none_set _) Dj (none_set _)). split.
    + intros [A1 [_ [A3 [[i [A4 _]] [A5 [A6 A7]]]]]]. split; [exact A1 | ]. split; [exact A5 | ]. split.
      * intros c Hc. destruct (A3 c Hc) as [X | [X Y]]; [destruct (mem_none _ _ X) | ]. split; [apply Il, Im in X; apply X | exact Y].
      * split; [exists i; exact A4 | ]. split; [ | exact A7]. intros j. rewrite A6. split; [intros [X | [c [X [_ Z]]]]; [destruct (mem_none _ _ X) | exists c; auto] | ].
        intros [c [X Z]]. right. exists c. split; [exact X | ]. split; [ | exact Z]. destruct (A3 c X) as [W | [W _]]; [destruct (mem_none _ _ W) | exact W].
    + intros [A1 [A5 [A3 [[i A4] [A6 A7]]]]]. assert (Lc : forall c, mem C c -> In c l) by (intros c Hc; apply Il, Im; split; [exact (A1 c Hc) | apply A3, Hc]).
      split; [exact A1 | ]. split; [intros j Hj; destruct (mem_none _ _ Hj) | ]. split; [intros c Hc; right; split; [apply Lc, Hc | apply A3, Hc] | ].
      split; [exists i; split; [exact A4 | apply mem_none] | ]. split; [exact A5 | ]. split; [ | exact A7]. intros j. rewrite A6. split; [intros [c [X Z]]; right; exists c; auto | ].
      intros [X | [c [X [_ Z]]]]; [destruct (mem_none _ _ X) | exists c; auto].
  - intros t St. unfold house_walk. rewrite Em. cbn [bind]. rewrite El. cbn [bind]. apply walk_list; try assumption; try apply none_set.
    apply (len_meaning ECell _ []); [apply none_set | constructor | ]. intros i. split; [intros [] | intros X; destruct (mem_none _ _ X)].
Qed.

Definition exact_lists (t : als_table) (hs : list nat) : Prop := shape t /\ forall k h, k < 8 -> h < 27 ->
  (~ In h hs -> tget t k h = []) /\
  (In h hs -> NoDup (tget t k h) /\ forall C D, In (C, D) (tget t k h) <-> is_set ECell C /\ is_set EDigit D /\ set_len C = k + 1 /\
     (forall c, mem C c -> in_house h c /\ 2 <= set_len (P c)) /\ (forall i, mem D i <-> exists c, mem C c /\ mem (P c) i) /\ set_len D = set_len C + 1).

Lemma fold_houses : forall hs done t, (forall h, In h hs -> h < 27) -> NoDup (hs ++ done) -> exact_lists t done ->
  exists t', rfold house_walk hs t = Ok t' /\ exact_lists t' (hs ++ done).
Proof.
  induction hs as [ | h r IH]; intros done t Hh Nd Ex; cbn [rfold app]; [exists t; auto | ].
  cbn [app] in Nd. apply NoDup_cons_iff in Nd. destruct Nd as [Nh Nd]. assert (Hb := Hh h (or_introl eq_refl)).
  destruct (house_list h Hb) as [L [NL [IL W]]]. destruct Ex as [St Ex]. destruct (W t St) as [t1 [E1 [S1 G1]]]. rewrite E1. cbn [bind].
  assert (X1 : exact_lists t1 (h :: done)).
  { split; [exact S1 | ]. intros k h' Hk Hh'. rewrite (G1 k h' Hk Hh'). destruct (Nat.eqb_spec h' h) as [-> | Ne].
    - split; [intros Q; exfalso; apply Q; left; reflexivity | ]. intros _. rewrite (proj1 (Ex k h Hk Hb)) by (intros Q; apply Nh, in_or_app; right; exact Q). cbn [app].
      split; [apply NoDup_filter, NL | ]. intros C D. rewrite filter_In, IL. cbn [fst]. rewrite Nat.eqb_eq. split.
      + intros [[A1 [A2 [A3 [_ [A5 A6]]]]] A7]. auto 7.
      + intros [A1 [A2 [A3 [A4 [A5 A6]]]]]. split; [ | exact A3]. split; [exact A1 | ]. split; [exact A2 | ]. split; [exact A4 | ]. split; [ | auto].
        destruct (iter_meaning ECell C A1) as [l [_ [_ [Nl Il]]]]. assert (Ll := len_meaning ECell C l A1 Nl Il). destruct l as [ | x l]; [cbn [length] in Ll; lia | ]. exists x. apply Il. left. reflexivity.
    - rewrite app_nil_r. destruct (Ex k h' Hk Hh') as [B1 B2]. split.
      + intros Q. apply B1. intros Q'. apply Q. right. exact Q'.
      + intros [<- | Q]; [contradiction | ]. apply B2, Q. }
  destruct (IH (h :: done) t1) as [t2 [E2 X2]].
  - intros x Hx. apply Hh. right. exact Hx.
  - apply NoDup_remove_3; assumption.
  - exact X1.
  - exists t2. split; [exact E2 | ]. destruct X2 as [S2 X2]. split; [exact S2 | ]. intros k h' Hk Hh'. destruct (X2 k h' Hk Hh') as [C1 C2].
    split; intros Q; [apply C1 | apply C2].
    + intros Q'. apply Q. apply in_app_or in Q'. destruct Q' as [Q' | [<- | Q']]; [right; apply in_or_app; left; exact Q' | left; reflexivity | right; apply in_or_app; right; exact Q'].
    + destruct Q as [<- | Q]; [apply in_or_app; right; left; reflexivity | ]. apply in_app_or in Q. apply in_or_app. destruct Q as [Q | Q]; [left; exact Q | right; right; exact Q].
Qed.

(** * The meaning of the lists *)

Lemma size_len e m n : is_set e m -> (has_size (mem m) n <-> set_len m = n).
Proof.
  intros S. split.
  - intros [l [N [I <-]]]. apply (len_meaning e m l S N I).
  - intros <-. destruct (iter_meaning e m S) as [l [_ [_ [N I]]]]. exists l. split; [exact N | ]. split; [exact I | ]. symmetry. apply (len_meaning e m l S N I).
Qed.
Lemma nodup_map {A B} (f : A -> B) l : NoDup l -> (forall x y, In x l -> In y l -> f x = f y -> x = y) -> NoDup (map f l).
Proof.
  induction l as [ | a t IH]; cbn [map]; intros N J; [constructor | ]. apply NoDup_cons_iff in N. destruct N as [Na N]. constructor.
  - rewrite in_map_iff. intros [y [E Hy]]. apply J in E; [subst y; contradiction | right; exact Hy | left; reflexivity].
  - apply IH; [exact N | ]. intros x y Hx Hy. apply J; right; assumption.
Qed.
Lemma size_shift m n : has_size (fun d => 1 <= d /\ mem m (d - 1)) n <-> has_size (mem m) n.
Proof.
  split; intros [l [N [I L]]].
  - exists (map pred l). split; [apply nodup_map; [exact N | ]; intros x y Hx Hy E; apply I in Hx; apply I in Hy; lia | ]. split; [ | rewrite map_length; exact L].
    intros x. rewrite in_map_iff. split; [intros [y [<- Hy]]; apply I in Hy; rewrite <- Nat.sub_1_r; apply Hy | ]. intros Hx. exists (S x). split; [reflexivity | ]. apply I. split; [lia | ]. replace (S x - 1) with x by lia. exact Hx.
  - exists (map S l). split; [apply nodup_map; [exact N | ]; intros x y _ _ E; injection E; auto | ]. split; [ | rewrite map_length; exact L].
    intros x. rewrite in_map_iff. split; [intros [y [<- Hy]]; split; [lia | ]; replace (S y - 1) with y by lia; apply I, Hy | ]. intros [Hx Hm]. exists (x - 1). split; [lia | apply I, Hm].
Qed.
Lemma several c : 2 <= set_len (P c) <-> exists d d', d <> d' /\ marks poss c d /\ marks poss c d'.
Proof.
  assert (S := poss_digits c). destruct (iter_meaning EDigit (P c) S) as [l [_ [_ [N I]]]]. rewrite (len_meaning EDigit _ l S N I). unfold marks. split.
  - intros H. destruct l as [ | x [ | y l]]; cbn [length] in H; [lia | lia | ]. exists (x + 1), (y + 1). apply NoDup_cons_iff in N. destruct N as [Nx _].
    split; [intros E; apply Nx; left; lia | ]. replace (x + 1 - 1) with x by lia. replace (y + 1 - 1) with y by lia.
    split; (split; [lia | apply I]); [left; reflexivity | right; left; reflexivity].
  - intros [d [d' [Ne [[Hd A] [Hd' B]]]]]. apply I in A. apply I in B. destruct l as [ | x [ | y l]]; [destruct A | | cbn [length]; lia].
    destruct A as [A | []], B as [B | []]. lia.
Qed.

Theorem als_sets_exact : exists t, find_als_sets poss = Ok t /\ length t = 8 /\ (forall k, k < 8 -> length (nth k t []) = 27) /\
  forall k h, k < 8 -> h < 27 -> NoDup (nth h (nth k t []) []) /\
    forall C D, In (C, D) (nth h (nth k t []) []) <-> almost_locked (marks poss) h (k + 1) (mem C) (fun d => 1 <= d /\ mem D (d - 1)).
Proof.
  assert (H27 : forall h, In h (seq 0 27) <-> h < 27) by (intros h; rewrite in_seq; lia).
  destruct (fold_houses (seq 0 27) [] als_default) as [t [E [[L R] X]]].
  - intros h. apply H27.
  - rewrite app_nil_r. apply seq_NoDup.
  - split; [split; [reflexivity | ]; intros i Hi; unfold als_default; rewrite nth_repeat_in by exact Hi; reflexivity | ]. intros k h Hk Hh. split; [ | intros []]. intros _. unfold tget, als_default. rewrite nth_repeat_in by exact Hk. rewrite nth_repeat_in by exact Hh. reflexivity.
  - exists t. split; [exact E | ]. split; [exact L | ]. split; [exact R | ]. intros k h Hk Hh. destruct (X k h Hk Hh) as [_ Y]. destruct Y as [N Y]; [apply in_or_app; left; apply H27, Hh | ].
    unfold tget in N, Y. split; [exact N | ]. intros C D. rewrite Y. unfold almost_locked. rewrite size_shift. split.
    + intros [Sc [Sd [Lc [Hc [Hd Ld]]]]]. split; [intros c Mc; split; [exact (Sc c Mc) | ]; split; [apply Hc, Mc | ]; apply several, Hc, Mc | ]. split.
      * intros d. unfold marks. rewrite Hd. split; [intros [H1 [c [A B]]]; exists c; auto | intros [c [A [H1 B]]]; split; [exact H1 | exists c; auto]].
      * split; [apply (size_len ECell), Lc; exact Sc | apply (size_len EDigit); [exact Sd | lia]].
    + intros [A1 [A2 [A3 A4]]]. assert (Sc : is_set ECell C) by (intros c Mc; apply A1, Mc).
      assert (Hd : forall i, mem D i <-> exists c, mem C c /\ mem (P c) i).
      { intros i. specialize (A2 (i + 1)). unfold marks in A2. replace (i + 1 - 1) with i in A2 by lia. split.
        - intros Hi. destruct (proj1 A2) as [c [B1 [_ B2]]]; [split; [lia | exact Hi] | ]. exists c. auto.
        - intros [c [B1 B2]]. apply (proj2 A2). exists c. split; [exact B1 | ]. split; [lia | exact B2]. }
      assert (Sd : is_set EDigit D) by (intros i Hi; apply Hd in Hi; destruct Hi as [c [_ B]]; exact (poss_digits c i B)).
      apply (size_len ECell C _ Sc) in A3. apply (size_len EDigit D _ Sd) in A4.
      split; [exact Sc | ]. split; [exact Sd | ]. split; [exact A3 | ]. split; [intros c Mc; split; [apply A1, Mc | apply several, A1, Mc] | ]. split; [exact Hd | lia].
Qed.

(** * The search for pairs *)

Lemma rfold_unit {A} (f : A -> unit -> res unit) l : (forall x, In x l -> f x tt = Ok tt) -> rfold f l tt = Ok tt.
Proof. induction l as [ | a t IH]; intros H; cbn [rfold]; [reflexivity | ]. rewrite (H a (or_introl eq_refl)). cbn [bind]. apply IH. intros x Hx. apply H. right. exact Hx. Qed.
Lemma rfold_app' {A S} (f : A -> S -> res S) l l' : forall s, rfold f (l ++ l') s = (s <- rfold f l s; rfold f l' s).
Proof. induction l as [ | a t IH]; intros s; cbn [rfold app bind]; [reflexivity | ]. destruct (f a s); cbn [bind]; [apply IH | reflexivity..]. Qed.

Lemma cells_of_digit_ok d m : 1 <= d <= 9 -> is_set ECell m -> exists x, cells_of_digit poss d m = Ok x.
Proof.
  intros Hd Sm. unfold cells_of_digit, digit_as_index. destruct (as_set_total EDigit (d - 1)) as [b Eb]; [cbn [esize]; lia | ]. rewrite Eb. cbn [bind].
  destruct (iter_meaning ECell m Sm) as [l [El [_ [_ Il]]]]. rewrite El. cbn [bind]. assert (Hl : forall c, In c l -> c < 81) by (intros c Hc; apply Il in Hc; exact (Sm c Hc)). clear El Il.
  generalize (set_none ECell). induction l as [ | c t IH]; intros acc; cbn [rfold]; [eexists; reflexivity | ]. assert (Hc := Hl c (or_introl eq_refl)).
  rewrite (aget_ok poss c 0%N) by (destruct Wp; lia). cbn [bind]. destruct (set_overlaps EDigit (P c) b); [rewrite (bitc_ok c Hc) | ]; cbn [bind]; apply IH; intros x Hx; apply Hl; right; exact Hx.
Qed.
Lemma als_pair_ok x1 x2 : is_set ECell (fst x1) -> is_set EDigit (snd x1) -> is_set ECell (fst x2) -> als_pair poss x1 x2 = Ok tt.
Proof.
  intros S1 D1 S2. unfold als_pair. destruct (set_is_empty _); [reflexivity | ].
  destruct (digits_of_ok (set_and (snd x1) (snd x2))) as [l [El [_ Il]]]; [intros i Hi; apply mem_and in Hi; apply D1, Hi | ]. rewrite El. cbn [bind].
  apply rfold_unit. intros d Hd. apply Il in Hd. destruct Hd as [Hd _].
  destruct (cells_of_digit_ok d (fst x1) Hd S1) as [y1 E1]. destruct (cells_of_digit_ok d (fst x2) Hd S2) as [y2 E2]. rewrite E1. cbn [bind]. rewrite E2. cbn [bind]. destruct (set_overlaps ECell y1 y2); reflexivity.
Qed.

Theorem als_panics : find_als poss = Panic.
Proof.
  destruct als_sets_exact as [t [E [L [R X]]]]. unfold find_als. rewrite E. cbn [bind].
  assert (Q : forall k h x, k < 8 -> h < 27 -> In x (nth h (nth k t []) []) -> is_set ECell (fst x) /\ is_set EDigit (snd x)).
  { intros k h [C D] Hk Hh Hi. apply (proj2 (X k h Hk Hh)) in Hi. destruct Hi as [A1 [A2 _]]. cbn [fst snd]. split; [intros c Mc; apply A1, Mc | ].
    intros i Hi. specialize (A2 (i + 1)). unfold marks in A2. replace (i + 1 - 1) with i in A2 by lia. destruct (proj1 A2) as [c [_ [_ B]]]; [split; [lia | exact Hi] | ]. exact (poss_digits c i B). }
  change (seq 2 7) with (seq 2 6 ++ [8]). rewrite rfold_app'. rewrite rfold_unit.
  - cbn [bind rfold]. change (seq 1 8) with (1 :: seq 2 7). cbn [rfold bind]. unfold aget. rewrite (proj2 (nth_error_None t 8)) by lia. reflexivity.
  - intros k1 H1. apply in_seq in H1. apply rfold_unit. intros k2 H2. apply in_seq in H2.
    rewrite (aget_ok t k1 []) by lia. cbn [bind]. rewrite (aget_ok t k2 []) by lia. cbn [bind].
    assert (En : forall k h l, k < 8 -> In (h, l) (enumerate (nth k t [])) -> h < 27 /\ l = nth h (nth k t []) []).
    { intros k h l Hk Hi. unfold enumerate in Hi. apply (In_nth _ _ (0, [])) in Hi. destruct Hi as [j [Hj Ej]]. rewrite combine_length, seq_length, Nat.min_id in Hj.
      rewrite combine_nth in Ej by (rewrite seq_length; reflexivity). injection Ej as E1 E2. rewrite seq_nth in E1 by exact Hj. cbn [plus] in E1. subst j. rewrite R in Hj by exact Hk. split; [exact Hj | symmetry; exact E2]. }
    apply rfold_unit. intros [h1 l1] Hx. apply En in Hx; [ | lia]. destruct Hx as [Hh1 ->]. cbn [fst snd].
    apply rfold_unit. intros x1 Hx1. destruct (Q k1 h1 x1 ltac:(lia) Hh1 Hx1) as [Q1 Q2].
    apply rfold_unit. intros [h2 l2] Hx. apply filter_In in Hx. destruct Hx as [Hx _]. apply En in Hx; [ | lia]. destruct Hx as [Hh2 ->]. cbn [fst snd].
    apply rfold_unit. intros x2 Hx2. destruct (Q k2 h2 x2 ltac:(lia) Hh2 Hx2) as [Q3 Q4]. apply als_pair_ok; assumption.
Qed.
End Als.
