(** Lists of deductions: concatenation, and more eliminations known at first. *)
From Coq Require Import List Arith NArith Bool Lia.
From Verif Require Import Spec TableSpec GeomSpec Solver Geom Gen Strat StratSolve StratUse StratWhy.
Import ListNotations.

Definition same (f g : facts) : Prop := forall c d, f c d <-> g c d.
Definition below (f g : facts) : Prop := forall c d, f c d -> g c d.

Lemma possible_mono pl pl' el el' c d : below pl pl' -> below el el' -> possible pl' el' c d -> possible pl el c d.
Proof. intros H1 H2 [A [B [N V]]]. split; [exact A | ]. split; [exact B | ]. split; [intros Q; apply N, H2, Q | ]. intros c' d' Q. apply V, H1, Q. Qed.

Lemma why_mono pl pl' el el' S z : same pl pl' -> below el el' -> why pl el S z -> why pl' el' S z.
Proof.
  intros H1 H2. assert (H3 : forall c d, possible pl' el' c d -> possible pl el c d) by (intros c d; apply possible_mono; [intros c' d'; apply H1 | exact H2]).
  assert (Va : forall c, vacant pl c -> vacant pl' c) by (intros c V d Q; apply (V d), H1, Q).
  assert (Ab : forall h d, absent pl h d -> absent pl' h d) by (intros h d V c Ic Q; apply (V c Ic), H1, Q).
  destruct z as [[c d] | [c d] t | d m p cs | h ps ds cs | d ls ps cs | d b cv cs | hi hd pi cs | ln cs]; cbn [why].
  - intros [E [A [B [V Q]]]]. auto 10.
  - intros [E [A [B [C [D [V [V' Q]]]]]]]. auto 12.
  - intros [E [A [B [C [V [Q R]]]]]]. auto 12.
  - intros [A [B [C [D Q]]]]. repeat (split; [assumption | ]). destruct S; try contradiction; destruct Q as [Q1 [Q2 Q3]]; (split; [ | split; [ | exact Q3]]); eauto.
  - intros [A [B [C [D [E [rows [Q1 [Q2 Q3]]]]]]]]. repeat (split; [assumption | ]). exists rows. split; [ | split; [ | exact Q3]].
    + intros l Hl. destruct (Q1 l Hl). auto.
    + intros l c Hl Ic Q. eauto.
  - intros [].
  - intros [A [B [C [c1 [c2 [x [y [z Q]]]]]]]]. repeat (split; [assumption | ]). exists c1, c2, x, y, z. 
    destruct Q as [Q1 [Q2 [Q3 [Q4 [Q5 [Q6 [Q7 [Q8 [Q9 [Q10 [Q11 [Q12 [Q13 [Q14 [Q15 [Q16 Q17]]]]]]]]]]]]]]]]. repeat (split; [auto; fail | ]). exact Q17.
  - intros [].
Qed.

Lemma and_places_same pl pl' z : same pl pl' -> same (and_places pl z) (and_places pl' z).
Proof. intros H c d. unfold and_places. rewrite (H c d). reflexivity. Qed.
Lemma and_removes_below el el' z : below el el' -> below (and_removes el z) (and_removes el' z).
Proof. intros H c d [Q | Q]; [left; apply H, Q | right; exact Q]. Qed.

Lemma explained_mono l : forall r pl pl' el el', same pl pl' -> below el el' -> explained l pl el r -> explained l pl' el' r.
Proof.
  induction r as [ | z r IH]; intros pl pl' el el' H1 H2; cbn [explained]; [auto | ]. intros [[S0 [Hi [Es Q]]] E]. split.
  - exists S0. split; [exact Hi | ]. split; [exact Es | ]. apply (why_mono pl pl' el el'); assumption.
  - apply (IH _ _ _ _ (and_places_same _ _ z H1) (and_removes_below _ _ z H2) E).
Qed.

Lemma explained_incl l l' : incl l l' -> forall r pl el, explained l pl el r -> explained l' pl el r.
Proof.
  intros In_. induction r as [ | z r IH]; intros pl el; cbn [explained]; [auto | ]. intros [[S0 [Hi Q]] E]. split; [exists S0; auto | apply IH, E].
Qed.

Lemma all_places_cons pl z r : same (all_places (and_places pl z) r) (all_places pl (z :: r)).
Proof.
  intros c d. unfold all_places, and_places. split.
  - intros [[Q | Q] | [y [Hy Q]]]; [left; exact Q | right; exists z; split; [left; reflexivity | exact Q] | right; exists y; split; [right; exact Hy | exact Q]].
  - intros [Q | [y [[<- | Hy] Q]]]; [left; left; exact Q | left; right; exact Q | right; exists y; auto].
Qed.
Lemma all_removes_cons el z r : same (all_removes (and_removes el z) r) (all_removes el (z :: r)).
Proof.
  intros c d. unfold all_removes, and_removes. split.
  - intros [[Q | Q] | [y [Hy Q]]]; [left; exact Q | right; exists z; split; [left; reflexivity | exact Q] | right; exists y; split; [right; exact Hy | exact Q]].
  - intros [Q | [y [[<- | Hy] Q]]]; [left; left; exact Q | left; right; exact Q | right; exists y; auto].
Qed.
Lemma all_places_nil pl : same (all_places pl []) pl.
Proof. intros c d. unfold all_places. split; [intros [Q | [z [[] _]]]; exact Q | auto]. Qed.
Lemma all_removes_nil el : same (all_removes el []) el.
Proof. intros c d. unfold all_removes. split; [intros [Q | [z [[] _]]]; exact Q | auto]. Qed.
Lemma same_sym f g : same f g -> same g f.
Proof. intros H c d. symmetry. apply H. Qed.
Lemma same_below f g : same f g -> below f g.
Proof. intros H c d. apply H. Qed.

Lemma explained_app l : forall r1 r2 pl el, explained l pl el r1 -> explained l (all_places pl r1) (all_removes el r1) r2 -> explained l pl el (r1 ++ r2).
Proof.
  induction r1 as [ | z r1 IH]; intros r2 pl el; cbn [explained app].
  - intros _ Q. apply (explained_mono l r2 _ _ _ _ (all_places_nil pl) (same_below _ _ (all_removes_nil el)) Q).
  - intros [Q E] E2. split; [exact Q | ]. apply (IH r2 _ _ E).
    apply (explained_mono l r2 _ _ _ _ (same_sym _ _ (all_places_cons pl z r1)) (same_below _ _ (same_sym _ _ (all_removes_cons el z r1))) E2).
Qed.

(** Deductions that place nothing and follow from what was known at first *)
Lemma explained_each l pl el : forall r, (forall z, In z r -> (exists S, In S l /\ ded_strategy z = Ok S /\ why pl el S z) /\ forall c d, ~ places z c d) -> explained l pl el r.
Proof.
  intros r H. cut (forall el', below el el' -> explained l pl el' r); [intros X; apply X; intros c d Q; exact Q | ].
  induction r as [ | z r IH]; intros el' B; cbn [explained]; [exact I | ]. destruct (H z (or_introl eq_refl)) as [[S0 [Hi [Es Q]]] Np]. split.
  - exists S0. split; [exact Hi | ]. split; [exact Es | ]. apply (why_mono pl pl el el'); [intros c d; reflexivity | exact B | exact Q].
  - assert (X : explained l pl (and_removes el' z) r) by (apply IH; [intros y Hy; apply H; right; exact Hy | intros c d X; left; apply B, X]).
    refine (explained_mono l r _ _ _ _ _ _ X); [ | intros c d Q'; exact Q']. intros c d. unfold and_places. split; [auto | intros [Y | Y]; [exact Y | destruct (Np c d Y)]].
Qed.

(** The entries and eliminations of a list as facts *)
Definition listed (l : list (nat * nat)) : facts := fun c d => In (c, d) l.
