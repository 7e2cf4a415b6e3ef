(** Proofs about Canon: how many results the puzzles of one class have *)
From Coq Require Import List Arith NArith ZArith ZifyNat ZifyN ZifyBool Lia Bool Permutation.
From Verif Require Import Spec CanonSpec ShuffleSpec Solver Api Canon BitLemmas GridProofs GenProofs ApiProofs EquivProofs TransProofs CanonMain CanonApi RelateProofs ShuffleProofs CanonIdem.
Import ListNotations.

(** * Orbits and stabilizers *)

Lemma fibres_any {A} (f : A -> grid) (n : nat) : forall C l, NoDup C -> (forall x, In x l -> In (f x) C) -> (forall c, In c C -> length (filter (fun x => eqg (f x) c) l) = n) ->
  length l = length C * n.
Proof.
  induction C as [ | c C IH]; intros l NC I H.
  - destruct l as [ | x l]; [reflexivity | destruct (I x (or_introl eq_refl))].
  - inversion NC as [ | ? ? Nc NC']; subst. pose proof (filter_both (fun x => eqg (f x) c) l) as E.
    rewrite (H c (or_introl eq_refl)) in E. rewrite (IH (filter (fun x => negb (eqg (f x) c)) l) NC') in E.
    + cbn [length]. lia.
    + intros x Hx. apply filter_In in Hx. destruct Hx as [Hx Ex]. destruct (I x Hx) as [H' | H']; [ | exact H'].
      rewrite (proj2 (eqg_iff (f x) c) (eq_sym H')) in Ex. discriminate Ex.
    + intros c' Hc'. rewrite <- (H c' (or_intror Hc')). clear - Nc Hc'. induction l as [ | x l IHl]; [reflexivity | ]. cbn [filter].
      destruct (eqg (f x) c) eqn:E1; cbn [negb].
      * destruct (eqg (f x) c') eqn:E2; [ | exact IHl]. apply eqg_iff in E1, E2. exfalso. apply Nc. congruence.
      * cbn [filter]. destruct (eqg (f x) c'); cbn [length]; [f_equal | ]; exact IHl.
Qed.

(** [q] is fixed only by symmetries that fix [m]: its images under those have [n / j] elements. *)
Lemma orbit_count m q n j : wf_grid m -> wf_grid q -> (forall a, sym_ok a -> act a q = q -> act a m = m) -> automorphism_count m n -> automorphism_count q j ->
  exists k, exactly k (fun q' => exists b, sym_ok b /\ act b m = m /\ q' = act b q) /\ k * j = n.
Proof.
  intros Wm Wq F [lm [Nm [Im <-]]] [lq [Nq [Iq <-]]]. set (C := nodup (list_eq_dec Nat.eq_dec) (map (fun x => act x q) lm)).
  assert (IC : forall q', In q' C <-> exists b, sym_ok b /\ act b m = m /\ q' = act b q).
  { intros q'. unfold C. rewrite nodup_In, in_map_iff. split; [intros [b [<- Hb]]; apply Im in Hb; exists b; tauto | intros [b [Hb [Eb ->]]]; exists b; split; [reflexivity | apply Im; auto]]. }
  exists (length C). split; [exists C; split; [apply NoDup_nodup | split; [exact IC | reflexivity]] | ].
  symmetry. apply (fibres_any (fun x => act x q)).
  - apply NoDup_nodup.
  - intros x Hx. apply IC. apply Im in Hx. exists x. tauto.
  - intros c Hc. apply IC in Hc. destruct Hc as [b [Hb [Eb ->]]]. rewrite <- (map_length (scomp b) lq). apply Permutation_length. apply NoDup_Permutation.
    + apply NoDup_filter, Nm.
    + apply NoDup_map_inj; [ | exact Nq]. intros x y Hx Hy E. apply Iq in Hx, Hy. rewrite <- (proj1 (scomp_inv b x Hb (proj1 Hx))), E. apply scomp_inv; [exact Hb | apply Hy].
    + intros x. rewrite filter_In, eqg_iff, in_map_iff, Im. split.
      * intros [[Hx Ex] E]. assert (Hi := sinv_ok b Hb). exists (scomp (sinv b) x). split; [apply scomp_inv; assumption | ]. apply Iq. split; [apply scomp_ok; assumption | ].
        rewrite act_scomp by assumption. rewrite E. apply act_inv; assumption.
      * intros [y [<- Hy]]. apply Iq in Hy. destruct Hy as [Hy E]. rewrite !act_scomp by assumption. rewrite E, (F y Hy E), Eb. split; [split; [apply scomp_ok; assumption | reflexivity] | reflexivity].
Qed.

(** * The number of results *)

Lemma results_count p q n j : wf_grid p -> canonicalized p = Ok (Some (q, n)) -> automorphism_count p j ->
  exists k, exactly k (fun q' => exists p' n', equivalent p p' /\ canonicalized p' = Ok (Some (q', n'))) /\ k * j = n.
Proof.
  intros W E J. destruct (canonicalized_facts p q n W E) as [s [a [Ha [Eq [Es [Es' [M [Lm C]]]]]]]].
  assert (Wq : wf_grid q) by (subst q; apply act_wf; assumption). destruct (proj1 (solution_iff q _ Wq) Es') as [_ [So U]]. assert (Wm := solution_wf _ _ So).
  assert (Jq : automorphism_count q j) by (subst q; apply automorphism_count_act; assumption).
  destruct (orbit_count (act a s) q n j Wm Wq) as [k [[l [Nl [Il Ll]]] K]]; try assumption.
  { intros b Hb Fb. apply (unique_fixed b q); assumption. }
  exists k. split; [ | exact K]. exists l. split; [exact Nl | ]. split; [ | exact Ll]. intros q'. rewrite Il. symmetry. apply (results_orbit p q n (act a s) W E So q').
Qed.

(** One result for the whole class exactly if the puzzle has every symmetry of its solution. *)
Lemma one_result p q n : wf_grid p -> canonicalized p = Ok (Some (q, n)) ->
  ((forall p' q' n', equivalent p p' -> canonicalized p' = Ok (Some (q', n')) -> q' = q) <-> automorphism_count p n).
Proof.
  intros W E. destruct (class_size p W) as [j [_ [J _]]].
  destruct (results_count p q n j W E J) as [k [[l [Nl [Il Ll]]] K]].
  assert (Iq : In q l) by (apply Il; exists p, n; split; [apply equiv_refl, W | exact E]).
  assert (P : 1 <= j). { destruct J as [lj [_ [Ij <-]]]. destruct lj as [ | x lj]; [exfalso | cbn; lia]. apply (proj2 (Ij (Sym false (seq 0 9) (seq 0 9) (seq 1 9)))). split; [apply id_ok | apply act_id, W]. }
  split.
  - intros H. assert (L1 : length l <= length [q]) by (apply NoDup_incl_length; [exact Nl | intros x Hx; apply Il in Hx; destruct Hx as [p' [n' [H1 H2]]]; left; symmetry; exact (H p' x n' H1 H2)]).
    cbn [length] in L1. destruct l as [ | x [ | y l]]; [destruct Iq | | cbn [length] in L1; lia]. cbn [length] in Ll. subst k. rewrite Nat.mul_1_l in K. subst j. exact J.
  - intros A p' q' n' Eq E'. rewrite (automorphism_count_fun _ _ _ J A) in K, P. assert (K1 : k = 1) by nia. rewrite K1 in Ll.
    assert (Iq' : In q' l) by (apply Il; exists p', n'; auto). destruct l as [ | x [ | y l]]; [destruct Iq | | discriminate Ll]. destruct Iq as [<- | []]. destruct Iq' as [<- | []]. reflexivity.
Qed.
