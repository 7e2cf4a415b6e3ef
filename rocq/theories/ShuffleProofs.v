(** Proofs about the distribution of shuffled grids. *)
From Coq Require Import List Arith NArith ZArith Lia Bool Permutation.
From Verif Require Import Spec CanonSpec ShuffleSpec Solver Api Canon BitLemmas GridProofs GenProofs ApiProofs SymProofs EquivProofs TransProofs CanonMain CanonApi.
Import ListNotations.

(** * All choices *)

Lemma numbers_below : forall n, exists l, NoDup l /\ (forall p, In p l <-> (p < n)%N) /\ N.of_nat (length l) = n.
Proof.
  intros n. exists (map N.of_nat (seq 0 (N.to_nat n))). split; [ | split].
  - apply FinFun.Injective_map_NoDup; [intros a b E; lia | apply seq_NoDup].
  - intros p. rewrite in_map_iff. split.
    + intros [k [<- K]]. apply in_seq in K. lia.
    + intros P. exists (N.to_nat p). split; [lia | ]. apply in_seq. lia.
  - rewrite map_length, seq_length. lia.
Qed.


Lemma nodup_app {A} (l l' : list A) : NoDup l -> NoDup l' -> (forall x, In x l -> ~ In x l') -> NoDup (l ++ l').
Proof.
  intros Nl Nl' D. induction Nl as [ | a l Na Nl IH]; [exact Nl' | ]. cbn [app]. constructor.
  - rewrite in_app_iff. intros [H | H]; [exact (Na H) | exact (D a (or_introl eq_refl) H)].
  - apply IH. intros x Hx. apply D. right. exact Hx.
Qed.

Lemma nodup_prod {A B} (l : list A) (l' : list B) : NoDup l -> NoDup l' -> NoDup (list_prod l l').
Proof.
  intros Nl Nl'. induction Nl as [ | a l Na Nl IH]; [constructor | ]. cbn [list_prod]. apply nodup_app; [ | exact IH | ].
  - apply FinFun.Injective_map_NoDup; [intros x y E; congruence | exact Nl'].
  - intros [x y] H H'. apply in_map_iff in H. destruct H as [z [E _]]. injection E as <- _. apply in_prod_iff in H'. exact (Na (proj1 H')).
Qed.

(** All lists of length [k] over [l] *)
Fixpoint words {A} (l : list A) (k : nat) : list (list A) :=
  match k with O => [[]] | S k => map (fun p => fst p :: snd p) (list_prod l (words l k)) end.
Lemma words_spec {A} (l : list A) : NoDup l -> forall k, NoDup (words l k) /\ (forall w, In w (words l k) <-> length w = k /\ Forall (fun x => In x l) w) /\
  length (words l k) = length l ^ k.
Proof.
  intros Nl. induction k as [ | k [N [I L]]]; cbn [words].
  - split; [constructor; [intros [] | constructor] | ]. split; [ | reflexivity]. intros w. split.
    + intros [<- | []]. split; [reflexivity | constructor].
    + intros [E _]. destruct w; [left; reflexivity | discriminate E].
  - split; [ | split].
    + apply FinFun.Injective_map_NoDup; [intros [a x] [b y] E; cbn [fst snd] in E; congruence | apply nodup_prod; assumption].
    + intros w. rewrite in_map_iff. split.
      * intros [[a x] [<- H]]. apply in_prod_iff in H. destruct H as [Ha Hx]. apply I in Hx. cbn [fst snd length]. split; [f_equal; apply Hx | constructor; [exact Ha | apply Hx]].
      * intros [E F]. destruct w as [ | a x]; [discriminate E | ]. exists (a, x). split; [reflexivity | ]. apply in_prod_iff. inversion F; subst. split; [assumption | ].
        apply I. split; [injection E as E; exact E | assumption].
    + rewrite map_length, prod_length, L. reflexivity.
Qed.

Lemma draws_listed : exists D : list draw, NoDup D /\ (forall x, In x D <-> fair x) /\ N.of_nat (length D) = 1218998108160%N.
Proof.
  destruct (numbers_below 362880) as [lp [Np [Ip Lp]]]. destruct (words_spec (seq 0 6) (seq_NoDup 6 0) 8) as [Nw [Iw Lw]].
  assert (Nb : NoDup [false; true]) by (repeat constructor; cbn [In]; intuition discriminate).
  exists (list_prod (list_prod lp [false; true]) (words (seq 0 6) 8)). split; [ | split].
  - apply nodup_prod; [apply nodup_prod; assumption | exact Nw].
  - intros [[p b] w]. unfold fair, draw. cbn [fst snd]. rewrite !in_prod_iff, Ip, Iw.
    assert (B : In b [false; true]) by (destruct b; cbn [In]; auto).
    assert (F : Forall (fun x => In x (seq 0 6)) w <-> Forall (fun x => x < 6) w).
    { rewrite !Forall_forall. split; intros H x Hx; specialize (H x Hx); [apply in_seq in H; lia | apply in_seq; lia]. }
    tauto.
  - unfold draw. rewrite !prod_length, Lw, !Nat2N.inj_mul, Lp, seq_length, Nat2N.inj_pow. reflexivity.
Qed.

(** * Choices and symmetries *)

Definition choice_sym (x : draw) : sym :=
  match trans_random (fst (fst x)) (snd (fst x)) (nth_rng (snd x)) with Ok t => sym_of t | _ => Sym false [] [] [] end.

Lemma choice_random x : exists t, trans_random (fst (fst x)) (snd (fst x)) (nth_rng (snd x)) = Ok t /\ trans_ok t /\ choice_sym x = sym_of t.
Proof. destruct (random_ok (fst (fst x)) (snd (fst x)) (nth_rng (snd x))) as [t [E T]]. exists t. unfold choice_sym. rewrite E. auto. Qed.

Lemma choice_ok x : sym_ok (choice_sym x).
Proof. destruct (choice_random x) as [t [_ [T ->]]]. apply sym_of_ok. exact T. Qed.

Lemma choice_shuffle g x : wf_grid g -> shuffle g (fst (fst x)) (snd (fst x)) (nth_rng (snd x)) = Ok (act (choice_sym x) g).
Proof. intros Hg. destruct (choice_random x) as [t [E [T ->]]]. unfold shuffle. rewrite E. cbn [bind]. apply trans_apply_act; assumption. Qed.

Lemma choice_surj s : sym_ok s -> exists x, fair x /\ choice_sym x = s.
Proof.
  intros Hs. destruct (random_bijective s Hs) as [p [b [w [[Hp [Hl [Hf [t [E Es]]]]] _]]]]. exists (p, b, w). split; [split; [exact Hp | split; [exact Hl | exact Hf]] | ].
  unfold choice_sym. cbn [fst snd]. rewrite E. exact Es.
Qed.

Lemma choice_inj x y : fair x -> fair y -> choice_sym x = choice_sym y -> x = y.
Proof.
  intros [X1 [X2 X3]] [Y1 [Y2 Y3]] E. destruct (random_bijective (choice_sym x) (choice_ok x)) as [p [b [w [_ U]]]].
  assert (H : forall z, fair z -> choice_sym z = choice_sym x -> z = (p, b, w)).
  { intros [[p' b'] w'] [Z1 [Z2 Z3]] Ez. cbn [fst snd] in *. destruct (choice_random (p', b', w')) as [t [Et [_ Es]]].
    destruct (U p' b' w' Z1 Z2 Z3) as [-> [-> ->]]; [ | reflexivity]. exists t. split; [exact Et | congruence]. }
  rewrite (H x), (H y); [reflexivity | split; auto | congruence | split; auto | reflexivity].
Qed.

(** * Cosets *)

Lemma filter_both {A} (f : A -> bool) l : length (filter f l) + length (filter (fun x => negb (f x)) l) = length l.
Proof. induction l as [ | x l IH]; [reflexivity | ]. cbn [filter]. destruct (f x); cbn [negb length]; lia. Qed.

Section Cosets.
Variables (g : grid) (D : list draw).
Hypotheses (Hg : wf_grid g) (ND : NoDup D) (ID : forall x, In x D <-> fair x).

Definition eqg (a b : grid) : bool := if list_eq_dec Nat.eq_dec a b then true else false.
Lemma eqg_iff a b : eqg a b = true <-> a = b.
Proof. unfold eqg. destruct (list_eq_dec Nat.eq_dec a b); split; congruence. Qed.

Definition hits (g' : grid) : list draw := filter (fun x => eqg (act (choice_sym x) g) g') D.
Lemma hits_in g' x : In x (hits g') <-> fair x /\ act (choice_sym x) g = g'.
Proof. unfold hits. rewrite filter_In, ID, eqg_iff. reflexivity. Qed.
Lemma hits_nodup g' : NoDup (hits g').
Proof. apply NoDup_filter. exact ND. Qed.
Lemma hits_syms g' : NoDup (map choice_sym (hits g')) /\ forall s, In s (map choice_sym (hits g')) <-> sym_ok s /\ act s g = g'.
Proof.
  split.
  - apply NoDup_map_inj; [ | apply hits_nodup]. intros x y Hx Hy. apply hits_in in Hx, Hy. apply choice_inj; [apply Hx | apply Hy].
  - intros s. rewrite in_map_iff. split.
    + intros [x [<- Hx]]. apply hits_in in Hx. split; [apply choice_ok | apply Hx].
    + intros [Hs E]. destruct (choice_surj s Hs) as [x [Fx Ex]]. exists x. split; [exact Ex | ]. apply hits_in. split; [exact Fx | rewrite Ex; exact E].
Qed.

Lemma hits_le s a : sym_ok s -> length (hits a) <= length (hits (act s a)).
Proof.
  intros Hs. rewrite <- (map_length choice_sym (hits a)), <- (map_length choice_sym (hits (act s a))).
  destruct (hits_syms a) as [Na Ia]. destruct (hits_syms (act s a)) as [Nb Ib].
  rewrite <- (map_length (scomp s)). apply NoDup_incl_length.
  - apply NoDup_map_inj; [ | exact Na]. intros x y Hx Hy E. apply Ia in Hx, Hy.
    rewrite <- (proj1 (scomp_inv s x Hs (proj1 Hx))), E. apply scomp_inv; [exact Hs | apply Hy].
  - intros y Hy. apply in_map_iff in Hy. destruct Hy as [x [<- Hx]]. apply Ia in Hx. destruct Hx as [Hx E]. apply Ib. split; [apply scomp_ok; assumption | ].
    rewrite act_scomp by assumption; rewrite E. reflexivity.
Qed.

Lemma hits_same s : sym_ok s -> length (hits (act s g)) = length (hits g).
Proof.
  intros Hs. apply Nat.le_antisymm; [ | apply hits_le; exact Hs].
  rewrite <- (act_inv s g Hs Hg) at 2. apply hits_le. apply sinv_ok. exact Hs.
Qed.

Lemma hits_automorphisms : automorphism_count g (length (hits g)).
Proof. exists (map choice_sym (hits g)). destruct (hits_syms g) as [N I]. split; [exact N | split; [exact I | apply map_length]]. Qed.

(** The class of [g], and its size *)
Definition class : list grid := nodup (list_eq_dec Nat.eq_dec) (map (fun x => act (choice_sym x) g) D).
Lemma class_in g' : In g' class <-> equivalent g g'.
Proof.
  unfold class. rewrite nodup_In, in_map_iff. split.
  - intros [x [<- _]]. exists (choice_sym x). split; [apply choice_ok | reflexivity].
  - intros [s [Hs <-]]. destruct (choice_surj s Hs) as [x [Fx Ex]]. exists x. split; [rewrite Ex; reflexivity | apply ID; exact Fx].
Qed.

Lemma fibres (f : draw -> grid) (n : nat) : forall C l, NoDup C -> (forall x, In x l -> In (f x) C) -> (forall c, In c C -> length (filter (fun x => eqg (f x) c) l) = n) ->
  length l = length C * n.
Proof.
  induction C as [ | c C IH]; intros l NC I H.
  - destruct l as [ | x l]; [reflexivity | destruct (I x (or_introl eq_refl))].
  - inversion NC as [ | ? ? Nc NC']; subst. pose proof (filter_both (fun x => eqg (f x) c) l) as E.
    rewrite (H c (or_introl eq_refl)) in E. rewrite (IH (filter (fun x => negb (eqg (f x) c)) l) NC') in E.
    + cbn [length]. lia.
    + intros x Hx. apply filter_In in Hx. destruct Hx as [Hx Ex]. destruct (I x Hx) as [H' | H']; [ | exact H'].
      rewrite (proj2 (eqg_iff (f x) c) (eq_sym H')) in Ex. discriminate Ex.
    + intros c' Hc'. rewrite <- (H c' (or_intror Hc')). clear - Nc Hc'. induction l as [ | x l IHl]; [reflexivity | ]. cbn [filter].
      destruct (eqg (f x) c) eqn:E1; cbn [negb].
      * destruct (eqg (f x) c') eqn:E2; [ | exact IHl]. apply eqg_iff in E1, E2. exfalso. apply Nc. congruence.
      * cbn [filter]. destruct (eqg (f x) c'); cbn [length]; [f_equal | ]; exact IHl.
Qed.

Lemma class_hits : length D = length class * length (hits g).
Proof.
  apply (fibres (fun x => act (choice_sym x) g)).
  - apply NoDup_nodup.
  - intros x Hx. apply class_in. exists (choice_sym x). split; [apply choice_ok | reflexivity].
  - intros c Hc. apply class_in in Hc. destruct Hc as [s [Hs <-]]. exact (hits_same s Hs).
Qed.
End Cosets.

(** * Results *)

Lemma ok_inj {A} (a b : A) : Ok a = Ok b -> a = b.
Proof. congruence. Qed.

Lemma shuffle_uniform g n g' : wf_grid g -> automorphism_count g n -> equivalent g g' ->
  exactly n (fun x : draw => fair x /\ shuffle g (fst (fst x)) (snd (fst x)) (nth_rng (snd x)) = Ok g').
Proof.
  intros Hg An [s [Hs <-]]. destruct draws_listed as [D [ND [ID _]]].
  rewrite (automorphism_count_fun g n _ An (hits_automorphisms g D ND ID)).
  exists (hits g D (act s g)). split; [apply hits_nodup; exact ND | ]. split.
  - intros x. rewrite (hits_in g D ID). rewrite choice_shuffle by exact Hg.
    split; intros [F E]; (split; [exact F | ]); [rewrite E; reflexivity | exact (ok_inj _ _ E)].
  - exact (hits_same g D Hg ND ID s Hs).
Qed.

Lemma class_size g : wf_grid g -> exists n m, automorphism_count g n /\ exactly m (equivalent g) /\ (N.of_nat m * N.of_nat n = 1218998108160)%N.
Proof.
  intros Hg. destruct draws_listed as [D [ND [ID LD]]]. exists (length (hits g D g)), (length (class g D)).
  split; [exact (hits_automorphisms g D ND ID) | ]. split.
  - exists (class g D). split; [apply NoDup_nodup | ]. split; [ | reflexivity]. exact (class_in g D ID).
  - rewrite <- Nat2N.inj_mul. rewrite <- (class_hits g D Hg ND ID). exact LD.
Qed.
