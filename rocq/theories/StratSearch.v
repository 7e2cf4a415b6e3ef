(** The searches of the strategy solver on any caches of the right shape: no panic, and what they eliminate was not eliminated
    before. *)
From Coq Require Import List Arith NArith ZArith ZifyNat ZifyN ZifyBool Lia Bool.
From Verif Require Import Spec TableSpec GeomSpec Solver Bits Geom Gen BitLemmas GridProofs BitsProofs GeomProofs GenProofs Strat StratFind StratSolve StratUse StratWhy StratInv StratPos StratFound StratWalk StratWing StratMutant StratCall StratPush ShowStrat StratTotal.
Import ListNotations.
Ltac Zify.zify_post_hook ::= Z.to_euclidean_division_equations.

(** A candidate that has not been eliminated *)
Definition unseen (st : strat) (x : cand) : Prop := fst x < 81 /\ 1 <= snd x <= 9 /\ ~ In x (s_elims st).
(** Every deduction can be read, and the strategy that made it can be told. *)
Definition readable (elims : list cand) (ds : list (deduction range)) : Prop := forall x, In x ds -> exists y S0, with_slices elims x = Ok y /\ ded_strategy y = Ok S0.
(** [st] is [st0] with further eliminations. *)
Definition more (st0 st : strat) : Prop := exists el ds,
  st = set_deds (set_elims st0 (s_elims st0 ++ el)) (s_deds st0 ++ ds) /\ (forall x, In x el -> unseen st0 x) /\ readable (s_elims st0 ++ el) ds.

Lemma more_refl st : more st st.
Proof. exists [], []. rewrite !app_nil_r. split; [destruct st; reflexivity | ]. split; intros x []. Qed.
Lemma enter_more st0 st cs mk : more st0 st -> (forall x, In x cs -> unseen st0 x) -> (forall l r, cs <> [] -> slice l r = Ok cs -> exists y S0, with_slices l (mk r) = Ok y /\ ded_strategy y = Ok S0) ->
  okb (Ok (enter_conflicts st cs mk)) (more st0) (more st0).
Proof.
  intros [el [ds [E [U R]]]] Uc Mk. unfold enter_conflicts.
  assert (Ee : s_elims st = s_elims st0 ++ el) by (rewrite E; reflexivity). assert (Ed : s_deds st = s_deds st0 ++ ds) by (rewrite E; reflexivity).
  destruct cs as [ | x t].
  - rewrite app_nil_r, Nat.sub_diag. cbn [Nat.ltb Nat.leb okb]. exists el, ds. split; [rewrite E; reflexivity | auto].
  - set (cs := x :: t) in *. rewrite app_length. replace (length (s_elims st) + length cs - length (s_elims st)) with (length t + 1) by (cbn [cs length]; lia). rewrite Nat.add_1_r.
    cbn [Nat.ltb Nat.leb okb]. exists (el ++ cs), (ds ++ [mk (length (s_elims st), length (s_elims st) + length cs)]). split; [rewrite E; cbn [s_elims s_deds set_elims set_deds]; rewrite !app_assoc; reflexivity | ].
    split; [intros y Hy; apply in_app_iff in Hy; destruct Hy as [Hy | Hy]; auto | ].
    intros y Hy. rewrite app_assoc. apply in_app_iff in Hy. destruct Hy as [Hy | [<- | []]]; [destruct (R y Hy) as [z [S0 [Ez Es]]]; exists z, S0; split; [apply slices_app, Ez | exact Es] | ].
    apply Mk; [discriminate | ]. unfold slice. cbn [fst snd]. rewrite <- Ee. rewrite (proj2 (Nat.leb_le _ _)) by lia. cbn [andb].
    rewrite (proj2 (Nat.leb_le _ _)) by (rewrite app_length; lia). f_equal.
    rewrite skipn_app, skipn_all, Nat.sub_diag. cbn [app skipn]. replace (length (s_elims st) + length cs - length (s_elims st)) with (length cs) by lia. apply firstn_all.
Qed.

(** * Walks *)

Section Walks.
Variables (I : strat -> Prop) (stop : bool) (size : nat).

Definition calm (f : strat -> res (strat * bool)) : Prop := forall st, I st -> okb (f st) I I.

Lemma calm_seq (r : res (strat * bool)) f : okb r I I -> (forall s, I s -> okb (f s) I I) -> okb (x <- r; if snd x then Ok (fst x, true) else f (fst x)) I I.
Proof. destruct r as [[s [ | ]] | | | ]; cbn; auto. Qed.
Lemma calm_on (r : res (strat * bool)) f : okb r I I -> (forall s, I s -> okb (f s) I I) -> okb (x <- r; if snd x && stop then Ok (fst x, true) else f (fst x)) I I.
Proof. destruct r as [[s [ | ]] | | | ]; cbn; auto. destruct stop; cbn; auto. Qed.
Lemma calm_ctl (r : res (strat * bool)) c : okb r I I -> okc (x <- r; Ok (fst x, stop_if (c (snd x)))) I I (fun _ => False).
Proof. destruct r as [[s [ | ]] | | | ]; cbn; try tauto; [destruct (c true) | destruct (c false)]; cbn; auto. Qed.
Lemma calm_end (r : res (strat * ctl)) : okc r I I (fun _ => False) -> hp (finish r) I (fun _ => False).
Proof. intros H. eapply hp_impl; [apply (finish_rule _ _ _ _ H) | intros s [Q | Q]; exact Q | auto]. Qed.

Lemma naked_walk_calm st0 on h : W st0 -> h < 27 -> (forall F T, is_set EPosHouse F -> is_set EDigit T -> set_len F = size -> calm (on h F T)) ->
  forall positions pset total st, (forall p, In p positions -> p < 9) -> is_set EPosHouse pset -> is_set EDigit total -> I st ->
  okb (naked_walk (s_cell st0) h size stop on positions pset total st) I I.
Proof.
  intros w Hh Cb. induction positions as [ | p t IH]; intros pset total st Hp Sp St Hs; cbn [naked_walk]; [exact Hs | ].
  assert (Lp : p < 9) by (apply Hp; left; reflexivity). assert (Hp' : forall q, In q t -> q < 9) by (intros q Hq; apply Hp; right; exact Hq).
  destruct (cell_at_ok h p Hh Lp) as [E [Lc _]]. rewrite E. cbn [bind]. rewrite (aget_ok _ _ 0%N) by (rewrite (w_lp _ w); exact Lc). cbn [bind].
  fold (P st0 (cell_at h p)). destruct (set_is_empty (P st0 (cell_at h p))); [apply IH; assumption | ].
  destruct (as_set_total EPosHouse p Lp) as [ps Eps]. rewrite Eps. cbn [bind].
  assert (Sp' : is_set EPosHouse (set_or pset ps)) by (intros q Hq; rewrite mem_or, (mem_single _ _ _ _ Eps) in Hq; destruct Hq as [Hq | ->]; [apply Sp, Hq | exact Lp]).
  assert (St' : is_set EDigit (set_or total (P st0 (cell_at h p)))) by (intros q Hq; rewrite mem_or in Hq; destruct Hq as [Hq | Hq]; [apply St, Hq | apply (w_p _ w _ Lc), Hq]).
  apply calm_seq; [ | intros s Hs'; apply IH; assumption]. unfold naked_enter.
  destruct (size <? set_len (set_or pset ps)); [exact Hs | ]. destruct (_ && _) eqn:En; [ | apply IH; assumption]. apply andb_true_iff in En. rewrite !Nat.eqb_eq in En. destruct En as [En1 En2].
  apply calm_on; [apply Cb; assumption | ]. intros s Hs'. apply IH; assumption.
Qed.

Lemma find_naked_sub_calm st0 on st : W st0 -> (forall h F T, h < 27 -> is_set EPosHouse F -> is_set EDigit T -> set_len F = size -> calm (on h F T)) -> I st ->
  hp (find_naked_sub (s_cell st0) (s_house st0) size stop on st) I (fun _ => False).
Proof.
  intros w Cb Hs. apply calm_end. apply for_ctl_inv; [ | exact Hs]. clear st Hs. intros h st Hh Hs. apply in_seq in Hh. assert (Lh : h < 27) by lia.
  unfold house_get. rewrite (aget_ok _ _ 0%N) by (rewrite (w_lh _ w); exact Lh). cbn [bind]. destruct (set_is_full EDigit _); [exact Hs | ].
  rewrite (iter_exact EPosHouse) by apply is_set_all. cbn [bind]. apply (calm_ctl _ (fun b => b)).
  assert (R : forall s, I s -> okb (naked_walk (s_cell st0) h size stop on (members EPosHouse (set_all EPosHouse)) (set_none EPosHouse) (set_none EDigit) s) I I).
  { intros s Q. apply naked_walk_calm; try assumption.
    - intros F T A B Ln. apply Cb; assumption.
    - intros p Hp. apply members_in in Hp; [ | apply is_set_all]. apply mem_all in Hp. exact Hp.
    - intros p X. destruct (mem_none _ _ X).
    - intros p X. destruct (mem_none _ _ X). }
  unfold naked_enter. destruct (_ <? _); [exact Hs | ]. destruct (_ && _) eqn:En; [ | apply R, Hs]. apply andb_true_iff in En. rewrite !Nat.eqb_eq in En. destruct En as [En1 En2].
  apply calm_on; [ | exact R]. apply Cb; [exact Lh | intros p X; destruct (mem_none _ _ X) | intros p X; destruct (mem_none _ _ X) | assumption | exact Hs].
Qed.

Lemma hidden_walk_calm pos on h : Pw pos -> h < 27 -> (forall F T, is_set EDigit F -> is_set EPosHouse T -> set_len T = size -> calm (on h F T)) ->
  forall digits dset total st, (forall d, In d digits -> 1 <= d <= 9) -> is_set EDigit dset -> is_set EPosHouse total -> I st ->
  okb (hidden_walk (nth h pos []) h size stop on digits dset total st) I I.
Proof.
  intros w Hh Cb. induction digits as [ | d t IH]; intros dset total st Hd' Sd St Hs; cbn [hidden_walk]; [exact Hs | ].
  assert (Ld : 1 <= d <= 9) by (apply Hd'; left; reflexivity). assert (Hd2 : forall q, In q t -> 1 <= q <= 9) by (intros q Hq; apply Hd'; right; exact Hq).
  unfold digit_as_index. rewrite (aget_ok _ _ 0%N) by (rewrite (pw_r _ w h Hh); lia). cbn [bind]. fold (pm pos h d). assert (Sc := pw_s _ w h d Hh Ld).
  destruct (set_is_empty (pm pos h d)); [apply IH; assumption | ].
  destruct (digit_set_ok d Ld) as [ds [Eds [_ Mds]]]. rewrite Eds. cbn [bind].
  assert (Sd' : is_set EDigit (set_or dset ds)) by (intros q Hq; rewrite mem_or, Mds in Hq; destruct Hq as [Hq | ->]; [apply Sd, Hq | cbn; lia]).
  assert (St' : is_set EPosHouse (set_or total (pm pos h d))) by (intros q Hq; rewrite mem_or in Hq; destruct Hq as [Hq | Hq]; [apply St, Hq | apply Sc, Hq]).
  apply calm_seq; [ | intros s Hs'; apply IH; assumption]. unfold hidden_enter.
  destruct (size <? set_len (set_or dset ds)); [exact Hs | ]. destruct (_ && _) eqn:En; [ | apply IH; assumption]. apply andb_true_iff in En. rewrite !Nat.eqb_eq in En. destruct En as [En1 En2].
  apply calm_on; [apply Cb; assumption | ]. intros s Hs'. apply IH; assumption.
Qed.

Lemma find_hidden_sub_calm st0 on st : W st0 -> Pw (s_pos st0) -> (forall h F T, h < 27 -> is_set EDigit F -> is_set EPosHouse T -> set_len T = size -> calm (on h F T)) -> I st ->
  hp (find_hidden_sub (s_house st0) (s_pos st0) size stop on st) I (fun _ => False).
Proof.
  intros w pw Cb Hs. apply calm_end. apply for_ctl_inv; [ | exact Hs]. clear st Hs. intros h st Hh Hs. apply in_seq in Hh. assert (Lh : h < 27) by lia.
  unfold house_get. rewrite (aget_ok _ _ 0%N) by (rewrite (w_lh _ w); exact Lh). cbn [bind]. destruct (set_is_full EDigit _); [exact Hs | ].
  rewrite (aget_ok _ _ []) by (rewrite (pw_l _ pw); exact Lh). cbn [bind].
  destruct (digits_of_ok (set_all EDigit) (is_set_all EDigit)) as [dl [Edl [_ Idl]]]. rewrite Edl. cbn [bind]. apply (calm_ctl _ (fun b => b)).
  assert (R : forall s, I s -> okb (hidden_walk (nth h (s_pos st0) []) h size stop on dl (set_none EDigit) (set_none EPosHouse) s) I I).
  { intros s Q. apply hidden_walk_calm; try assumption.
    - intros F T A B Ln. apply Cb; assumption.
    - intros d Hd'. apply Idl in Hd'. apply Hd'.
    - intros p X. destruct (mem_none _ _ X).
    - intros p X. destruct (mem_none _ _ X). }
  unfold hidden_enter. destruct (_ <? _); [exact Hs | ]. destruct (_ && _) eqn:En; [ | apply R, Hs]. apply andb_true_iff in En. rewrite !Nat.eqb_eq in En. destruct En as [En1 En2].
  apply calm_on; [ | exact R]. apply Cb; [exact Lh | intros p X; destruct (mem_none _ _ X) | intros p X; destruct (mem_none _ _ X) | assumption | exact Hs].
Qed.

Lemma fish_walk_calm pos on d all : Pw pos -> 1 <= d <= 9 -> (forall F T, is_set ELine F -> is_set EPosLine T -> set_len T = size -> calm (on all d F T)) ->
  forall lines lset union st, (forall l, In l lines -> l < 18) -> is_set ELine lset -> is_set EPosLine union -> I st ->
  okb (fish_walk pos d size all stop on lines lset union st) I I.
Proof.
  intros w Hd' Cb. induction lines as [ | l t IH]; intros lset union st Hl Sl Su Hs; cbn [fish_walk]; [exact Hs | ].
  assert (Ll : l < 18) by (apply Hl; left; reflexivity). assert (Hl' : forall q, In q t -> q < 18) by (intros q Hq; apply Hl; right; exact Hq).
  unfold house_of_line. rewrite chk_ok by lia. cbn [bind]. rewrite (pos_get_ok pos l d w ltac:(lia) Hd'). cbn [bind].
  assert (Sm := pw_s _ w l d ltac:(lia) Hd'). rewrite (as_line_set_ok _ Sm). cbn [bind].
  assert (Su' : is_set EPosLine (set_or union (pm pos l d))) by (intros q Hq; rewrite mem_or in Hq; destruct Hq as [Hq | Hq]; [apply Su, Hq | apply Sm in Hq; exact Hq]).
  destruct (_ || _); [apply IH; assumption | ].
  destruct (as_set_total ELine l Ll) as [ls Els]. rewrite Els. cbn [bind].
  assert (Sl' : is_set ELine (set_or lset ls)) by (intros q Hq; rewrite mem_or, (mem_single _ _ _ _ Els) in Hq; destruct Hq as [Hq | ->]; [apply Sl, Hq | exact Ll]).
  apply calm_seq; [ | intros s Hs'; apply IH; assumption]. unfold fish_enter.
  destruct (_ =? size); [ | apply IH; assumption]. destruct (negb _) eqn:En; [exact Hs | ]. apply negb_false_iff, Nat.eqb_eq in En.
  specialize (Cb _ _ Sl' Su' En st Hs). destruct (on all d (set_or lset ls) (set_or union (pm pos l d)) st) as [[s [ | ]] | | | ]; cbn [okb] in Cb; try contradiction; cbn [bind fst snd].
  - destruct stop; exact Cb.
  - apply IH; assumption.
Qed.

Lemma find_fish_calm pos on st : Pw pos -> (forall all d F T, direction all -> 1 <= d <= 9 -> is_set ELine F -> is_set EPosLine T -> set_len T = size -> calm (on all d F T)) -> I st ->
  hp (find_fish pos size stop on st) I (fun _ => False).
Proof.
  intros w Cb Hs. apply calm_end. apply for_ctl_inv; [ | exact Hs]. clear st Hs. intros d st Hd' Hs. apply in_seq in Hd'. assert (Ld : 1 <= d <= 9) by lia.
  apply for_ctl_inv; [ | exact Hs]. clear st Hs. intros all st Ha Hs.
  assert (Da : direction all) by (destruct Ha as [<- | [<- | []]]; [left | right]; reflexivity).
  assert (SA : is_set ELine all) by (intros l Hl; apply (direction_lt all l Da Hl)). rewrite (iter_exact ELine _ SA). cbn [bind]. apply (calm_ctl _ (fun b => b)).
  assert (Cb' : forall F T, is_set ELine F -> is_set EPosLine T -> set_len T = size -> calm (on all d F T)) by (intros; apply Cb; assumption).
  assert (R : forall s, I s -> okb (fish_walk pos d size all stop on (members ELine all) (set_none ELine) (set_none EPosLine) s) I I).
  { intros s Q. apply fish_walk_calm; try assumption.
    - intros l Hl. apply (members_in ELine _ l SA) in Hl. apply (SA l Hl).
    - intros p X. destruct (mem_none _ _ X).
    - intros p X. destruct (mem_none _ _ X). }
  unfold fish_enter. destruct (Nat.eqb_spec (set_len (set_none ELine)) size) as [En | _]; [ | apply R, Hs]. destruct (negb _); [exact Hs | ].
  assert (X : okb (on all d (set_none ELine) (set_none EPosLine) st) I I) by (apply Cb'; [intros p X; destruct (mem_none _ _ X) | intros p X; destruct (mem_none _ _ X) | exact En | exact Hs]).
  destruct (on all d (set_none ELine) (set_none EPosLine) st) as [[s [ | ]] | | | ]; cbn [okb] in X; try contradiction; cbn [bind fst snd].
  - destruct stop; exact X.
  - apply R, X.
Qed.

Lemma find_locked_calm st0 on st : W st0 -> (forall m d nbs ptg, m < 54 -> 1 <= d <= 9 -> (forall k, In k nbs -> k < 54) -> calm (on m d nbs ptg)) -> I st ->
  hp (find_locked (s_cell st0) stop on st) I (fun _ => False).
Proof.
  intros w Cb Hs. apply calm_end. apply for_ctl_inv; [ | exact Hs]. clear st Hs. intros k st Hk Hs. apply in_seq in Hk. cbv zeta.
  destruct (rmap_nth (miniline_digits (s_cell st0)) (fun m D => is_set EDigit D) (chute_minilines k) 0 0%N) as [mpd [E [Lm Hm]]].
  { intros m Hm. unfold chute_minilines in Hm. apply in_map_iff in Hm. destruct Hm as [i [<- Hi]]. apply in_seq in Hi.
    destruct (miniline_digits_ok st0 (k * 9 + i) w ltac:(lia)) as [D [ED [SD _]]]. exists D. auto. }
  rewrite E. cbn [bind]. assert (Lc : length (chute_minilines k) = 9) by reflexivity. rewrite Lc in *.
  assert (Nc : forall i, i < 9 -> nth i (chute_minilines k) 0 < 54).
  { intros i Hi. assert (X : In (nth i (chute_minilines k) 0) (chute_minilines k)) by (apply nth_In; lia). unfold chute_minilines in X at 2. apply in_map_iff in X. destruct X as [j [<- Hj]]. apply in_seq in Hj. lia. }
  destruct (rmap_nth (fun l => a <- aget mpd (l * 3 + 0); b <- aget mpd (l * 3 + 1); c <- aget mpd (l * 3 + 2);
                           Ok (find_unique [a; b; c] (set_none EDigit) (set_none EDigit))) (fun _ _ => True) (seq 0 3) 0 0%N) as [lu [Elu [Llu _]]].
  { intros l Hl. apply in_seq in Hl. rewrite !(aget_ok mpd _ 0%N) by lia. cbn [bind]. eexists. split; [reflexivity | exact Logic.I]. }
  rewrite Elu. cbn [bind].
  destruct (rmap_nth (fun l => a <- aget mpd (0 * 3 + l); b <- aget mpd (1 * 3 + l); c <- aget mpd (2 * 3 + l);
                           Ok (find_unique [a; b; c] (set_none EDigit) (set_none EDigit))) (fun _ _ => True) (seq 0 3) 0 0%N) as [bu [Ebu [Lbu _]]].
  { intros l Hl. apply in_seq in Hl. rewrite !(aget_ok mpd _ 0%N) by lia. cbn [bind]. eexists. split; [reflexivity | exact Logic.I]. }
  rewrite Ebu. cbn [bind].
  apply for_ctl_inv; [ | exact Hs]. clear st Hs. intros i st Hi Hs. apply in_seq in Hi. cbn [Nat.add] in Hi.
  rewrite (aget_ok _ _ 0) by (rewrite Lc; lia). cbn [bind]. rewrite !(aget_ok mpd _ 0%N) by lia. cbn [bind].
  rewrite (aget_ok lu _ 0%N) by (rewrite Llu, seq_length; lia). rewrite (aget_ok bu _ 0%N) by (rewrite Lbu, seq_length; lia). cbn [bind].
  assert (Lm54 := Nc i ltac:(lia)). destruct (miniline_neighbors_exact _ Lm54) as [ln [bn [En [_ [_ [Il Ib]]]]]]. rewrite En. cbn [bind].
  set (mi := nth i (chute_minilines k) 0) in *.
  assert (Sm : forall u, is_set EDigit (set_and (nth i mpd 0%N) u)) by (intros u x Q; apply mem_and in Q; apply (Hm i ltac:(lia)), Q).
  apply for_ctl_inv; [ | exact Hs]. clear st Hs. intros [[u nbs] ptg] st Ht Hs.
  assert (Hu : is_set EDigit u /\ forall m', In m' nbs -> m' < 54).
  { destruct Ht as [Q | [Q | []]]; injection Q as <- <- <-; (split; [apply Sm | ]); intros m' Hm'; [apply Ib in Hm' | apply Il in Hm']; apply Hm'. }
  destruct Hu as [Su Nb]. destruct (set_is_empty u); [exact Hs | ]. destruct (digits_of_ok u Su) as [dl [Edl [_ Idl]]]. rewrite Edl. cbn [bind].
  apply for_ctl_inv; [ | exact Hs]. clear st Hs. intros d st Hd' Hs. apply Idl in Hd'. apply (calm_ctl _ (fun b => stop && b)). apply Cb; tauto.
Qed.

Lemma find_wing_calm st0 on n common lines st : W st0 ->
  (forall h c1 c2, h < 81 -> c1 < 81 -> c2 < 81 -> wing_geo lines h c1 c2 -> wing_pat st0 n common h c1 c2 -> calm (on h (P st0 h) c1 (P st0 c1) c2 (P st0 c2))) -> I st ->
  hp (find_wing n common lines (s_cell st0) stop on st) I (fun _ => False).
Proof.
  intros w Cb Hs. apply calm_end. apply for_ctl_inv; [ | exact Hs]. clear st Hs. intros h st Hh Hs. apply in_seq in Hh. cbn [Nat.add] in Hh.
  rewrite (aget_ok _ _ 0%N) by (rewrite (w_lp _ w); lia). cbn [bind]. fold (P st0 h).
  destruct (Nat.eqb_spec (set_len (P st0 h)) n) as [En | Nn]; cbn [negb]; [ | exact Hs].
  destruct (cell_conversions h ltac:(lia)) as [Er [Ek [Eb _]]]. rewrite Er, Ek, Eb. cbn [bind].
  destruct (rcb_cells_exact (row_of h) ltac:(apply row_lt; lia)) as [[SR MR] _].
  destruct (rcb_cells_exact (col_of h) ltac:(apply col_lt; lia)) as [_ [[SC MC] _]].
  destruct (rcb_cells_exact (block_of h) ltac:(apply block_lt; lia)) as [_ [_ [SB MB]]].
  set (rc := cells_of_row (row_of h)) in *. set (cc := cells_of_col (col_of h)) in *. set (bc := cells_of_block (block_of h)) in *.
  assert (Wo : forall a b, is_set ECell a -> is_set ECell (set_without ECell a b)) by (intros a b Sa x Q; apply (mem_without ECell) in Q; [apply Sa, Q | exact Sa]).
  apply for_ctl_inv; [ | exact Hs]. clear st Hs. intros [A B] st Ht Hs.
  assert (Hg : is_set ECell A /\ is_set ECell B /\ forall c1 c2, mem A c1 -> mem B c2 -> c1 < 81 /\ c2 < 81 /\ wing_geo lines h c1 c2).
  { apply in_app_iff in Ht. cbn [In] in Ht. destruct Ht as [[Q | [Q | []]] | Q].
    - injection Q as <- <-. split; [auto | ]. split; [auto | ]. intros c1 c2 M1 M2. rewrite (mem_without ECell), MB, MR in M1 by exact SB. rewrite (mem_without ECell), MB, MR in M2 by exact SR.
      split; [tauto | ]. split; [tauto | ]. left. tauto.
    - injection Q as <- <-. split; [auto | ]. split; [auto | ]. intros c1 c2 M1 M2. rewrite (mem_without ECell), MB, MC in M1 by exact SB. rewrite (mem_without ECell), MB, MC in M2 by exact SC.
      split; [tauto | ]. split; [tauto | ]. right. left. tauto.
    - destruct lines eqn:Li; [ | destruct Q]. destruct Q as [Q | []]. injection Q as <- <-. split; [auto | ]. split; [auto | ]. intros c1 c2 M1 M2.
      rewrite (mem_without ECell), MB, MR in M1 by exact SR. rewrite (mem_without ECell), MB, MC in M2 by exact SC.
      split; [tauto | ]. split; [tauto | ]. right. right. tauto. }
  clear Ht. destruct Hg as [SA [SB' Hg]].
  destruct (bivalue_ok st0 (P st0 h) common A w SA) as [l1 [E1 I1]]. destruct (bivalue_ok st0 (P st0 h) common B w SB') as [l2 [E2 I2]]. cbn [fst snd]. rewrite E1. cbn [bind]. rewrite E2. cbn [bind].
  apply for_ctl_inv; [ | exact Hs]. clear st Hs. intros [c1 m1] st H1 Hs. cbn [fst snd]. apply I1 in H1. destruct H1 as [M1 [-> [L1 L1']]].
  apply for_ctl_inv; [ | exact Hs]. clear st Hs. intros [c2 m2] st H2 Hs. cbn [fst snd]. apply I2 in H2. destruct H2 as [M2 [-> [L2 L2']]]. destruct (Hg c1 c2 M1 M2) as [Hc1 [Hc2 Geo]].
  destruct (negb (set_len (set_and (P st0 c1) (P st0 c2)) =? 1) || negb (set_len (set_or (set_or (P st0 c1) (P st0 c2)) (P st0 h)) =? 3)) eqn:Te; [exact Hs | ].
  apply orb_false_iff in Te. rewrite !negb_false_iff, !Nat.eqb_eq in Te. destruct Te as [T1 T2].
  apply (calm_ctl _ (fun b => b && stop)). apply Cb; try assumption; [lia | unfold wing_pat; auto].
Qed.
End Walks.

(** * What the closures do with a pattern *)

Lemma subset_any h F T (cs : list cand) : h < 27 -> 2 <= set_len F <= 4 -> (forall x, In x cs -> fst x < 81) -> cs <> [] -> exists S0, ded_strategy (DSubsets h F T cs) = Ok S0.
Proof.
  intros Hh Sz Lc Ne. destruct cs as [ | [c x] t]; [congruence | ]. specialize (Lc _ (or_introl eq_refl)). cbn [fst] in Lc. cbn [ded_strategy aget nth_error bind fst]. destruct (categorize_ok h Hh) as [ty Et]. rewrite Et. cbn [bind].
  assert (Lp : match ty with HRow _ => row_pos c | HCol _ => col_pos c | HBlock _ => block_pos c end < 9) by (destruct ty; unfold row_pos, col_pos, block_pos, p_row, p_col; lia).
  destruct (as_set_total EPosHouse _ Lp) as [ps Eps]. rewrite Eps. cbn [bind]. destruct (set_len F) as [ | [ | [ | [ | [ | n]]]]]; try lia; destruct (set_overlaps EPosHouse ps F); eexists; reflexivity.
Qed.
(** Reading a deduction with a range *)
Ltac read_ded := let E := fresh in intros l r Ne E; cbn [with_slices]; rewrite E; cbn [bind].

Section Closures.
Variables (st0 : strat).
Hypotheses (w : W st0) (Gn : gone st0).

Lemma unseen_of c d : c < 81 -> 1 <= d <= 9 -> mem (P st0 c) (d - 1) -> unseen st0 (c, d).
Proof. intros Hc Hd' M. split; [exact Hc | ]. split; [exact Hd' | ]. intros Q. apply (Gn c d Q M). Qed.

Lemma naked_calm h F T : h < 27 -> is_set EPosHouse F -> is_set EDigit T -> 2 <= set_len F <= 4 -> calm (more st0) (on_naked_sub (s_cell st0) h F T).
Proof.
  intros Hh SF ST Sz st Hs.
  assert (Sn : is_set EPosHouse (set_not EPosHouse F)) by (intros i Hi; apply (mem_not EPosHouse) in Hi; [apply Hi | exact SF]).
  destruct (rflat_spec (fun pos => cell <- house_cell_at h pos; m <- aget (s_cell st0) cell; cands_of cell (set_and m T))
    (fun p (x : cand) => fst x = cell_at h p /\ 1 <= snd x <= 9 /\ mem (P st0 (cell_at h p)) (snd x - 1) /\ mem T (snd x - 1)) (members EPosHouse (set_not EPosHouse F))) as [cs [Ec Ic]].
  { intros p Hp. apply (members_in EPosHouse _ p Sn) in Hp. assert (Lp := Sn p Hp). destruct (cell_at_ok h p Hh Lp) as [Ep [Lc _]]. rewrite Ep. cbn [bind].
    rewrite (aget_ok _ _ 0%N) by (rewrite (w_lp _ w); exact Lc). cbn [bind]. fold (P st0 (cell_at h p)).
    destruct (cands_of_ok (cell_at h p) (set_and (P st0 (cell_at h p)) T)) as [l [El Il]]; [intros y Q; apply mem_and in Q; apply ST, Q | ]. exists l. split; [exact El | ].
    intros x. rewrite Il, mem_and. reflexivity. }
  unfold on_naked_sub. rewrite (iter_exact EPosHouse _ Sn). cbn [bind]. rewrite Ec. cbn [bind]. assert (Uc : forall x, In x cs -> unseen st0 x).
  { intros [c d] Hx. apply Ic in Hx. cbn [fst snd] in Hx. destruct Hx as [p [Hp [-> [Ld [M _]]]]]. apply (members_in EPosHouse _ p Sn) in Hp.
    apply unseen_of; [apply (cell_at_ok h p Hh (Sn p Hp)) | exact Ld | exact M]. }
  apply enter_more; [exact Hs | exact Uc | read_ded; destruct (subset_any h F T cs Hh Sz (fun x Hx => proj1 (Uc x Hx)) Ne) as [S0 Es]; exists (DSubsets h F T cs), S0; auto].
Qed.

Lemma hidden_calm h F T : PI (s_elims st0) st0 -> h < 27 -> is_set EDigit F -> is_set EPosHouse T -> 2 <= set_len T <= 4 -> calm (more st0) (on_hidden_sub (s_pos st0) h F T).
Proof.
  intros pi Hh SF ST Sz st Hs. assert (pw := p_w _ _ pi).
  assert (Sn : is_set EDigit (set_not EDigit F)) by (intros i Hi; apply (mem_not EDigit) in Hi; [apply Hi | exact SF]).
  destruct (digits_of_ok _ Sn) as [dl [Edl [_ Idl]]].
  destruct (rflat_spec (fun digit =>
    m <- aget (nth h (s_pos st0) []) (digit_as_index digit);
    ps <- set_iter EPosHouse (set_and m T);
    rmap (fun p => cell <- house_cell_at h p; Ok (cell, digit)) ps)
    (fun d (x : cand) => snd x = d /\ exists p, mem (set_and (pm (s_pos st0) h d) T) p /\ fst x = cell_at h p) dl) as [cs [Ec Ic]].
  { intros d Hd'. apply Idl in Hd'. destruct Hd' as [Ld Md]. unfold digit_as_index. rewrite (aget_ok _ _ 0%N) by (rewrite (pw_r _ pw h Hh); lia). cbn [bind]. fold (pm (s_pos st0) h d).
    assert (Sa : is_set EPosHouse (set_and (pm (s_pos st0) h d) T)) by (intros y Q; apply mem_and in Q; apply ST, Q). rewrite (iter_exact EPosHouse _ Sa). cbn [bind].
    destruct (rmap_spec (fun p => cell <- house_cell_at h p; Ok (cell, d)) (fun p y => y = ((cell_at h p, d) : cand)) (members EPosHouse (set_and (pm (s_pos st0) h d) T))) as [r [Er Fr]].
    { intros p Hp. apply (members_in EPosHouse _ p Sa) in Hp. destruct (cell_at_ok h p Hh (Sa p Hp)) as [Ep _]. rewrite Ep. cbn [bind]. eexists. split; reflexivity. }
    exists r. split; [exact Er | ]. intros [c e]. cbn [fst snd]. split.
    - intros Hi. destruct (Forall2_in_r _ _ _ Fr _ Hi) as [p [Hp Q]]. injection Q as -> ->. split; [reflexivity | ]. apply (members_in EPosHouse _ p Sa) in Hp. exists p. auto.
    - intros [-> [p [A ->]]]. destruct (Forall2_in_l _ _ _ Fr p) as [y [Hy ->]]; [apply (members_in EPosHouse _ p Sa), A | exact Hy]. }
  unfold on_hidden_sub. rewrite (aget_ok _ _ []) by (rewrite (pw_l _ pw); exact Hh). cbn [bind]. rewrite Edl. cbn [bind]. rewrite Ec. cbn [bind].
  assert (Uc : forall x, In x cs -> unseen st0 x).
  { intros [c d] Hx. apply Ic in Hx. cbn [fst snd] in Hx. destruct Hx as [d' [Hi [<- [p [M ->]]]]]. apply Idl in Hi. destruct Hi as [Ld _]. apply mem_and in M. destruct M as [M MT].
    destruct (cell_at_ok h p Hh (ST p MT)) as [_ [Lc [Ic' Pc]]]. split; [exact Lc | ]. split; [exact Ld | ]. apply (p_v _ _ pi h d (cell_at h p) Hh Ld Lc Ic'). unfold V. rewrite Pc. exact M. }
  apply enter_more; [exact Hs | exact Uc | read_ded; destruct (subset_any h T F cs Hh Sz (fun x Hx => proj1 (Uc x Hx)) Ne) as [S0 Es]; exists (DSubsets h T F cs), S0; auto].
Qed.

Lemma fish_calm all d F T : direction all -> 1 <= d <= 9 -> is_set ELine F -> is_set EPosLine T -> 2 <= set_len T <= 4 -> calm (more st0) (on_fish (s_cell st0) all d F T).
Proof.
  intros Da Hd' SF ST Sz st Hs.
  assert (SA : is_set ELine all) by (intros l Hl; apply (direction_lt all l Da Hl)).
  assert (Sn : is_set ELine (set_without ELine all F)) by (intros l Hl; apply (mem_without ELine) in Hl; [apply SA, Hl | exact SA]).
  destruct (rflat_spec (fun line => ps <- set_iter EPosLine T; rmap (line_cell_at line) ps)
    (fun l c => exists p, mem T p /\ c = cell_at l p) (members ELine (set_without ELine all F))) as [cells [Ec Ic]].
  { intros l Hl. apply (members_in ELine _ l Sn) in Hl. assert (Ll := Sn l Hl). cbn in Ll. rewrite (iter_exact EPosLine _ ST). cbn [bind].
    destruct (rmap_spec (line_cell_at l) (fun p y => y = cell_at l p) (members EPosLine T)) as [r [Er Fr]].
    { intros p Hp. apply (members_in EPosLine _ p ST) in Hp. assert (Lp := ST p Hp). cbn in Lp. rewrite (line_house_cell_at l p Ll). destruct (cell_at_ok l p ltac:(lia) Lp) as [Ep _]. exists (cell_at l p). auto. }
    exists r. split; [exact Er | ]. intros c. split.
    - intros Hi. destruct (Forall2_in_r _ _ _ Fr _ Hi) as [p [Hp ->]]. apply (members_in EPosLine _ p ST) in Hp. exists p. auto.
    - intros [p [Mp ->]]. destruct (Forall2_in_l _ _ _ Fr p) as [y [Hy ->]]; [apply (members_in EPosLine _ p ST), Mp | exact Hy]. }
  assert (Lcell : forall c, In c cells -> c < 81).
  { intros c Hc. apply Ic in Hc. destruct Hc as [l [Hl [p [Mp ->]]]]. apply (members_in ELine _ l Sn) in Hl. assert (Ll := Sn l Hl). cbn in Ll. apply (cell_at_ok l p); [lia | apply (ST p Mp)]. }
  destruct (with_digit_ok (s_cell st0) d cells (w_lp _ w) Hd' Lcell) as [cs [Ecs Ics]].
  unfold on_fish. rewrite (iter_exact ELine _ Sn). cbn [bind]. rewrite Ec. cbn [bind]. rewrite Ecs. cbn [bind].
  apply enter_more; [exact Hs | | read_ded; exists (DBasicFish d F T cs); cbn [ded_strategy]; destruct (set_len T) as [ | [ | [ | [ | [ | n]]]]]; try lia; eexists; split; reflexivity].
  intros [c e] Hx. apply Ics in Hx. cbn [fst snd] in Hx. destruct Hx as [Hc [-> M]]. apply unseen_of; [apply Lcell, Hc | exact Hd' | exact M].
Qed.

Lemma locked_calm m d nbs ptg : 1 <= d <= 9 -> (forall k, In k nbs -> k < 54) -> calm (more st0) (on_locked (s_cell st0) m d nbs ptg).
Proof.
  intros Hd' L54 st Hs.
  destruct (rflat_spec (fun nb =>
    cm <- cells_of_miniline nb;
    cells <- set_iter ECell cm;
    rflat (fun cell => m <- aget (s_cell st0) cell; d <- digit_set d; cands_of cell (set_and m d)) cells)
    (fun m' (y : cand) => fst y < 81 /\ in_miniline m' (fst y) /\ snd y = d /\ mem (P st0 (fst y)) (d - 1)) nbs) as [cs [Ec Ic]].
  { intros m' Hm. destruct (miniline_cells_exact m' (L54 m' Hm)) as [cm [E [Sc M]]]. rewrite E. cbn [bind]. rewrite (iter_exact ECell cm Sc). cbn [bind].
    destruct (rflat_spec (fun cell => m <- aget (s_cell st0) cell; d <- digit_set d; cands_of cell (set_and m d))
      (fun c (y : cand) => fst y = c /\ snd y = d /\ mem (P st0 c) (d - 1)) (members ECell cm)) as [r [Er Ir]].
    { intros c Hc. apply (members_in ECell cm c Sc) in Hc. assert (Lc := Sc c Hc). cbn in Lc. rewrite (aget_ok _ _ 0%N) by (rewrite (w_lp _ w); exact Lc). cbn [bind]. fold (P st0 c).
      destruct (digit_set_ok d Hd') as [ds [Eds [_ Mds]]]. rewrite Eds. cbn [bind].
      destruct (cands_of_ok c (set_and (P st0 c) ds)) as [l [El Il]]; [intros y Q; apply mem_and in Q; apply (w_p _ w c Lc), Q | ]. exists l. split; [exact El | ].
      intros [k e]. rewrite Il, mem_and, Mds. cbn [fst snd]. split.
      - intros [-> [Le [A B]]]. split; [reflexivity | ]. assert (e = d) by lia. subst e. auto.
      - intros [-> [-> A]]. auto. }
    exists r. split; [exact Er | ]. intros y. rewrite Ir. split.
    - intros [c [Hc [<- Q]]]. apply (members_in ECell cm _ Sc), M in Hc. tauto.
    - intros [A [B Q]]. exists (fst y). split; [apply (members_in ECell cm _ Sc), M; auto | auto]. }
  unfold on_locked. rewrite Ec. cbn [bind]. apply enter_more; [exact Hs | | read_ded; eexists _, _; split; reflexivity].
  intros [c e] Hx. apply Ic in Hx. cbn [fst snd] in Hx. destruct Hx as [m' [_ [Lc [_ [-> M]]]]]. apply unseen_of; assumption.
Qed.

Lemma wing_calm (xyz : bool) n common h c1 c2 : n = 2 \/ n = 3 -> h < 81 -> c1 < 81 -> c2 < 81 -> wing_geo (negb xyz) h c1 c2 -> wing_pat st0 n common h c1 c2 ->
  calm (more st0) (on_wing xyz (s_cell st0) h (P st0 h) c1 (P st0 c1) c2 (P st0 c2)).
Proof.
  intros Sz Hh H1 H2 Geo [Ln [[L1 L1'] [[L2 L2'] [L12 L3]]]] st Hs.
  assert (S12 : is_set EDigit (set_and (P st0 c1) (P st0 c2))) by (intros y Q; apply mem_and in Q; apply (w_p _ w c1 H1), Q).
  assert (Ux : exists x, x < 9 /\ set_unique EDigit (set_and (P st0 c1) (P st0 c2)) = Ok (UOk (Some x))).
  { destruct (unique_cases EDigit _ S12) as [[_ Q] | [[x [E Q]] | [_ [i [j [Q1 [Q2 Q3]]]]]]].
    - exfalso. destruct (N.eq_dec (set_and (P st0 c1) (P st0 c2)) 0) as [Z | Z]; [rewrite Z in L12; discriminate | ]. destruct (nonzero_mem _ Z) as [i Hi]. apply (Q i Hi).
    - exists x. split; [apply (S12 x), Q; reflexivity | exact E].
    - exfalso. pose proof (two_len EDigit _ i j S12 Q3 Q1 Q2). lia. }
  destruct Ux as [x [Hx Eu]].
  destruct (neighbors_set_exact h Hh) as [n0 [E0 [Sn0 M0]]]. destruct (neighbors_set_exact c1 H1) as [n1 [E1 [Sn1 M1]]]. destruct (neighbors_set_exact c2 H2) as [n2 [E2 [Sn2 M2]]].
  set (common_set := if xyz then set_and (set_and n0 n1) n2 else set_and n1 n2).
  assert (Sc : is_set ECell common_set) by (intros k Q; unfold common_set in Q; destruct xyz; rewrite !mem_and in Q; apply (Sn2 k), Q).
  assert (Two : xyz && negb (set_len common_set =? 2) = false).
  { destruct xyz; [ | reflexivity]. cbn [andb]. rewrite negb_false_iff, Nat.eqb_eq. rewrite <- (xyz_common h c1 c2 Hh H1 H2 Geo).
    apply (len_meaning ECell); [exact Sc | apply NoDup_filter, seq_NoDup | ]. intros k. unfold common_set. rewrite filter_In, in_seq, !andb_true_iff, !peersb_iff, !mem_and, M0, M1, M2. split.
    - intros [A [[B B'] B'']]. cbn [Nat.add] in A. destruct A. auto 10.
    - intros [[[A B] [_ B']] [_ B'']]. split; [split; [apply Nat.le_0_l | exact A] | auto]. }
  assert (Lcell : forall c, In c (members ECell common_set) -> c < 81) by (intros c Hc; apply (members_in ECell _ c Sc) in Hc; apply Sc in Hc; exact Hc).
  destruct (with_digit_ok (s_cell st0) (S x) (members ECell common_set) (w_lp _ w) ltac:(lia) Lcell) as [cs [Ecs Ics]].
  destruct (as_set_total ECell c1 H1) as [s1 Es1]. destruct (as_set_total ECell c2 H2) as [s2 Es2].
  unfold on_wing. rewrite Eu. cbn [bind]. rewrite from_index_ok by exact Hx. cbn [bind]. rewrite E0, E1, E2. cbn [bind]. fold common_set. rewrite Two.
  rewrite (iter_exact ECell _ Sc). cbn [bind]. rewrite Ecs. cbn [bind]. rewrite Es1, Es2. cbn [bind].
  apply enter_more; [exact Hs | | read_ded; exists (DWing h (P st0 h) (set_or s1 s2) cs); cbn [ded_strategy]; rewrite Ln; destruct Sz as [-> | ->]; eexists; split; reflexivity].
  intros [k e] Hi. apply Ics in Hi. cbn [fst snd] in Hi. destruct Hi as [Hk [-> M]]. apply unseen_of; [apply Lcell, Hk | lia | exact M].
Qed.
End Closures.
