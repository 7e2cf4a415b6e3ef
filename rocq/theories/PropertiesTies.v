(** Properties C99 and C100: generation under symmetries of grids, and the symmetries of patterns. *)
From Coq Require Import List Arith Lia Bool Permutation.
From Verif Require Import Spec Samples CanonSpec SymSpec TieSpec Solver SymGen GridProofs SymProofs EquivProofs CanonApi TieProofs.
Import ListNotations.

(** * C99: generation commutes with symmetries *)

(** For the same order of the cells, taken along by the symmetry, the image of the puzzle is made from the image of the source. *)
Theorem C99_carried : forall a t s src order, sym_ok a -> carries a t s -> wf_grid src -> Permutation order (seq 0 81) ->
  exists g, generate_with_symmetry_from src t (map (source a) order) = Ok g /\ generate_with_symmetry_from (act a src) s order = Ok (act a g).
Proof. exact generate_act. Qed.
Print Assumptions C99_carried.

(** Without symmetry of the pattern this is so for every shuffle, with any symmetry for the renaming of digits. *)
Theorem C99_any_shuffle : forall a src order, sym_ok a -> wf_grid src -> Permutation order (seq 0 81) ->
  exists g, generate_with_symmetry_from src NoSymmetry (map (source a) order) = Ok g /\
    generate_with_symmetry_from (act a src) NoSymmetry order = Ok (act a g).
Proof. exact (fun a src order O => generate_act a NoSymmetry NoSymmetry src order O (carries_none a O)). Qed.
Print Assumptions C99_any_shuffle.

Theorem C99_renamed : forall a s src order, sym_ok a -> renames a -> wf_grid src -> Permutation order (seq 0 81) ->
  exists g, generate_with_symmetry_from src s (map (source a) order) = Ok g /\ generate_with_symmetry_from (act a src) s order = Ok (act a g).
Proof. exact (fun a s src order O R => generate_act a s s src order O (carries_renames a s R)). Qed.
Print Assumptions C99_renamed.

(** Transposed or mirrored boards are treated alike, with the axis that takes the place of the one asked for. *)
Theorem C99_transposed : forall a s src order, sym_ok a -> transposes a -> wf_grid src -> Permutation order (seq 0 81) ->
  exists g, generate_with_symmetry_from src (transposed s) (map (source a) order) = Ok g /\
    generate_with_symmetry_from (act a src) s order = Ok (act a g).
Proof. exact (fun a s src order O R => generate_act a (transposed s) s src order O (carries_transposes a s O R)). Qed.
Print Assumptions C99_transposed.

Theorem C99_reversed : forall a s src order, sym_ok a -> reverses a -> wf_grid src -> Permutation order (seq 0 81) ->
  exists g, generate_with_symmetry_from src (reversed s) (map (source a) order) = Ok g /\
    generate_with_symmetry_from (act a src) s order = Ok (act a g).
Proof. exact (fun a s src order O R => generate_act a (reversed s) s src order O (carries_reverses a s O R)). Qed.
Print Assumptions C99_reversed.

(** Not so for any shuffle together with any symmetry. *)
Theorem C99_any_symmetry_refuted : exists a src s order g, sym_ok a /\ solved src /\ Permutation order (seq 0 81) /\
  generate_with_symmetry_from src s (map (source a) order) = Ok g /\ generate_with_symmetry_from (act a src) s order <> Ok (act a g).
Proof. exact any_symmetry_refuted. Qed.
Print Assumptions C99_any_symmetry_refuted.

(** A transposition and a reversal with two digits exchanged; the order of the cells changes with them. *)
Example C99_case : let a := Sym true (seq 0 9) (seq 0 9) [2; 1; 3; 4; 5; 6; 7; 8; 9] in let b := Sym false (seq 0 9) (rev (seq 0 9)) [2; 1; 3; 4; 5; 6; 7; 8; 9] in
  sym_ok a /\ transposes a /\ transposed VerticalMirror = HorizontalMirror /\ carries a HorizontalMirror VerticalMirror /\
  sym_ok b /\ reverses b /\ carries b DiagonalMirror AntidiagonalMirror /\ renames (Sym false (seq 0 9) (seq 0 9) [2; 1; 3; 4; 5; 6; 7; 8; 9]) /\
  solved solution1 /\ act a solution1 <> solution1 /\ act b (act a solution1) <> act a (act b solution1) /\ nth 1 (map (source a) (seq 0 81)) 0 = 9.
Proof.
  cbv zeta. set (a := Sym true _ _ _). set (b := Sym false _ (rev _) _).
  assert (Oa : sym_ok a) by (apply sym_okb_ok; vm_compute; reflexivity). assert (Ob : sym_ok b) by (apply sym_okb_ok; vm_compute; reflexivity).
  split; [exact Oa | ]. split; [repeat split | ]. split; [reflexivity | ]. split; [apply (carries_transposes a VerticalMirror Oa); repeat split | ].
  split; [exact Ob | ]. split; [repeat split | ]. split; [apply (carries_reverses b AntidiagonalMirror Ob); repeat split | ]. split; [repeat split | ].
  split; [apply solvedb_ok; vm_compute; reflexivity | ]. split; [vm_compute; discriminate | ]. split; [vm_compute; discriminate | ]. vm_compute. reflexivity.
Qed.

(** * C100: the symmetries of patterns *)

(** Invariance under any choice of rotations and mirror images is one of the ten symmetries: none is missing. *)
Theorem C100_complete : forall fs, (forall f, In f fs -> In f board_maps) ->
  exists s, forall g, symmetric s g <-> forall f, In f fs -> invariant f g.
Proof. exact symmetries_complete. Qed.
Print Assumptions C100_complete.

(** Which symmetries a pattern of some symmetry also has *)
Theorem C100_implied_exact : forall s t, (forall g, wf_grid g -> symmetric s g -> symmetric t g) <-> In t (implied s).
Proof. exact implied_exact. Qed.
Print Assumptions C100_implied_exact.

(** A puzzle reduced with some symmetry is not reduced any more with one that implies it. *)
Theorem C100_finer_first : forall src s t order order' g, wf_grid src -> uniquely_solvable src -> In t (implied s) ->
  Permutation order (seq 0 81) -> Permutation order' (seq 0 81) ->
  generate_with_symmetry_from src t order = Ok g -> generate_with_symmetry_from g s order' = Ok g.
Proof. exact finer_first. Qed.
Print Assumptions C100_finer_first.

(** The other way round it may be. *)
Theorem C100_coarser_first_refuted : exists src s t order order' g, solved src /\ In t (implied s) /\ Permutation order (seq 0 81) /\ Permutation order' (seq 0 81) /\
  generate_with_symmetry_from src s order = Ok g /\ generate_with_symmetry_from g t order' <> Ok g.
Proof. exact coarser_first. Qed.
Print Assumptions C100_coarser_first_refuted.

(** Two mirrors give a rotation but not the other mirrors; a quarter turn and a mirror give everything. *)
Example C100_case : (exists f g, f = mirror_v /\ g = rotate_90 /\ In f board_maps /\ In g board_maps) /\
  In HalfRotation (implied BidiagonalMirror) /\ ~ In VerticalMirror (implied BidiagonalMirror) /\ ~ In DiagonalMirror (implied QuarterRotation) /\
  (forall g, symmetric Dihedral g <-> symmetric VerticalMirror g /\ symmetric QuarterRotation g) /\
  wf_grid solution1 /\ uniquely_solvable solution1 /\ exists g, generate_with_symmetry_from solution1 NoSymmetry (seq 0 81) = Ok g.
Proof.
  split; [exists mirror_v, rotate_90; cbn; tauto | ]. split; [cbn; tauto | ]. split; [cbn; intros H; intuition discriminate | ]. split; [cbn; intros H; intuition discriminate | ].
  assert (So : solved solution1) by (apply solvedb_ok; vm_compute; reflexivity). assert (W := solved_wf _ So).
  split; [ | split; [exact W | ]; split; [apply solved_unique, So | ]].
  - intros g. rewrite !symmetric_group. split.
    + intros H. split; intros i Hi; apply H; destruct Hi as [<- | Hi]; cbn in *; tauto.
    + intros [H1 H2] i Hi. refine (proj2 (closure_invariant 2 g [0; 1; 5; 6; 7] _ i _)).
      * intros j Hj. split; [cbn in Hj; lia | ]. destruct Hj as [<- | [<- | Hj]]; [apply invariant_id | apply H1; right; left; reflexivity | apply H2; right; exact Hj].
      * apply (within_ok (seq 0 8)); [vm_compute; reflexivity | exact Hi].
  - destruct (generate_total solution1 NoSymmetry (seq 0 81) W (Permutation_refl _)) as [g [E _]]. exists g. exact E.
Qed.
