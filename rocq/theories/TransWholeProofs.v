From Coq Require Import ZArith Reals List Bool Arith Permutation Sorting.Sorted Lra Lia.
From Verif Require Import TextModel GeomModel GeomProofs BoxModel BoxSpec BoxProofs PbcModel PbcSpec PbcProofs RFloorModel RFloorProofs LatticeModel LatticeSpec LatticeProofs LatticeNormProofs PackModel RotModel RotSpec RotProofs RotFlipProofs OptModel TransModel TransSpec TransProofs TransLayerProofs TransColumnProofs.
Import ListNotations.
Local Open Scope nat_scope.

(** *** Layers turned *)
Lemma rotation_of_axis ra t : rotation_of ra t = mrot_axis (unit_along ra) t.
Proof.
  unfold rotation_of, mrot_xyz, mrot_axis, mskew. destruct ra; cbn [axis_eqb unit_along vx vy vz]; rewrite ?cos_0, ?sin_0; unfold madd, mid, mscale, mmul, mmake, mget; cbn; unfold vdot, mrow, mcol, vmake; cbn; f_equal; ring.
Qed.
Definition layer_angle (angle : R) (m : nat) : R := if Nat.even m then angle else (- angle)%R.
Lemma rotate_layer_turns ra angle alt s m : m < rotation_requested alt -> rotate_layer ra angle alt s m = Some (turned (mrot_axis (unit_along ra) (layer_angle angle m)) s).
Proof.
  intros M. unfold rotate_layer. rewrite !rotation_of_axis. destruct alt; cbn [rotation_requested negb andb] in *.
  - destruct m as [|[|m]]; [reflexivity|reflexivity|lia].
  - destruct m as [|m]; [reflexivity|lia].
Qed.
Lemma lcm_factor n alt : 0 < n -> Nat.lcm n (rotation_requested alt) / n = if alt && Nat.odd n then 2 else 1.
Proof.
  intros P. destruct alt; cbn [rotation_requested andb].
  - unfold Nat.lcm. destruct (Nat.odd n) eqn:O.
    + assert (G : Nat.gcd n 2 = 1).
      { apply Nat.odd_spec in O as [m ->]. rewrite Nat.gcd_comm. rewrite Nat.add_comm, Nat.mul_comm, Nat.gcd_add_mult_diag_r. reflexivity. }
      rewrite G, Nat.div_1_r, Nat.mul_comm. apply Nat.div_mul. lia.
    + rewrite <- Nat.negb_even in O. apply negb_false_iff, Nat.even_spec in O as [m ->]. assert (G : Nat.gcd (2 * m) 2 = 2) by (rewrite Nat.gcd_comm; apply (Nat.divide_gcd_iff 2 (2 * m)); [lia|exists m; lia]).
      rewrite G. change (2 / 2) with 1. rewrite Nat.mul_1_r. apply Nat.div_same. lia.
  - rewrite Nat.lcm_1_r. apply Nat.div_same. lia.
Qed.
Lemma layer_rotation_spec l b d k zs a ra angle (alternating : bool) : built l b d k -> lat_regular l = true -> (forall c s, in_range c d -> In s (k c) -> in_unit s) ->
  let cell := k (I3 0 0 0) in cell <> [] -> distinct_layers a cell -> layer_coordinates a cell zs ->
  if alternating && Nat.odd (length zs) && Nat.odd (iget d a) then layer_rotation a ra angle alternating l = None
  else exists l' b' d' k' lb molecules' cells, layer_rotation a ra angle alternating l = Some l' /\ built l' b' d' k' /\ lat_regular l' = true /\
      (forall c s, in_range c d' -> In s (k' c) -> in_unit s) /\ getLatticeBox l = Some lb /\ getLatticeBox l' = Some lb /\
      traversal AX AY AZ d cells /\ generateMolecules l' = Some molecules' /\
      Permutation (flat_map (fun c => map (fun s => turned (mrot_axis (unit_along ra) (if alternating && Nat.odd (layer_number a zs c s) then - angle else angle)%R) (placed b c s)) (k c)) cells) molecules'.
Proof.
  intros B R U cell NE D Z.
  assert (LP : 0 < length zs) by (destruct Z as [_ Z]; destruct cell as [|s r]; [congruence|]; pose proof (proj2 (Z (coord a s)) (ex_intro _ s (conj (or_introl eq_refl) eq_refl))) as I; destruct zs; [destruct I|cbn; lia]).
  assert (RP : 0 < rotation_requested alternating) by (destruct alternating; cbn; lia).
  pose proof (layerwise_spec (rotation_requested alternating) (rotate_layer ra angle alternating) (fun m => mrot_axis (unit_along ra) (layer_angle angle m)) a RP (rotate_layer_turns ra angle alternating) l b d k zs B R U NE D Z) as H.
  cbv zeta in H. rewrite (lcm_factor _ _ LP) in H. fold (layer_rotation a ra angle alternating l) in H.
  assert (C : Nat.eqb (iget d a mod (if alternating && Nat.odd (length zs) then 2 else 1)) 0 = negb (alternating && Nat.odd (length zs) && Nat.odd (iget d a))).
  { destruct (alternating && Nat.odd (length zs)); [|rewrite Nat.mod_1_r; reflexivity]. cbn [andb]. rewrite Nat.negb_odd.
    destruct (Nat.even (iget d a)) eqn:E.
    - apply Nat.even_spec in E as [m M]. rewrite M, Nat.mul_comm, Nat.mod_mul by lia. reflexivity.
    - apply Nat.eqb_neq. intros X. apply Nat.mod_divide in X; [|lia]. destruct X as [m M]. rewrite M, Nat.mul_comm, Nat.even_mul in E. discriminate. }
  rewrite C in H. destruct (alternating && Nat.odd (length zs) && Nat.odd (iget d a)); cbn [negb] in H; [exact H|].
  destruct H as (l'&b'&d'&k'&lb&ms&cells&H1&H2&H3&H4&H5&H6&H7&H8&H9). exists l', b', d', k', lb, ms, cells. repeat (split; [assumption|]).
  match type of H9 with Permutation ?x _ => match goal with |- Permutation ?y _ => replace y with x; [exact H9|] end end.
  rewrite !flat_map_concat_map. f_equal. apply map_ext. intros c. apply map_ext. intros s. unfold layer_angle. f_equal. f_equal. destruct alternating; cbn [rotation_requested andb].
  - rewrite <- Nat.negb_even. destruct (Nat.even (layer_number a zs c s)) eqn:E; cbn [negb].
    + apply Nat.even_spec in E as [m ->]. rewrite Nat.mul_comm, Nat.mod_mul by lia. reflexivity.
    + assert (O : Nat.odd (layer_number a zs c s) = true) by (rewrite <- Nat.negb_even, E; reflexivity). apply Nat.odd_spec in O as [m ->]. rewrite Nat.add_comm, Nat.mul_comm, Nat.mod_add by lia. reflexivity.
  - rewrite Nat.mod_1_r. reflexivity.
Qed.

(** *** Columns shifted *)
Lemma nth_map_ext {A B} (f : A -> B) l l' : (forall j, nth_error l' j = option_map f (nth_error l j)) -> l' = map f l.
Proof. intros H. apply nth_ext. intros j. rewrite H, nth_error_map. reflexivity. Qed.
Lemma frac_shifted a x s : in_unit s -> frac (shifted a x s) = wrapped a x s.
Proof.
  intros U. unfold frac, shifted, wrapped, floors, vput, vmake. cbn [sh_pos sh_rot]. f_equal.
  assert (Z : forall a', Rfl (vget (sh_pos s) a') = 0%Z) by (intros a'; apply Rfl_unique; pose proof (U a'); cbn; lra).
  pose proof (Z AX) as ZX. pose proof (Z AY) as ZY. pose proof (Z AZ) as ZZ. destruct (sh_pos s) as [p q r]. cbn [vget vx vy vz] in *.
  destruct a; cbn [axis_eqb vget vx vy vz]; apply vec_ext; cbn; rewrite ?ZX, ?ZY, ?ZZ; cbn; ring.
Qed.
Lemma wrapped_unit a x s : in_unit s -> in_unit (wrapped a x s).
Proof. intros U. rewrite <- frac_shifted by exact U. apply frac_unit. Qed.
Lemma shifted_placed b c a x s : placed b c (shifted a x s) = translated (vscale x (box_side b a)) (placed b c s).
Proof.
  unfold placed, shifted, translated, vput, vmake. cbn [sh_pos sh_rot]. f_equal. rewrite side_col. unfold relativeToAbsolute. destruct (dims b) as [m00 m01 m02 m10 m11 m12 m20 m21 m22], (sh_pos s) as [p q r].
  destruct a; cbn [axis_eqb vget vx vy vz]; apply vec_ext; cbn; ring.
Qed.
Lemma shift1_small n c y : c < n -> (0 <= y < 1)%R -> shift1 n c y = c.
Proof.
  intros L Y. unfold shift1. assert (Rfl y = 0%Z) as -> by (apply Rfl_unique; cbn; lra). rewrite Z.add_0_r, Z.mod_small by lia. apply Nat2Z.id.
Qed.
Section Shift.
Variables (a : axis) (d : idx3) (x : idx3 -> R) (s : shape).
Hypothesis positive : 0 < ix d /\ 0 < iy d /\ 0 < iz d.
Hypothesis unit_ : in_unit s.
Hypothesis along : forall c c', (forall a', a' <> a -> iget c a' = iget c' a') -> x c = x c'.
Definition goes (c : idx3) : idx3 := LatticeNormProofs.shift d c (shifted a (x c) s).
Lemma goes_other c a' : in_range c d -> a' <> a -> iget (goes c) a' = iget c a'.
Proof.
  intros (X&Y&Z) N. unfold goes, LatticeNormProofs.shift, shifted, vput, vmake. cbn [sh_pos]. pose proof (unit_ AX). pose proof (unit_ AY). pose proof (unit_ AZ).
  destruct a, a'; try congruence; cbn [axis_eqb iget ix iy iz vx vy vz]; apply shift1_small; assumption.
Qed.
Lemma goes_permutation : Permutation (map goes (grid d)) (grid d).
Proof.
  apply NoDup_Permutation_bis; [|rewrite map_length; lia|].
  - pose proof (grid_nodup d) as N. assert (RG : forall c, In c (grid d) -> in_range c d) by (intros; apply grid_in; assumption).
    induction (grid d) as [|c cs IH]; [constructor|]. inversion N; subst. cbn. constructor; [|apply IH; [assumption|intros; apply RG; right; assumption]].
    intros I. apply in_map_iff in I as (c'&E&I). assert (c = c') as <-; [|contradiction].
    pose proof (RG c (or_introl eq_refl)) as RC. pose proof (RG c' (or_intror I)) as RC'.
    assert (O : forall a', a' <> a -> iget c a' = iget c' a') by (intros a' NA; rewrite <- (goes_other c a' RC NA), <- (goes_other c' a' RC' NA), E; reflexivity).
    assert (EX := along c c' O). unfold goes in E. rewrite EX in E. unfold LatticeNormProofs.shift in E. destruct RC as (X&Y&Z), RC' as (X'&Y'&Z').
    injection E as E1 E2 E3. symmetry in E1, E2, E3. apply shift1_inj in E1, E2, E3; try assumption. destruct c, c'; cbn in *; congruence.
  - intros c I. apply in_map_iff in I as (c'&<-&_). apply grid_in, shift_range, positive.
Qed.
Lemma goes_same c : in_range c d -> x (goes c) = x c.
Proof. intros I. apply along. intros a' N. apply goes_other; assumption. Qed.
End Shift.

Lemma columnar_spec l b d k a shift : built l b d k -> lat_regular l = true -> (forall c s, in_range c d -> In s (k c) -> in_unit s) ->
  let cell := k (I3 0 0 0) in distinct_columns a cell ->
  exists l' k' lb molecules' images cells (column : shape -> nat), terminates_with (fun fuel => columnar fuel shift a l) l' /\ built l' b d k' /\
    (forall c s, in_range c d -> In s (k' c) -> in_unit s) /\ getLatticeBox l = Some lb /\ getLatticeBox l' = Some lb /\
    (forall s s', In s cell -> In s' cell -> (column s = column s' <-> same_column a s s')) /\
    traversal AX AY AZ d cells /\ generateMolecules l' = Some molecules' /\
    Forall2 (same_modulo lb)
      (flat_map (fun c => map (fun s => translated (vscale (shift (iget c (second_axis a)) (iget c (third_axis a)) (column s)) (box_side b a)) (placed b c s)) (k c)) cells) images /\
    Permutation images molecules'.
Proof.
  intros B R U cell D. pose proof (built_valid _ _ _ _ B) as V. pose proof (v_positive _ _ _ _ V) as P. destruct P as (PX&PY&PZ).
  assert (I0 : in_range (I3 0 0 0) d) by (repeat split; assumption). pose proof (v_cells _ _ _ _ V _ I0) as G0. fold cell in G0.
  assert (F0 : nth_error (lat_cells l) 0 = Some cell) by (unfold getSpecificCell in G0; rewrite R in G0; exact G0).
  assert (K : forall c, in_range c d -> k c = cell).
  { intros c I. pose proof (v_cells _ _ _ _ V c I) as G. unfold getSpecificCell in G, G0. rewrite R in G, G0. congruence. }
  assert (N : isNormalized l = true) by (apply (normalized_iff _ _ _ _ V); exact U).
  set (am := amount a shift). set (nc := length (getColumnAssociation cell a)).
  destruct (terminate_together (fun fuel (t : (idx3 * nat) * shape) => shift_shape fuel a (am (fst (fst t)) (snd (fst t))) (snd t)) (fun t => wrapped a (am (fst (fst t)) (snd (fst t))) (snd t))
    (list_prod (list_prod (grid d) (seq 0 nc)) cell)) as [n0 EN]; [intros t; apply shift_shape_terminates|].
  assert (EN' : forall fuel, n0 <= fuel -> forall c n s, in_range c d -> n < nc -> In s cell -> shift_shape fuel a (am c n) s = Some (wrapped a (am c n) s)).
  { intros fuel F c n s I L J. apply (EN fuel F ((c, n), s)). apply in_prod; [apply in_prod; [apply grid_in, I|apply in_seq; lia]|exact J]. }
  assert (S0 : state a cell shift d [] k).
  { intros c I j. rewrite (K c I). destruct (nth_error cell j); reflexivity. }
  assert (RUN : forall fuel, n0 <= fuel -> exists l' k', columnar fuel shift a l = Some l' /\ valid l' b d k' /\ (exists k0, built l' b d k0) /\ state a cell shift d (tasks a cell d) k').
  { intros fuel F. rewrite (columnar_tasks a cell d shift fuel l R N F0 (v_dims _ _ _ _ V)).
    apply (run_all a cell shift b d D fuel (EN' fuel F) (tasks a cell d) [] l k V (ex_intro _ k B) S0); [apply tasks_nodup|]. intros [c n] T. apply tasks_in in T. exact T. }
  set (col := the_column a cell). set (k1 := fun c : idx3 => map (fun s => wrapped a (am c (col s)) s) cell).
  assert (FIN : forall k', state a cell shift d (tasks a cell d) k' -> forall c, in_range c d -> k' c = k1 c).
  { intros k' S c I. apply nth_map_ext. intros j. rewrite (S c I j). destruct (nth_error cell j) as [s|] eqn:J; [|reflexivity]. cbn [option_map].
    destruct (in_dec task_dec (c, the_column a cell s) (tasks a cell d)) as [_|X]; [reflexivity|]. exfalso. apply X, tasks_in. split; [exact I|]. apply column_bound; [exact D|eapply nth_error_In, J]. }
  destruct (RUN n0 (le_n _)) as (l'&k'&E&V'&[k0 B']&S'). pose proof (FIN k' S') as FK.
  assert (U1 : forall c s, in_range c d -> In s (k1 c) -> in_unit s).
  { intros c s I J. unfold k1 in J. apply in_map_iff in J as (s0&<-&J). apply wrapped_unit, (U (I3 0 0 0)); assumption. }
  assert (V1 : valid l' b d k1) by (eapply valid_ext; [exact V'|exact FK]).
  assert (N1 : isNormalized l' = true) by (apply (normalized_iff _ _ _ _ V1); exact U1).
  assert (B1 : built l' b d k1).
  { apply (built_normalized l' b d k0 0 l' k1 B'); [unfold normalize; rewrite N1; reflexivity|]. intros c I. apply (v_cells _ _ _ _ V1 c I). }
  destruct (lattice_box_valid _ _ _ _ V) as (lb&LB&_&SB). set (k2 := fun c : idx3 => map (fun s => shifted a (am c (col s)) s) cell).
  exists l', k1, lb, (contents b k1 (grid d)), (map (placed' b) (map (moved d) (listed k2 (grid d)))), (grid d), col.
  split; [|split; [exact B1|split; [exact U1|split; [exact LB|split; [|split; [intros s s' I J; apply column_iff; assumption|split; [apply loop3_traversal; repeat split; discriminate|split; [apply generate_valid, V1|split]]]]]]]].
  - exists n0. intros fuel F. destruct (RUN fuel F) as (l2&k3&E2&V2&_&S2). rewrite E2. f_equal.
    (* the same result for all sufficient numbers of iterations *)
    assert (SAME : columnar fuel shift a l = columnar n0 shift a l).
    { rewrite (columnar_tasks a cell d shift fuel l R N F0 (v_dims _ _ _ _ V)), (columnar_tasks a cell d shift n0 l R N F0 (v_dims _ _ _ _ V)).
      assert (MONO : forall x s r, shift_shape n0 a x s = Some r -> shift_shape fuel a x s = Some r).
      { intros x s r. unfold shift_shape, wrap_loops. destruct (while_add n0 (fun c => Rleb 1 c) (-1)%R (vget (sh_pos s) a + x)%R) as [y|] eqn:W1; [|discriminate]. cbn [obind].
        rewrite (while_add_mono _ _ _ _ _ _ W1 F). cbn [obind]. destruct (while_add n0 (fun c => Rltb c 0) 1%R y) as [z|] eqn:W2; [|discriminate]. rewrite (while_add_mono _ _ _ _ _ _ W2 F). auto. }
      assert (MC : forall i x ms r, change_at i (shift_shape n0 a x) ms = Some r -> change_at i (shift_shape fuel a x) ms = Some r).
      { induction i as [|i IH]; intros x [|s ms] r; cbn [change_at]; try discriminate.
        - destruct (shift_shape n0 a x s) as [s'|] eqn:Q; [|discriminate]. rewrite (MONO _ _ _ Q). auto.
        - destruct (change_at i (shift_shape n0 a x) ms) as [r'|] eqn:Q; [|discriminate]. rewrite (IH _ _ _ Q). auto. }
      assert (MS : forall is' x q r, fold_left (fun r i => c <- r ;; change_at i (shift_shape n0 a x) c) is' q = Some r -> fold_left (fun r i => c <- r ;; change_at i (shift_shape fuel a x) c) is' q = Some r).
      { induction is' as [|i is' IH]; intros x q r; cbn [fold_left]; [auto|]. destruct q as [c|]; cbn [obind]; [|intros Q; exact (IH x None r Q)].
        destruct (change_at i (shift_shape n0 a x) c) as [c'|] eqn:Q; [rewrite (MC _ _ _ _ Q); apply IH|]. intros Q'. rewrite fold_none in Q'. discriminate. }
      assert (MR : forall todo q r, fold_left (run a cell shift n0) todo q = Some r -> fold_left (run a cell shift fuel) todo q = Some r).
      { induction todo as [|t todo IH]; intros q r; cbn [fold_left]; [auto|]. assert (NONE : fold_left (run a cell shift n0) todo None = None) by apply fold_none.
        destruct q as [c|]; [|intros Q; exact (IH None r Q)].
        destruct (run a cell shift n0 (Some c) t) as [c'|] eqn:Q; [|congruence]. assert (run a cell shift fuel (Some c) t = Some c') as ->; [|apply IH].
        revert Q. unfold run, modify_cell. cbn [obind]. destruct (modifySpecificCellMolecules c (fst t) (fun ms => ms)) as [c1|]; [|discriminate]. cbn [obind].
        destruct (getSpecificCell c1 (fst t)) as [ms|]; [|discriminate]. cbn [obind]. unfold shift_indices.
        destruct (fold_left _ _ (Some ms)) as [ms'|] eqn:Q; [|discriminate]. cbn [obind]. rewrite (MS _ _ _ _ Q). auto. }
      rewrite (columnar_tasks a cell d shift n0 l R N F0 (v_dims _ _ _ _ V)) in E. rewrite E. apply MR, E. }
    congruence.
  - unfold getLatticeBox in *. rewrite (v_box _ _ _ _ V'), (v_dims _ _ _ _ V'). rewrite (v_box _ _ _ _ V), (v_dims _ _ _ _ V) in LB. exact LB.
  - assert (EQ : flat_map (fun c => map (fun s => translated (vscale (shift (iget c (second_axis a)) (iget c (third_axis a)) (col s)) (box_side b a)) (placed b c s)) (k c)) (grid d) = map (placed' b) (listed k2 (grid d))).
    { rewrite <- contents_listed. unfold contents. rewrite !flat_map_concat_map. f_equal. apply map_ext_in. intros c I. apply grid_in in I. rewrite (K c I). unfold k2. rewrite map_map. apply map_ext. intros s.
      rewrite shifted_placed. unfold am, amount. destruct a; reflexivity. }
    rewrite EQ. rewrite map_map. apply forall2_map. intros [c s]. apply shifted_equivalent; [exact SB|repeat split; assumption].
  - rewrite contents_listed. apply Permutation_map.
    assert (E1 : map (moved d) (listed k2 (grid d)) = flat_map (fun c => map (fun s => (goes a d (fun c => am c (col s)) s c, wrapped a (am c (col s)) s)) cell) (grid d)).
    { unfold listed. rewrite map_flat_map. apply flat_map_ext. intros c. unfold k2. rewrite !map_map. apply map_ext_in. intros s I. unfold moved, goes. cbn [fst snd]. f_equal. apply frac_shifted, (U (I3 0 0 0)); assumption. }
    assert (E2 : listed k1 (grid d) = flat_map (fun c => map (fun s => (c, wrapped a (am c (col s)) s)) cell) (grid d)).
    { unfold listed, k1. apply flat_map_ext. intros c. apply map_map. }
    rewrite E1, E2. rewrite (flat_map_swap (fun c s => (goes a d (fun c => am c (col s)) s c, wrapped a (am c (col s)) s))), (flat_map_swap (fun c s => (c, wrapped a (am c (col s)) s))).
    assert (UC : forall s, In s cell -> in_unit s) by (intros s I; apply (U (I3 0 0 0)); assumption). clearbody col. clear - UC PX PY PZ. induction cell as [|s ms IH]; [constructor|]. cbn [flat_map]. apply Permutation_app; [|apply IH; intros t I; apply UC; right; exact I].
    pose proof (UC s (or_introl eq_refl)) as US.
    assert (AL : forall c c', (forall a', a' <> a -> iget c a' = iget c' a') -> am c (col s) = am c' (col s)) by (intros c c' H; unfold am, amount; rewrite !(H (axis_next a)), !(H (axis_next (axis_next a))) by (destruct a; discriminate); reflexivity).
    transitivity (map (fun c => (c, wrapped a (am c (col s)) s)) (map (goes a d (fun c => am c (col s)) s) (grid d))).
    + rewrite map_map. match goal with |- Permutation ?x ?y => replace y with x; [reflexivity|] end. apply map_ext_in. intros c I. apply grid_in in I. f_equal.
      rewrite (goes_same a d (fun c => am c (col s)) s US AL c I). reflexivity.
    + apply Permutation_map, goes_permutation; [repeat split; assumption|exact US|exact AL].
Qed.
Lemma columnar_refused fuel shift a l : columnar fuel shift a l <> None -> lat_regular l = true /\ isNormalized l = true.
Proof.
  unfold columnar. destruct (lat_regular l), (isNormalized l); cbn [negb]; intros H; auto; exfalso; apply H; reflexivity.
Qed.
