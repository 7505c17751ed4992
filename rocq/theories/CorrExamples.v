From Coq Require Import Reals ZArith List Bool Lia Lra Permutation.
From Verif Require Import GeomModel GeomProofs BoxModel BoxSpec BoxProofs RFloorModel RFloorProofs PbcModel PbcSpec PbcTotalModel PbcProofs RotModel PackSpec PackSumProofs HistModel HistSpec HistProofs BondModel BondOrderProofs CorrModel CorrSpec CorrProofs CorrEnumProofs CorrHistProofs CorrWholeProofs CorrMeanProofs CorrFindProofs CorrSelfProofs SegErrorProofs.
Import ListNotations.
Local Open Scope R_scope.

Lemma abs_range x c : Rabs x <= c -> - c <= x <= c. Proof. unfold Rabs. destruct (Rcase_abs x); lra. Qed.
(** Correlation functions. *)
Lemma norm_neg v : vnorm (vscale (-1) v) = vnorm v.
Proof. unfold vnorm, vnorm2, vdot, vscale. cbn [vx vy vz]. f_equal. ring. Qed.
Lemma neg_nonzero v : v <> vzero -> vscale (-1) v <> vzero.
Proof. intros H E. apply H. destruct v as [a b c]. unfold vscale, vzero in *. cbn [vx vy vz] in E. injection E as X Y Z. f_equal; lra. Qed.
Theorem function_values f a b v : vnorm a = 1 -> vnorm b = 1 -> v <> vzero ->
  exists y, calculateForAxes f a b v = Some y /\ within f a b y /\ calculateForAxes f b a (vscale (-1) v) = Some y /\
    calculateForAxes f (vscale (-1) a) b v = Some (match f with S110 => - y | _ => y end) /\ calculateForAxes f a b (vscale (-1) v) = Some (match f with S221 => - y | _ => y end).
Proof.
  intros A B V. pose proof (cauchy_schwarz a b) as CS. rewrite A, B in CS. assert (R1 : -1 <= vdot a b <= 1) by (apply abs_range; lra). assert (Nab : vdot (vscale (-1) a) b = - vdot a b) by (unfold vdot, vscale; cbn [vx vy vz]; ring). pose proof (vdot_comm b a) as Cm.
  destruct f; unfold calculateForAxes, within.
  - exists (vdot a b). rewrite Cm, Nab. repeat split; lra.
  - exists (3 / 2 * (vdot a b ^ 2 - 1 / 3)). rewrite Cm, Nab. split; [reflexivity|]. split; [nra|]. split; [reflexivity|]. split; [f_equal; ring|reflexivity].
  - rewrite (normalized_of v V), (normalized_of _ (neg_nonzero v V)), norm_neg. set (r := vscale (/ vnorm v) v). pose proof (norm_pos v V) as Vp. exists (vdot (vcross a b) r * vdot a b). rewrite Cm, Nab.
    assert (Er : vscale (/ vnorm v) (vscale (-1) v) = vscale (-1) r) by (unfold r, vscale; cbn [vx vy vz]; f_equal; ring). rewrite Er.
    split; [reflexivity|]. split; [|repeat split; f_equal; unfold vdot, vcross, vscale; cbn [vx vy vz]; ring].
    assert (Nr : vnorm r = 1) by (unfold r; rewrite SegErrorProofs.vnorm_scale, Rabs_right by (apply Rle_ge; left; apply Rinv_0_lt_compat; exact Vp); field; lra).
    pose proof (cauchy_schwarz2 (vcross a b) r) as C2. rewrite <- (norm_sqr r), Nr in C2. pose proof (lagrange a b) as Lg. rewrite <- (norm_sqr a), <- (norm_sqr b), A, B in Lg. set (x := vdot (vcross a b) r) in *. set (z := vdot a b) in *. set (q := vnorm2 (vcross a b)) in *. assert (Q : x * x + z * z <= 1) by lra. clear - Q. pose proof (Rle_0_sqr (x + z)) as P1. pose proof (Rle_0_sqr (x - z)) as P2. unfold Rsqr in *. clearbody x z. split; nra.
  - exists (180 * acos (Rabs (vdot a b)) / PI). rewrite Cm, Nab, Rabs_Ropp. pose proof PI_RGT_0 as Pp. split; [reflexivity|]. split; [|repeat split; reflexivity].
    assert (Bd : 0 <= acos (Rabs (vdot a b)) <= PI / 2).
    { pose proof (acos_bound (Rabs (vdot a b))) as Ab. split; [apply Ab|]. pose proof (Rabs_pos (vdot a b)) as P0. destruct (Rle_or_lt (acos (Rabs (vdot a b))) (PI / 2)) as [L|L]; [exact L|exfalso]. pose proof (cos_lt_0 _ L ltac:(lra)) as N. rewrite cos_acos in N by lra. lra. }
    split; [split|].
    + apply Rmult_le_pos; [lra|left; apply Rinv_0_lt_compat; lra].
    + apply (Rmult_le_reg_r PI); [lra|]. unfold Rdiv. rewrite Rmult_assoc, Rinv_l by lra. lra.
    + replace (180 * acos (Rabs (vdot a b)) / PI * PI / 180) with (acos (Rabs (vdot a b))) by (field; lra). apply cos_acos. pose proof (Rabs_pos (vdot a b)). lra.
Qed.

(** A cubic box. *)
Definition cube := Box mid mid.
Lemma cube_valid : valid_box cube.
Proof.
  unfold valid_box, cube, minverse. cbn [dims invdims]. assert (D : mdet mid = 1) by (unfold mdet, mid; cbn; ring). rewrite D. destruct (Reqb 1 0) eqn:E; [apply Reqb_true in E; lra|]. f_equal. unfold mmake, mid, mminor. cbn. f_equal; field.
Qed.
Lemma cube_constructed : constructed cube. Proof. apply constructed_valid. exact cube_valid. Qed.
Lemma cube_relative p : absoluteToRelative cube p = p. Proof. destruct p as [a b c]. unfold absoluteToRelative, cube, mvec, mid. apply vec_ext; cbn; ring. Qed.
Definition in_cube (l : list (vec * mat)) : snapshot := Snapshot cube (translation cube) l.
Lemma in_cube_periodic l : periodic (in_cube l). Proof. intros p q. apply getTranslation_terminates. Qed.
Lemma periodic_self sn : periodic sn -> constructed (sn_box sn) -> forall p, sn_translation sn p p = vzero.
Proof.
  intros P C p. rewrite (periodic_value _ _ _ P). apply constructed_valid in C. apply translation_zero; [exact C|]. intros a. replace (vsub p p) with vzero by (destruct p as [x y z]; unfold vsub, vzero; cbn [vx vy vz]; f_equal; ring). assert (E : absoluteToRelative (sn_box sn) vzero = vzero) by (unfold absoluteToRelative, mvec, vzero, vmake, mget; destruct (invdims (sn_box sn)); apply vec_ext; cbn; ring). rewrite E. destruct a; cbn; rewrite Rabs_R0; lra.
Qed.
(** Two particles with perpendicular axes, 1/10 apart. *)
Definition turned : mat := M33 0 (-1) 0 1 0 0 0 0 1.
Definition two : snapshot := in_cube [(vzero, mid); (V3 (1 / 10) 0 0, turned)].
Definition unit_range : dim := Dim 0 (1 / 2) 2.
Theorem self_example : exists s h0 h m, averaged_scheduled unit_range S110 (V3 1 0 0) Radial vzero 1 (two, s) /\ build [unit_range] 1 0 = Some h0 /\ averaged_run unit_range [s] h0 h0 = Some (h, m) /\
  nth 0 (averaged_dump h m) (None, 0%nat) = (Some (2 / 3), 3%nat) /\ forall x, distinct_in_bin vzero Radial unit_range 0 two x -> pair_value S110 (V3 1 0 0) two x = Some 0.
Proof.
  destruct (schedulable unit_range S110 (V3 1 0 0) Radial vzero two cube_constructed Logic.I) as (s & Sc). destruct (averaged_spec unit_range S110 (V3 1 0 0) Radial vzero 1 [(two, s)] eq_refl ltac:(cbn; lra) ltac:(cbn; lia) Logic.I (Forall_cons _ Sc (Forall_nil _))) as (h0 & h & m & E0 & E1 & _); [discriminate|]. exists s, h0, h, m. split; [exact Sc|]. split; [exact E0|]. split; [exact E1|].
  assert (V0 : forall x, distinct_in_bin vzero Radial unit_range 0 two x -> pair_value S110 (V3 1 0 0) two x = Some 0).
  { intros [[i j] v] (I & _). cbn in I. assert (i = 0 /\ j = 1)%nat as [-> ->] by lia. unfold pair_value, axis_of. cbn. f_equal. unfold mvec, vdot, mid, turned. cbn. ring. }
  split; [|exact V0].
  destruct (self_counted unit_range S110 (V3 1 0 0) Radial vzero 1 two s h0 h m eq_refl ltac:(cbn; lra) ltac:(cbn; lia) Logic.I Sc (periodic_self two (in_cube_periodic _) cube_constructed) E0 E1) as (l & Nl & Il & ->).
  set (v := joining vzero two 0 1). assert (Ev : v = V3 (1 / 10) 0 0).
  { unfold v, joining. cbn [two in_cube sn_translation]. rewrite translation_zero; [|exact cube_valid|].
    - unfold focal. apply vec_ext; cbn; unfold vsub, vadd, mvec, vzero, mid, turned; cbn; lra.
    - intros a. rewrite cube_relative. unfold focal. cbn [nth two in_cube sn_shapes fst snd]. destruct a; unfold vsub, vadd, mvec, vzero, mid, turned; cbn; apply Rabs_le; lra. }
  assert (P : Permutation [(0%nat, 1%nat, v)] l).
  { apply NoDup_Permutation; [constructor; [intros []|constructor]|exact Nl|]. intros [[i j] u]. rewrite Il. split.
    - intros [E|[]]. injection E as <- <- <-. split; [cbn; lia|]. split; [constructor|]. rewrite Ev. unfold in_bin, edge, unit_range. cbn [d_min d_max d_bins plus]. assert (En : vnorm (V3 (1 / 10) 0 0) = 1 / 10) by (unfold vnorm, vnorm2, vdot; cbn [vx vy vz]; replace (1 / 10 * (1 / 10) + 0 * 0 + 0 * 0) with (Rsqr (1 / 10)) by (unfold Rsqr; ring); apply sqrt_Rsqr; lra). rewrite En. split; [lia|]. simpl (INR _). split; [lra|left; lra].
    - intros (I & Sv & _). cbn in I. assert (i = 0 /\ j = 1)%nat as [-> ->] by lia. inversion Sv; subst. left. reflexivity. }
  rewrite (mean_perm _ _ (Permutation_map _ (Permutation_app_head _ (Permutation_sym P)))), <- (Permutation_length P). cbn [length sn_shapes two in_cube plus]. f_equal. unfold selves. cbn [seq map app]. rewrite !self_value by (unfold axis_of, mvec, vdot, mid, turned; cbn; ring). rewrite V0 by (apply Il; eapply Permutation_in; [exact P|left; reflexivity]). unfold mean, total. cbn [fold_right length]. f_equal. simpl. field.
Qed.

(** One layer perpendicular to the z axis. *)
Definition column_of : snapshot := in_cube [(vzero, mid); (V3 (1 / 10) 0 0, mid); (V3 0 0 (1 / 3), mid); (V3 (1 / 10) 0 (2 / 3), mid)].
Lemma column_wave : wave cube 0 0 1 (V3 0 0 (2 * PI)).
Proof. unfold wave, box_side, relativeToAbsolute, cube, mvec, mid, vdot. cbn. repeat split; ring. Qed.
Lemma column_focal i : focal vzero column_of i = fst (nth i (sn_shapes column_of) (vzero, mid)).
Proof. unfold focal. do 4 (destruct i as [|i]; [apply vec_ext; cbn; ring|]). apply vec_ext; destruct i; cbn; ring. Qed.
Lemma column_phase : phase (V3 0 0 (2 * PI)) vzero column_of 0.
Proof.
  assert (C1 : cos (2 * PI * (1 / 3)) = -1 / 2) by (replace (2 * PI * (1 / 3)) with (2 * (PI / 3)) by field; apply cos_2PI3).
  assert (S1 : sin (2 * PI * (1 / 3)) = sqrt 3 / 2) by (replace (2 * PI * (1 / 3)) with (2 * (PI / 3)) by field; apply sin_2PI3).
  assert (C2 : cos (2 * PI * (2 / 3)) = -1 / 2) by (replace (2 * PI * (2 / 3)) with (- (2 * PI * (1 / 3)) + 2 * INR 1 * PI) by (simpl; field); rewrite cos_period, cos_neg; exact C1).
  assert (S2 : sin (2 * PI * (2 / 3)) = - (sqrt 3 / 2)) by (replace (2 * PI * (2 / 3)) with (- (2 * PI * (1 / 3)) + 2 * INR 1 * PI) by (simpl; field); rewrite sin_period, sin_neg, S1; reflexivity).
  pose proof PI_RGT_0. split; [lra|]. exists 1. split; [lra|]. split; [lra|]. cbn [length sn_shapes column_of in_cube seq]. unfold Rsum. cbn [fold_right]. rewrite !column_focal. cbn [nth sn_shapes column_of in_cube fst].
  assert (E : forall x z, vdot (V3 0 0 (2 * PI)) (V3 x 0 z) = 2 * PI * z) by (intros; unfold vdot; cbn; ring). unfold vzero. rewrite !E, C1, S1, C2, S2, Rmult_0_r, cos_0, sin_0. split; lra.
Qed.
Theorem layer_example : constructed (sn_box column_of) /\ periodic column_of /\ (forall a, Rabs (vget (joining vzero column_of 2 3) a) <= 1 / 3) /\ forall v, ~ separated vzero column_of 2 3 (Layerwise 0 0 1) v.
Proof.
  split; [exact cube_constructed|]. split; [apply in_cube_periodic|].
  assert (J : joining vzero column_of 2 3 = V3 (1 / 10) 0 (1 / 3)).
  { unfold joining. rewrite !column_focal. cbn [nth sn_shapes column_of in_cube fst sn_translation]. rewrite translation_zero; [|exact cube_valid|].
    - apply vec_ext; cbn; lra.
    - intros a. rewrite cube_relative. destruct a; unfold vsub; cbn; apply Rabs_le; lra. }
  split; [intros a; rewrite J; destruct a; cbn; apply Rabs_le; lra|].
  intros v Sv. inversion Sv as [| |h k l w t u W Ph Rn D X]; subst. assert (w = V3 0 0 (2 * PI)) as -> by exact (wave_unique _ _ _ _ _ _ cube_valid W column_wave). assert (t = 0) as -> by exact (phase_unique _ _ _ _ _ Ph column_phase).
  rewrite J, column_focal in Rn. cbn [nth sn_shapes column_of in_cube fst] in Rn. pose proof PI_RGT_0 as Pp.
  replace ((vdot (V3 0 0 (2 * PI)) (V3 0 0 (1 / 3)) - 0) / (2 * PI)) with (1 / 3) in Rn by (unfold vdot; cbn; field; lra).
  replace ((vdot (V3 0 0 (2 * PI)) (vadd (V3 0 0 (1 / 3)) (V3 (1 / 10) 0 (1 / 3))) - 0) / (2 * PI)) with (2 / 3) in Rn by (unfold vdot, vadd; cbn; field; lra).
  pose proof (Rround_spec (1 / 3)) as A. pose proof (Rround_spec (2 / 3)) as B. rewrite <- Rn in B. apply abs_range in A. apply abs_range in B. set (z := Rround (1 / 3)) in *. assert (0 < IZR z < 1) as [P Q] by lra. apply lt_IZR in P. apply lt_IZR in Q. lia.
Qed.

(** Hypotheses of theorems are met. *)
Theorem enumerated_unique b point sn : constructed (sn_box sn) -> legal_binning b ->
  (exists l, enumeratePairs b point sn = Some l /\ NoDup l /\ forall i j v, In (i, j, v) l <-> (i <= j < length (sn_shapes sn))%nat /\ separated point sn i j b v) /\
  forall i j u v, separated point sn i j b u -> separated point sn i j b v -> u = v.
Proof. intros C L. split; [apply enumerated; assumption|]. intros i j u v. apply separated_unique; assumption. Qed.
Lemma one_thread w : scheduled 1 w (plain w).
Proof. split; [rewrite plain_snd; reflexivity|]. unfold plain. apply Forall_forall. intros x I. apply in_map_iff in I. destruct I as (y & <- & _). cbn. lia. Qed.
Lemma density_schedulable d b point sn : legal_snapshot sn -> legal_binning b -> exists s, density_scheduled d b point 1 (sn, s).
Proof.
  intros [C N] Lb. destruct (enumerated b point sn C Lb) as (l & E & _). exists (plain (flat_map (density_pair (d_max d)) l)). split; [split; assumption|]. eexists. cbn [fst snd]. unfold density_work. rewrite E. split; [reflexivity|apply one_thread].
Qed.
Lemma two_legal : legal_snapshot two /\ periodic two /\ forall p, sn_translation two p p = vzero.
Proof. split; [split; [exact cube_constructed|discriminate]|]. split; [apply in_cube_periodic|]. apply periodic_self; [apply in_cube_periodic|exact cube_constructed]. Qed.
Lemma two_joining : joining vzero two 0 1 = V3 (1 / 10) 0 0.
Proof.
  unfold joining. cbn [two in_cube sn_translation]. rewrite translation_zero; [|exact cube_valid|].
  - unfold focal. apply vec_ext; cbn; unfold vsub, vadd, mvec, vzero, mid, turned; cbn; lra.
  - intros a. rewrite cube_relative. unfold focal. cbn [nth two in_cube sn_shapes fst snd]. destruct a; unfold vsub, vadd, mvec, vzero, mid, turned; cbn; apply Rabs_le; lra.
Qed.
Lemma tenth_norm : vnorm (V3 (1 / 10) 0 0) = 1 / 10.
Proof. unfold vnorm, vnorm2, vdot; cbn [vx vy vz]; replace (1 / 10 * (1 / 10) + 0 * 0 + 0 * 0) with (Rsqr (1 / 10)) by (unfold Rsqr; ring); apply sqrt_Rsqr; lra. Qed.
Lemma two_evolution : exists s, evolution_scheduled unit_range (Dim (-1) 1 2) S110 (V3 1 0 0) Radial vzero 1 (two, s) /\ s <> [].
Proof.
  exists (plain [([1 / 10; 0], Some 1)]). split; [|discriminate]. split; [exact cube_constructed|]. eexists. split; [|apply one_thread]. unfold evolution_work, enumeratePairs. cbv zeta. rewrite points_length. change (length (sn_shapes (fst (two, plain [([1 / 10; 0], Some 1)])))) with 2%nat. cbn [fst]. unfold loops. cbn [seq flat_map app Nat.sub]. rewrite !displaced by (cbn; lia). rewrite two_joining.
  cbn [evolution_pairs]. unfold evolution_pair at 1 3. cbn [fst snd Nat.eqb]. unfold evolution_pair. cbn [fst snd Nat.eqb]. rewrite tenth_norm. rewrite (proj2 (Rltb_false _ _)) by (cbn; lra).
  assert (E : calculate S110 (V3 1 0 0) two (0%nat, 1%nat, V3 (1 / 10) 0 0) = Some 0) by (unfold calculate, calculateForAxes; f_equal; unfold mvec, vdot, mid, turned; cbn; ring). rewrite E. rewrite !(proj2 (Rltb_false _ _)) by (cbn; lra). reflexivity.
Qed.
