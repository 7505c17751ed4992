From Coq Require Import Reals Lra Psatz List Bool.
From Verif Require Import GeomModel GeomProofs BoxModel BoxSpec BoxProofs PbcModel PbcSpec PbcProofs PackModel PackSpec PackContactProofs DomSpec RotModel RotSpec RotProofs.
Import ListNotations.
Open Scope R_scope.

(** *** Flips *)
Lemma normalized_unit v : v <> vzero -> vnorm2 (vnormalized v) = 1.
Proof.
  intros H. unfold vnormalized. pose proof (vnorm_pos v H) as P. pose proof (vnorm_sqr v) as S.
  replace (vnorm2 (vscale (/ vnorm v) v)) with (/ vnorm v * / vnorm v * vnorm2 v) by (destruct v; mat_unfold; ring).
  rewrite <- S. field. lra.
Qed.
Lemma unit_nonzero v : vnorm2 v = 1 -> v <> vzero.
Proof. intros H ->. mat_unfold. lra. Qed.
Lemma normalized_of_unit v : vnorm2 v = 1 -> vnormalized v = v.
Proof. intros H. unfold vnormalized, vnorm. rewrite H, sqrt_1. destruct v. apply vec_ext; mat_unfold; field. Qed.

Lemma cross_unit_nonzero p : vnorm2 p = 1 -> vcross p (unit_vector (min_component p)) <> vzero.
Proof.
  intros H Z. destruct p as [x y z]. unfold min_component, unit_vector in Z. cbn [vx vy vz] in Z.
  assert (S : forall u v, Rabs u <= Rabs v -> u*u <= v*v).
  { intros u v L. apply Rsqr_le_abs_1 in L. exact L. }
  destruct (Rltb (Rabs y) (Rabs x)) eqn:E1; [destruct (Rltb (Rabs z) (Rabs y)) eqn:E2|destruct (Rltb (Rabs z) (Rabs x)) eqn:E2];
    rewrite ?Rltb_true, ?Rltb_false in *; mat_unfold; cbn [axis_eqb] in Z; injection Z as Z1 Z2 Z3.
  - assert (x = 0) by lra. assert (y = 0) by lra. subst x. rewrite Rabs_R0 in E1. pose proof (Rabs_pos y). lra.
  - assert (x = 0) by lra. subst x. rewrite Rabs_R0 in E1. pose proof (Rabs_pos y). lra.
  - assert (x = 0) by lra. subst x. rewrite Rabs_R0 in E2. pose proof (Rabs_pos z). lra.
  - assert (y = 0) by lra. assert (z = 0) by lra. subst. apply S in E1. apply S in E2. nra.
Qed.
Lemma flip_axis_good g p a : proper_geometry g -> ge_primary g = Some p -> findFlipAxis g = Some a -> vnorm2 a = 1 /\ vdot a p = 0.
Proof.
  intros [H1 H2] Hp. unfold findFlipAxis. rewrite Hp. destruct (ge_secondary g) as [s|] eqn:Es; intros E; injection E as <-.
  - apply (H2 p s); auto.
  - split; [apply normalized_unit, cross_unit_nonzero; auto|].
    unfold vnormalized. generalize (/ vnorm (vcross p (unit_vector (min_component p)))). intros k.
    generalize (unit_vector (min_component p)). intros [] . destruct p. mat_unfold. ring.
Qed.

Lemma flip_matrix a v : vnorm2 a = 1 -> mvec (mrot_axis a PI) v = vsub (vscale (2 * vdot a v) a) v.
Proof.
  intros H. rewrite rodrigues, sin_PI, cos_PI. destruct a as [x y z], v as [p q r]. mat_unfold.
  assert (E : forall u, u = u * (x*x+y*y+z*z)) by (intros u; rewrite H; ring).
  apply vec_ext; mat_unfold.
  - pose proof (E p). lra.
  - pose proof (E q). lra.
  - pose proof (E r). lra.
Qed.
Lemma mat_ext_vec m1 m2 : (forall v, mvec m1 v = mvec m2 v) -> m1 = m2.
Proof.
  intros H. pose proof (H (V3 1 0 0)) as A. pose proof (H (V3 0 1 0)) as B. pose proof (H (V3 0 0 1)) as C. clear H.
  destruct m1, m2. mat_unfold. injection A as A1 A2 A3. injection B as B1 B2 B3. injection C as C1 C2 C3. f_equal; lra.
Qed.
Lemma flip_twice a : vnorm2 a = 1 -> mmul (mrot_axis a PI) (mrot_axis a PI) = mid.
Proof.
  intros H. apply mat_ext_vec. intros v. rewrite mvec_mmul, mvec_id, (flip_matrix a v), mvec_sub, mvec_scale, rot_axis_fixed, flip_matrix; auto.
  destruct a, v. apply vec_ext; mat_unfold; ring.
Qed.

Lemma shape_ext (s s' : shape) : sh_pos s = sh_pos s' -> sh_rot s = sh_rot s' -> s = s'.
Proof. destruct s as [p r], s' as [p' r']. simpl. intros -> ->. auto. Qed.
Section FlipMove.
Variables (g : geometry) (f : flipSampler) (p : vec) (b : box) (s : shape) (thread i : nat) (inside : option (vec -> bool)) (w : bool).
Hypotheses (Hg : proper_geometry g) (Hp : ge_primary g = Some p) (Hf : setupFlip g = Some f) (Hb : constructed b) (Hs : isometry (sh_rot s)).
Lemma setup_axis : vnorm2 (fl_axis f) = 1 /\ vdot (fl_axis f) p = 0 /\ fl_origin f = ge_origin g /\
  fl_originZero f = Rltb (vnorm2 (ge_origin g)) (FLIP_EPSILON * FLIP_EPSILON).
Proof.
  unfold setupFlip in Hf. destruct (findFlipAxis g) as [a|] eqn:E; [|discriminate]. cbn [obind] in Hf. injection Hf as <-.
  cbn [fl_axis fl_origin fl_originZero]. destruct (flip_axis_good g p a Hg Hp E). auto.
Qed.
Lemma axis_of_unit s' : isometry (sh_rot s') -> flip_axis_of f s' = mvec (sh_rot s') (fl_axis f) /\ vnorm2 (flip_axis_of f s') = 1.
Proof.
  intros Hs'. destruct setup_axis as (A & _). unfold flip_axis_of.
  assert (U : vnorm2 (mvec (sh_rot s') (fl_axis f)) = 1) by (rewrite Hs'; auto).
  rewrite normalized_of_unit; auto.
Qed.
Lemma flip_is_rotation : rotation (flip_rotation f s) /\ rotates_about (flip_rotation f s) (mvec (sh_rot s) (fl_axis f)) PI.
Proof.
  destruct (axis_of_unit s Hs) as [E U]. unfold flip_rotation. rewrite E in *. split; [apply rot_rotation; auto|apply rot_about; auto].
Qed.
Lemma dot_isometry m u v : isometry m -> vdot (mvec m u) (mvec m v) = vdot u v.
Proof.
  intros H. pose proof (H u) as H1. pose proof (H v) as H2. pose proof (H (vadd u v)) as E3. rewrite mvec_add in E3. unfold vnorm2 in *.
  assert (P : forall x y, vdot (vadd x y) (vadd x y) = vdot x x + vdot y y + 2 * vdot x y) by (intros [] []; mat_unfold; ring).
  rewrite !P in E3. lra.
Qed.
Lemma flip_reverses s1 : moves_to b (sampleFlip f thread i inside w s) s s1 ->
  sh_rot s1 = mmul (flip_rotation f s) (sh_rot s) /\ isometry (sh_rot s1) /\
  mvec (sh_rot s1) p = vneg (mvec (sh_rot s) p) /\ mvec (sh_rot s1) (fl_axis f) = mvec (sh_rot s) (fl_axis f).
Proof.
  intros Hm. assert (E : sh_rot s1 = mmul (flip_rotation f s) (sh_rot s)).
  { unfold sampleFlip in Hm. destruct (fl_originZero f); apply Hm. }
  split; auto. destruct setup_axis as (A & B & _). destruct (axis_of_unit s Hs) as [Ea Ua]. rewrite E.
  split.
  { intros v. rewrite mvec_mmul. rewrite (rotation_isometry _ (proj1 flip_is_rotation)). apply Hs. }
  rewrite !mvec_mmul. unfold flip_rotation. split.
  - rewrite flip_matrix by auto. rewrite Ea. rewrite dot_isometry by auto. rewrite B.
    generalize (mvec (sh_rot s) (fl_axis f)) (mvec (sh_rot s) p). intros [] []. apply vec_ext; mat_unfold; ring.
  - rewrite Ea. apply rot_axis_fixed.
Qed.
Lemma lattice_eq (u v : vec) : is_lattice_vector b u -> u = v -> is_lattice_vector b v.
Proof. intros H <-. auto. Qed.
Lemma flip_keeps_origin s1 : moves_to b (sampleFlip f thread i inside w s) s s1 ->
  if Rltb (vnorm2 (ge_origin g)) (FLIP_EPSILON * FLIP_EPSILON)
  then vnorm (vsub (origin_of (ge_origin g) s1) (origin_of (ge_origin g) s)) <= 2 * FLIP_EPSILON
  else is_lattice_vector b (vsub (origin_of (ge_origin g) s1) (origin_of (ge_origin g) s)).
Proof.
  intros Hm. destruct (flip_reverses s1 Hm) as (Er & Hi & _). destruct setup_axis as (_ & _ & Eo & Ez).
  unfold sampleFlip in Hm. rewrite Ez in Hm. unfold origin_of. rewrite Er, mvec_mmul.
  destruct (Rltb _ _) eqn:T.
  - apply Rltb_true in T. cbn [moves_to] in Hm. destruct Hm as [-> _]. set (o := mvec (sh_rot s) (ge_origin g)).
    replace (vsub (vadd (sh_pos s) (mvec (flip_rotation f s) o)) (vadd (sh_pos s) o)) with (vadd (mvec (flip_rotation f s) o) (vscale (-1) o))
      by (destruct (sh_pos s), o, (mvec (flip_rotation f s) (V3 vx0 vy0 vz0)); apply vec_ext; mat_unfold; ring).
    assert (N : forall q, vnorm2 q = vnorm2 (ge_origin g) -> vnorm q <= FLIP_EPSILON).
    { intros q Hq. unfold vnorm. rewrite Hq. replace FLIP_EPSILON with (sqrt (FLIP_EPSILON * FLIP_EPSILON)).
      - apply sqrt_le_1_alt. lra.
      - apply sqrt_square. unfold FLIP_EPSILON. apply Rlt_le, Rinv_0_lt_compat, pow_lt. lra. }
    apply Rle_trans with (1 := vnorm_triangle _ _).
    assert (N1 : vnorm (mvec (flip_rotation f s) o) <= FLIP_EPSILON).
    { apply N. rewrite (rotation_isometry _ (proj1 flip_is_rotation)). unfold o. apply Hs. }
    assert (N2 : vnorm (vscale (-1) o) <= FLIP_EPSILON).
    { apply N. rewrite <- (Hs (ge_origin g)). fold o. destruct o. mat_unfold. ring. }
    lra.
  - cbn [moves_to] in Hm. destruct Hm as [[_ Hl] _]. apply (lattice_eq _ _ Hl). unfold flip_translation. rewrite Eo.
    generalize (mvec (sh_rot s) (ge_origin g)). intros o. generalize (mvec (flip_rotation f s) o). intros [] .
    destruct o, (sh_pos s), (sh_pos s1). apply vec_ext; mat_unfold; ring.
Qed.
Lemma lattice_opp t : is_lattice_vector b t -> is_lattice_vector b (vneg t).
Proof. intros (i' & j & k & ->). exists (-i')%Z, (-j)%Z, (-k)%Z. unfold lattice_vector. rewrite !opp_IZR. apply vec_ext; simpl; ring. Qed.
Lemma flip_back s1 s2 inside' : in_box b (sh_pos s) -> moves_to b (sampleFlip f thread i inside w s) s s1 ->
  moves_to b (sampleFlip f thread i inside' w s1) s1 s2 -> s2 = s.
Proof.
  intros Hin Hm Hm2. destruct (flip_reverses s1 Hm) as (Er & Hi & _ & Ea). destruct (axis_of_unit s Hs) as [Ea0 Ua].
  assert (EA : flip_rotation f s1 = flip_rotation f s).
  { unfold flip_rotation, flip_axis_of. rewrite Ea. auto. }
  assert (R2 : sh_rot s2 = sh_rot s).
  { assert (E : sh_rot s2 = mmul (flip_rotation f s1) (sh_rot s1)) by (unfold sampleFlip in Hm2; destruct (fl_originZero f); apply Hm2).
    rewrite E, EA, Er, mmul_assoc. unfold flip_rotation. rewrite flip_twice by auto. apply mmul_id_l. }
  assert (P2 : sh_pos s2 = sh_pos s).
  { unfold sampleFlip in *. destruct (fl_originZero f).
    - destruct Hm as [M1 _], Hm2 as [M2 _]. congruence.
    - destruct Hm as [[I1 L1] _], Hm2 as [[I2 L2] _].
      assert (T : vadd (flip_translation f s1) (flip_translation f s) = vzero).
      { unfold flip_translation. rewrite EA, Er, mvec_mmul. set (o := mvec (sh_rot s) (fl_origin f)).
        assert (F : mvec (flip_rotation f s) (mvec (flip_rotation f s) o) = o).
        { rewrite <- mvec_mmul. unfold flip_rotation. rewrite flip_twice, mvec_id; auto. }
        rewrite F. generalize (mvec (flip_rotation f s) o). intros []. destruct o. apply vec_ext; mat_unfold; ring. }
      assert (L : is_lattice_vector b (vsub (sh_pos s2) (sh_pos s))).
      { apply (lattice_eq _ _ (lattice_add b _ _ L1 L2)). revert T.
        generalize (flip_translation f s1) (flip_translation f s). intros [] [] T. mat_unfold.
        injection T as T1 T2 T3. destruct (sh_pos s2), (sh_pos s1), (sh_pos s). apply vec_ext; mat_unfold; lra. }
      assert (Z : vsub (sh_pos s2) (sh_pos s) = vzero).
      { apply (in_box_lattice_unique b (sh_pos s)); auto.
        - apply constructed_valid; auto.
        - apply lattice_0.
        - replace (vadd (sh_pos s) (vsub (sh_pos s2) (sh_pos s))) with (sh_pos s2); auto.
          destruct (sh_pos s2), (sh_pos s). apply vec_ext; mat_unfold; ring.
        - rewrite vadd_zero_r. auto. }
      destruct (sh_pos s2), (sh_pos s). mat_unfold. injection Z as Z1 Z2 Z3. apply vec_ext; mat_unfold; lra. }
  apply shape_ext; auto.
Qed.
End FlipMove.
