(** Properties C25 (matrices), C26 and C57. *)
From Coq Require Import Reals Lra List Bool.
From Verif Require Import GeomModel GeomProofs BoxModel BoxSpec PbcModel PbcSpec PackModel PackSpec DomSpec RotModel RotSpec RotProofs RotFlipProofs RotQuatProofs.
Import ListNotations.
Open Scope R_scope.

(** Orthogonal matrices (rotations and reflections) are not changed by fixing. *)
Theorem C25_orthogonal : forall m, isometry m -> fixRotationMatrix m = m.
Proof. exact fix_fixed. Qed.
Print Assumptions C25_orthogonal.

(** The deviation from orthogonality which the program reports falls to at most its eighth power. *)
Theorem C25_drift : forall m, rotationMatrixDeviation m <= 1 ->
  rotationMatrixDeviation (fixRotationMatrix m) <= rotationMatrixDeviation m ^ 8.
Proof. exact fix_drift. Qed.
Print Assumptions C25_drift.
(** A matrix with a deviation strictly between 0 and 1. *)
Example C25_drifted : 0 < rotationMatrixDeviation (mscale (101/100) mid) <= 1.
Proof. unfold rotationMatrixDeviation, mnorm2, mid; cbn. split; lra. Qed.

(** The matrix for a unit axis is a rotation about this axis by the angle. *)
Theorem C26_axis_angle : forall a angle, vnorm2 a = 1 -> rotation (mrot_axis a angle) /\ rotates_about (mrot_axis a angle) a angle.
Proof. intros a angle H. split; [exact (rot_rotation a angle H)|exact (rot_about a angle H)]. Qed.
Print Assumptions C26_axis_angle.

(** Axes sampled by the program are normalized. *)
Theorem C26_normalized : forall v, v <> vzero -> vnorm2 (vnormalized v) = 1 /\ exists k, 0 < k /\ vnormalized v = vscale k v.
Proof.
  intros v H. split; [exact (normalized_unit v H)|]. exists (/ vnorm v). split; [exact (Rinv_0_lt_compat _ (vnorm_pos v H))|reflexivity].
Qed.
Print Assumptions C26_normalized.

(** A flip turns the shape by pi about an axis perpendicular to its primary axis, which is reversed. The geometric origin stays in
    place (up to a lattice vector of the box), with an error of 2e-14 at most when it is taken for zero. *)
Theorem C26_flip : forall g f p b s thread i inside w s1, proper_geometry g -> ge_primary g = Some p -> setupFlip g = Some f ->
  isometry (sh_rot s) -> moves_to b (sampleFlip f thread i inside w s) s s1 ->
  (exists m a, sh_rot s1 = mmul m (sh_rot s) /\ rotation m /\ vnorm2 a = 1 /\ rotates_about m a PI /\ vdot a (mvec (sh_rot s) p) = 0) /\
  mvec (sh_rot s1) p = vneg (mvec (sh_rot s) p) /\
  if Rltb (vnorm2 (ge_origin g)) (FLIP_EPSILON * FLIP_EPSILON)
  then vnorm (vsub (origin_of (ge_origin g) s1) (origin_of (ge_origin g) s)) <= 2 * FLIP_EPSILON
  else is_lattice_vector b (vsub (origin_of (ge_origin g) s1) (origin_of (ge_origin g) s)).
Proof.
  intros g f p b s thread i inside w s1 Hg Hp Hf Hs Hm.
  destruct (flip_reverses g f p b s thread i inside w Hg Hp Hf Hs s1 Hm) as (E & _ & Hr & _).
  destruct (flip_is_rotation g f p s Hg Hp Hf Hs) as [R1 R2]. destruct (setup_axis g f p Hg Hp Hf) as (A & B & _).
  split; [|exact (conj Hr (flip_keeps_origin g f p b s thread i inside w Hg Hp Hf Hs s1 Hm))].
  exists (flip_rotation f s), (mvec (sh_rot s) (fl_axis f)).
  split; [exact E|]. split; [exact R1|]. split; [rewrite Hs; exact A|]. split; [exact R2|].
  rewrite (dot_isometry (sh_rot s) _ _ Hs). exact B.
Qed.
Print Assumptions C26_flip.

(** Two flips restore the position and the orientation. *)
Theorem C26_involution : forall g f p b s thread i inside inside' w s1 s2, proper_geometry g -> ge_primary g = Some p -> setupFlip g = Some f ->
  constructed b -> isometry (sh_rot s) -> in_box b (sh_pos s) ->
  moves_to b (sampleFlip f thread i inside w s) s s1 -> moves_to b (sampleFlip f thread i inside' w s1) s1 s2 -> s2 = s.
Proof.
  intros g f p b s thread i inside inside' w s1 s2 Hg Hp Hf Hb Hs Hin.
  exact (flip_back g f p b s thread i inside w Hg Hp Hf Hb Hs s1 s2 inside' Hin).
Qed.
Print Assumptions C26_involution.

(** Every geometry with a primary axis can be flipped. *)
Theorem C26_setup : forall g, (exists f, setupFlip g = Some f) <-> ge_primary g <> None.
Proof.
  intros g. unfold setupFlip, findFlipAxis. destruct (ge_primary g), (ge_secondary g); cbn [obind]; split; intros H; try discriminate;
    try (destruct H; discriminate); try congruence; eauto.
Qed.
Print Assumptions C26_setup.
Example C26_geometry : proper_geometry (Geometry (Some (V3 0 0 1)) (Some (V3 1 0 0)) (V3 0 0 (1/2))) /\
  proper_geometry (Geometry (Some (V3 (3/5) 0 (4/5))) None (V3 0 0 0)).
Proof.
  split; split; cbn; intros; repeat match goal with H : Some _ = Some _ |- _ => injection H as <- | H : None = Some _ |- _ => discriminate H end;
    unfold vnorm2, vdot; cbn; try split; lra.
Qed.

(** The quaternion of a rotation matrix is a unit one and acts on vectors as the matrix does. *)
Theorem C57_quaternion : forall m, rotation m ->
  qnorm2 (quaternionFromMatrix m) = 1 /\ forall u, quat_act (quaternionFromMatrix m) u = mvec m u.
Proof. exact quaternion_property. Qed.
Print Assumptions C57_quaternion.

(** Both triples of Euler angles give the matrix back. *)
Theorem C57_euler : forall m, rotation m -> Rabs (m20 m) < 1 ->
  exists p1 t1 f1 p2 t2 f2, eulerAngles m = Some ((p1, t1, f1), (p2, t2, f2)) /\
    mrot_xyz p1 t1 f1 = m /\ mrot_xyz p2 t2 f2 = m.
Proof. exact euler_property. Qed.
Print Assumptions C57_euler.

(** The branch for the gimbal lock is never taken, a division by zero is made instead. *)
Theorem C57_gimbal_refuted : exists m, rotation m /\ m20 m = 1 /\ isRotationMatrix m = true /\ eulerAngles m = None.
Proof. exact euler_gimbal. Qed.
Print Assumptions C57_gimbal_refuted.

Example C57_rotation : rotation (mrot_axis (V3 (3/5) 0 (4/5)) 2).
Proof. apply rot_rotation. unfold vnorm2, vdot. cbn. lra. Qed.
