From Coq Require Import Reals Lra Psatz.
From Verif Require Import GeomModel BoxModel BoxSpec GeomProofs.
Open Scope R_scope.

(** A box as produced by any constructor. *)
Definition valid_box (b : box) : Prop := minverse (dims b) = Some (invdims b).

Lemma box_of_matrix_valid m b : box_of_matrix m = Some b -> valid_box b /\ dims b = m.
Proof.
  unfold box_of_matrix. destruct (minverse m) eqn:E; [|discriminate].
  intros H; injection H as <-. split; auto.
Qed.
Lemma valid_box_of_matrix b : valid_box b -> box_of_matrix (dims b) = Some b.
Proof.
  unfold valid_box, box_of_matrix; intros H; rewrite H; destruct b; reflexivity.
Qed.
Lemma valid_det b : valid_box b -> mdet (dims b) <> 0.
Proof. intros H; apply minverse_Some in H; tauto. Qed.

Lemma rel_abs b p : valid_box b -> absoluteToRelative b (relativeToAbsolute b p) = p.
Proof.
  intros H; apply minverse_Some in H; destruct H as (H1 & H2 & _).
  unfold absoluteToRelative, relativeToAbsolute. rewrite <- mvec_mmul, H2. apply mvec_id.
Qed.
Lemma abs_rel b p : valid_box b -> relativeToAbsolute b (absoluteToRelative b p) = p.
Proof.
  intros H; apply minverse_Some in H; destruct H as (H1 & H2 & _).
  unfold absoluteToRelative, relativeToAbsolute. rewrite <- mvec_mmul, H1. apply mvec_id.
Qed.
Lemma a2r_add b p q : absoluteToRelative b (vadd p q) = vadd (absoluteToRelative b p) (absoluteToRelative b q).
Proof. apply mvec_add. Qed.
Lemma a2r_sub b p q : absoluteToRelative b (vsub p q) = vsub (absoluteToRelative b p) (absoluteToRelative b q).
Proof. apply mvec_sub. Qed.
Lemma r2a_add b p q : relativeToAbsolute b (vadd p q) = vadd (relativeToAbsolute b p) (relativeToAbsolute b q).
Proof. apply mvec_add. Qed.
Lemma r2a_sub b p q : relativeToAbsolute b (vsub p q) = vsub (relativeToAbsolute b p) (relativeToAbsolute b q).
Proof. apply mvec_sub. Qed.

Lemma side_col b a : box_side b a = mcol (dims b) a.
Proof. destruct a; apply vec_ext; simpl; ring. Qed.

Lemma triple_det b : vdot (vcross (box_side b AX) (box_side b AY)) (box_side b AZ) = mdet (dims b).
Proof. rewrite !side_col. unfold vdot, mdet; simpl; ring. Qed.
Lemma volume_det b : box_volume b = Rabs (mdet (dims b)).
Proof. unfold box_volume. rewrite triple_det. reflexivity. Qed.
Lemma volume_pos b : valid_box b -> 0 < box_volume b.
Proof. intros H. rewrite volume_det. apply Rabs_pos_lt, valid_det, H. Qed.

(** Relative coordinate via the face normal: [rel_i * det = face_i . p]. *)
Lemma rel_face b p a : valid_box b -> vget (absoluteToRelative b p) a * mdet (dims b) = vdot (box_face b a) p.
Proof.
  intros H. rewrite <- (abs_rel b p H) at 2.
  set (r := absoluteToRelative b p). unfold box_face. 
  destruct a; rewrite ?side_col; unfold relativeToAbsolute, vdot, mdet; simpl; ring.
Qed.

Lemma face_nonzero b a : valid_box b -> box_face b a <> vzero.
Proof.
  intros H E. pose proof (rel_face b (box_side b a) a H) as Hr.
  rewrite E in Hr. unfold box_side in Hr.
  pose proof (valid_det b H) as Hd.
  destruct a; rewrite rel_abs in Hr by auto; unfold vdot in Hr; simpl in Hr; lra.
Qed.

Lemma height_pos b a : valid_box b -> 0 < box_height b a.
Proof.
  intros H. unfold box_height. apply Rdiv_lt_0_compat; [apply volume_pos, H|apply vnorm_pos, face_nonzero, H].
Qed.
Lemma height_area b a : valid_box b -> box_height b a * vnorm (box_face b a) = box_volume b.
Proof.
  intros H. unfold box_height. field. pose proof (vnorm_pos _ (face_nonzero b a H)). lra.
Qed.

(** A height is the distance between opposite faces: it bounds the length of any displacement by its relative extent. *)
Lemma height_bound b a p : valid_box b -> Rabs (vget (absoluteToRelative b p) a) * box_height b a <= vnorm p.
Proof.
  intros H. unfold box_height.
  pose proof (vnorm_pos _ (face_nonzero b a H)) as Hf.
  apply Rmult_le_reg_r with (vnorm (box_face b a)); auto.
  replace (Rabs (vget (absoluteToRelative b p) a) * (box_volume b / vnorm (box_face b a)) * vnorm (box_face b a))
    with (Rabs (vget (absoluteToRelative b p) a) * box_volume b) by (field; lra).
  rewrite volume_det, <- Rabs_mult, rel_face by auto.
  rewrite (Rmult_comm (vnorm p)). apply cauchy_schwarz.
Qed.

Lemma height_attained b a : valid_box b ->
  exists n, vget (absoluteToRelative b n) a = 1 /\ vnorm n = box_height b a.
Proof.
  intros H. pose proof (valid_det b H) as Hd. pose proof (vnorm_pos _ (face_nonzero b a H)) as Hf.
  set (f := box_face b a) in *.
  exists (vscale (mdet (dims b) / vnorm2 f) f).
  assert (Hn2 : vnorm2 f <> 0) by (rewrite <- vnorm_sqr; nra).
  split.
  - pose proof (rel_face b (vscale (mdet (dims b) / vnorm2 f) f) a H) as Hr.
    fold f in Hr.
    replace (vdot f (vscale (mdet (dims b) / vnorm2 f) f)) with (mdet (dims b)) in Hr.
    + apply Rmult_eq_reg_r with (mdet (dims b)); auto. lra.
    + replace (vdot f (vscale (mdet (dims b) / vnorm2 f) f))
        with (mdet (dims b) / vnorm2 f * vnorm2 f) by (unfold vnorm2, vdot; simpl; ring).
      field; auto.
  - unfold box_height; fold f. rewrite volume_det.
    unfold vnorm at 1.
    replace (vnorm2 (vscale (mdet (dims b) / vnorm2 f) f))
      with (Rsqr (mdet (dims b) / vnorm f)).
    + rewrite sqrt_Rsqr_abs. unfold Rdiv. rewrite Rabs_mult, (Rabs_pos_eq (/ vnorm f)); auto.
      left; apply Rinv_0_lt_compat; auto.
    + replace (vnorm2 (vscale (mdet (dims b) / vnorm2 f) f))
        with ((mdet (dims b) / vnorm2 f) * (mdet (dims b) / vnorm2 f) * vnorm2 f) by (unfold vnorm2, vdot; simpl; ring).
      rewrite <- vnorm_sqr. unfold Rsqr. field. lra.
Qed.

(** Scaling. *)
Lemma box_scale_spec b f : valid_box b -> vx f <> 0 -> vy f <> 0 -> vz f <> 0 ->
  exists b', box_scale f b = Some b' /\ valid_box b' /\
             box_volume b' = Rabs (vx f * vy f * vz f) * box_volume b /\
             (forall r, relativeToAbsolute b' r =
                        V3 (vx f * vx (relativeToAbsolute b r)) (vy f * vy (relativeToAbsolute b r))
                           (vz f * vz (relativeToAbsolute b r))).
Proof.
  intros H Hx Hy Hz.
  assert (Hd : mdet (mmul (M33 (vx f) 0 0 0 (vy f) 0 0 0 (vz f)) (dims b)) = vx f * vy f * vz f * mdet (dims b)).
  { rewrite mdet_mmul. f_equal. unfold mdet; simpl; ring. }
  assert (Hnz : mdet (mmul (M33 (vx f) 0 0 0 (vy f) 0 0 0 (vz f)) (dims b)) <> 0).
  { rewrite Hd. pose proof (valid_det b H). repeat apply Rmult_integral_contrapositive_currified; auto. }
  unfold box_scale, box_transform, box_of_matrix.
  destruct (minverse_det _ Hnz) as [i Hi]. rewrite Hi.
  eexists; split; [reflexivity|]. split; [exact Hi|]. split.
  - rewrite !volume_det. cbn [dims]. rewrite Hd, Rabs_mult. reflexivity.
  - intros r. unfold relativeToAbsolute; cbn [dims]. rewrite mvec_mmul. vec_ring.
Qed.

Lemma box_scale_sides_spec b f : valid_box b -> vx f <> 0 -> vy f <> 0 -> vz f <> 0 ->
  exists b', box_scale_sides f b = Some b' /\ valid_box b' /\
             box_volume b' = Rabs (vx f * vy f * vz f) * box_volume b /\
             (forall a, box_side b' a = vscale (vget f a) (box_side b a)) /\
             (forall a, box_height b' a = Rabs (vget f a) * box_height b a).
Proof.
  intros H Hx Hy Hz.
  set (m := matrix_of_sides (vscale (vx f) (box_side b AX)) (vscale (vy f) (box_side b AY))
                            (vscale (vz f) (box_side b AZ))).
  assert (Hm : m = mmul (dims b) (M33 (vx f) 0 0 0 (vy f) 0 0 0 (vz f))).
  { unfold m. rewrite !side_col. mat_ring. }
  assert (Hd : mdet m = vx f * vy f * vz f * mdet (dims b)).
  { rewrite Hm, mdet_mmul, Rmult_comm. f_equal. unfold mdet; simpl; ring. }
  assert (Hnz : mdet m <> 0).
  { rewrite Hd. pose proof (valid_det b H). repeat apply Rmult_integral_contrapositive_currified; auto. }
  unfold box_scale_sides, box_of_sides. fold m. unfold box_of_matrix.
  destruct (minverse_det _ Hnz) as [i Hi]. rewrite Hi.
  assert (Hside : forall a, box_side (Box m i) a = vscale (vget f a) (box_side b a)).
  { intros a. rewrite !side_col. cbn [dims]. rewrite Hm. destruct a; vec_ring. }
  assert (Hvol : box_volume (Box m i) = Rabs (vx f * vy f * vz f) * box_volume b).
  { rewrite !volume_det. cbn [dims]. rewrite Hd, Rabs_mult. reflexivity. }
  eexists; split; [reflexivity|]. split; [exact Hi|]. split; [exact Hvol|]. split; [exact Hside|].
  assert (Hvs : forall s a, vnorm (vscale s a) = Rabs s * vnorm a).
  { intros s a. unfold vnorm. replace (vnorm2 (vscale s a)) with (Rsqr s * vnorm2 a)
      by (unfold Rsqr, vnorm2, vdot; simpl; ring).
    rewrite sqrt_mult by (try apply Rle_0_sqr; apply vnorm2_nonneg). rewrite sqrt_Rsqr_abs. reflexivity. }
  intros a. unfold box_height. rewrite Hvol, !Rabs_mult.
  pose proof (vnorm_pos _ (face_nonzero b a H)) as Hf.
  assert (forall x, x <> 0 -> 0 < Rabs x) as Hap by (intros; apply Rabs_pos_lt; auto).
  pose proof (Hap _ Hx). pose proof (Hap _ Hy). pose proof (Hap _ Hz).
  destruct a; unfold box_face; rewrite !Hside; cbn [vget].
  - replace (vcross (vscale (vy f) (box_side b AY)) (vscale (vz f) (box_side b AZ)))
      with (vscale (vy f * vz f) (box_face b AX)) by (unfold box_face; vec_ring).
    rewrite Hvs, Rabs_mult. fold (box_face b AX). field. repeat split; lra.
  - replace (vcross (vscale (vz f) (box_side b AZ)) (vscale (vx f) (box_side b AX)))
      with (vscale (vz f * vx f) (box_face b AY)) by (unfold box_face; vec_ring).
    rewrite Hvs, Rabs_mult. fold (box_face b AY). field. repeat split; lra.
  - replace (vcross (vscale (vx f) (box_side b AX)) (vscale (vy f) (box_side b AY)))
      with (vscale (vx f * vy f) (box_face b AZ)) by (unfold box_face; vec_ring).
    rewrite Hvs, Rabs_mult. fold (box_face b AZ). field. repeat split; lra.
Qed.

(** Linear independence of sides <-> the box can be constructed. *)
Lemma sides_mvec s0 s1 s2 a b c :
  lincomb s0 s1 s2 a b c = mvec (matrix_of_sides s0 s1 s2) (V3 a b c).
Proof. unfold lincomb. vec_ring. Qed.

Lemma box_constructible s0 s1 s2 : lin_indep s0 s1 s2 <-> exists b, box_of_sides s0 s1 s2 = Some b.
Proof.
  unfold box_of_sides. set (m := matrix_of_sides s0 s1 s2). split.
  - intros Hl. destruct (Req_EM_T (mdet m) 0) as [E|N].
    + destruct (mdet_zero_kernel m E) as [[x y z] [Hv Hk]].
      exfalso. apply Hv. destruct (Hl x y z) as (-> & -> & ->); [|reflexivity].
      rewrite sides_mvec. exact Hk.
    + destruct (minverse_det m N) as [i Hi]. unfold box_of_matrix. rewrite Hi. eauto.
  - intros [b Hb] x y z Hz. rewrite sides_mvec in Hz. fold m in Hz.
    apply box_of_matrix_valid in Hb. destruct Hb as [Hv Hd].
    pose proof (rel_abs b (V3 x y z) Hv) as Hr. unfold relativeToAbsolute in Hr. rewrite Hd, Hz in Hr.
    unfold absoluteToRelative in Hr. rewrite mvec_zero in Hr. unfold vzero in Hr.
    injection Hr; intros; subst; auto.
Qed.

Lemma constructed_valid b : constructed b <-> valid_box b.
Proof.
  split.
  - intros (s0&s1&s2&H). unfold box_of_sides in H. apply box_of_matrix_valid in H. tauto.
  - intros H. exists (box_side b AX), (box_side b AY), (box_side b AZ). unfold box_of_sides.
    replace (matrix_of_sides (box_side b AX) (box_side b AY) (box_side b AZ)) with (dims b).
    + apply valid_box_of_matrix, H.
    + rewrite !side_col. apply mat_ext. intros [] []; reflexivity.
Qed.

Lemma box_round_trip s0 s1 s2 b : box_of_sides s0 s1 s2 = Some b ->
  (forall p, relativeToAbsolute b (absoluteToRelative b p) = p) /\
  (forall r, absoluteToRelative b (relativeToAbsolute b r) = r) /\
  (forall x y z, relativeToAbsolute b (V3 x y z) = lincomb s0 s1 s2 x y z).
Proof.
  intros H. unfold box_of_sides in H. apply box_of_matrix_valid in H. destruct H as [Hv Hd].
  repeat split.
  - intros; apply abs_rel, Hv.
  - intros; apply rel_abs, Hv.
  - intros. rewrite sides_mvec, <- Hd. reflexivity.
Qed.

Lemma box_sides_given s0 s1 s2 b : box_of_sides s0 s1 s2 = Some b ->
  box_side b AX = s0 /\ box_side b AY = s1 /\ box_side b AZ = s2.
Proof.
  intros H. destruct (box_round_trip _ _ _ _ H) as (_&_&Hl). unfold box_side. rewrite !Hl. unfold lincomb.
  repeat split; vec_ring.
Qed.

Lemma volume_triple s0 s1 s2 b : box_of_sides s0 s1 s2 = Some b ->
  box_volume b = Rabs (vdot s0 (vcross s1 s2)) /\ 0 < box_volume b.
Proof.
  intros H. destruct (box_sides_given _ _ _ _ H) as (E0&E1&E2). split.
  - unfold box_volume. rewrite E0, E1, E2. f_equal. unfold vdot; simpl; ring.
  - apply volume_pos, constructed_valid. exists s0, s1, s2; auto.
Qed.

Lemma heights_spec b a : constructed b ->
  0 < box_height b a /\
  (forall d, Rabs (vget (absoluteToRelative b d) a) * box_height b a <= vnorm d) /\
  (exists d, vget (absoluteToRelative b d) a = 1 /\ vnorm d = box_height b a).
Proof.
  intros H. apply constructed_valid in H. repeat split.
  - apply height_pos, H.
  - intros; apply height_bound, H.
  - apply height_attained, H.
Qed.

Lemma scale_sides_props b f : constructed b -> 0 < vx f -> 0 < vy f -> 0 < vz f ->
  exists b', box_scale_sides f b = Some b' /\ constructed b' /\
    box_volume b' = vx f * vy f * vz f * box_volume b /\
    (forall a, box_side b' a = vscale (vget f a) (box_side b a)) /\
    (forall a, box_height b' a = vget f a * box_height b a).
Proof.
  intros H Hx Hy Hz. apply constructed_valid in H.
  destruct (box_scale_sides_spec b f H) as (b'&E&Hv&Hvol&Hs&Hh); try lra.
  exists b'. split; auto. split; [apply constructed_valid; auto|].
  rewrite Rabs_pos_eq in Hvol by (repeat apply Rmult_le_pos; lra).
  split; auto. split; auto. intros a. rewrite Hh, Rabs_pos_eq; auto. destruct a; simpl; lra.
Qed.

Lemma scale_props b f : constructed b -> 0 < vx f -> 0 < vy f -> 0 < vz f ->
  exists b', box_scale f b = Some b' /\ constructed b' /\
    box_volume b' = vx f * vy f * vz f * box_volume b /\
    (forall r, relativeToAbsolute b' r =
               V3 (vx f * vx (relativeToAbsolute b r)) (vy f * vy (relativeToAbsolute b r))
                  (vz f * vz (relativeToAbsolute b r))).
Proof.
  intros H Hx Hy Hz. apply constructed_valid in H.
  destruct (box_scale_spec b f H) as (b'&E&Hv&Hvol&Hs); try lra.
  exists b'. split; auto. split; [apply constructed_valid; auto|].
  rewrite Rabs_pos_eq in Hvol by (repeat apply Rmult_le_pos; lra). auto.
Qed.
