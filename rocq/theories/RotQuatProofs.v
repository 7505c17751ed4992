From Coq Require Import Reals Lra Psatz List Bool.
From Verif Require Import GeomModel GeomProofs RotModel RotSpec RotProofs.
Import ListNotations.
Open Scope R_scope.

(** *** Quaternions *)
(** What the quaternion [(x, y, z, w)] of squared norm [n] gives. *)
Lemma quat_act_scaled x y z w n u : 0 < n -> x*x+y*y+z*z+w*w = n ->
  qnorm2 (qnormalized (Quat x y z w)) = 1 /\
  quat_act (qnormalized (Quat x y z w)) u =
  vscale (/ n) (vadd (vscale n u) (vscale 2 (vadd (vscale w (vcross (V3 x y z) u)) (vcross (V3 x y z) (vcross (V3 x y z) u))))).
Proof.
  intros Hn E. unfold qnormalized, qnorm2. cbn [qx qy qz qw]. rewrite E.
  assert (S : sqrt n * sqrt n = n) by (apply sqrt_sqrt; lra). assert (P : 0 < sqrt n) by (apply sqrt_lt_R0; auto).
  set (k := sqrt n) in *. assert (Hk : / n = / k * / k) by (rewrite <- S; field; lra).
  split.
  - replace (x / k * (x / k) + y / k * (y / k) + z / k * (z / k) + w / k * (w / k)) with ((x*x+y*y+z*z+w*w) / (k*k)) by (field; lra).
    rewrite E, S. field. lra.
  - unfold quat_act, qvec. cbn [qx qy qz qw]. rewrite Hk, <- S. destruct u as [p q r]. apply vec_ext; mat_unfold; field; lra.
Qed.
Lemma quat_matrix_entries m x y z w n : 0 < n -> x*x+y*y+z*z+w*w = n ->
  n * m00 m = n - 2*(y*y+z*z) -> n * m01 m = 2*(x*y-w*z) -> n * m02 m = 2*(x*z+w*y) ->
  n * m10 m = 2*(x*y+w*z) -> n * m11 m = n - 2*(x*x+z*z) -> n * m12 m = 2*(y*z-w*x) ->
  n * m20 m = 2*(x*z-w*y) -> n * m21 m = 2*(y*z+w*x) -> n * m22 m = n - 2*(x*x+y*y) ->
  qnorm2 (qnormalized (Quat x y z w)) = 1 /\ forall u, quat_act (qnormalized (Quat x y z w)) u = mvec m u.
Proof.
  intros Hn E. intros. split; [apply (quat_act_scaled x y z w n (V3 0 0 0)); auto|].
  intros u. destruct (quat_act_scaled x y z w n u Hn E) as [_ ->]. destruct m as [a b c d e f g h i], u as [p q r]. mat_unfold.
  assert (K : forall s t, s = n * t -> / n * s = t) by (intros s t ->; field; lra).
  apply vec_ext; mat_unfold; apply K.
  - replace (n * (a * p + b * q + c * r)) with (n * a * p + n * b * q + n * c * r) by ring. rewrite H, H0, H1. ring.
  - replace (n * (d * p + e * q + f * r)) with (n * d * p + n * e * q + n * f * r) by ring. rewrite H2, H3, H4. ring.
  - replace (n * (g * p + h * q + i * r)) with (n * g * p + n * h * q + n * i * r) by ring. rewrite H5, H6, H7. ring.
Qed.
Lemma quaternion_property m : rotation m ->
  qnorm2 (quaternionFromMatrix m) = 1 /\ forall u, quat_act (quaternionFromMatrix m) u = mvec m u.
Proof.
  intros Hm. destruct (rotation_elim m Hm) as (T1 & T2 & C). clear Hm. destruct m as [a b c d e f g h i].
  destruct C as (C1 & C2 & C3 & C4 & C5 & C6 & C7 & C8 & C9).
  assert (O : a*a+b*b+c*c = 1 /\ d*d+e*e+f*f = 1 /\ g*g+h*h+i*i = 1 /\ a*d+b*e+c*f = 0 /\ a*g+b*h+c*i = 0 /\ d*g+e*h+f*i=0 /\
              a*a+d*d+g*g = 1 /\ b*b+e*e+h*h = 1 /\ c*c+f*f+i*i = 1 /\ a*b+d*e+g*h = 0 /\ a*c+d*f+g*i = 0 /\ b*c+e*f+h*i = 0).
  { mat_unfold. injection T1 as H1 H2 H3 H4 H5 H6 H7 H8 H9. injection T2 as K1 K2 K3 K4 K5 K6 K7 K8 K9. repeat split; lra. }
  clear T1 T2. destruct O as (R1 & R2 & R3 & R4 & R5 & R6 & L1 & L2 & L3 & L4 & L5 & L6).
  unfold quaternionFromMatrix. mat_unfold.
  destruct (Rltb 0 (a + e + i)) eqn:Et.
  - apply Rltb_true in Et. apply (quat_matrix_entries _ _ _ _ _ (4 * (1 + (a + e + i)))); mat_unfold; lra.
  - apply Rltb_false in Et.
    destruct (Rltb a e) eqn:E1; rewrite ?Rltb_true, ?Rltb_false in *.
    + destruct (Rltb e i) eqn:E2; rewrite ?Rltb_true, ?Rltb_false in *.
      * apply (quat_matrix_entries _ _ _ _ _ (4 * (1 - a - e + i))); mat_unfold; lra.
      * apply (quat_matrix_entries _ _ _ _ _ (4 * (1 - a + e - i))); mat_unfold; lra.
    + destruct (Rltb a i) eqn:E2; rewrite ?Rltb_true, ?Rltb_false in *.
      * apply (quat_matrix_entries _ _ _ _ _ (4 * (1 - a - e + i))); mat_unfold; lra.
      * apply (quat_matrix_entries _ _ _ _ _ (4 * (1 + a - e - i))); mat_unfold; lra.
Qed.

(** *** Euler angles *)
Lemma atan2_spec y x : x*x + y*y = 1 -> cos (atan2 y x) = x /\ sin (atan2 y x) = y.
Proof.
  intros H. unfold atan2.
  assert (K : x <> 0 -> cos (atan (y/x)) = / sqrt (1 + Rsqr (y/x)) /\ sin (atan (y/x)) = (y/x) / sqrt (1 + Rsqr (y/x))).
  { intros Hx. split; [rewrite cos_atan; field|apply sin_atan]. apply Rgt_not_eq, sqrt_lt_R0. pose proof (Rle_0_sqr (y/x)). lra. }
  assert (S : forall s, x = s \/ x = - s -> 0 < s -> sqrt (1 + Rsqr (y/x)) = / s).
  { intros s Hs Hs0. assert (x*x = s*s) by (destruct Hs as [->| ->]; ring). assert (x <> 0) by (destruct Hs as [->| ->]; lra).
    replace (1 + Rsqr (y/x)) with ((/s)*(/s)).
    - apply sqrt_square. apply Rlt_le, Rinv_0_lt_compat. auto.
    - unfold Rsqr. replace (1 + y / x * (y / x)) with ((x*x+y*y)/(x*x)) by (field; auto). rewrite H, H0. field. lra. }
  destruct (Rltb 0 x) eqn:E1; [apply Rltb_true in E1|apply Rltb_false in E1].
  - destruct K as [K1 K2]; [lra|]. rewrite K1, K2, (S x) by auto. split; field; lra.
  - destruct (Rltb x 0) eqn:E2; [apply Rltb_true in E2|apply Rltb_false in E2].
    + destruct K as [K1 K2]; [lra|]. rewrite (S (-x)) in K1, K2 by lra.
      assert (Q1 : cos (atan (y/x)) = - x) by (rewrite K1; field; lra).
      assert (Q2 : sin (atan (y/x)) = - y) by (rewrite K2; field; lra).
      destruct (Rleb 0 y).
      * rewrite neg_cos, neg_sin, Q1, Q2. split; ring.
      * replace (atan (y/x) - PI) with (- (PI - atan (y/x))) by ring. rewrite cos_neg, sin_neg.
        rewrite Rtrigo_facts.cos_pi_minus, Rtrigo_facts.sin_pi_minus, Q1, Q2. split; ring.
    + assert (x = 0) by lra. subst x.
      destruct (Rltb 0 y) eqn:E3; [apply Rltb_true in E3|apply Rltb_false in E3].
      * rewrite cos_PI2, sin_PI2. split; auto. nra.
      * destruct (Rltb y 0) eqn:E4; [apply Rltb_true in E4|apply Rltb_false in E4].
        -- rewrite cos_neg, sin_neg, cos_PI2, sin_PI2. split; auto. nra.
        -- assert (y = 0) by lra. subst. lra.
Qed.
Lemma euler_one m c theta : rotation m -> c <> 0 -> c * c = 1 - m20 m * m20 m -> cos theta = c -> sin theta = - m20 m ->
  mrot_xyz (atan2 (m21 m / c) (m22 m / c)) theta (atan2 (m10 m / c) (m00 m / c)) = m.
Proof.
  intros Hm Hc Ec Ct St. destruct (rotation_elim m Hm) as (T1 & T2 & C). destruct m as [a b c' d e f g h i].
  destruct C as (C1 & C2 & C3 & C4 & C5 & C6 & C7 & C8 & C9). mat_unfold.
  assert (O : a*a+d*d+g*g = 1 /\ g*g+h*h+i*i = 1).
  { injection T1 as H1 _ _ _ _ _ _ _ _. injection T2 as _ _ _ _ _ _ _ _ K9. split; lra. }
  destruct O as [O1 O2]. clear T1 T2.
  destruct (atan2_spec (h/c) (i/c)) as [P1 P2].
  { replace (i/c*(i/c)+h/c*(h/c)) with ((h*h+i*i)/(c*c)) by (field; auto). replace (h*h+i*i) with (c*c) by lra. field. auto. }
  destruct (atan2_spec (d/c) (a/c)) as [Q1 Q2].
  { replace (a/c*(a/c)+d/c*(d/c)) with ((a*a+d*d)/(c*c)) by (field; auto). replace (a*a+d*d) with (c*c) by lra. field. auto. }
  unfold mrot_xyz. rewrite P1, P2, Q1, Q2, Ct, St. clear P1 P2 Q1 Q2.
  assert (K : forall s t, s = c*c*t -> s / (c*c) = t) by (intros s t ->; field; auto).
  f_equal; try (field; auto).
  - replace (h / c * - g * (a / c) - i / c * (d / c)) with ((- g*(a*h) - d*i)/(c*c)) by (field; auto). apply K. rewrite Ec.
    replace (a*h) with (b*g-f) by lra. replace (d*i) with (f*g-b) by lra. ring.
  - replace (i / c * - g * (a / c) + h / c * (d / c)) with ((- g*(a*i) + d*h)/(c*c)) by (field; auto). apply K. rewrite Ec.
    replace (a*i) with (e+c'*g) by lra. replace (d*h) with (c'+e*g) by lra. ring.
  - replace (h / c * - g * (d / c) + i / c * (a / c)) with ((- g*(d*h) + a*i)/(c*c)) by (field; auto). apply K. rewrite Ec.
    replace (a*i) with (e+c'*g) by lra. replace (d*h) with (c'+e*g) by lra. ring.
  - replace (i / c * - g * (d / c) - h / c * (a / c)) with ((- g*(d*i) - a*h)/(c*c)) by (field; auto). apply K. rewrite Ec.
    replace (a*h) with (b*g-f) by lra. replace (d*i) with (f*g-b) by lra. ring.
Qed.
Lemma euler_branch m : (Rltb (-1 + EULER_EPSILON) (m20 m) || Rltb (m20 m) (1 - EULER_EPSILON))%bool = true.
Proof.
  assert (0 < EULER_EPSILON < 1).
  { unfold EULER_EPSILON. split; [apply Rinv_0_lt_compat, pow_lt; lra|]. apply Rmult_lt_reg_r with (10^12); [apply pow_lt; lra|].
    rewrite Rinv_l by (apply pow_nonzero; lra). lra. }
  destruct (Rltb (m20 m) (1 - EULER_EPSILON)) eqn:E; [apply orb_true_r|]. apply Rltb_false in E.
  assert (E2 : Rltb (-1 + EULER_EPSILON) (m20 m) = true) by (apply Rltb_true; lra). rewrite E2. auto.
Qed.
Lemma rotation_is m : rotation m -> isRotationMatrix m = true.
Proof.
  intros Hm. destruct (rotation_elim m Hm) as (_ & T2 & _). unfold isRotationMatrix. rewrite T2.
  assert (Z : forall i j, mget (msub mid mid) i j = 0) by (intros [] []; mat_unfold; ring).
  assert (P : 0 < EULER_EPSILON) by (unfold EULER_EPSILON; apply Rinv_0_lt_compat, pow_lt; lra).
  assert (Q : forall i j, Rltb (Rabs (mget (msub mid mid) i j)) EULER_EPSILON = true).
  { intros i j. apply Rltb_true. rewrite Z, Rabs_R0. auto. }
  cbn [forallb]. rewrite !Q. auto.
Qed.
Lemma euler_property m : rotation m -> Rabs (m20 m) < 1 ->
  exists p1 t1 f1 p2 t2 f2, eulerAngles m = Some ((p1, t1, f1), (p2, t2, f2)) /\
    mrot_xyz p1 t1 f1 = m /\ mrot_xyz p2 t2 f2 = m.
Proof.
  intros Hm Hr. unfold eulerAngles. rewrite (rotation_is m Hm). unfold eulerForMatrix. rewrite euler_branch. cbv zeta.
  apply Rabs_def2 in Hr. set (g := m20 m) in *.
  assert (S1 : sin (- asin g) = - g) by (rewrite sin_neg, sin_asin; lra).
  assert (C1 : cos (- asin g) = sqrt (1 - Rsqr g)) by (rewrite cos_neg; apply cos_asin; lra).
  assert (P : 0 < 1 - Rsqr g) by (unfold Rsqr; nra).
  assert (Q : sqrt (1 - Rsqr g) * sqrt (1 - Rsqr g) = 1 - g*g) by (rewrite sqrt_sqrt; [auto|lra]).
  assert (N : 0 < sqrt (1 - Rsqr g)) by (apply sqrt_lt_R0; auto).
  assert (C2 : cos (PI - - asin g) = - sqrt (1 - Rsqr g)) by (rewrite Rtrigo_facts.cos_pi_minus, C1; auto).
  assert (S2 : sin (PI - - asin g) = - g) by (rewrite Rtrigo_facts.sin_pi_minus, S1; auto).
  assert (Z1 : Reqb (cos (- asin g)) 0 = false) by (apply Reqb_false; rewrite C1; lra).
  assert (Z2 : Reqb (cos (PI - - asin g)) 0 = false) by (apply Reqb_false; rewrite C2; lra).
  rewrite Z1, Z2. cbn [orb]. do 6 eexists. split; [reflexivity|]. split; apply euler_one; auto.
  - rewrite C1. lra.
  - rewrite C1, Q. auto.
  - rewrite C2. lra.
  - rewrite C2. replace (- sqrt (1 - Rsqr g) * - sqrt (1 - Rsqr g)) with (sqrt (1 - Rsqr g) * sqrt (1 - Rsqr g)) by ring. rewrite Q. auto.
Qed.
(** The branch for the gimbal lock is never taken: a division by zero. *)
Lemma euler_gimbal : exists m, rotation m /\ m20 m = 1 /\ isRotationMatrix m = true /\ eulerAngles m = None.
Proof.
  set (m := M33 0 0 1 0 1 0 1 0 0 : mat). exists (M33 0 0 (-1) 0 1 0 1 0 0).
  assert (H : rotation (M33 0 0 (-1) 0 1 0 1 0 0)).
  { apply rotation_intro; [apply mat_ext; intros [] []; mat_unfold; ring|mat_unfold; ring]. }
  split; auto. split; [reflexivity|]. split; [apply rotation_is; auto|].
  unfold eulerAngles. rewrite (rotation_is _ H). unfold eulerForMatrix. rewrite euler_branch. cbn [m20].
  rewrite asin_1, cos_neg, cos_PI2. assert (E : Reqb 0 0 = true) by (apply Reqb_true; auto). rewrite E. reflexivity.
Qed.
