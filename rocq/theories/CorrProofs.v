From Coq Require Import Reals ZArith List Bool Lia Lra Permutation.
From Verif Require Import GeomModel GeomProofs BoxModel BoxSpec BoxProofs RFloorModel RotModel RotQuatProofs PackSpec HistModel HistSpec HistProofs BondModel BondOrderProofs CorrModel CorrSpec.
Import ListNotations.
Local Open Scope R_scope.

(** Angles. *)
Lemma atan_bounds x : - (PI / 2) < atan x < PI / 2. Proof. pose proof (atan_bound x). lra. Qed.
Lemma atan2_range y x : - PI < atan2 y x <= PI.
Proof.
  pose proof PI_RGT_0 as P. pose proof (atan_bounds (y / x)) as B. unfold atan2.
  destruct (Rltb 0 x) eqn:E1; [lra|]. destruct (Rltb x 0) eqn:E2; [|destruct (Rltb 0 y); [lra|]; destruct (Rltb y 0); lra].
  apply Rltb_true in E2. destruct (Rleb 0 y) eqn:E3; [apply Rleb_true in E3|apply Rleb_false in E3].
  - assert (y / x <= 0) by (unfold Rdiv; pose proof (Rinv_lt_0_compat x E2); nra). assert (atan (y / x) <= 0) by (destruct (Req_dec (y / x) 0) as [-> |N]; [rewrite atan_0; lra|rewrite <- atan_0; left; apply atan_increasing; lra]). lra.
  - assert (0 < y / x) by (unfold Rdiv; pose proof (Rinv_lt_0_compat x E2); nra). assert (0 < atan (y / x)) by (rewrite <- atan_0; apply atan_increasing; lra). lra.
Qed.
Lemma Rltb_scale r a : 0 < r -> Rltb 0 (a / r) = Rltb 0 a /\ Rltb (a / r) 0 = Rltb a 0 /\ Rleb 0 (a / r) = Rleb 0 a.
Proof.
  intros H. assert (E : a / r * r = a) by (field; lra). set (b := a / r) in *. clearbody b. subst a.
  repeat split; unfold Rltb, Rleb; repeat match goal with |- context [Rlt_dec ?u ?v] => destruct (Rlt_dec u v) | |- context [Rle_dec ?u ?v] => destruct (Rle_dec u v) end; try reflexivity; exfalso; nra.
Qed.
Lemma atan2_scale r y x : 0 < r -> atan2 (y / r) (x / r) = atan2 y x.
Proof.
  intros H. unfold atan2. destruct (Rltb_scale r x H) as (-> & -> & _). destruct (Rltb_scale r y H) as (-> & -> & ->).
  destruct (Req_dec x 0) as [-> |N].
  - assert (X : Rltb 0 0 = false) by (apply Rltb_false; lra). rewrite X. reflexivity.
  - replace (y / r / (x / r)) with (y / x) by (field; lra). reflexivity.
Qed.
Lemma atan2_arg y x : - PI < atan2 y x <= PI /\ exists r, 0 <= r /\ (r = 0 -> atan2 y x = 0) /\ x = r * cos (atan2 y x) /\ y = r * sin (atan2 y x).
Proof.
  split; [apply atan2_range|]. destruct (Req_dec (x * x + y * y) 0) as [E|N].
  - assert (x = 0) by nra. assert (y = 0) by nra. subst. exists 0. split; [lra|]. split; [|split; lra]. intros _. unfold atan2. assert (X : Rltb 0 0 = false) by (apply Rltb_false; lra). rewrite X. reflexivity.
  - assert (0 < x * x + y * y) by nra. set (r := sqrt (x * x + y * y)). assert (R0 : 0 < r) by (apply sqrt_lt_R0; assumption). assert (R2 : r * r = x * x + y * y) by (apply sqrt_sqrt; lra). exists r. split; [lra|]. split; [lra|].
    destruct (atan2_spec (y / r) (x / r)) as [A B]; [replace (x / r * (x / r) + y / r * (y / r)) with ((x * x + y * y) / (r * r)) by (field; lra); rewrite R2; field; lra|]. rewrite atan2_scale in A, B by exact R0. rewrite A, B. split; field; lra.
Qed.
Lemma angle_unique t u : - PI < t <= PI -> - PI < u <= PI -> cos t = cos u -> sin t = sin u -> t = u.
Proof.
  intros Ht Hu C S. assert (X : cos (t - u) = 1) by (rewrite cos_minus, C, S; pose proof (sin2_cos2 u) as K; unfold Rsqr in K; lra).
  assert (Y : sin ((t - u) / 2) = 0).
  { replace (t - u) with (2 * ((t - u) / 2)) in X by field. rewrite cos_2a_sin in X. nra. }
  destruct (Rtotal_order t u) as [L|[L|L]]; [|exact L|]; exfalso.
  - assert (0 < sin ((u - t) / 2)) by (apply sin_gt_0; lra). replace ((t - u) / 2) with (- ((u - t) / 2)) in Y by field. rewrite sin_neg in Y. lra.
  - assert (0 < sin ((t - u) / 2)) by (apply sin_gt_0; lra). lra.
Qed.
Lemma phase_unique w point sn t u : phase w point sn t -> phase w point sn u -> t = u.
Proof.
  intros (Ht & r & Hr & Zr & C & S) (Hu & q & Hq & Zq & C' & S'). rewrite C in C'. rewrite S in S'.
  assert (E : r * r = q * q).
  { transitivity ((r * cos t) * (r * cos t) + (r * sin t) * (r * sin t)); [pose proof (sin2_cos2 t) as K; unfold Rsqr in K; nra|]. rewrite C', S'. pose proof (sin2_cos2 u) as K. unfold Rsqr in K. nra. }
  assert (r = q) by nra. subst q. destruct (Req_dec r 0) as [Z|N]; [rewrite Zr, Zq by exact Z; reflexivity|]. apply angle_unique; auto; apply (Rmult_eq_reg_l r); auto.
Qed.
(** Vectors. *)
Lemma vdot_comm u v : vdot u v = vdot v u. Proof. unfold vdot. ring. Qed.
Lemma vdot_sub_r u v w : vdot u (vsub v w) = vdot u v - vdot u w. Proof. unfold vdot, vsub. cbn [vx vy vz]. ring. Qed.
Lemma vdot_add_r u v w : vdot u (vadd v w) = vdot u v + vdot u w. Proof. unfold vdot, vadd. cbn [vx vy vz]. ring. Qed.
Lemma vdot_scale_r u c v : vdot u (vscale c v) = c * vdot u v. Proof. unfold vdot, vscale. cbn [vx vy vz]. ring. Qed.
Lemma parallel f v : vcross f v = vzero -> vscale (vnorm2 f) v = vscale (vdot f v) f.
Proof.
  intros H. unfold vcross, vzero in H. injection H as X Y Z. destruct f as [a b c], v as [p q r]. cbn [vx vy vz] in *. unfold vscale, vnorm2, vdot. cbn [vx vy vz]. f_equal; apply Rminus_diag_uniq.
  - transitivity (c * (c * p - a * r) - b * (a * q - b * p)); [ring|rewrite Y, Z; ring].
  - transitivity (a * (a * q - b * p) - c * (b * r - c * q)); [ring|rewrite X, Z; ring].
  - transitivity (b * (b * r - c * q) - a * (c * p - a * r)); [ring|rewrite X, Y; ring].
Qed.
Lemma norm2_pos v : v <> vzero -> 0 < vnorm2 v.
Proof. intros H. destruct v as [a b c]. unfold vnorm2, vdot. cbn [vx vy vz]. destruct (Req_dec (a * a + b * b + c * c) 0) as [E|N]; [|nra]. exfalso. apply H. unfold vzero. f_equal; nra. Qed.
Lemma norm_pos v : v <> vzero -> 0 < vnorm v. Proof. intros H. unfold vnorm. apply sqrt_lt_R0. apply norm2_pos. exact H. Qed.
Lemma scale_inj c u v : c <> 0 -> vscale c u = vscale c v -> u = v.
Proof. intros H E. destruct u as [a b c0], v as [p q r]. unfold vscale in E. cbn [vx vy vz] in E. injection E as A B C. f_equal; apply (Rmult_eq_reg_l c); auto. Qed.
Lemma normalized_of v : v <> vzero -> normalized v = Some (vscale (/ vnorm v) v).
Proof. intros H. unfold normalized. pose proof (norm_pos v H). destruct (Reqb (vnorm v) 0) eqn:E; [apply Reqb_true in E; lra|reflexivity]. Qed.
Lemma norm_sqr v : vnorm v * vnorm v = vnorm2 v. Proof. unfold vnorm. apply sqrt_sqrt. unfold vnorm2, vdot. nra. Qed.
Lemma squares_zero x y z : x * x + y * y + z * z = 0 -> x = 0 /\ y = 0 /\ z = 0. Proof. intros H. repeat split; nra. Qed.
(** Wave vectors. *)
Lemma dot_trans m u v : vdot (mvec (mtrans m) u) v = vdot u (mvec m v). Proof. destruct m, u as [a b c], v as [p q r]. unfold vdot, mvec, mtrans. cbn. ring. Qed.
Lemma dot_sides b u p : valid_box b -> vdot u p = vx (absoluteToRelative b p) * vdot u (box_side b AX) + vy (absoluteToRelative b p) * vdot u (box_side b AY) + vz (absoluteToRelative b p) * vdot u (box_side b AZ).
Proof.
  intros V. rewrite <- (abs_rel b p V) at 1. generalize (absoluteToRelative b p). intros [x y z]. unfold box_side, relativeToAbsolute. destruct (dims b), u as [a1 b1 c1]. unfold vdot, mvec. cbn. ring.
Qed.
Lemma wave_unique b h k l w u : valid_box b -> wave b h k l w -> wave b h k l u -> w = u.
Proof.
  intros V (A & B & C) (A' & B' & C'). assert (E : vnorm2 (vsub w u) = 0).
  { unfold vnorm2. rewrite (dot_sides b _ _ V). rewrite !(vdot_comm (vsub w u)), !vdot_sub_r, !(vdot_comm _ w), !(vdot_comm _ u), A, B, C, A', B', C'. ring. }
  destruct w as [a b1 c], u as [p q r]. unfold vnorm2, vdot, vsub in E. cbn [vx vy vz] in E. apply squares_zero in E. destruct E as (E1 & E2 & E3). f_equal; lra.
Qed.
Lemma waved sn h k l : constructed (sn_box sn) -> exists w, calculateK sn h k l = Some w /\ wave (sn_box sn) h k l w.
Proof.
  intros Cb. apply constructed_valid in Cb. pose proof Cb as V. unfold calculateK. unfold valid_box in V. rewrite V. eexists. split; [reflexivity|]. unfold kVectorOf.
  assert (K : forall e, vdot (vscale (2 * PI) (mvec (mtrans (invdims (sn_box sn))) (V3 (IZR h) (IZR k) (IZR l)))) (relativeToAbsolute (sn_box sn) e) = 2 * PI * vdot (V3 (IZR h) (IZR k) (IZR l)) e).
  { intros e. rewrite vdot_comm, vdot_scale_r, vdot_comm, dot_trans. change (mvec (invdims (sn_box sn)) (relativeToAbsolute (sn_box sn) e)) with (absoluteToRelative (sn_box sn) (relativeToAbsolute (sn_box sn) e)). rewrite rel_abs by exact Cb. reflexivity. }
  unfold wave, box_side. rewrite !K. unfold vdot. cbn [vx vy vz]. repeat split; ring.
Qed.
Lemma wave_nonzero b h k l w : (h, k, l) <> (0, 0, 0)%Z -> wave b h k l w -> w <> vzero.
Proof.
  intros N (A & B & C) ->. pose proof PI_RGT_0 as P. assert (Z : forall v, vdot vzero v = 0) by (intros; unfold vdot, vzero; cbn; ring). rewrite !Z in *. apply N. f_equal; [f_equal|]; apply eq_IZR; nra.
Qed.
