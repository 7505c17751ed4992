From Coq Require Import Reals ZArith Lra.
From Verif Require Import RFloorModel GeomModel GeomProofs BoxModel PbcModel PbcTotalModel BoxSpec PbcSpec BoxProofs PbcProofs PbcDistSpec.
Open Scope R_scope.

Lemma dist_trans_signed d : Rabs d - IZR (dist_z (Rabs d)) = turn d * (d + IZR (trans_z d)).
Proof.
  unfold dist_z, trans_z, turn. destruct (Rlt_dec d 0) as [Hd|Hd].
  - rewrite Rabs_left by auto. destruct (Rlt_dec (1/2) d); [lra|].
    destruct (Rlt_dec (1/2) (-d)), (Rlt_dec d (-1/2)); lra.
  - rewrite Rabs_pos_eq by lra. destruct (Rlt_dec (1/2) d).
    + rewrite opp_IZR. lra.
    + destruct (Rlt_dec d (-1/2)); [lra|]. simpl. ring.
Qed.
Lemma abs_components b v : relativeToAbsolute b v = vadd (vscale (vx v) (box_side b AX)) (vadd (vscale (vy v) (box_side b AY)) (vscale (vz v) (box_side b AZ))).
Proof. rewrite !side_col. unfold relativeToAbsolute. apply vec_ext; cbn; ring. Qed.
Lemma distance_mirrored b p1 p2 : constructed b -> exists d t, terminates_with (fun fuel => getDistance2 fuel b p1 p2) d /\
  terminates_with (fun fuel => getTranslation fuel b p1 p2) t /\ d = vnorm2 (mirrored b p1 p2 (vsub (vadd p2 t) p1)).
Proof.
  intros H. apply constructed_valid in H. exists (distance2 b p1 p2), (translation b p1 p2).
  split; [apply getDistance2_terminates|]. split; [apply getTranslation_terminates|].
  unfold distance2. f_equal. rewrite abs_components. unfold mirrored. cbv zeta. unfold translation. rewrite !a2r_sub, a2r_add, rel_abs by auto.
  set (r1 := absoluteToRelative b p1). set (r2 := absoluteToRelative b p2). unfold dist_rel. cbn [vx vy vz vmake vget vadd vsub]. rewrite !dist_trans_signed.
  f_equal; [|f_equal]; f_equal; ring.
Qed.
Lemma distance_same_signs b p1 p2 : constructed b -> same_signs b p1 p2 -> exists d t, terminates_with (fun fuel => getDistance2 fuel b p1 p2) d /\
  terminates_with (fun fuel => getTranslation fuel b p1 p2) t /\ d = vnorm2 (vsub (vadd p2 t) p1).
Proof.
  intros H S. apply constructed_valid in H. exists (distance2 b p1 p2), (translation b p1 p2).
  split; [apply getDistance2_terminates|]. split; [apply getTranslation_terminates|].
  unfold distance2. rewrite <- (abs_rel b (vsub (vadd p2 (translation b p1 p2)) p1)) by auto.
  rewrite a2r_sub, a2r_add. unfold translation. rewrite rel_abs by auto. unfold same_signs in S. rewrite !a2r_sub in S.
  set (r1 := absoluteToRelative b p1) in *. set (r2 := absoluteToRelative b p2) in *. destruct S as [S|S].
  - f_equal. f_equal. unfold dist_rel. apply vec_ext_axis. intros a. specialize (S a). rewrite !vget_vmake, vget_vsub, vget_vadd, vget_vmake. rewrite vget_vsub in S.
    rewrite dist_trans_signed. unfold turn. destruct (Rlt_dec _ _); [lra|]. ring.
  - transitivity (vnorm2 (vneg (relativeToAbsolute b (vneg (dist_rel r1 r2))))).
    { unfold vnorm2, vdot, relativeToAbsolute, vneg; cbn; ring. }
    transitivity (vnorm2 (relativeToAbsolute b (vneg (dist_rel r1 r2)))).
    { unfold vnorm2, vdot, vneg; cbn; ring. }
    f_equal. f_equal. unfold dist_rel. apply vec_ext_axis. intros a. specialize (S a). rewrite vget_vneg, !vget_vmake, vget_vsub, vget_vadd, vget_vmake. rewrite vget_vsub in S.
    rewrite dist_trans_signed. unfold turn. destruct (Rlt_dec _ _); [ring|]. replace (vget r2 a - vget r1 a) with 0 by lra.
    unfold trans_z. destruct (Rlt_dec _ _); [lra|]. destruct (Rlt_dec _ _); [lra|]. lra.
Qed.
