From Coq Require Import Reals Lra Psatz List Bool.
From Verif Require Import GeomModel GeomProofs BoxModel BoxSpec BoxProofs PbcModel PbcSpec PbcProofs PackModel PackSpec DomSpec RotModel RotSpec.
Import ListNotations.
Open Scope R_scope.

Ltac mat_unfold := unfold vnorm2, vdot, mdet, mtr in *; cbn [mvec vcross vdot vadd vsub vneg vscale vmake vnorm2 vzero mmul mtrans mmake madd msub mscale mid mget mdet mtr
  vx vy vz vget m00 m01 m02 m10 m11 m12 m20 m21 m22 mrot_axis mskew] in *.

(** *** Rodrigues' formula *)
Lemma rodrigues a angle v : mvec (mrot_axis a angle) v =
  vadd v (vadd (vscale (sin angle) (vcross a v)) (vscale (1 - cos angle) (vcross a (vcross a v)))).
Proof. destruct a, v. apply vec_ext; unfold mrot_axis, mskew; mat_unfold; ring. Qed.
Lemma rot_perp a angle v : vnorm2 a = 1 -> vdot a v = 0 ->
  mvec (mrot_axis a angle) v = vadd (vscale (cos angle) v) (vscale (sin angle) (vcross a v)).
Proof.
  intros Ha Hv. rewrite rodrigues. destruct a as [x y z], v as [p q r]. mat_unfold.
  assert (E : forall u, x * (x * p + y * q + z * r) - u * (x*x+y*y+z*z) = - u) by (intros u; rewrite Hv, Ha; ring).
  assert (E1 : forall u, y * (x * p + y * q + z * r) - u * (x*x+y*y+z*z) = - u) by (intros u; rewrite Hv, Ha; ring).
  assert (E2 : forall u, z * (x * p + y * q + z * r) - u * (x*x+y*y+z*z) = - u) by (intros u; rewrite Hv, Ha; ring).
  apply vec_ext; mat_unfold.
  - replace (y * (x * q - y * p) - z * (z * p - x * r)) with (x * (x * p + y * q + z * r) - p * (x*x+y*y+z*z)) by ring. rewrite E. ring.
  - replace (z * (y * r - z * q) - x * (x * q - y * p)) with (y * (x * p + y * q + z * r) - q * (x*x+y*y+z*z)) by ring. rewrite E1. ring.
  - replace (x * (z * p - x * r) - y * (y * r - z * q)) with (z * (x * p + y * q + z * r) - r * (x*x+y*y+z*z)) by ring. rewrite E2. ring.
Qed.
Lemma rot_axis_fixed a angle : mvec (mrot_axis a angle) a = a.
Proof. rewrite rodrigues. destruct a. apply vec_ext; mat_unfold; ring. Qed.
Lemma rot_about a angle : vnorm2 a = 1 -> rotates_about (mrot_axis a angle) a angle.
Proof. intros H. split; [apply rot_axis_fixed|]. intros v Hv. apply rot_perp; auto. Qed.

Lemma rotation_intro m : mmul (mtrans m) m = mid -> mdet m = 1 -> rotation m.
Proof.
  intros H D. assert (HT : mmul m (mtrans m) = mid).
  { destruct (minverse_det m) as (i & Ei); [lra|]. destruct (minverse_Some _ _ Ei) as (E1 & E2 & _).
    rewrite (minverse_unique m (mtrans m) i H E1). exact E1. }
  destruct m as [a b c d e f g h i].
  assert (Hc : a = e*i - f*h /\ b = f*g - d*i /\ c = d*h - e*g /\ d = c*h - b*i /\ e = a*i - c*g /\ f = b*g - a*h /\
               g = b*f - c*e /\ h = c*d - a*f /\ i = a*e - b*d).
  { mat_unfold. injection H as H1 H2 H3 H4 H5 H6 H7 H8 H9. injection HT as T1 T2 T3 T4 T5 T6 T7 T8 T9.
    (* each cofactor is the entry times the determinant *)
    assert (K : forall p q r P Q S : R, p*P+q*Q+r*S = 1 -> P*P+Q*Q+S*S=1 -> p*p+q*q+r*r=1 -> p = P /\ q = Q /\ r = S).
    { intros p q r P Q S K1 K2 K3. assert (Z : (p-P)*(p-P)+(q-Q)*(q-Q)+(r-S)*(r-S) = 0) by nra.
      pose proof (Rle_0_sqr (p-P)). pose proof (Rle_0_sqr (q-Q)). pose proof (Rle_0_sqr (r-S)). unfold Rsqr in *.
      repeat split; apply Rminus_diag_uniq; apply Rsqr_0_uniq; unfold Rsqr; lra. }
    assert (N : forall p q r P Q S x y z, x = q*S-r*Q -> y = r*P-p*S -> z = p*Q-q*P -> p*p+q*q+r*r=1 -> P*P+Q*Q+S*S=1 -> p*P+q*Q+r*S=0 ->
      x*x+y*y+z*z = 1).
    { intros p q r P Q S x y z -> -> -> N1 N2 N3.
      replace ((q*S-r*Q)*(q*S-r*Q)+(r*P-p*S)*(r*P-p*S)+(p*Q-q*P)*(p*Q-q*P)) with ((p*p+q*q+r*r)*(P*P+Q*Q+S*S)-(p*P+q*Q+r*S)*(p*P+q*Q+r*S)) by ring.
      rewrite N1, N2, N3. ring. }
    destruct (K a b c (e*i-f*h) (f*g-d*i) (d*h-e*g)) as (A1 & A2 & A3); [lra| |lra|].
    { apply (N d e f g h i); auto; lra. }
    destruct (K d e f (c*h-b*i) (a*i-c*g) (b*g-a*h)) as (B1 & B2 & B3); [lra| |lra|].
    { apply (N g h i a b c); auto; lra. }
    destruct (K g h i (b*f-c*e) (c*d-a*f) (a*e-b*d)) as (C1 & C2 & C3); [lra| |lra|].
    { apply (N a b c d e f); auto; lra. }
    auto 10. }
  destruct Hc as (C1 & C2 & C3 & C4 & C5 & C6 & C7 & C8 & C9).
  split; intros [x y z] [X Y Z].
  - mat_unfold. injection H as H1 H2 H3 H4 H5 H6 H7 H8 H9.
    replace ((a * x + b * y + c * z) * (a * X + b * Y + c * Z) + (d * x + e * y + f * z) * (d * X + e * Y + f * Z) + (g * x + h * y + i * z) * (g * X + h * Y + i * Z))
      with ((a*a+d*d+g*g)*(x*X) + (b*b+e*e+h*h)*(y*Y) + (c*c+f*f+i*i)*(z*Z) + (a*b+d*e+g*h)*(x*Y+y*X) + (a*c+d*f+g*i)*(x*Z+z*X) + (b*c+e*f+h*i)*(y*Z+z*Y)) by ring.
    rewrite H1, H5, H9, H2, H3, H6. ring.
  - apply vec_ext; mat_unfold.
    + replace (a * (y * Z - z * Y) + b * (z * X - x * Z) + c * (x * Y - y * X)) with ((e*i-f*h) * (y * Z - z * Y) + (f*g-d*i) * (z * X - x * Z) + (d*h-e*g) * (x * Y - y * X)) by (rewrite <- C1, <- C2, <- C3; ring). ring.
    + replace (d * (y * Z - z * Y) + e * (z * X - x * Z) + f * (x * Y - y * X)) with ((c*h-b*i) * (y * Z - z * Y) + (a*i-c*g) * (z * X - x * Z) + (b*g-a*h) * (x * Y - y * X)) by (rewrite <- C4, <- C5, <- C6; ring). ring.
    + replace (g * (y * Z - z * Y) + h * (z * X - x * Z) + i * (x * Y - y * X)) with ((b*f-c*e) * (y * Z - z * Y) + (c*d-a*f) * (z * X - x * Z) + (a*e-b*d) * (x * Y - y * X)) by (rewrite <- C7, <- C8, <- C9; ring). ring.
Qed.
Lemma rotation_elim m : rotation m -> mmul (mtrans m) m = mid /\ mmul m (mtrans m) = mid /\
  let '(M33 a b c d e f g h i) := m in
  a = e*i - f*h /\ b = f*g - d*i /\ c = d*h - e*g /\ d = c*h - b*i /\ e = a*i - c*g /\ f = b*g - a*h /\
  g = b*f - c*e /\ h = c*d - a*f /\ i = a*e - b*d.
Proof.
  intros [Hd Hc]. assert (T : mmul (mtrans m) m = mid).
  { destruct m as [a b c d e f g h i].
    pose proof (Hd (V3 1 0 0) (V3 1 0 0)). pose proof (Hd (V3 1 0 0) (V3 0 1 0)). pose proof (Hd (V3 1 0 0) (V3 0 0 1)).
    pose proof (Hd (V3 0 1 0) (V3 0 1 0)). pose proof (Hd (V3 0 1 0) (V3 0 0 1)). pose proof (Hd (V3 0 0 1) (V3 0 0 1)). clear Hd Hc.
    apply mat_ext. intros [] []; mat_unfold; lra. }
  split; auto.
  assert (D : mdet m * mdet m = 1) by (rewrite <- (mdet_trans m) at 1; rewrite <- mdet_mmul, T; apply mdet_id).
  assert (HT : mmul m (mtrans m) = mid).
  { destruct (minverse_det m) as (i & Ei); [intros Z; rewrite Z in D; lra|]. destruct (minverse_Some _ _ Ei) as (E1 & E2 & _).
    rewrite (minverse_unique m (mtrans m) i T E1). exact E1. }
  split; auto. clear D T HT. destruct m as [a b c d e f g h i].
  pose proof (Hc (V3 1 0 0) (V3 0 1 0)) as K1. pose proof (Hc (V3 0 1 0) (V3 0 0 1)) as K2. pose proof (Hc (V3 0 0 1) (V3 1 0 0)) as K3. clear Hd Hc.
  mat_unfold. injection K1 as K11 K12 K13. injection K2 as K21 K22 K23. injection K3 as K31 K32 K33.
  repeat split; lra.
Qed.
Lemma rot_rotation a angle : vnorm2 a = 1 -> rotation (mrot_axis a angle).
Proof.
  intros H. pose proof (sin2_cos2 angle) as S. unfold Rsqr in S.
  set (s := sin angle) in *. set (c := cos angle) in *.
  assert (E : forall u, vdot (mvec (mrot_axis a angle) u) (mvec (mrot_axis a angle) u) = vdot u u).
  { intros u. rewrite rodrigues. fold s c. destruct a as [x y z], u as [p q r].
    replace (vdot (vadd (V3 p q r) (vadd (vscale s (vcross (V3 x y z) (V3 p q r))) (vscale (1 - c) (vcross (V3 x y z) (vcross (V3 x y z) (V3 p q r))))))
                  (vadd (V3 p q r) (vadd (vscale s (vcross (V3 x y z) (V3 p q r))) (vscale (1 - c) (vcross (V3 x y z) (vcross (V3 x y z) (V3 p q r)))))))
      with (vdot (V3 p q r) (V3 p q r) + (s*s + (1-c)*(1-c) * vnorm2 (V3 x y z) - 2*(1-c)) * vnorm2 (vcross (V3 x y z) (V3 p q r)))
      by (mat_unfold; ring).
    rewrite H. replace (s * s + (1 - c) * (1 - c) * 1 - 2 * (1 - c)) with (s*s+c*c-1) by ring. rewrite S. ring. }
  assert (E2 : forall u v, vdot (mvec (mrot_axis a angle) u) (mvec (mrot_axis a angle) v) = vdot u v).
  { intros u v. pose proof (E u). pose proof (E v). pose proof (E (vadd u v)) as E3. rewrite mvec_add in E3.
    assert (P : forall x y, vdot (vadd x y) (vadd x y) = vdot x x + vdot y y + 2 * vdot x y) by (intros [] []; mat_unfold; ring).
    rewrite !P in E3. lra. }
  assert (T : mmul (mtrans (mrot_axis a angle)) (mrot_axis a angle) = mid).
  { clear E. revert E2. generalize (mrot_axis a angle). intros m Hd. destruct m as [a' b c' d e f g h i].
    pose proof (Hd (V3 1 0 0) (V3 1 0 0)). pose proof (Hd (V3 1 0 0) (V3 0 1 0)). pose proof (Hd (V3 1 0 0) (V3 0 0 1)).
    pose proof (Hd (V3 0 1 0) (V3 0 1 0)). pose proof (Hd (V3 0 1 0) (V3 0 0 1)). pose proof (Hd (V3 0 0 1) (V3 0 0 1)). clear Hd.
    apply mat_ext. intros [] []; mat_unfold; lra. }
  apply rotation_intro; auto.
  destruct a as [x y z]. unfold mrot_axis, mskew. fold s c. mat_unfold.
  match goal with |- ?l = 1 => replace l with (1 + (s*s + (1-c)*(1-c)*(x*x+y*y+z*z) - 2*(1-c)) * (x*x+y*y+z*z)) by ring end.
  rewrite H. replace (s*s + (1-c)*(1-c)*1 - 2*(1-c)) with (s*s+c*c-1) by ring. rewrite S. ring.
Qed.

(** *** Fixing of orientations *)
Lemma isometry_orthogonal m : isometry m -> mmul (mtrans m) m = mid /\ mmul m (mtrans m) = mid.
Proof.
  intros H. assert (E2 : forall u v, vdot (mvec m u) (mvec m v) = vdot u v).
  { intros u v. pose proof (H u). pose proof (H v). pose proof (H (vadd u v)) as E3. rewrite mvec_add in E3. unfold vnorm2 in *.
    assert (P : forall x y, vdot (vadd x y) (vadd x y) = vdot x x + vdot y y + 2 * vdot x y) by (intros [] []; mat_unfold; ring).
    rewrite !P in E3. lra. }
  assert (T : mmul (mtrans m) m = mid).
  { clear H. revert E2. intros Hd. destruct m as [a' b c' d e f g h i].
    pose proof (Hd (V3 1 0 0) (V3 1 0 0)). pose proof (Hd (V3 1 0 0) (V3 0 1 0)). pose proof (Hd (V3 1 0 0) (V3 0 0 1)).
    pose proof (Hd (V3 0 1 0) (V3 0 1 0)). pose proof (Hd (V3 0 1 0) (V3 0 0 1)). pose proof (Hd (V3 0 0 1) (V3 0 0 1)). clear Hd.
    apply mat_ext. intros [] []; mat_unfold; lra. }
  split; auto.
  assert (D : mdet m * mdet m = 1) by (rewrite <- (mdet_trans m) at 1; rewrite <- mdet_mmul, T; apply mdet_id).
  destruct (minverse_det m) as (i & Ei); [intros Z; rewrite Z in D; lra|]. destruct (minverse_Some _ _ Ei) as (E1 & E3 & _).
  rewrite (minverse_unique m (mtrans m) i T E1). exact E1.
Qed.
Lemma orthogonal_isometry m : mmul (mtrans m) m = mid -> isometry m.
Proof.
  intros H [x y z]. destruct m as [a b c d e f g h i]. mat_unfold. injection H as H1 H2 H3 H4 H5 H6 H7 H8 H9.
  replace ((a * x + b * y + c * z) * (a * x + b * y + c * z) + (d * x + e * y + f * z) * (d * x + e * y + f * z) + (g * x + h * y + i * z) * (g * x + h * y + i * z))
    with ((a*a+d*d+g*g)*(x*x) + (b*b+e*e+h*h)*(y*y) + (c*c+f*f+i*i)*(z*z) + 2*((a*b+d*e+g*h)*(x*y)) + 2*((a*c+d*f+g*i)*(x*z)) + 2*((b*c+e*f+h*i)*(y*z))) by ring.
  rewrite H1, H5, H9, H2, H3, H6. ring.
Qed.
Lemma rotation_isometry m : rotation m -> isometry m.
Proof. intros [H _] v. apply H. Qed.
Lemma fix_step_fixed m : isometry m -> fix_step m = m.
Proof.
  intros H. destruct (isometry_orthogonal m H) as [_ H2]. unfold fix_step. rewrite H2, mmul_id_l.
  apply mat_ext. intros i j. rewrite mget_mmake. lra.
Qed.
Lemma fix_fixed m : isometry m -> fixRotationMatrix m = m.
Proof. intros H. unfold fixRotationMatrix. rewrite (fix_step_fixed m H), (fix_step_fixed m H), (fix_step_fixed m H). reflexivity. Qed.

Definition fixA (S : mat) : mat := msub (mscale (3/2) mid) (mscale (1/2) S).
Lemma fix_step_mul m : fix_step m = mmul (fixA (mmul m (mtrans m))) m.
Proof.
  unfold fix_step. generalize (mmul m (mtrans m)). intros S. apply mat_ext. intros i j. rewrite mget_mmake.
  replace 1.5 with (3/2) by lra. replace 0.5 with (1/2) by lra.
  destruct m, S, i, j; unfold fixA; mat_unfold; field.
Qed.
Lemma sym_mmt m : mtrans (mmul m (mtrans m)) = mmul m (mtrans m).
Proof. rewrite mtrans_mmul, mtrans_invol. auto. Qed.
Lemma fix_error m : let E := msub (mmul m (mtrans m)) mid in
  msub (mmul (fix_step m) (mtrans (fix_step m))) mid = msub (mscale (1/4) (mmul (mmul E E) E)) (mscale (3/4) (mmul E E)).
Proof.
  cbv zeta. rewrite fix_step_mul, mtrans_mmul. pose proof (sym_mmt m) as Hs.
  replace (mmul (mmul (fixA (mmul m (mtrans m))) m) (mmul (mtrans m) (mtrans (fixA (mmul m (mtrans m))))))
    with (mmul (mmul (fixA (mmul m (mtrans m))) (mmul m (mtrans m))) (mtrans (fixA (mmul m (mtrans m))))) by (rewrite !mmul_assoc; auto).
  revert Hs. generalize (mmul m (mtrans m)). intros [a b c d e f g h i] Hs.
  assert (b = d /\ c = g /\ f = h) as (-> & -> & ->). { clear - Hs. mat_unfold. injection Hs. auto. } clear Hs.
  apply mat_ext. intros [] []; unfold fixA; mat_unfold; field.
Qed.
Lemma mnorm2_nonneg m : 0 <= mnorm2 m.
Proof. unfold mnorm2. nra. Qed.
Lemma cs3 a b c p q r : (a*p+b*q+c*r)*(a*p+b*q+c*r) <= (a*a+b*b+c*c)*(p*p+q*q+r*r).
Proof. pose proof (Rle_0_sqr (a*q-b*p)). pose proof (Rle_0_sqr (a*r-c*p)). pose proof (Rle_0_sqr (b*r-c*q)). unfold Rsqr in *. nra. Qed.
Lemma mnorm2_mul a b : mnorm2 (mmul a b) <= mnorm2 a * mnorm2 b.
Proof.
  destruct a as [a1 a2 a3 a4 a5 a6 a7 a8 a9], b as [b1 b2 b3 b4 b5 b6 b7 b8 b9]. unfold mnorm2. mat_unfold.
  replace ((a1*a1+a2*a2+a3*a3+a4*a4+a5*a5+a6*a6+a7*a7+a8*a8+a9*a9)*(b1*b1+b2*b2+b3*b3+b4*b4+b5*b5+b6*b6+b7*b7+b8*b8+b9*b9)) with
   ((a1*a1+a2*a2+a3*a3)*(b1*b1+b4*b4+b7*b7)+(a1*a1+a2*a2+a3*a3)*(b2*b2+b5*b5+b8*b8)+(a1*a1+a2*a2+a3*a3)*(b3*b3+b6*b6+b9*b9)+
    (a4*a4+a5*a5+a6*a6)*(b1*b1+b4*b4+b7*b7)+(a4*a4+a5*a5+a6*a6)*(b2*b2+b5*b5+b8*b8)+(a4*a4+a5*a5+a6*a6)*(b3*b3+b6*b6+b9*b9)+
    (a7*a7+a8*a8+a9*a9)*(b1*b1+b4*b4+b7*b7)+(a7*a7+a8*a8+a9*a9)*(b2*b2+b5*b5+b8*b8)+(a7*a7+a8*a8+a9*a9)*(b3*b3+b6*b6+b9*b9)) by ring.
  repeat apply Rplus_le_compat; apply cs3.
Qed.
Lemma mnorm2_mix x y : mnorm2 (msub (mscale (1/4) x) (mscale (3/4) y)) <= 1/4 * mnorm2 x + 3/4 * mnorm2 y.
Proof.
  assert (E : forall p q, (1/4*p - 3/4*q)*(1/4*p - 3/4*q) <= 1/4*(p*p) + 3/4*(q*q)) by (intros p q; pose proof (Rle_0_sqr (p+q)); unfold Rsqr in *; nra).
  destruct x as [a1 a2 a3 a4 a5 a6 a7 a8 a9], y as [b1 b2 b3 b4 b5 b6 b7 b8 b9]. unfold mnorm2. mat_unfold.
  pose proof (E a1 b1). pose proof (E a2 b2). pose proof (E a3 b3). pose proof (E a4 b4). pose proof (E a5 b5). pose proof (E a6 b6).
  pose proof (E a7 b7). pose proof (E a8 b8). pose proof (E a9 b9). lra.
Qed.
Lemma fix_step_drift m : rotationMatrixDeviation m <= 1 ->
  rotationMatrixDeviation (fix_step m) <= rotationMatrixDeviation m * rotationMatrixDeviation m.
Proof.
  unfold rotationMatrixDeviation. intros H. rewrite fix_error. set (E := msub (mmul m (mtrans m)) mid) in *.
  pose proof (mnorm2_nonneg E) as N. pose proof (mnorm2_mul E E) as N2. pose proof (mnorm2_mul (mmul E E) E) as N3.
  pose proof (mnorm2_mix (mmul (mmul E E) E) (mmul E E)) as Hm. set (n := mnorm2 E) in *.
  assert (mnorm2 (mmul (mmul E E) E) <= n * n).
  { apply Rle_trans with (1 := N3). apply Rle_trans with (n * n * n); [apply Rmult_le_compat_r; auto|nra]. }
  lra.
Qed.
Lemma fix_drift m : rotationMatrixDeviation m <= 1 ->
  rotationMatrixDeviation (fixRotationMatrix m) <= rotationMatrixDeviation m ^ 8.
Proof.
  intros H. unfold fixRotationMatrix. pose proof (fix_step_drift m H) as D1.
  assert (N : forall x, 0 <= rotationMatrixDeviation x) by (intros; apply mnorm2_nonneg).
  assert (D1' : rotationMatrixDeviation (fix_step m) <= 1) by (pose proof (N m); nra).
  pose proof (fix_step_drift _ D1') as D2.
  assert (D2' : rotationMatrixDeviation (fix_step (fix_step m)) <= 1) by (pose proof (N (fix_step m)); nra).
  pose proof (fix_step_drift _ D2') as D3.
  set (x := rotationMatrixDeviation m) in *. set (y := rotationMatrixDeviation (fix_step m)) in *.
  set (z := rotationMatrixDeviation (fix_step (fix_step m))) in *. pose proof (N m) as Nx. pose proof (N (fix_step m)) as Ny. pose proof (N (fix_step (fix_step m))) as Nz.
  fold x in Nx. fold y in Ny. fold z in Nz.
  assert (Hz : z <= x ^ 4).
  { apply Rle_trans with (1 := D2). apply Rle_trans with ((x*x)*(x*x)); [apply Rmult_le_compat; auto|right; ring]. }
  apply Rle_trans with (1 := D3). apply Rle_trans with (x^4 * x^4); [apply Rmult_le_compat; auto|right; ring].
Qed.
