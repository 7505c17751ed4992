From Coq Require Import Reals List Bool Lia Lra.
From Verif Require Import GeomModel GeomProofs PackSpec PackSumProofs BondOrderProofs NematicModel NematicSpec.
Import ListNotations.
Local Open Scope R_scope.

Section Symmetric.
  Variables a11 a12 a13 a22 a23 a33 : R.
  Let b := a11 + a22 + a33.
  Let c := a11*a22 + a11*a33 + a22*a33 - a12*a12 - a13*a13 - a23*a23.
  Let d := a11*a23*a23 + a22*a13*a13 + a33*a12*a12 - a11*a22*a33 - 2*a12*a13*a23.
  Let p := b*b - 3*c.
  Let q := 2*b*b*b - 9*b*c - 27*d.
  Lemma char_value x : charpoly (M33 a11 a12 a13 a12 a22 a23 a13 a23 a33) x = x*x*x - b*x*x + c*x + d.
  Proof. unfold charpoly, mdet, msub, mscale, mid, mmake, mget. cbn. unfold b, c, d. ring. Qed.
  Lemma p_squares : p = ((a11 - a22) * (a11 - a22) + (a11 - a33) * (a11 - a33) + (a22 - a33) * (a22 - a33)) / 2 + 3 * (a12*a12 + a13*a13 + a23*a23).
  Proof. unfold p, b, c. field. Qed.
  Lemma p_pos : 0 <= p. Proof. rewrite p_squares. pose proof (Rle_0_sqr (a11 - a22)) as X1. pose proof (Rle_0_sqr (a11 - a33)) as X2. pose proof (Rle_0_sqr (a22 - a33)) as X3. pose proof (Rle_0_sqr a12) as X4. pose proof (Rle_0_sqr a13) as X5. pose proof (Rle_0_sqr a23) as X6. unfold Rsqr in *. lra. Qed.
  Lemma p_zero : p = 0 <-> a12 = 0 /\ a13 = 0 /\ a23 = 0 /\ a11 = a22 /\ a22 = a33.
  Proof. rewrite p_squares. split; [intros H; pose proof (Rle_0_sqr (a11 - a22)) as X1; pose proof (Rle_0_sqr (a11 - a33)) as X2; pose proof (Rle_0_sqr (a22 - a33)) as X3; pose proof (Rle_0_sqr a12) as X4; pose proof (Rle_0_sqr a13) as X5; pose proof (Rle_0_sqr a23) as X6; unfold Rsqr in *; assert (Z4 : a12 = 0) by (apply Rsqr_0_uniq; unfold Rsqr; lra); assert (Z5 : a13 = 0) by (apply Rsqr_0_uniq; unfold Rsqr; lra); assert (Z6 : a23 = 0) by (apply Rsqr_0_uniq; unfold Rsqr; lra); assert (Z1 : a11 - a22 = 0) by (apply Rsqr_0_uniq; unfold Rsqr; lra); assert (Z3 : a22 - a33 = 0) by (apply Rsqr_0_uniq; unfold Rsqr; lra); repeat split; lra|intros (-> & -> & -> & -> & ->); field]. Qed.
  (** The Gram determinant of 1, A and A^2. *)
  Let s11 := a11*a11 + a12*a12 + a13*a13. Let s22 := a12*a12 + a22*a22 + a23*a23. Let s33 := a13*a13 + a23*a23 + a33*a33.
  Let s12 := a11*a12 + a12*a22 + a13*a23. Let s13 := a11*a13 + a12*a23 + a13*a33. Let s23 := a12*a13 + a22*a23 + a23*a33.
  Let t := b / 3. Let u := (s11 + s22 + s33) / 3.
  Let BB := (a11 - t)^2 + (a22 - t)^2 + (a33 - t)^2 + 2 * (a12^2 + a13^2 + a23^2).
  Let CC := (s11 - u)^2 + (s22 - u)^2 + (s33 - u)^2 + 2 * (s12^2 + s13^2 + s23^2).
  Let BC := (a11 - t) * (s11 - u) + (a22 - t) * (s22 - u) + (a33 - t) * (s33 - u) + 2 * (a12 * s12 + a13 * s13 + a23 * s23).
  Lemma gram : 4 * (p*p*p) - q*q = 81 * (BB * CC - BC * BC).
  Proof. unfold BB, CC, BC, t, u, s11, s22, s33, s12, s13, s23, p, q, b, c, d. field. Qed.
  Lemma cauchy : BC * BC <= BB * CC.
  Proof.
    assert (Q : forall x, 0 <= BB - 2 * x * BC + x * x * CC).
    { intros x. replace (BB - 2 * x * BC + x * x * CC) with ((a11 - t - x * (s11 - u))^2 + (a22 - t - x * (s22 - u))^2 + (a33 - t - x * (s33 - u))^2 + 2 * ((a12 - x * s12)^2 + (a13 - x * s13)^2 + (a23 - x * s23)^2)) by (unfold BB, CC, BC; ring).
      pose proof (pow2_ge_0 (a11 - t - x * (s11 - u))). pose proof (pow2_ge_0 (a22 - t - x * (s22 - u))). pose proof (pow2_ge_0 (a33 - t - x * (s33 - u))). pose proof (pow2_ge_0 (a12 - x * s12)). pose proof (pow2_ge_0 (a13 - x * s13)). pose proof (pow2_ge_0 (a23 - x * s23)). lra. }
    assert (C0 : 0 <= CC) by (unfold CC; pose proof (pow2_ge_0 (s11 - u)); pose proof (pow2_ge_0 (s22 - u)); pose proof (pow2_ge_0 (s33 - u)); pose proof (pow2_ge_0 s12); pose proof (pow2_ge_0 s13); pose proof (pow2_ge_0 s23); lra).
    clearbody BB CC BC. destruct (Req_dec CC 0) as [Z|N].
    - rewrite Z in *. rewrite Rmult_0_r. destruct (Req_dec BC 0) as [->|NB]; [lra|]. exfalso. specialize (Q ((BB + 1) / (2 * BC))). replace (BB - 2 * ((BB + 1) / (2 * BC)) * BC + (BB + 1) / (2 * BC) * ((BB + 1) / (2 * BC)) * 0) with (-1) in Q by (field; exact NB). lra.
    - specialize (Q (BC / CC)). replace (BB - 2 * (BC / CC) * BC + BC / CC * (BC / CC) * CC) with ((BB * CC - BC * BC) / CC) in Q by (field; exact N). assert (P : 0 < CC) by lra. apply (Rmult_le_compat_r CC) in Q; [|lra]. unfold Rdiv in Q. rewrite Rmult_assoc, Rinv_l, Rmult_1_r in Q by exact N. lra.
  Qed.
  Lemma discriminant : q*q <= 4 * (p*p*p). Proof. pose proof gram. pose proof cauchy. lra. Qed.
End Symmetric.
(** Roots of the cubic equation. *)
Lemma cos_thirds x : cos ((x + 2*PI)/3) = - cos (x/3) / 2 - sqrt 3 / 2 * sin (x/3) /\ cos ((x - 2*PI)/3) = - cos (x/3) / 2 + sqrt 3 / 2 * sin (x/3).
Proof.
  assert (C : cos (2 * PI / 3) = - / 2) by (replace (2 * PI / 3) with (2 * (PI / 3)) by field; rewrite cos_2a_cos, cos_PI3; field). assert (S : sin (2 * PI / 3) = sqrt 3 / 2) by (replace (2 * PI / 3) with (2 * (PI / 3)) by field; rewrite sin_2a, cos_PI3, sin_PI3; field).
  split.
  - replace ((x + 2*PI)/3) with (x/3 + 2 * PI / 3) by field. rewrite cos_plus, C, S. field.
  - replace ((x - 2*PI)/3) with (x/3 - 2 * PI / 3) by field. rewrite cos_minus, C, S. field.
Qed.
Lemma cos_triple y : cos (3 * y) = 4 * (cos y * cos y * cos y) - 3 * cos y.
Proof. replace (3 * y) with (2 * y + y) by ring. rewrite cos_plus, cos_2a_cos, sin_2a. pose proof (sin2_cos2 y) as H. unfold Rsqr in H. replace (2 * sin y * cos y * sin y) with (2 * cos y * (sin y * sin y)) by ring. replace (sin y * sin y) with (1 - cos y * cos y) by lra. ring. Qed.
Lemma roots s D x : 0 <= s -> let e1 := 2*s*cos (D/3) in let e2 := 2*s*cos ((D + 2*PI)/3) in let e3 := 2*s*cos ((D - 2*PI)/3) in (x - e1) * (x - e2) * (x - e3) = x*x*x - 3*(s*s)*x - 2*(s*s*s)*cos D.
Proof.
  intros Hs. cbn zeta. destruct (cos_thirds D) as [-> ->]. assert (E3 : cos D = 4 * (cos (D/3) * cos (D/3) * cos (D/3)) - 3 * cos (D/3)) by (rewrite <- cos_triple; f_equal; field). rewrite E3. set (C := cos (D/3)). pose proof (sin2_cos2 (D/3)) as H. unfold Rsqr in H. fold C in H. set (S := sin (D/3)) in *. assert (T : sqrt 3 * sqrt 3 = 3) by (apply sqrt_sqrt; lra). set (r := sqrt 3) in *. clearbody C S r.
  transitivity ((x - 2*s*C) * ((x + s*C) * (x + s*C) - s*s*((r*r)*(S*S)))); [field|]. rewrite T. replace (S*S) with (1 - C*C) by lra. ring.
Qed.
Theorem eigenvalues m : symmetric m -> (forall t, m <> mscale t mid) -> exists e1 e2 e3, calculateEigenvalues m = Some (e1, e2, e3) /\ forall x, charpoly m x = (x - e1) * (x - e2) * (x - e3).
Proof.
  intros (S1 & S2 & S3) N. destruct m as [a11 a12 a13 b12 a22 a23 b13 b23 a33]. cbn in S1, S2, S3. subst b12 b13 b23. unfold calculateEigenvalues. cbn [m00 m01 m02 m11 m12 m22].
  set (b := a11 + a22 + a33). set (c := a11*a22 + a11*a33 + a22*a33 - a12*a12 - a13*a13 - a23*a23). set (d := a11*a23*a23 + a22*a13*a13 + a33*a12*a12 - a11*a22*a33 - 2*a12*a13*a23). set (p := b*b - 3*c). set (q := 2*b*b*b - 9*b*c - 27*d).
  assert (P : 0 < p).
  { destruct (Rle_lt_or_eq_dec 0 p (p_pos a11 a12 a13 a22 a23 a33)) as [H|H]; [exact H|]. exfalso. symmetry in H. apply (proj1 (p_zero a11 a12 a13 a22 a23 a33)) in H. destruct H as (-> & -> & -> & -> & ->). apply (N a33). unfold mscale, mid, mmake, mget. cbn. f_equal; ring. }
  assert (Q : q*q <= 4 * (p*p*p)) by apply (discriminant a11 a12 a13 a22 a23 a33). unfold Rltb at 1. destruct (Rlt_dec 0 p) as [_|]; [|contradiction]. cbn [negb]. set (s := sqrt p). assert (Es : s * s = p) by (apply sqrt_sqrt; lra). assert (Ps : 0 < s) by (apply sqrt_lt_R0; exact P). set (ratio := q / 2 / (s*s*s)).
  assert (Ps3 : 0 < s*s*s) by (apply Rmult_lt_0_compat; [apply Rmult_lt_0_compat|]; exact Ps). assert (Er : q = 2 * (s*s*s) * ratio) by (unfold ratio; field; lra). assert (R2 : ratio * ratio <= 1).
  { rewrite Er in Q. replace (4 * (p*p*p)) with (4 * ((s*s*s) * (s*s*s))) in Q by (rewrite <- Es; ring). assert (X : (ratio * ratio) * ((s*s*s)*(s*s*s)) <= 1 * ((s*s*s)*(s*s*s))) by lra. apply Rmult_le_reg_r in X; [exact X|]. apply Rmult_lt_0_compat; exact Ps3. }
  assert (R1 : -1 <= ratio <= 1) by nra. assert (Ra : Rabs ratio <= 1) by (apply Rabs_le; exact R1). unfold Rltb at 1. destruct (Rlt_dec 1 (Rabs ratio)) as [|_]; [lra|]. exists (1/3*(b + 2*s*cos (acos ratio/3))), (1/3*(b + 2*s*cos ((acos ratio + 2*PI)/3))), (1/3*(b + 2*s*cos ((acos ratio - 2*PI)/3))). split; [reflexivity|]. intros x.
  rewrite char_value. fold b c d. pose proof (roots s (acos ratio) (3 * x - b) (Rlt_le _ _ Ps)) as H. cbn zeta in H. rewrite cos_acos in H by exact R1. rewrite <- Er, Es in H. apply (Rmult_eq_reg_l 27); [|lra]. transitivity ((3 * x - b) * (3 * x - b) * (3 * x - b) - 3 * p * (3 * x - b) - q); [unfold p, q; ring|]. rewrite <- H. field.
Qed.
(** A multiple of identity: the assertion fails. *)
Theorem isotropic t : calculateEigenvalues (mscale t mid) = None.
Proof.
  unfold calculateEigenvalues, mscale, mid, mmake, mget. cbn. unfold Rltb at 1. destruct (Rlt_dec 0 _) as [H|_]; [|reflexivity]. exfalso. ring_simplify in H. lra.
Qed.
(** The eigenvalue of the greatest magnitude. *)
Theorem greatest_one e1 e2 e3 : let g := greatest (e1, e2, e3) in (g = e1 \/ g = e2 \/ g = e3) /\ Rabs e1 <= Rabs g /\ Rabs e2 <= Rabs g /\ Rabs e3 <= Rabs g.
Proof. cbn zeta. unfold greatest, Rltb. destruct (Rlt_dec (Rabs e1) (Rabs e2)); destruct (Rlt_dec _ (Rabs e3)); repeat split; auto; lra. Qed.
(** The tensor. *)
Lemma sum_dyads axes : forall q, fold_left (fun q a => madd q (dyad a)) axes q = mmake (fun i j => mget q i j + Rsum (fun a => vget a i * vget a j) axes).
Proof.
  induction axes as [|a axes IH]; intros q; cbn [fold_left Rsum fold_right]; [destruct q; unfold mmake, mget; cbn; f_equal; ring|]. rewrite IH. unfold madd, dyad, mmake. cbn [mget]. unfold mget. cbn. f_equal; unfold Rsum; ring.
Qed.
Theorem tensor axes : QTensor axes = mmake (fun i j => (3 * meanOf axes (fun a => vget a i * vget a j) - mget mid i j) / 2).
Proof.
  unfold QTensor. rewrite sum_dyads. apply mat_ext. intros i j. unfold mscale, msub. rewrite !mget_mmake. unfold meanOf, Rdiv. set (x := Rsum _ axes). set (k := / INR _). set (m := mget mid i j). lra.
Qed.
Lemma tensor_symmetric axes : symmetric (QTensor axes).
Proof. rewrite tensor. unfold symmetric, mmake, mget, mid, vget. cbn. assert (E : forall f g : vec -> R, (forall a, f a = g a) -> meanOf axes f = meanOf axes g) by (intros f g H; unfold meanOf; f_equal; apply Rsum_ext; intros; apply H). repeat split; f_equal; f_equal; f_equal; apply E; intros; ring. Qed.
Lemma mean_sum axes f g : meanOf axes (fun a => f a + g a) = meanOf axes f + meanOf axes g. Proof. unfold meanOf. rewrite Rsum_plus. unfold Rdiv. ring. Qed.
Lemma mean_const axes c f : axes <> [] -> (forall a, In a axes -> f a = c) -> meanOf axes f = c.
Proof. intros N H. unfold meanOf. rewrite (Rsum_ext f (fun _ => c)) by exact H. rewrite Rsum_const. field. apply not_0_INR. destruct axes; [contradiction|discriminate]. Qed.
Lemma tensor_trace axes : axes <> [] -> Forall (fun a => vnorm2 a = 1) axes -> mtr (QTensor axes) = 0.
Proof.
  intros N F. rewrite tensor. unfold mtr, mmake, mget, mid, vget. cbn. assert (E : meanOf axes (fun a => vx a * vx a) + meanOf axes (fun a => vy a * vy a) + meanOf axes (fun a => vz a * vz a) = 1).
  { rewrite <- !mean_sum. apply mean_const; [exact N|]. intros a I. rewrite Forall_forall in F. exact (F a I). }
  lra.
Qed.
(** The quadratic form. *)
Lemma quadratic axes v : axes <> [] -> vdot v (mvec (QTensor axes) v) = (3 * meanOf axes (fun a => vdot a v * vdot a v) - vnorm2 v) / 2.
Proof.
  intros N. rewrite tensor. assert (L : INR (length axes) <> 0) by (apply not_0_INR; destruct axes; [contradiction|discriminate]). assert (E : forall l, Rsum (fun a => vdot a v * vdot a v) l = vx v * vx v * Rsum (fun a => vx a * vx a) l + vy v * vy v * Rsum (fun a => vy a * vy a) l + vz v * vz v * Rsum (fun a => vz a * vz a) l + vx v * vy v * (Rsum (fun a => vx a * vy a) l + Rsum (fun a => vy a * vx a) l) + vx v * vz v * (Rsum (fun a => vx a * vz a) l + Rsum (fun a => vz a * vx a) l) + vy v * vz v * (Rsum (fun a => vy a * vz a) l + Rsum (fun a => vz a * vy a) l)).
  { induction l as [|a l IH]; [cbn; ring|]. cbn [Rsum fold_right]. unfold Rsum in IH. rewrite IH. unfold vdot. ring. }
  unfold meanOf. rewrite E. unfold vnorm2, vdot, mvec, mmake, vmake, mget, vget, mid. cbn. field. exact L.
Qed.
Lemma form_range axes v : axes <> [] -> Forall (fun a => vnorm2 a = 1) axes -> - vnorm2 v / 2 <= vdot v (mvec (QTensor axes) v) <= vnorm2 v.
Proof.
  intros N F. rewrite quadratic by exact N. assert (P : 0 < INR (length axes)) by (apply lt_0_INR; destruct axes; [contradiction|cbn; lia]). assert (B : 0 <= meanOf axes (fun a => vdot a v * vdot a v) <= vnorm2 v).
  { unfold meanOf. split; [apply Rmult_le_pos; [apply Rsum_nonneg; intros a _; apply Rle_0_sqr|apply Rlt_le, Rinv_0_lt_compat; exact P]|]. apply (Rmult_le_reg_r (INR (length axes))); [exact P|]. unfold Rdiv. rewrite Rmult_assoc, Rinv_l, Rmult_1_r by lra. rewrite Rmult_comm, <- Rsum_const. apply Rsum_le. intros a I. rewrite Forall_forall in F. pose proof (cauchy_schwarz2 a v) as H. rewrite (F a I) in H. lra. }
  lra.
Qed.
(** Eigenvectors. *)
Lemma perpendicular r : exists v, v <> vzero /\ vdot r v = 0.
Proof.
  destruct (Req_dec (vx r) 0) as [H|H].
  - exists (V3 1 0 0). split; [intros E; injection E; lra|]. unfold vdot. cbn. rewrite H. ring.
  - exists (V3 (- vy r) (vx r) 0). split; [intros E; injection E; intros; lra|]. unfold vdot. cbn. ring.
Qed.
Lemma parallel_dot r s v : vcross r s = vzero -> r <> vzero -> vdot r v = 0 -> vdot s v = 0.
Proof.
  intros C N P. assert (I : vdot (vcross r s) (vcross r v) = vnorm2 r * vdot s v - vdot r v * vdot s r) by (unfold vnorm2, vdot, vcross; cbn; ring). rewrite C, P in I. unfold vdot at 1, vzero in I. cbn in I. assert (vnorm2 r <> 0) by (intros Z; apply N, norm_zero; unfold vnorm; rewrite Z; apply sqrt_0). apply (Rmult_eq_reg_l (vnorm2 r)); [|assumption]. lra.
Qed.
Lemma zero_dec (v : vec) : v = vzero \/ v <> vzero.
Proof. destruct (Req_dec (vnorm v) 0) as [H|H]; [left; apply norm_zero; exact H|right; intros E; apply H, norm_zero; exact E]. Qed.
Lemma kernel m : mdet m = 0 -> exists v, v <> vzero /\ mvec m v = vzero.
Proof.
  intros D. set (r1 := mrow m AX). set (r2 := mrow m AY). set (r3 := mrow m AZ). assert (K : forall v, vdot r1 v = 0 -> vdot r2 v = 0 -> vdot r3 v = 0 -> mvec m v = vzero) by (intros v H1 H2 H3; unfold mvec, vzero, vmake; unfold r1, r2, r3, mrow, vdot, vmake in *; cbn in *; f_equal; assumption).
  assert (Z : forall v, vdot vzero v = 0) by (intros v; unfold vdot, vzero; cbn; ring).
  assert (D' : vdot r1 (vcross r2 r3) = 0) by (rewrite <- D; unfold r1, r2, r3, mrow, vdot, vcross, vmake, mdet, mget; cbn; ring).
  destruct (zero_dec (vcross r1 r2)) as [E12|N]; [|exists (vcross r1 r2); split; [exact N|apply K; [unfold vdot, vcross; cbn; ring|unfold vdot, vcross; cbn; ring|rewrite <- D'; unfold vdot, vcross; cbn; ring]]].
  destruct (zero_dec (vcross r2 r3)) as [E23|N]; [|exists (vcross r2 r3); split; [exact N|apply K; [exact D'|unfold vdot, vcross; cbn; ring|unfold vdot, vcross; cbn; ring]]].
  destruct (zero_dec (vcross r1 r3)) as [E13|N]; [|exists (vcross r1 r3); split; [exact N|apply K; [unfold vdot, vcross; cbn; ring| |unfold vdot, vcross; cbn; ring]]; replace 0 with (- vdot r1 (vcross r2 r3)) by (rewrite D'; ring); unfold vdot, vcross; cbn; ring].
  destruct (zero_dec r1) as [E1|N1].
  - destruct (zero_dec r2) as [E2|N2].
    + destruct (perpendicular r3) as (v & Nv & P). exists v. split; [exact Nv|]. apply K; [rewrite E1; apply Z|rewrite E2; apply Z|exact P].
    + destruct (perpendicular r2) as (v & Nv & P). exists v. split; [exact Nv|]. apply K; [rewrite E1; apply Z|exact P|apply (parallel_dot r2); auto].
  - destruct (perpendicular r1) as (v & Nv & P). exists v. split; [exact Nv|]. apply K; [exact P|apply (parallel_dot r1); auto|apply (parallel_dot r1); auto].
Qed.
Lemma eigenvector m x : charpoly m x = 0 -> exists v, v <> vzero /\ mvec m v = vscale x v.
Proof.
  intros H. destruct (kernel _ H) as (v & N & K). exists v. split; [exact N|]. unfold mvec, msub, mscale, mid, mmake, vmake, vzero, vscale in *. destruct v as [a b c]. cbn in *. unfold vdot in *. cbn in *. injection K as K1 K2 K3. f_equal; lra.
Qed.
Lemma root_range axes x : axes <> [] -> Forall (fun a => vnorm2 a = 1) axes -> charpoly (QTensor axes) x = 0 -> - / 2 <= x <= 1.
Proof.
  intros N F H. destruct (eigenvector _ _ H) as (v & Nv & E). pose proof (form_range axes v N F) as B. rewrite E in B. replace (vdot v (vscale x v)) with (x * vnorm2 v) in B by (unfold vnorm2, vdot, vscale; cbn; ring). assert (P : 0 < vnorm2 v). { assert (0 <= vnorm2 v) by (unfold vnorm2, vdot; nra). assert (vnorm2 v <> 0) by (intros Z; apply Nv, norm_zero; unfold vnorm; rewrite Z; apply sqrt_0). lra. }
  split; apply (Rmult_le_reg_r (vnorm2 v)); lra.
Qed.
Lemma scalar_dec m : (exists t, m = mscale t mid) \/ forall t, m <> mscale t mid.
Proof.
  destruct (zero_dec (V3 (m01 m) (m02 m) (m12 m))) as [E1|N1]; [|right; intros t ->; apply N1; unfold mscale, mid, mmake, mget, vzero; cbn; f_equal; ring].
  destruct (zero_dec (V3 (m10 m) (m20 m) (m21 m))) as [E2|N2]; [|right; intros t ->; apply N2; unfold mscale, mid, mmake, mget, vzero; cbn; f_equal; ring].
  destruct (zero_dec (V3 (m00 m - m11 m) (m11 m - m22 m) 0)) as [E3|N3]; [|right; intros t ->; apply N3; unfold mscale, mid, mmake, mget, vzero; cbn; f_equal; ring].
  left. exists (m00 m). destruct m. cbn in *. injection E1 as -> -> ->. injection E2 as -> -> ->. injection E3 as E4 E5. unfold mscale, mid, mmake, mget. cbn. f_equal; lra.
Qed.
Theorem P2_value axes : axes <> [] -> Forall (fun a => vnorm2 a = 1) axes -> QTensor axes <> mscale 0 mid ->
  exists g, P2 axes = Some g /\ charpoly (QTensor axes) g = 0 /\ (forall x, charpoly (QTensor axes) x = 0 -> Rabs x <= Rabs g) /\ - / 2 <= g <= 1.
Proof.
  intros N F Z. assert (S : forall t, QTensor axes <> mscale t mid).
  { intros t E. apply Z. pose proof (tensor_trace axes N F) as T. rewrite E in T. unfold mtr, mscale, mid, mmake, mget in T. cbn in T. assert (t = 0) by lra. subst t. exact E. }
  destruct (eigenvalues (QTensor axes) (tensor_symmetric axes) S) as (e1 & e2 & e3 & E & C). unfold P2. rewrite E. exists (greatest (e1, e2, e3)). split; [reflexivity|]. destruct (greatest_one e1 e2 e3) as (G & G1 & G2 & G3). cbn zeta in *. set (g := greatest (e1, e2, e3)) in *. clearbody g. assert (Cg : charpoly (QTensor axes) g = 0) by (rewrite C; destruct G as [->|[->| ->]]; ring). split; [exact Cg|]. split; [|apply (root_range axes); assumption]. intros x Hx. rewrite C in Hx. apply Rmult_integral in Hx. destruct Hx as [Hx|Hx]; [apply Rmult_integral in Hx; destruct Hx as [Hx|Hx]|]; [replace x with e1 by lra|replace x with e2 by lra|replace x with e3 by lra]; assumption.
Qed.
Theorem P2_zero axes : QTensor axes = mscale 0 mid -> P2 axes = None. Proof. intros E. unfold P2. rewrite E, isotropic. reflexivity. Qed.
Theorem P2_perfect axes a : axes <> [] -> vnorm2 a = 1 -> Forall (fun b => b = a \/ b = vneg a) axes -> P2 axes = Some 1.
Proof.
  intros N U F. assert (F' : Forall (fun b => vnorm2 b = 1) axes) by (eapply Forall_impl; [|exact F]; intros b [->| ->]; [exact U|rewrite <- U; unfold vnorm2, vdot, vneg; cbn; ring]).
  assert (E : QTensor axes = mmake (fun i j => (3 * (vget a i * vget a j) - mget mid i j) / 2)).
  { rewrite tensor. assert (M : forall i j, meanOf axes (fun a => vget a i * vget a j) = vget a i * vget a j) by (intros i j; apply mean_const; [exact N|]; intros b I; rewrite Forall_forall in F; destruct (F b I) as [->| ->]; [reflexivity|destruct i, j; unfold vneg; cbn; ring]). unfold mmake. rewrite !M. reflexivity. }
  assert (C : forall x, charpoly (QTensor axes) x = (x - 1) * (x + / 2) * (x + / 2)).
  { intros x. rewrite E. assert (X : vz a * vz a = 1 - vx a * vx a - vy a * vy a) by (unfold vnorm2, vdot in U; lra). unfold charpoly, mdet, msub, mscale, mid, mmake, mget, vget. cbn. transitivity ((x + / 2) * (x + / 2) * (x + / 2 - 3 / 2 * (vx a * vx a + vy a * vy a + vz a * vz a))); [field|]. rewrite X. field. }
  destruct (P2_value axes N F') as (g & G & Cg & Mg & _).
  - intros Z. pose proof (C 0) as C0. rewrite Z in C0. unfold charpoly, mdet, msub, mscale, mid, mmake, mget in C0. cbn in C0. lra.
  - rewrite G. f_equal. pose proof (Mg 1) as M1. rewrite C in Cg, M1. assert (H1 : Rabs 1 <= Rabs g) by (apply M1; ring). rewrite Rabs_R1 in H1. apply Rmult_integral in Cg. destruct Cg as [Cg|Cg]; [apply Rmult_integral in Cg; destruct Cg as [Cg|Cg]; [lra|]|]; exfalso; assert (g = - / 2) by lra; subst g; rewrite Rabs_Ropp, Rabs_right in H1; lra.
Qed.
