From Coq Require Import Reals ZArith List Bool Lia Lra Permutation.
From Coquelicot Require Import Coquelicot.
From Verif Require Import GeomModel GeomProofs BoxModel BoxSpec BoxProofs RFloorModel RotModel PackSpec PackSumProofs CorrProofs BinsModel BinsSpec TrackerModel TrackerSpec TrackerProofs TrackerMoveProofs TrackerMaxProofs.
Import ListNotations.
Local Open Scope R_scope.

Lemma modulation3 k f s r : number_of_values f = 1%nat -> (forall a, (0 < k a)%nat) -> let co := coefficient k f s in
  modulation k f s r = plane (co (sel false false false) * cos (ang k r AZ) + co (sel false false true) * sin (ang k r AZ)) (co (sel false true false) * cos (ang k r AZ) + co (sel false true true) * sin (ang k r AZ))
    (co (sel true false false) * cos (ang k r AZ) + co (sel true false true) * sin (ang k r AZ)) (co (sel true true false) * cos (ang k r AZ) + co (sel true true true) * sin (ang k r AZ)) (ang k r AX) (ang k r AY).
Proof.
  intros Hf Hk. cbv zeta. unfold plane. rewrite !coefficient_sum; try exact Hf; try (intros a Ka; specialize (Hk a); lia).
  rewrite !Rmult_plus_distr_r. rewrite <- !BondOrderProofs.Rsum_scaled, <- !Rsum_plus. unfold modulation. apply Rsum_ext. intros p _. rewrite !wave_split. unfold part. cbn [vget sel]. rewrite !(proj2 (Nat.eqb_neq _ 0)) by (pose proof (Hk AX); pose proof (Hk AY); pose proof (Hk AZ); lia). ring.
Qed.
(** The amplitude of the plane. *)
Definition top (A B C D : R) : R := (sqrt ((A - D) * (A - D) + (C + B) * (C + B)) + sqrt ((A + D) * (A + D) + (C - B) * (C - B))) / 2.
Lemma top_bound A B C D x y : - top A B C D <= plane A B C D x y <= top A B C D.
Proof.
  destruct (guarded (C + B) (A - D)) as (r1 & P1 & Q1 & _ & _ & B1). destruct (guarded (C - B) (A + D)) as (r2 & P2 & Q2 & _ & _ & B2). pose proof (plane_waves A B C D x y) as W. unfold top. rewrite <- Q1, <- Q2, !sqrt_square by assumption. pose proof (B1 (x + y)). pose proof (B2 (x - y)). lra.
Qed.
Lemma top_reached A B C D : exists x y, plane A B C D x y = top A B C D.
Proof.
  destruct (atan2_arg (C + B) (A - D)) as (_ & r1 & P1 & _ & X1 & Y1). destruct (atan2_arg (C - B) (A + D)) as (_ & r2 & P2 & _ & X2 & Y2). set (a := atan2 (C + B) (A - D)) in *. set (b := atan2 (C - B) (A + D)) in *. exists ((a + b) / 2), ((a - b) / 2).
  pose proof (plane_waves A B C D ((a + b) / 2) ((a - b) / 2)) as W. replace ((a + b) / 2 + (a - b) / 2) with a in W by field. replace ((a + b) / 2 - (a - b) / 2) with b in W by field.
  pose proof (sin2_cos2 a) as Sa. pose proof (sin2_cos2 b) as Sb. unfold Rsqr in Sa, Sb. assert (E1 : (A - D) * cos a + (C + B) * sin a = r1) by (rewrite X1, Y1; nra). assert (E2 : (A + D) * cos b + (C - B) * sin b = r2) by (rewrite X2, Y2; nra). rewrite E1, E2 in W.
  unfold top. replace ((A - D) * (A - D) + (C + B) * (C + B)) with (r1 * r1) by (rewrite X1, Y1; nra). replace ((A + D) * (A + D) + (C - B) * (C - B)) with (r2 * r2) by (rewrite X2, Y2; nra). rewrite !sqrt_square by assumption. lra.
Qed.
Lemma top_small A B C D : A * A + B * B + C * C + D * D <= epsilon * epsilon -> top A B C D <= epsilon.
Proof.
  intros H. unfold top. set (u := (A - D) * (A - D) + (C + B) * (C + B)). set (v := (A + D) * (A + D) + (C - B) * (C - B)). assert (Hu : 0 <= u) by (unfold u; apply Rplus_le_le_0_compat; apply Rle_0_sqr). assert (Hv : 0 <= v) by (unfold v; apply Rplus_le_le_0_compat; apply Rle_0_sqr). pose proof (sqrt_pos u). pose proof (sqrt_pos v). pose proof (sqrt_sqrt u Hu). pose proof (sqrt_sqrt v Hv). assert (u + v <= 2 * (epsilon * epsilon)) by (unfold u, v; lra). pose proof epsilon_pos.
  pose proof (Rle_0_sqr (sqrt u - sqrt v)) as S0. unfold Rsqr in S0. assert (Sq : (sqrt u + sqrt v) * (sqrt u + sqrt v) <= 2 * epsilon * (2 * epsilon)) by (replace ((sqrt u + sqrt v) * (sqrt u + sqrt v)) with (sqrt u * sqrt u + sqrt v * sqrt v + 2 * (sqrt u * sqrt v)) by ring; lra). apply Rsqr_incr_0 in Sq; [lra|lra|lra].
Qed.
(** The equation of the best tangent. *)
Section Best.
Variables A B C D E F G H : R.
Let K1 := (A + G) / 2. Let K2 := (A - G) / 2. Let L1 := (B + H) / 2. Let L2 := (B - H) / 2. Let M1 := (C + E) / 2. Let M2 := (C - E) / 2. Let N1 := (D + F) / 2. Let N2 := (D - F) / 2.
Let U := K2*K2 + M1*M1. Let V := K2*L2 + M1*N1. Let W := L2*L2 + N1*N1. Let X := K1*K1 + M2*M2. Let Y := K1*L1 + M2*N2. Let Z := L1*L1 + N2*N2.
Definition quadratic (u v w c s : R) : R := u * c * c + 2 * v * s * c + w * s * s.
Definition height (c s : R) : R := sqrt (quadratic U V W c s) + sqrt (quadratic X Y Z c s).
Lemma height_top c s : height c s = top (A * c + B * s) (C * c + D * s) (E * c + F * s) (G * c + H * s).
Proof.
  unfold height, top. match goal with |- _ = (sqrt ?p + sqrt ?q) / 2 => replace p with (2 * 2 * quadratic U V W c s) by (unfold quadratic, U, V, W, K2, M1, L2, N1; field); replace q with (2 * 2 * quadratic X Y Z c s) by (unfold quadratic, X, Y, Z, K1, M2, L1, N2; field) end.
  assert (0 <= quadratic U V W c s) by (replace (quadratic U V W c s) with ((K2 * c + L2 * s) * (K2 * c + L2 * s) + (M1 * c + N1 * s) * (M1 * c + N1 * s)) by (unfold quadratic, U, V, W; ring); apply Rplus_le_le_0_compat; apply Rle_0_sqr).
  assert (0 <= quadratic X Y Z c s) by (replace (quadratic X Y Z c s) with ((K1 * c + L1 * s) * (K1 * c + L1 * s) + (M2 * c + N2 * s) * (M2 * c + N2 * s)) by (unfold quadratic, X, Y, Z; ring); apply Rplus_le_le_0_compat; apply Rle_0_sqr).
  rewrite !(sqrt_mult (2 * 2)), !sqrt_square by lra. field.
Qed.
Definition slope (u v w c s : R) : R := v * (c * c - s * s) + (w - u) * s * c.
Lemma equation z : (forall z', height (cos z') (sin z') <= height (cos z) (sin z)) ->
  slope U V W (cos z) (sin z) * slope U V W (cos z) (sin z) * quadratic X Y Z (cos z) (sin z) = slope X Y Z (cos z) (sin z) * slope X Y Z (cos z) (sin z) * quadratic U V W (cos z) (sin z).
Proof.
  intros Mx. set (c := cos z). set (s := sin z).
  assert (Q1 : quadratic U V W c s = (K2 * c + L2 * s) * (K2 * c + L2 * s) + (M1 * c + N1 * s) * (M1 * c + N1 * s)) by (unfold quadratic, U, V, W; ring).
  assert (Q2 : quadratic X Y Z c s = (K1 * c + L1 * s) * (K1 * c + L1 * s) + (M2 * c + N2 * s) * (M2 * c + N2 * s)) by (unfold quadratic, X, Y, Z; ring).
  assert (S1 : slope U V W c s = (K2 * c + L2 * s) * (L2 * c - K2 * s) + (M1 * c + N1 * s) * (N1 * c - M1 * s)) by (unfold slope, U, V, W; ring).
  assert (S2 : slope X Y Z c s = (K1 * c + L1 * s) * (L1 * c - K1 * s) + (M2 * c + N2 * s) * (N2 * c - M2 * s)) by (unfold slope, X, Y, Z; ring).
  destruct (Req_dec (quadratic U V W c s) 0) as [Z1|N1']; [rewrite Z1; rewrite Q1 in Z1; destruct (Rplus_sqr_eq_0 _ _ Z1) as [a1 a2]; rewrite S1, a1, a2; ring|].
  destruct (Req_dec (quadratic X Y Z c s) 0) as [Z1|N2']; [rewrite Z1; rewrite Q2 in Z1; destruct (Rplus_sqr_eq_0 _ _ Z1) as [a1 a2]; rewrite S2, a1, a2; ring|].
  assert (P1 : 0 < quadratic U V W c s) by (assert (0 <= quadratic U V W c s) by (rewrite Q1; apply Rplus_le_le_0_compat; apply Rle_0_sqr); lra). assert (P2 : 0 < quadratic X Y Z c s) by (assert (0 <= quadratic X Y Z c s) by (rewrite Q2; apply Rplus_le_le_0_compat; apply Rle_0_sqr); lra). clear Q1 Q2 S1 S2 N1' N2'.
  assert (De : is_derive (fun z => height (cos z) (sin z)) z (slope U V W c s / sqrt (quadratic U V W c s) + slope X Y Z c s / sqrt (quadratic X Y Z c s))).
  { unfold height, quadratic in *. pose proof (sqrt_lt_R0 _ P1). pose proof (sqrt_lt_R0 _ P2). auto_derive; [fold c s; repeat split; assumption|]. fold c s. unfold slope. field. split; lra. }
  assert (D0 : slope U V W c s / sqrt (quadratic U V W c s) + slope X Y Z c s / sqrt (quadratic X Y Z c s) = 0).
  { apply is_derive_Reals in De. pose proof (deriv_maximum (fun z => height (cos z) (sin z)) (z - 1) (z + 1) z (exist _ _ De) ltac:(lra) ltac:(lra) (fun x _ _ => Mx x)) as D0. exact D0. }
  pose proof (sqrt_lt_R0 _ P1) as R1. pose proof (sqrt_lt_R0 _ P2) as R2. pose proof (sqrt_sqrt _ (Rlt_le _ _ P1)) as T1. pose proof (sqrt_sqrt _ (Rlt_le _ _ P2)) as T2. set (r1 := sqrt (quadratic U V W c s)) in *. set (r2 := sqrt (quadratic X Y Z c s)) in *. rewrite <- T1, <- T2.
  assert (Eq : slope U V W c s * r2 = - (slope X Y Z c s * r1)). { assert (X0 : (slope U V W c s / r1 + slope X Y Z c s / r2) * (r1 * r2) = 0) by (rewrite D0; ring). assert (X1 : slope U V W c s * r2 + slope X Y Z c s * r1 = 0) by (rewrite <- X0; field; lra). lra. }
  transitivity ((slope U V W c s * r2) * (slope U V W c s * r2)); [ring|]. rewrite Eq. ring.
Qed.
Lemma polynomial_equation c s : c <> 0 -> slope U V W c s * slope U V W c s * quadratic X Y Z c s = slope X Y Z c s * slope X Y Z c s * quadratic U V W c s -> polynomial (rev (calculateTanZCoefficients U V W X Y Z)) (s / c) = 0.
Proof.
  intros Hc Eq. unfold calculateTanZCoefficients, polynomial. cbn [rev app fold_left]. apply (Rmult_eq_reg_l (c * c * c * c * c * c)); [|repeat apply Rmult_integral_contrapositive_currified; exact Hc].
  transitivity (slope U V W c s * slope U V W c s * quadratic X Y Z c s - slope X Y Z c s * slope X Y Z c s * quadratic U V W c s); [unfold slope, quadratic; field; exact Hc|]. rewrite Eq. ring.
Qed.
(** The best of roots. *)
Definition tangent_height (t : R) : R := height (1 / sqrt (1 + t * t)) (t / sqrt (1 + t * t)).
Lemma root_norm t : 0 < sqrt (1 + t * t) /\ sqrt (1 + t * t) * sqrt (1 + t * t) = 1 + t * t.
Proof. assert (0 < 1 + t * t) by nra. split; [apply sqrt_lt_R0|apply sqrt_sqrt]; lra. Qed.
Lemma root_unit t : 1 / sqrt (1 + t * t) * (1 / sqrt (1 + t * t)) + t / sqrt (1 + t * t) * (t / sqrt (1 + t * t)) = 1.
Proof. destruct (root_norm t) as [P Q]. transitivity ((1 + t * t) / (sqrt (1 + t * t) * sqrt (1 + t * t))); [field; lra|]. rewrite Q. field. nra. Qed.
Lemma best_roots roots : exists v, 0 <= v /\ (forall t, In t roots -> tangent_height t <= v) /\
  ((v = 0 /\ findBestSinCosZ roots U V W X Y Z = (0, 0)) \/ exists t, In t roots /\ v = tangent_height t /\ findBestSinCosZ roots U V W X Y Z = (t / sqrt (1 + t * t), 1 / sqrt (1 + t * t))).
Proof.
  assert (Gen : forall l v0 p0 done, (forall t, In t done -> tangent_height t <= v0) -> 0 <= v0 -> ((v0 = 0 /\ p0 = (0, 0)) \/ exists t, In t done /\ v0 = tangent_height t /\ p0 = (t / sqrt (1 + t * t), 1 / sqrt (1 + t * t))) ->
    exists v p, fold_left (fun best z => let norm := sqrt (1 + z * z) in let cz := 1 / norm in let sz := z / norm in
      let val := sqrt (U*cz*cz + 2*V*sz*cz + W*sz*sz) + sqrt (X*cz*cz + 2*Y*sz*cz + Z*sz*sz) in if Rltb (snd best) val then ((sz, cz), val) else best) l (p0, v0) = (p, v) /\
      0 <= v /\ (forall t, In t (done ++ l) -> tangent_height t <= v) /\ ((v = 0 /\ p = (0, 0)) \/ exists t, In t (done ++ l) /\ v = tangent_height t /\ p = (t / sqrt (1 + t * t), 1 / sqrt (1 + t * t)))).
  { induction l as [|x l IH]; intros v0 p0 done H0 H1 H2.
    - exists v0, p0. rewrite app_nil_r. split; [reflexivity|]. auto.
    - cbn [fold_left]. cbv zeta. cbn [snd]. change (sqrt (U * (1 / sqrt (1 + x * x)) * (1 / sqrt (1 + x * x)) + 2 * V * (x / sqrt (1 + x * x)) * (1 / sqrt (1 + x * x)) + W * (x / sqrt (1 + x * x)) * (x / sqrt (1 + x * x))) + sqrt (X * (1 / sqrt (1 + x * x)) * (1 / sqrt (1 + x * x)) + 2 * Y * (x / sqrt (1 + x * x)) * (1 / sqrt (1 + x * x)) + Z * (x / sqrt (1 + x * x)) * (x / sqrt (1 + x * x)))) with (tangent_height x).
      replace (done ++ x :: l) with ((done ++ [x]) ++ l) by (rewrite <- app_assoc; reflexivity).
      destruct (Rltb v0 (tangent_height x)) eqn:L; [apply Rltb_true in L|apply Rltb_false in L]; apply IH.
      + intros t Ht. apply in_app_iff in Ht. destruct Ht as [Ht|[<- |[]]]; [specialize (H0 t Ht)|]; lra.
      + lra.
      + right. exists x. split; [apply in_app_iff; right; left; reflexivity|]. auto.
      + intros t Ht. apply in_app_iff in Ht. destruct Ht as [Ht|[<- |[]]]; [apply H0, Ht|]; lra.
      + exact H1.
      + destruct H2 as [H2|(t & T1 & T2 & T3)]; [left; exact H2|right; exists t; split; [apply in_app_iff; left; exact T1|auto]]. }
  destruct (Gen roots 0 (0, 0) [] ltac:(intros t []) (Rle_refl 0) (or_introl (conj eq_refl eq_refl))) as (v & p & Ef & V0 & All & Al). exists v. split; [exact V0|]. split; [exact All|]. assert (Eb : findBestSinCosZ roots U V W X Y Z = p) by exact (f_equal fst Ef). rewrite Eb. exact Al.
Qed.
End Best.
