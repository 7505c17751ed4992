From Coq Require Import Reals ZArith List Bool Lia Lra Permutation.
From Verif Require Import GeomModel GeomProofs BoxModel BoxSpec BoxProofs RFloorModel RotModel PackSpec PackSumProofs CorrProofs BinsModel BinsSpec TrackerModel TrackerSpec TrackerProofs TrackerMoveProofs TrackerMaxProofs TrackerSpaceProofs.
Import ListNotations.
Local Open Scope R_scope.

Section Space.
Variables (k : axis -> nat) (f : shape_function) (s : system).
Hypothesis Hf : number_of_values f = 1%nat.
Hypothesis Hk : forall a, (0 < k a)%nat.
Let co := coefficient k f s.
Let A := co (sel false false false). Let B := co (sel false false true). Let C := co (sel false true false). Let D := co (sel false true true).
Let E := co (sel true false false). Let F := co (sel true false true). Let G := co (sel true true false). Let H := co (sel true true true).
Definition wave3 (x y z : R) : R := plane (A * cos z + B * sin z) (C * cos z + D * sin z) (E * cos z + F * sin z) (G * cos z + H * sin z) x y.
Lemma modulation_wave3 r : modulation k f s r = wave3 (ang k r AX) (ang k r AY) (ang k r AZ).
Proof. exact (modulation3 k f s r Hf Hk). Qed.
Lemma angles x y z : exists r, ang k r AX = x /\ ang k r AY = y /\ ang k r AZ = z.
Proof.
  pose proof PI_RGT_0. assert (N : forall a, INR (k a) <> 0) by (intros a; apply not_0_INR; specialize (Hk a); lia). exists (V3 (x / (2 * PI * INR (k AX))) (y / (2 * PI * INR (k AY))) (z / (2 * PI * INR (k AZ)))). unfold ang. cbn [vget vx vy vz]. pose proof (N AX). pose proof (N AY). pose proof (N AZ). repeat split; field; split; try assumption; lra.
Qed.
Definition height3 (z : R) : R := height A B C D E F G H (cos z) (sin z).
Lemma wave3_bound x y z : - height3 z <= wave3 x y z <= height3 z.
Proof. unfold height3, wave3. rewrite height_top. apply top_bound. Qed.
Lemma wave3_reached z : exists x y, wave3 x y z = height3 z.
Proof. unfold height3, wave3. rewrite height_top. apply top_reached. Qed.
Lemma wave3_phase x y z m n q : wave3 (x + 2 * PI * IZR m) (y + 2 * PI * IZR n) (z + 2 * PI * IZR q) = wave3 x y z.
Proof. unfold wave3. rewrite plane_whole, !(proj1 (cos_whole _ _)), !(proj2 (cos_whole _ _)). reflexivity. Qed.
Lemma maximum_height r : is_maximum k f s r -> modulation k f s r = height3 (ang k r AZ) /\ forall z, height3 z <= height3 (ang k r AZ).
Proof.
  intros Mx. assert (Q : forall z, height3 z <= modulation k f s r) by (intros z; destruct (wave3_reached z) as (x & y & <-); destruct (angles x y z) as (r' & <- & <- & <-); rewrite <- modulation_wave3; apply Mx).
  pose proof (wave3_bound (ang k r AX) (ang k r AY) (ang k r AZ)) as Bd. rewrite <- modulation_wave3 in Bd. assert (Eq : modulation k f s r = height3 (ang k r AZ)) by (apply Rle_antisym; [apply Bd|apply Q]). split; [exact Eq|]. intros z. rewrite <- Eq. apply Q.
Qed.
(** The tangent of the best phase is a root. *)
Lemma maximum_root r : is_maximum k f s r -> cos (ang k r AZ) <> 0 -> polynomial (tangent_coefficients co) (sin (ang k r AZ) / cos (ang k r AZ)) = 0.
Proof. intros Mx Nz. destruct (maximum_height r Mx) as [_ Hm]. exact (polynomial_equation A B C D E F G H _ _ Nz (equation A B C D E F G H (ang k r AZ) Hm)). Qed.
Lemma tangent_same c0 s0 : c0 * c0 + s0 * s0 = 1 -> c0 <> 0 -> tangent_height A B C D E F G H (s0 / c0) = height A B C D E F G H c0 s0.
Proof.
  intros N Nz. unfold tangent_height. set (t := s0 / c0). destruct (root_norm t) as [P Q]. set (n := sqrt (1 + t * t)) in *. assert (Es : s0 = t * c0) by (unfold t; field; exact Nz). assert (C2 : n * n * (c0 * c0) = 1) by (rewrite Q; rewrite Es in N; nra).
  assert (Rt : forall u v w, quadratic u v w (1 / n) (t / n) = quadratic u v w c0 s0).
  { intros u v w. rewrite Es. unfold quadratic. replace (u * (1 / n) * (1 / n) + 2 * v * (t / n) * (1 / n) + w * (t / n) * (t / n)) with ((u + 2 * v * t + w * t * t) * (n * n * (c0 * c0)) / (n * n)) by (rewrite C2; field; lra). field. lra. }
  unfold height. rewrite !Rt. reflexivity.
Qed.
Lemma small_total z : A*A + B*B + C*C + D*D + E*E + F*F + G*G + H*H < epsilon * epsilon -> height3 z <= epsilon.
Proof.
  intros L. unfold height3. rewrite height_top. apply top_small. pose proof (sin2_cos2 z) as S. unfold Rsqr in S. set (c := cos z) in *. set (t := sin z) in *.
  assert (Sq : forall u v, (u * c + v * t) * (u * c + v * t) <= u * u + v * v). { intros u v. replace (u * u + v * v) with ((u * c + v * t) * (u * c + v * t) + (u * t - v * c) * (u * t - v * c)) by (transitivity ((u * u + v * v) * (t * t + c * c)); [ring|rewrite S; ring]). pose proof (Rle_0_sqr (u * t - v * c)) as Q. unfold Rsqr in Q. lra. }
  pose proof (Sq A B). pose proof (Sq C D). pose proof (Sq E F). pose proof (Sq G H). lra.
Qed.
Lemma origin3_eq solve : ~ A*A + B*B + C*C + D*D + E*E + F*F + G*G + H*H < epsilon * epsilon ->
  exists sz cz v, (forall t, In t (solve (tangent_coefficients co)) -> tangent_height A B C D E F G H t <= v) /\ 0 <= v /\ ((v = 0 /\ sz = 0 /\ cz = 0) \/ (cz * cz + sz * sz = 1 /\ v = height A B C D E F G H cz sz /\ exists t, In t (solve (tangent_coefficients co)) /\ sz = t / sqrt (1 + t * t) /\ cz = 1 / sqrt (1 + t * t))) /\
    let o := origin3 solve k co in exists x y, in_unit o /\ modulation k f s o = wave3 x y (guardedAtan2 sz cz) /\ (cz * cz + sz * sz = 1 -> height A B C D E F G H cz sz <= modulation k f s o + 2 * epsilon).
Proof.
  intros L. assert (Lb : Rltb (A*A + B*B + C*C + D*D + E*E + F*F + G*G + H*H) (epsilon * epsilon) = false) by (apply Rltb_false; lra).
  unfold origin3. fold A B C D E F G H. rewrite Lb. destruct (best_roots A B C D E F G H (solve (tangent_coefficients co))) as (v & V0 & All & Al). unfold quadratics. fold A B C D E F G H. cbv zeta beta iota.
  match goal with |- context [findBestSinCosZ ?a1 ?a2 ?a3 ?a4 ?a5 ?a6 ?a7] => set (fb := findBestSinCosZ a1 a2 a3 a4 a5 a6 a7) in * end. destruct fb as [sz cz] eqn:Efb. exists sz, cz, v. split; [exact All|]. split; [exact V0|]. split.
  { destruct Al as [[-> Al]|(t & T1 & -> & Al)]; inversion Al; subst; [left; auto|right]. split; [apply root_unit|]. split; [reflexivity|]. exists t. auto. }
  set (A2 := A * cz + B * sz). set (B2 := C * cz + D * sz). set (C2 := E * cz + F * sz). set (D2 := G * cz + H * sz). set (a := guardedAtan2 (C2 + B2) (A2 - D2)). set (b := guardedAtan2 (C2 - B2) (A2 + D2)). set (z0 := guardedAtan2 sz cz).
  destruct (plane_range A2 B2 C2 D2) as [R1 R2]. fold a b in R1, R2. destruct (guarded sz cz) as (rz & Pz & Qz & Rz & Ez & _). fold z0 in Rz, Ez.
  destruct (phase_coordinate (k AX) _ (Hk AX) R1) as (zx & Ex & Ix). destruct (phase_coordinate (k AY) _ (Hk AY) R2) as (zy & Ey & Iy). destruct (phase_coordinate (k AZ) _ (Hk AZ) Rz) as (zz & Ezz & Iz).
  set (o := V3 _ _ _). exists ((a + b) / 2), ((a - b) / 2). split; [intros ax; destruct ax; assumption|].
  assert (Mo : modulation k f s o = wave3 ((a + b) / 2) ((a - b) / 2) z0).
  { rewrite modulation_wave3. replace (ang k o AX) with ((a + b) / 2 + 2 * PI * IZR zx) by (symmetry; exact Ex). replace (ang k o AY) with ((a - b) / 2 + 2 * PI * IZR zy) by (symmetry; exact Ey). replace (ang k o AZ) with (z0 + 2 * PI * IZR zz) by (symmetry; exact Ezz). apply wave3_phase. }
  split; [exact Mo|]. intros N1. assert (rz = 1) by nra. subst rz. assert (E1 : epsilon <= 1) by (unfold epsilon; lra). specialize (Ez E1).
  assert (Cz : cos z0 = cz). { pose proof (Ez 0) as X0. rewrite cos_0, sin_0 in X0. replace (0 - z0) with (- z0) in X0 by ring. rewrite cos_neg in X0. lra. }
  assert (Sz : sin z0 = sz). { pose proof (Ez (PI / 2)) as X0. rewrite cos_PI2, sin_PI2, cos_shift in X0. lra. }
  rewrite Mo. unfold wave3. rewrite Cz, Sz. fold A2 B2 C2 D2. rewrite height_top. fold A2 B2 C2 D2. destruct (top_reached A2 B2 C2 D2) as (x & y & <-). apply plane_near.
Qed.
Lemma found3 solve : finds_roots solve (tangent_coefficients co) -> (exists r, is_maximum k f s r /\ cos (2 * PI * INR (k AZ) * vz r) <> 0) -> in_unit (origin3 solve k co) /\ near_maximum (2 / 10 ^ 8) k f s (origin3 solve k co).
Proof.
  intros Fr (r & Mx & Nz). change (cos (ang k r AZ) <> 0) in Nz. destruct (maximum_height r Mx) as [Mh Hh]. pose proof epsilon_pos as Ep.
  destruct (Rlt_dec (A*A + B*B + C*C + D*D + E*E + F*F + G*G + H*H) (epsilon * epsilon)) as [L|L].
  - assert (O0 : origin3 solve k co = vzero) by (unfold origin3; fold A B C D E F G H; rewrite (proj2 (Rltb_true _ _) L); reflexivity). rewrite O0. split; [intros ax; destruct ax; cbn; lra|]. intros r'. rewrite tolerance_epsilon, !modulation_wave3. pose proof (small_total (ang k r' AZ) L). pose proof (small_total (ang k vzero AZ) L). pose proof (wave3_bound (ang k r' AX) (ang k r' AY) (ang k r' AZ)). pose proof (wave3_bound (ang k vzero AX) (ang k vzero AY) (ang k vzero AZ)). lra.
  - destruct (origin3_eq solve L) as (sz & cz & v & All & V0 & Al & x & y & Iu & Mo & Near). split; [exact Iu|]. intros r'. rewrite tolerance_epsilon. set (t := sin (ang k r AZ) / cos (ang k r AZ)).
    assert (Ht : tangent_height A B C D E F G H t = height3 (ang k r AZ)) by (apply tangent_same; [pose proof (sin2_cos2 (ang k r AZ)) as S; unfold Rsqr in S; lra|exact Nz]). pose proof (All t (Fr t (maximum_root r Mx Nz))) as Hv. rewrite Ht in Hv. specialize (Mx r').
    destruct Al as [(-> & _ & _)|(N1 & -> & _)].
    + pose proof (wave3_bound x y (guardedAtan2 sz cz)) as Bd. rewrite <- Mo in Bd. pose proof (Hh (guardedAtan2 sz cz)). lra.
    + specialize (Near N1). lra.
Qed.
End Space.
Lemma calculate3 solve k co : (forall a, (0 < k a)%nat) -> calculateRelativeOriginPos solve k co = Some (origin3 solve k co).
Proof. intros Hk. unfold calculateRelativeOriginPos, nonzero. cbn [axes filter]. rewrite !(proj2 (Nat.ltb_lt _ _) (Hk _)). reflexivity. Qed.
Lemma track_space solve k f calls : number_of_values f = 1%nat -> (forall a, (0 < k a)%nat) ->
  (forall s, In (Track s) calls -> finds_roots solve (tangent_coefficients (coefficient k f s)) /\ exists r, is_maximum k f s r /\ cos (2 * PI * INR (k AZ) * vz r) <> 0) ->
  forall previous, exists outs, track solve calls (Tracker k f previous) = Some outs /\ followed (good_origin k f) previous calls outs.
Proof.
  intros Hf Hk. induction calls as [|c calls IH]; intros Hs previous.
  - exists []. split; [reflexivity|constructor].
  - assert (Hs' : forall s, In (Track s) calls -> finds_roots solve (tangent_coefficients (coefficient k f s)) /\ exists r, is_maximum k f s r /\ cos (2 * PI * INR (k AZ) * vz r) <> 0) by (intros s Hi; apply Hs; right; exact Hi). destruct c as [s|]; cbn [track].
    + unfold calculateOrigin. cbn [tk_k tk_function tk_previous]. rewrite (calculate3 solve k _ Hk). destruct (Hs s (or_introl eq_refl)) as [Fr Mx]. destruct (found3 k f s Hf Hk solve Fr Mx) as [Iu Nm]. cbv zeta. destruct (IH Hs' (normalizeOriginPos k previous (origin3 solve k (coefficient k f s)))) as (outs & -> & Fo). eexists. split; [reflexivity|]. destruct (normalized k previous _ Iu) as (Ib & Rb & _ & _). constructor; [exact Ib| |exact Fo]. split; [|apply normalized_copy, Iu]. intros r. rewrite (related_modulation _ f s _ _ Rb). apply Nm.
    + destruct (IH Hs' vzero) as (outs & Eq & Fo). exists outs. split; [exact Eq|constructor; exact Fo].
Qed.
