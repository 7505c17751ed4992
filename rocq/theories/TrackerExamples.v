From Coq Require Import Reals ZArith List Bool Lia Lra Permutation.
From Verif Require Import GeomModel GeomProofs BoxModel BoxSpec BoxProofs RFloorModel RotModel PackSpec PackSumProofs CorrProofs CorrExamples BinsModel BinsSpec TrackerModel TrackerSpec TrackerProofs TrackerMoveProofs TrackerMaxProofs TrackerSpaceProofs TrackerWholeProofs.
Import ListNotations.
Local Open Scope R_scope.

Definition ones (a : axis) : nat := 1%nat.
Definition unit_function : shape_function := FConstant 1.
Definition single (p : vec) : system := System cube [(p, mid)].
Lemma single_pronounced k p : pronounced k unit_function (single p).
Proof.
  intros q _. unfold amplitude2, single, Rsum. cbn [sy_shapes fold_right snd unit_function component]. rewrite !Rplus_0_r, !Rmult_1_l. pose proof (sin2_cos2 (phase_at q (place (single p) (p, mid)))) as S. unfold Rsqr in S. unfold single in S. cbn [pow]. lra.
Qed.
Lemma ones_pos a : (0 < ones a)%nat. Proof. unfold ones. lia. Qed.
(** One particle. *)
Section One.
Variable t : R.
Let z0 := atan t.
Let p := V3 0 0 (z0 / (2 * PI)).
Let s := single p.
Let co := coefficient ones unit_function s.
Lemma one_coefficient idx : co idx = if idx AX then 0 else if idx AY then 0 else if idx AZ then sin z0 else cos z0.
Proof.
  pose proof PI_RGT_0. unfold co. rewrite coefficient_sum; [|reflexivity|intros a; discriminate]. unfold s, single, Rsum. cbn [sy_shapes fold_right snd unit_function component]. unfold part, place. cbn [sy_box fst]. rewrite cube_relative. unfold p, fourier, ones. cbn [Nat.eqb vx vy vz INR]. replace (2 * PI * 1 * (z0 / (2 * PI))) with z0 by (field; lra). rewrite !Rmult_0_r, sin_0, cos_0. destruct (idx AX), (idx AY), (idx AZ); ring.
Qed.
Lemma one_wave x y z : wave3 ones unit_function s x y z = cos (z - z0) * cos x * cos y.
Proof. unfold wave3. fold co. rewrite !one_coefficient. cbn [sel]. unfold plane. rewrite cos_minus. ring. Qed.
Lemma one_equation : tangent_coefficients co = [0; 0; 0; 0; 0; 0; 0].
Proof.
  unfold tangent_coefficients, quadratics. rewrite !one_coefficient. cbn [sel]. unfold calculateTanZCoefficients. cbn [rev app]. repeat (apply f_equal2; [field|]). reflexivity.
Qed.
End One.
Lemma guarded_unit c0 s0 : c0 * c0 + s0 * s0 = 1 -> cos (guardedAtan2 s0 c0) = c0 /\ sin (guardedAtan2 s0 c0) = s0.
Proof.
  intros N1. destruct (guarded s0 c0) as (rz & Pz & Qz & _ & Ez & _). assert (rz = 1) by nra. subst rz. assert (E1 : epsilon <= 1) by (unfold epsilon; lra). specialize (Ez E1). set (z := guardedAtan2 s0 c0) in *. split.
  - pose proof (Ez 0) as X0. rewrite cos_0, sin_0 in X0. replace (0 - z) with (- z) in X0 by ring. rewrite cos_neg in X0. lra.
  - pose proof (Ez (PI / 2)) as X0. rewrite cos_PI2, sin_PI2, cos_shift in X0. lra.
Qed.
Lemma guarded_zero : guardedAtan2 0 0 = 0.
Proof. unfold guardedAtan2. pose proof epsilon_pos. rewrite (proj2 (Rltb_true _ _)) by nra. reflexivity. Qed.
Lemma roots_below l : exists t, 0 < t /\ forall r, In r l -> r < t.
Proof.
  induction l as [|x l (t & T0 & T1)]; [exists 1; split; [lra|intros r []]|]. exists (Rmax t (x + 1)). split; [pose proof (Rmax_l t (x + 1)); lra|]. intros r [<- |Hr]; [pose proof (Rmax_r t (x + 1)); lra|]. specialize (T1 r Hr). pose proof (Rmax_l t (x + 1)). lra.
Qed.
(** The origin of one particle is missed, whatever the solver answers for the equation 0 = 0. *)
Lemma single_missed solve : exists p o, in_unit p /\ track solve [Track (single p)] (Tracker ones unit_function vzero) = Some [o] /\ in_unit o /\ modulation ones unit_function (single p) o < modulation ones unit_function (single p) p.
Proof.
  destruct (roots_below (solve [0; 0; 0; 0; 0; 0; 0])) as (t & T0 & Tb). pose proof PI_RGT_0 as Pi. set (z0 := atan t). pose proof (atan_bounds t) as Zb. fold z0 in Zb. assert (Z0 : 0 < z0) by (unfold z0; rewrite <- atan_0; apply atan_increasing, T0).
  set (p := V3 0 0 (z0 / (2 * PI))). set (s := single p). set (co := coefficient ones unit_function s). assert (Eqn : tangent_coefficients co = [0; 0; 0; 0; 0; 0; 0]) by apply one_equation.
  assert (Bz : 0 <= z0 / (2 * PI) < 1). { split; [apply Rmult_le_pos; [lra|left; apply Rinv_0_lt_compat; lra]|]. apply (Rmult_lt_reg_r (2 * PI)); [lra|]. unfold Rdiv. rewrite Rmult_assoc, Rinv_l by lra. lra. }
  exists p. set (o := origin3 solve ones co). exists (normalizeOriginPos ones vzero o). split; [intros a; destruct a; cbn; lra|].
  destruct (origin3_eq ones unit_function s eq_refl ones_pos solve) as (sz & cz & v & All & V0 & Al & x & y & Iu & Mo & _).
  { fold co. unfold co, s, p, z0. rewrite !one_coefficient. fold z0. cbn [sel]. pose proof (sin2_cos2 z0) as S. unfold Rsqr in S. unfold epsilon. lra. }
  fold co o in Iu, Mo, Al, All. destruct (normalized ones vzero o Iu) as (Ib & Rb & _). split.
  { cbn [track]. unfold calculateOrigin. cbn [tk_k tk_function tk_previous]. fold s. fold co. rewrite (calculate3 solve ones co ones_pos). cbv zeta. fold o. unfold s at 1, single. cbn [sy_box]. rewrite cube_absolute. reflexivity. }
  split; [exact Ib|]. fold s. rewrite (related_modulation ones unit_function s o _ Rb), Mo. pose proof (one_wave t x y (guardedAtan2 sz cz)) as Ow. change (wave3 ones unit_function s x y (guardedAtan2 sz cz) = cos (guardedAtan2 sz cz - z0) * cos x * cos y) in Ow. rewrite Ow.
  assert (Mp : modulation ones unit_function s p = 1).
  { unfold modulation, s, single, Rsum. cbn [sy_shapes fold_right snd unit_function component]. unfold wave_at, place. cbn [sy_box fst]. rewrite cube_relative, !Rminus_eq_0, !Rmult_0_r, cos_0. ring. }
  rewrite Mp. set (z := guardedAtan2 sz cz).
  assert (Lt : cos (z - z0) * cos (z - z0) < 1).
  { assert (Hs : sin (z - z0) <> 0).
    { destruct Al as [(_ & -> & ->)|(N1 & _ & r & Ir & Sz & Cz)].
      - unfold z. rewrite guarded_zero. replace (0 - z0) with (- z0) by ring. rewrite sin_neg. pose proof (sin_gt_0 z0 Z0 ltac:(lra)). lra.
      - destruct (guarded_unit cz sz N1) as [Gc Gs]. fold z in Gc, Gs. rewrite sin_minus, Gc, Gs. rewrite Eqn in Ir. specialize (Tb r Ir). destruct (root_norm r) as [Pn _]. rewrite Sz, Cz. assert (C0 : 0 < cos z0) by (apply cos_gt_0; lra). assert (St : sin z0 = t * cos z0) by (pose proof (tan_atan t) as X; unfold tan in X; fold z0 in X; rewrite <- X; field; lra).
        rewrite St. replace (r / sqrt (1 + r * r) * cos z0 - 1 / sqrt (1 + r * r) * (t * cos z0)) with ((r - t) * (cos z0 / sqrt (1 + r * r))) by (field; lra). apply Rmult_integral_contrapositive_currified; [lra|]. apply Rgt_not_eq. apply Rdiv_lt_0_compat; assumption. }
    pose proof (sin2_cos2 (z - z0)) as S. unfold Rsqr in S. assert (0 < sin (z - z0) * sin (z - z0)) by (destruct (Rtotal_order 0 (sin (z - z0))) as [H|[H|H]]; [nra|congruence|nra]). lra. }
  pose proof (COS_bound x) as Bx. pose proof (COS_bound y) as By. set (w := cos (z - z0)) in *. set (cx := cos x) in *. set (cy := cos y) in *. assert (W1 : -1 < w < 1) by (split; nra). assert (Q1 : -1 <= cx * cy <= 1) by (split; nra). rewrite Rmult_assoc. set (q := cx * cy) in *. clearbody q w. clear - W1 Q1. destruct (Rtotal_order q 0) as [H|[-> |H]]; nra.
Qed.
(** Three particles with a solvable equation. *)
Definition three : system := System cube [(vzero, mid); (vzero, mid); (V3 (1 / 4) (1 / 4) 0, mid)].
Lemma three_coefficient idx : coefficient ones unit_function three idx = if idx AZ then 0 else if idx AX then (if idx AY then 1 else 0) else if idx AY then 0 else 2.
Proof.
  pose proof PI_RGT_0. rewrite coefficient_sum; [|reflexivity|intros a; discriminate]. unfold three, Rsum. cbn [sy_shapes fold_right snd unit_function component]. unfold part, place. cbn [sy_box fst]. rewrite !cube_relative. unfold fourier, ones, vzero. cbn [Nat.eqb vx vy vz INR]. replace (2 * PI * 1 * (1 / 4)) with (PI / 2) by field. rewrite !Rmult_0_r, sin_0, cos_0, cos_PI2, sin_PI2. destruct (idx AX), (idx AY), (idx AZ); ring.
Qed.
Lemma three_maximum : is_maximum ones unit_function three vzero.
Proof.
  assert (M : forall r, modulation ones unit_function three r = cos (ang ones r AZ) * (3 / 2 * cos (ang ones r AX - ang ones r AY) + 1 / 2 * cos (ang ones r AX + ang ones r AY))).
  { intros r. rewrite (modulation_wave3 ones unit_function three eq_refl ones_pos). unfold wave3. rewrite !three_coefficient. cbn [sel]. unfold plane. rewrite cos_minus, cos_plus. field. }
  intros r. rewrite !M. assert (Z0 : forall a, ang ones vzero a = 0) by (intros []; unfold ang; cbn; ring). rewrite !Z0, Rminus_eq_0, Rplus_0_r, cos_0. pose proof (COS_bound (ang ones r AZ)). pose proof (COS_bound (ang ones r AX - ang ones r AY)). pose proof (COS_bound (ang ones r AX + ang ones r AY)). nra.
Qed.
Lemma three_solved : finds_roots (fun _ => [0]) (tangent_coefficients (coefficient ones unit_function three)).
Proof.
  intros t. unfold tangent_coefficients, quadratics. rewrite !three_coefficient. cbn [sel]. unfold calculateTanZCoefficients. cbn [rev app]. unfold polynomial. cbn [fold_left]. intros H. left. assert (X : t * t = 0) by (field_simplify in H; lra). nra.
Qed.
Lemma one_wave_followed solve : track solve [Track (single (V3 (1 / 4) 0 0))] (Tracker (fun a => match a with AX => 1%nat | _ => 0%nat end) unit_function vzero) = Some [V3 (1 / 4) 0 0].
Proof.
  set (k := fun a => match a with AX => 1%nat | _ => 0%nat end). set (s := single (V3 (1 / 4) 0 0)).
  destruct (track_followed solve k unit_function [Track s] eq_refl (ex_intro _ AY eq_refl) (ex_intro _ AX Nat.lt_0_1) vzero) as (outs & -> & F); [intros a _; destruct a; reflexivity|].
  inversion F as [| |? ? ? o l Iu [_ B] Fo]; subst. inversion Fo; subst. destruct (B (single_pronounced k _)) as [Mx (l0 & Wl & Nr)]. f_equal. f_equal. unfold s at 1, single. cbn [sy_box]. rewrite cube_absolute.
  assert (M : forall r, modulation k unit_function s r = cos (2 * PI * (vx r - 1 / 4))).
  { intros r. unfold modulation, s, single, Rsum. cbn [sy_shapes fold_right snd unit_function component]. unfold wave_at, place. cbn [sy_box fst]. rewrite cube_relative. cbn [vget k vx vy vz INR]. rewrite !Rmult_0_r, !Rmult_0_l, cos_0, !Rmult_1_r. ring. }
  assert (Mp : is_maximum k unit_function s (V3 (1 / 4) 0 0)) by (intros r; rewrite !M; cbn [vx]; rewrite Rminus_eq_0, Rmult_0_r, cos_0; apply COS_bound).
  pose proof (Mx (V3 (1 / 4) 0 0)) as Ge. rewrite !M in Ge. cbn [vx] in Ge. rewrite Rminus_eq_0, Rmult_0_r, cos_0 in Ge. pose proof (COS_bound (2 * PI * (vx o - 1 / 4))). assert (C1 : cos (2 * PI * (vx o - 1 / 4)) = 1) by lra. apply cos_one in C1. destruct C1 as [m C1]. pose proof PI_RGT_0 as Pi. apply Rmult_eq_reg_l in C1; [|lra].
  pose proof (Iu AX) as Ix. cbn [vget] in Ix. assert (m = 0%Z) by (assert (-1 < IZR m < 1) as [m1 m2] by lra; apply (lt_IZR (-1)) in m1; apply (lt_IZR _ 1) in m2; lia). subst m.
  assert (Ox : vx o = 1 / 4) by lra. specialize (Nr _ Mp). unfold vnorm2, vdot, vsub, vadd, vzero in Nr. cbn [vx vy vz] in Nr. rewrite Ox in Nr.
  destruct (Wl AX) as [lx Lx], (Wl AY) as [ly Ly], (Wl AZ) as [lz Lz]. cbn [vget] in Lx, Ly, Lz. pose proof (Iu AY) as Iy. pose proof (Iu AZ) as Iz. cbn [vget] in Iy, Iz.
  assert (Sx : 1 / 16 <= (1 / 4 + vx l0) * (1 / 4 + vx l0)). { rewrite Lx. destruct (Z_lt_le_dec lx 0) as [N|N]; [assert (IZR lx <= -1) by (apply (IZR_le lx (-1)); lia); nra|apply IZR_le in N; nra]. }
  assert (Sq : forall u v : R, u * u + v * v <= 0 -> u = 0 /\ v = 0) by (intros u v Hu; split; nra). destruct (Sq (vy o + vy l0) (vz o + vz l0)) as [Y0 Z0]; [lra|].
  assert (In0 : forall u z, 0 <= u < 1 -> u + IZR z = 0 -> u = 0). { intros u z Hu Hz. assert (z = 0%Z) by (assert (-1 < IZR z < 1) as [m1 m2] by lra; apply (lt_IZR (-1)) in m1; apply (lt_IZR _ 1) in m2; lia). subst z. lra. }
  rewrite Ly in Y0. rewrite Lz in Z0. destruct o as [ox oy oz]. cbn [vx vy vz] in *. f_equal; [exact Ox|exact (In0 _ _ Iy Y0)|exact (In0 _ _ Iz Z0)].
Qed.
Lemma create_iff k f t : tracker_create k f = Some t <-> ((exists a, (0 < k a)%nat) /\ number_of_values f = 1%nat) /\ t = Tracker k f vzero.
Proof.
  rewrite tracker_create_spec. destruct (existsb (fun a => (0 <? k a)%nat) axes && (number_of_values f =? 1)%nat)%bool eqn:E.
  - apply andb_true_iff in E. destruct E as [E1 E2]. apply Nat.eqb_eq in E2. apply existsb_exists in E1. destruct E1 as (a & _ & E1). apply Nat.ltb_lt in E1. split; [intros X; inversion X; eauto|intros [_ ->]; reflexivity].
  - split; [discriminate|]. intros (((a & Ha) & Hn) & _). exfalso. apply andb_false_iff in E. destruct E as [E|E]; [|rewrite Hn in E; discriminate]. assert (T : existsb (fun a => (0 <? k a)%nat) axes = true) by (apply existsb_exists; exists a; split; [destruct a; cbn; auto|apply Nat.ltb_lt, Ha]). congruence.
Qed.
Lemma waves_followed solve k f t calls : tracker_create k f = Some t -> (exists a, k a = 0%nat) -> exists outs, track solve calls t = Some outs /\ followed (best_origin k f) vzero calls outs.
Proof. intros C Z. apply create_iff in C. destruct C as ((P & N) & ->). apply track_followed; [exact N|exact Z|exact P|intros [] _; reflexivity]. Qed.
Lemma space_followed solve k f t calls : tracker_create k f = Some t -> (forall a, (0 < k a)%nat) ->
  (forall s, In (Track s) calls -> finds_roots solve (tangent_coefficients (coefficient k f s)) /\ exists r, is_maximum k f s r /\ cos (2 * PI * INR (k AZ) * vz r) <> 0) ->
  exists outs, track solve calls t = Some outs /\ followed (good_origin k f) vzero calls outs.
Proof. intros C P Hs. apply create_iff in C. destruct C as ((_ & N) & ->). apply track_space; assumption. Qed.
