From Coq Require Import Reals List Bool Lia Lra Psatz.
From Verif Require Import OptModel GeomModel GeomProofs SegErrorProofs GeoModel GeoProofs XcModel XcSpec.
Import ListNotations.
Open Scope R_scope.

Lemma ZERO_pos : 0 < ZERO. Proof. unfold ZERO. apply Rdiv_lt_0_compat; [lra|]. apply pow_lt. lra. Qed.
Lemma is_zero_spec v : is_vector_zero v = true <-> Rabs (vx v) < ZERO /\ Rabs (vy v) < ZERO /\ Rabs (vz v) < ZERO.
Proof. unfold is_vector_zero. rewrite !andb_true_iff, !Rltb_true. tauto. Qed.
Lemma not_zero_vec v : is_vector_zero v = false -> v <> vzero.
Proof. intros H E. subst. assert (is_vector_zero vzero = true); [|congruence]. apply is_zero_spec. cbn. rewrite Rabs_R0. pose proof ZERO_pos. tauto. Qed.
Lemma signed_spec n h y : 0 <= h -> - h <= signed n h <= h /\ (- h <= y <= h -> y * n <= signed n h * n).
Proof. intros H. unfold signed. destruct (Rltb n 0) eqn:E; [apply Rltb_true in E|apply Rltb_false in E]; split; try lra; intros; nra. Qed.
Lemma fmax_ge a b : a <= fmax a b /\ b <= fmax a b. Proof. unfold fmax. destruct (Rltb a b) eqn:E; [apply Rltb_true in E|apply Rltb_false in E]; lra. Qed.
Lemma fmax_one a b : fmax a b = a \/ fmax a b = b. Proof. unfold fmax. destruct (Rltb a b); auto. Qed.
Lemma fmin_le a b : fmin a b <= a /\ fmin a b <= b. Proof. unfold fmin. destruct (Rltb b a) eqn:E; [apply Rltb_true in E|apply Rltb_false in E]; lra. Qed.
Lemma fmin_one a b : fmin a b = a \/ fmin a b = b. Proof. unfold fmin. destruct (Rltb b a); auto. Qed.
Lemma max3_ge v : vx v <= max3 v /\ vy v <= max3 v /\ vz v <= max3 v.
Proof. unfold max3. pose proof (fmax_ge (vx v) (vy v)). pose proof (fmax_ge (fmax (vx v) (vy v)) (vz v)). lra. Qed.
Lemma min3_le v : min3 v <= vx v /\ min3 v <= vy v /\ min3 v <= vz v.
Proof. unfold min3. pose proof (fmin_le (vx v) (vy v)). pose proof (fmin_le (fmin (vx v) (vy v)) (vz v)). lra. Qed.
Lemma min3_pos v : 0 < vx v -> 0 < vy v -> 0 < vz v -> 0 < min3 v.
Proof. intros. unfold min3. destruct (fmin_one (fmin (vx v) (vy v)) (vz v)) as [->| ->]; [|lra]. destruct (fmin_one (vx v) (vy v)) as [->| ->]; lra. Qed.
Lemma normalized_some v : v <> vzero -> exists u, normalized v = Some u /\ vnorm u = 1 /\ v = vscale (vnorm v) u.
Proof. intros N. pose proof (normalized_spec v) as H. destruct (normalized v) as [u|]; [|contradiction]. exists u. tauto. Qed.
Lemma norm_bound y r : 0 <= r -> (vnorm y <= r <-> vnorm2 y <= r ^ 2).
Proof. intros H. rewrite <- vnorm_sqr. pose proof (vnorm_nonneg y). split; intros; nra. Qed.
Lemma norm_bound_lt y r : 0 <= r -> (vnorm y < r <-> vnorm2 y < r ^ 2).
Proof. intros H. rewrite <- vnorm_sqr. pose proof (vnorm_nonneg y). split; intros; nra. Qed.
Lemma sq_convex x y k : 0 <= k <= 1 -> ((1 - k) * x + k * y) ^ 2 <= (1 - k) * x ^ 2 + k * y ^ 2.
Proof. intros H. assert (0 <= k * (1 - k) * (x - y) ^ 2); [|nra]. apply Rmult_le_pos; [nra|apply pow2_ge_0]. Qed.
Lemma convex_interval a x y k : - a <= x <= a -> - a <= y <= a -> 0 <= k <= 1 -> - a <= (1 - k) * x + k * y <= a.
Proof. intros. split; nra. Qed.

Lemma point_ok p : let g := xc_point p in shaped any_direction g (point_body p) /\ (p = vzero -> covered g (point_body p)) /\ filled g (point_body p).
Proof.
  cbn. split; [split; [|split; [reflexivity|]]|split].
  - intros x y k -> -> H. apply vec_ext; cbn; ring.
  - intros n _. exists p. split; [reflexivity|]. split; [reflexivity|]. intros y ->. lra.
  - intros -> y ->. cbn. unfold vnorm, vnorm2, vdot. cbn. rewrite !Rmult_0_l, !Rplus_0_r, sqrt_0. lra.
  - intros y H. cbn in H. pose proof (vnorm_nonneg y). lra.
Qed.
Lemma no_insphere g b : xc_insphere g = 0 -> filled g b.
Proof. intros H y Y. rewrite H in Y. pose proof (vnorm_nonneg y). lra. Qed.
Lemma cuboid_convex a b c : convex (cuboid_body a b c).
Proof. intros x y k (X1&X2&X3) (Y1&Y2&Y3) H. unfold cuboid_body. cbn [vx vy vz vadd vscale]. repeat split; try apply convex_interval; auto; apply convex_interval; auto. Qed.
Lemma cuboid_support a b c n : 0 <= a -> 0 <= b -> 0 <= c -> supports (cuboid_body a b c) n (V3 (signed (vx n) a) (signed (vy n) b) (signed (vz n) c)).
Proof.
  intros A B C. split; [repeat split; cbn; apply (signed_spec _ _ 0); auto|]. intros y (Y1&Y2&Y3). unfold vdot. cbn.
  pose proof (proj2 (signed_spec (vx n) a (vx y) A) Y1). pose proof (proj2 (signed_spec (vy n) b (vy y) B) Y2). pose proof (proj2 (signed_spec (vz n) c (vz y) C) Y3). lra.
Qed.
Lemma cuboid_covered a b c y : cuboid_body a b c y -> vnorm y <= vnorm (V3 a b c).
Proof. intros (Y1&Y2&Y3). apply vnorm_le. unfold vnorm2, vdot. cbn. nra. Qed.
Lemma segment_ok h g : xc_segment h = Some g -> 0 < h /\ shaped any_direction g (segment_body h) /\ covered g (segment_body h) /\ filled g (segment_body h).
Proof.
  unfold xc_segment. destruct (Rltb 0 h) eqn:P; [|discriminate]. apply Rltb_true in P. intros [= <-]. split; [auto|]. split; [|split; [|apply no_insphere; reflexivity]].
  - split; [|split].
    + intros x y k (X1&X2&X3) (Y1&Y2&Y3) H. unfold segment_body. cbn [vx vy vz vadd vscale]. rewrite X1, X2, Y1, Y2. split; [ring|]. split; [ring|]. apply convex_interval; auto.
    + repeat split; cbn; lra.
    + intros n _. exists (V3 0 0 (signed (vz n) h)). split; [reflexivity|]. split; [repeat split; cbn; auto; apply (signed_spec _ _ 0); lra|].
      intros y (Y1&Y2&Y3). unfold vdot. cbn. rewrite Y1, Y2. pose proof (proj2 (signed_spec (vz n) h (vz y) ltac:(lra)) Y3). lra.
  - intros y (Y1&Y2&Y3). cbn [xc_circumsphere]. apply norm_bound; [lra|]. unfold vnorm2, vdot. rewrite Y1, Y2. nra.
Qed.
Lemma rectangle_ok a b g : xc_rectangle a b = Some g -> (0 < a /\ 0 < b) /\ shaped any_direction g (cuboid_body a b 0) /\ covered g (cuboid_body a b 0) /\ filled g (cuboid_body a b 0).
Proof.
  unfold xc_rectangle. destruct (Rltb 0 a) eqn:P; [|discriminate]. destruct (Rltb 0 b) eqn:Q; [|discriminate]. apply Rltb_true in P, Q. intros [= <-]. split; [auto|]. split; [|split; [|apply no_insphere; reflexivity]].
  - split; [apply cuboid_convex|]. split; [repeat split; cbn; lra|]. intros n _. exists (V3 (signed (vx n) a) (signed (vy n) b) 0). split; [reflexivity|].
    pose proof (cuboid_support a b 0 n ltac:(lra) ltac:(lra) ltac:(lra)) as H. replace (signed (vz n) 0) with 0 in H; [exact H|]. unfold signed. destruct (Rltb _ _); lra.
  - intros y Y. apply cuboid_covered in Y. exact Y.
Qed.
Lemma norm_coord y r : vnorm y < r -> - r <= vx y <= r /\ - r <= vy y <= r /\ - r <= vz y <= r.
Proof.
  intros H. pose proof (vnorm_nonneg y). assert (P : 0 < r) by lra. apply norm_bound_lt in H; [|lra]. unfold vnorm2, vdot in H. pose proof (Rle_0_sqr (vx y)) as A. pose proof (Rle_0_sqr (vy y)) as B. pose proof (Rle_0_sqr (vz y)) as C. unfold Rsqr in *.
  assert (K : forall x, x * x < r ^ 2 -> - r <= x <= r) by (intros; split; nra). repeat split; apply K; lra.
Qed.
Lemma cuboid_ok h g : xc_cuboid h = Some g -> (0 < vx h /\ 0 < vy h /\ 0 < vz h) /\
  let b := cuboid_body (vx h) (vy h) (vz h) in shaped any_direction g b /\ covered g b /\ filled g b.
Proof.
  unfold xc_cuboid. destruct (Rltb 0 (vx h)) eqn:P; [|discriminate]. destruct (Rltb 0 (vy h)) eqn:Q; [|discriminate]. destruct (Rltb 0 (vz h)) eqn:W; [|discriminate].
  apply Rltb_true in P, Q, W. intros [= <-]. split; [auto|]. cbv zeta. split; [|split].
  - split; [apply cuboid_convex|]. split; [repeat split; cbn; lra|]. intros n _. eexists. split; [reflexivity|]. apply cuboid_support; lra.
  - intros y Y. apply cuboid_covered in Y. destruct h. exact Y.
  - intros y Y. cbn [xc_insphere] in Y. pose proof (min3_le h). apply norm_coord in Y. unfold cuboid_body. repeat split; lra.
Qed.

(** Ellipsoids *)
Lemma ellipsoid_convex a b c : convex (ellipsoid_body a b c).
Proof.
  intros x y k X Y H. unfold ellipsoid_body in *. cbn [vx vy vz vadd vscale].
  replace (((1 - k) * vx x + k * vx y) / a) with ((1 - k) * (vx x / a) + k * (vx y / a)) by (unfold Rdiv; ring).
  replace (((1 - k) * vy x + k * vy y) / b) with ((1 - k) * (vy x / b) + k * (vy y / b)) by (unfold Rdiv; ring).
  replace (((1 - k) * vz x + k * vz y) / c) with ((1 - k) * (vz x / c) + k * (vz y / c)) by (unfold Rdiv; ring).
  pose proof (sq_convex (vx x / a) (vx y / a) k H). pose proof (sq_convex (vy x / b) (vy y / b) k H). pose proof (sq_convex (vz x / c) (vz y / c) k H). nra.
Qed.
Lemma unit_dot u w : vnorm u = 1 -> vnorm2 w <= 1 -> vdot w u <= 1.
Proof.
  intros U W. pose proof (cauchy_schwarz w u) as H. rewrite U, Rmult_1_r in H. assert (vnorm w <= 1) by (apply norm_bound; lra). pose proof (Rle_abs (vdot w u)). lra.
Qed.
Lemma ellipsoid_support a b c n u : 0 < a -> 0 < b -> 0 < c -> n <> vzero -> vnorm u = 1 -> vector_comp_mul n (V3 a b c) = vscale (vnorm (vector_comp_mul n (V3 a b c))) u ->
  supports (ellipsoid_body a b c) n (vector_comp_mul u (V3 a b c)).
Proof.
  intros A B C N U E. set (m := vector_comp_mul n (V3 a b c)) in *. assert (U2 : vnorm2 u = 1) by (rewrite <- vnorm_sqr, U; ring). split.
  - unfold ellipsoid_body, vector_comp_mul. cbn. replace (vx u * a / a) with (vx u) by (field; lra). replace (vy u * b / b) with (vy u) by (field; lra). replace (vz u * c / c) with (vz u) by (field; lra).
    unfold vnorm2, vdot in U2. lra.
  - intros y Y. unfold ellipsoid_body in Y. set (w := V3 (vx y / a) (vy y / b) (vz y / c)).
    assert (D : vdot y n = vdot w m) by (unfold m, w, vdot, vector_comp_mul; cbn; field; lra).
    assert (D2 : vdot (vector_comp_mul u (V3 a b c)) n = vdot u m) by (unfold m, vdot, vector_comp_mul; cbn; ring).
    rewrite D, D2, E. assert (K : forall p, vdot p (vscale (vnorm m) u) = vnorm m * vdot p u) by (intros; unfold vdot; cbn; ring). rewrite !K.
    apply Rmult_le_compat_l; [apply vnorm_nonneg|]. change (vdot u u) with (vnorm2 u). rewrite U2. apply unit_dot; auto. unfold w, vnorm2, vdot. cbn. lra.
Qed.
Lemma comp_mul_nonzero n a b c : 0 < a -> 0 < b -> 0 < c -> n <> vzero -> vector_comp_mul n (V3 a b c) <> vzero.
Proof.
  intros A B C N E. apply N. injection E as E1 E2 E3. apply vec_ext; cbn in *; [apply Rmult_integral in E1; lra|apply Rmult_integral in E2; lra|apply Rmult_integral in E3; lra].
Qed.
Lemma ratio_sq x a m : 0 < a -> a <= m -> x * x <= m * m * (x / a) ^ 2.
Proof. intros A M. replace (x * x) with (a * a * (x / a) ^ 2) by (field; lra). apply Rmult_le_compat_r; [apply pow2_ge_0|nra]. Qed.
Lemma ratio_sq' x a m : 0 < m -> m <= a -> m * m * (x / a) ^ 2 <= x * x.
Proof. intros A M. replace (x * x) with (a * a * (x / a) ^ 2) by (field; lra). apply Rmult_le_compat_r; [apply pow2_ge_0|nra]. Qed.
Lemma ellipsoid_ok h g : xc_ellipsoid h = Some g -> (0 < vx h /\ 0 < vy h /\ 0 < vz h) /\
  let b := ellipsoid_body (vx h) (vy h) (vz h) in shaped any_direction g b /\ covered g b /\ filled g b.
Proof.
  destruct h as [a b c]. unfold xc_ellipsoid. cbn [vx vy vz]. destruct (Rltb 0 a) eqn:P; [|discriminate]. destruct (Rltb 0 b) eqn:Q; [|discriminate]. destruct (Rltb 0 c) eqn:W; [|discriminate].
  apply Rltb_true in P, Q, W. intros [= <-]. split; [auto|]. cbv zeta. split; [|split].
  - split; [apply ellipsoid_convex|]. split; [unfold ellipsoid_body; cbn; unfold Rdiv; rewrite !Rmult_0_l; lra|]. intros n N.
    destruct (normalized_some (vector_comp_mul n (V3 a b c)) (comp_mul_nonzero n a b c P Q W N)) as (u&E&U&S). exists (vector_comp_mul u (V3 a b c)).
    split; [cbn [xc_support]; rewrite E; reflexivity|]. apply ellipsoid_support; auto.
  - intros y Y. cbn [xc_circumsphere]. pose proof (max3_ge (V3 a b c)) as (M1&M2&M3). cbn in M1, M2, M3. set (m := max3 (V3 a b c)) in *. apply norm_bound; [lra|].
    unfold ellipsoid_body in Y. unfold vnorm2, vdot. pose proof (ratio_sq (vx y) a m P M1). pose proof (ratio_sq (vy y) b m Q M2). pose proof (ratio_sq (vz y) c m W M3). nra.
  - intros y Y. cbn [xc_insphere] in Y. pose proof (min3_le (V3 a b c)) as (M1&M2&M3). pose proof (min3_pos (V3 a b c) P Q W) as MP. cbn in M1, M2, M3. set (m := min3 (V3 a b c)) in *. apply norm_bound_lt in Y; [|lra].
    unfold ellipsoid_body. unfold vnorm2, vdot in Y. pose proof (ratio_sq' (vx y) a m MP M1). pose proof (ratio_sq' (vy y) b m MP M2). pose proof (ratio_sq' (vz y) c m MP M3).
    apply Rmult_le_reg_l with (m * m); [nra|]. nra.
Qed.
Lemma ball_convex r : convex (ball_body r).
Proof.
  intros x y k X Y H. unfold ball_body in *. pose proof (vnorm_triangle (vscale (1 - k) x) (vscale k y)) as T. rewrite !vnorm_scale, !Rabs_pos_eq in T by lra. nra.
Qed.
Lemma ball_support r n u : 0 <= r -> vnorm u = 1 -> n = vscale (vnorm n) u -> supports (ball_body r) n (vscale r u).
Proof.
  intros R U E. split; [unfold ball_body; rewrite vnorm_scale, U, Rabs_pos_eq; lra|]. intros y Y. unfold ball_body in Y. replace (vdot (vscale r u) n) with (r * vnorm n).
  - pose proof (cauchy_schwarz y n). pose proof (Rle_abs (vdot y n)). pose proof (vnorm_nonneg n). nra.
  - rewrite E at 2. transitivity (r * vnorm n * vnorm2 u); [|unfold vnorm2, vdot; cbn; ring]. rewrite <- vnorm_sqr, U. ring.
Qed.
Lemma vnorm_zero : vnorm vzero = 0. Proof. unfold vnorm, vnorm2, vdot. cbn. rewrite !Rmult_0_l, !Rplus_0_r. apply sqrt_0. Qed.
Lemma sphere_ok r g : xc_sphere r = Some g -> 0 < r /\ shaped any_direction g (ball_body r) /\ covered g (ball_body r) /\ filled g (ball_body r).
Proof.
  unfold xc_sphere. destruct (Rltb 0 r) eqn:P; [|discriminate]. apply Rltb_true in P. intros [= <-]. split; [auto|]. split; [|split].
  - split; [apply ball_convex|]. split; [unfold ball_body; cbn; rewrite vnorm_zero; lra|]. intros n N. destruct (normalized_some n N) as (u&E&U&S). exists (vscale r u).
    split; [cbn; rewrite E; reflexivity|]. apply ball_support; auto; lra.
  - intros y Y. exact Y.
  - intros y Y. cbn in Y. unfold ball_body. lra.
Qed.
Lemma disk_convex r : convex (disk_body r).
Proof. intros x y k (X1&X) (Y1&Y) H. split; [cbn; rewrite X1, Y1; ring|]. exact (ball_convex r x y k X Y H). Qed.
Lemma flat_dot y n : vz y = 0 -> vdot y n = vdot y (V3 (vx n) (vy n) 0). Proof. intros E. unfold vdot. cbn. rewrite E. ring. Qed.
Lemma long_not_zero x y : flat_or_long x y -> is_vector_zero (V3 x y 0) = true -> x = 0 /\ y = 0.
Proof. intros [H|[H|H]] Z; [exact H| |]; apply is_zero_spec in Z; cbn in Z; lra. Qed.
Lemma disk_ok r g : xc_disk r = Some g -> 0 < r /\ shaped disk_direction g (disk_body r) /\ covered g (disk_body r) /\ filled g (disk_body r).
Proof.
  unfold xc_disk. destruct (Rltb 0 r) eqn:P; [|discriminate]. apply Rltb_true in P. intros [= <-]. split; [auto|]. split; [|split; [|apply no_insphere; reflexivity]].
  - split; [apply disk_convex|]. split; [split; [reflexivity|cbn; rewrite vnorm_zero; lra]|]. intros n (N&F). cbn [xc_support].
    destruct (is_vector_zero (V3 (vx n) (vy n) 0)) eqn:Z.
    + destruct (long_not_zero _ _ F Z) as (X&Y). exists vzero. split; [reflexivity|]. split; [split; [reflexivity|rewrite vnorm_zero; lra]|].
      intros y (Y1&_). rewrite flat_dot by auto. unfold vdot. cbn. rewrite X, Y. lra.
    + destruct (normalized_some _ (not_zero_vec _ Z)) as (u&E&U&S). exists (vscale r u). split; [rewrite E; reflexivity|].
      destruct (ball_support r (V3 (vx n) (vy n) 0) u ltac:(lra) U S) as (B&M).
      assert (UZ : vz u = 0). { assert (H : vz (V3 (vx n) (vy n) 0) = vnorm (V3 (vx n) (vy n) 0) * vz u) by (rewrite S at 1; reflexivity). cbn [vz] in H. symmetry in H. apply Rmult_integral in H. destruct H; [|auto]. pose proof (vnorm_pos _ (not_zero_vec _ Z)). lra. }
      split; [split; [cbn; rewrite UZ; ring|exact B]|]. intros y (Y1&Y). rewrite (flat_dot y n), (flat_dot (vscale r u) n) by (auto; cbn; rewrite UZ; ring). apply M. exact Y.
  - intros y (_&Y). exact Y.
Qed.
Lemma ellipse_convex a b : convex (ellipse_body a b).
Proof.
  intros x y k (X1&X) (Y1&Y) H. split; [cbn; rewrite X1, Y1; ring|]. pose proof (ellipsoid_convex a b 1 x y k) as C. unfold ellipsoid_body in C.
  cbn [vz vadd vscale] in C. rewrite X1, Y1 in C. unfold Rdiv in C. rewrite !Rmult_0_r, !Rplus_0_r, !Rmult_0_l in C. cbn [vx vy vz vadd vscale] in *. unfold Rdiv. unfold Rdiv in X, Y. specialize (C ltac:(lra) ltac:(lra) H). lra.
Qed.
Lemma ellipse_ok a b g : xc_ellipse a b = Some g -> (0 < a /\ 0 < b) /\ shaped (ellipse_direction a b) g (ellipse_body a b) /\ covered g (ellipse_body a b) /\ filled g (ellipse_body a b).
Proof.
  unfold xc_ellipse. destruct (Rltb 0 a) eqn:P; [|discriminate]. destruct (Rltb 0 b) eqn:Q; [|discriminate]. apply Rltb_true in P, Q. cbn [andb]. intros [= <-]. split; [auto|]. split; [|split; [|apply no_insphere; reflexivity]].
  - split; [apply ellipse_convex|]. split; [split; cbn; [reflexivity|unfold Rdiv; rewrite !Rmult_0_l; lra]|]. intros n (N&F). cbn [xc_support].
    assert (E0 : vector_comp_mul (V3 a b 0) n = V3 (a * vx n) (b * vy n) 0) by (unfold vector_comp_mul; cbn; apply vec_ext; cbn; ring). rewrite E0.
    destruct (is_vector_zero (V3 (a * vx n) (b * vy n) 0)) eqn:Z.
    + destruct (long_not_zero _ _ F Z) as (X&Y). exists vzero. split; [reflexivity|]. split; [split; cbn; [reflexivity|unfold Rdiv; rewrite !Rmult_0_l; lra]|].
      intros y (Y1&_). apply Rmult_integral in X, Y. unfold vdot. cbn. rewrite Y1. destruct X as [X|X], Y as [Y|Y]; try lra. rewrite X, Y. lra.
    + destruct (normalized_some _ (not_zero_vec _ Z)) as (u&E&U&S). exists (vector_comp_mul u (V3 a b 0)). split; [rewrite E; reflexivity|].
      assert (UZ : vz u = 0). { assert (H : vz (V3 (a * vx n) (b * vy n) 0) = vnorm (V3 (a * vx n) (b * vy n) 0) * vz u) by (rewrite S at 1; reflexivity). cbn [vz] in H. symmetry in H. apply Rmult_integral in H. destruct H; [|auto]. pose proof (vnorm_pos _ (not_zero_vec _ Z)). lra. }
      assert (NZ : V3 (vx n) (vy n) 0 <> vzero). { intros H. injection H as H1 H2. apply (not_zero_vec _ Z). rewrite H1, H2. apply vec_ext; cbn; ring. }
      assert (Q1 : vector_comp_mul (V3 (vx n) (vy n) 0) (V3 a b 1) = V3 (a * vx n) (b * vy n) 0) by (unfold vector_comp_mul; cbn; apply vec_ext; cbn; ring).
      destruct (ellipsoid_support a b 1 (V3 (vx n) (vy n) 0) u P Q ltac:(lra) NZ U) as (B&M); [rewrite Q1; exact S|].
      replace (vector_comp_mul u (V3 a b 0)) with (vector_comp_mul u (V3 a b 1)) by (unfold vector_comp_mul; cbn; apply vec_ext; cbn; rewrite ?UZ; ring).
      assert (SZ : vz (vector_comp_mul u (V3 a b 1)) = 0) by (cbn; rewrite UZ; ring).
      split.
      * split; [exact SZ|]. unfold ellipsoid_body in B. rewrite SZ in B. unfold Rdiv at 3 in B. rewrite Rmult_0_l in B. lra.
      * intros y (Y1&Y). rewrite (flat_dot y n), (flat_dot _ n SZ) by auto. apply M. unfold ellipsoid_body. rewrite Y1. unfold Rdiv at 3. rewrite Rmult_0_l. lra.
  - intros y (Y1&Y). cbn [xc_circumsphere]. pose proof (max3_ge (V3 a b 0)) as (M1&M2&_). cbn in M1, M2. set (m := max3 (V3 a b 0)) in *. apply norm_bound; [lra|].
    unfold vnorm2, vdot. rewrite Y1. pose proof (ratio_sq (vx y) a m P M1). pose proof (ratio_sq (vy y) b m Q M2). nra.
Qed.
