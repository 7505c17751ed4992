From Coq Require Import Reals List Bool Lia Lra Psatz.
From Verif Require Import OptModel GeomModel GeomProofs SegErrorProofs GeoModel GeoProofs XcModel XcSpec XcPrimProofs.
Import ListNotations.
Open Scope R_scope.

Definition rho (v : vec) : R := sqrt (vx v ^ 2 + vy v ^ 2).
Lemma sum_sq_nonneg x y : 0 <= x ^ 2 + y ^ 2. Proof. pose proof (pow2_ge_0 x). pose proof (pow2_ge_0 y). lra. Qed.
Lemma rho_nonneg v : 0 <= rho v. Proof. apply sqrt_pos. Qed.
Lemma rho_sq v : rho v ^ 2 = vx v ^ 2 + vy v ^ 2. Proof. apply pow2_sqrt, sum_sq_nonneg. Qed.
Lemma sq_le x y : 0 <= y -> x ^ 2 <= y ^ 2 -> x <= y. Proof. intros. apply Rnot_lt_le. intros H1. nra. Qed.
Lemma sq0 : 0 ^ 2 = 0. Proof. ring. Qed.
Lemma rho_norm v : rho v = vnorm (V3 (vx v) (vy v) 0). Proof. unfold rho, vnorm, vnorm2, vdot. cbn [vx vy vz]. f_equal. ring. Qed.
Lemma rho_dot a b : vx a * vx b + vy a * vy b <= rho a * rho b.
Proof. rewrite !rho_norm. pose proof (cauchy_schwarz (V3 (vx a) (vy a) 0) (V3 (vx b) (vy b) 0)) as H. unfold vdot in H at 1. cbn in H. pose proof (Rle_abs (vx a * vx b + vy a * vy b + 0 * 0)). lra. Qed.
Lemma rho_convex x y k : 0 <= k <= 1 -> rho (vadd (vscale (1 - k) x) (vscale k y)) <= (1 - k) * rho x + k * rho y.
Proof.
  intros H. rewrite !rho_norm. pose proof (vnorm_triangle (vscale (1 - k) (V3 (vx x) (vy x) 0)) (vscale k (V3 (vx y) (vy y) 0))) as T. rewrite !vnorm_scale, !Rabs_pos_eq in T by lra.
  replace (V3 _ _ 0) with (vadd (vscale (1 - k) (V3 (vx x) (vy x) 0)) (vscale k (V3 (vx y) (vy y) 0))) by (apply vec_ext; cbn; ring). exact T.
Qed.
Lemma rho_scale k v : rho (vscale k v) = Rabs k * rho v.
Proof. rewrite !rho_norm. rewrite <- vnorm_scale. f_equal. apply vec_ext; cbn; ring. Qed.
Lemma norm2_rho v : vnorm2 v = rho v ^ 2 + vz v ^ 2. Proof. rewrite rho_sq. unfold vnorm2, vdot. ring. Qed.
Lemma unit_rho u : vnorm u = 1 -> rho u ^ 2 + vz u ^ 2 = 1. Proof. intros U. rewrite <- norm2_rho, <- vnorm_sqr, U. ring. Qed.

(** The furthest point of a part of a disc cut off by a line is the corner for directions beyond it. *)
Lemma corner a b r u v p q : 0 <= a -> 0 <= b -> 0 < r -> a ^ 2 + b ^ 2 = r ^ 2 -> a <= u -> u ^ 2 + v ^ 2 <= r ^ 2 -> 0 <= p -> p ^ 2 + q ^ 2 = 1 -> b <= q * r -> u * p + v * q <= a * p + b * q.
Proof.
  intros A B R AB U D P PQ Q.
  assert (P1 : p * r <= a). { apply Rnot_lt_le. intros H. assert (a ^ 2 < (p * r) ^ 2) by nra. assert (b ^ 2 <= (q * r) ^ 2) by nra. assert ((p * r) ^ 2 + (q * r) ^ 2 = r ^ 2) by (replace ((p * r) ^ 2 + (q * r) ^ 2) with ((p ^ 2 + q ^ 2) * r ^ 2) by ring; rewrite PQ; ring). lra. }
  assert (V : v <= b). { apply Rnot_lt_le. intros H. assert (b ^ 2 < v ^ 2) by nra. assert (a ^ 2 <= u ^ 2) by nra. lra. }
  assert (C : u * a + v * b <= r ^ 2). { pose proof (pow2_ge_0 (u - a)). pose proof (pow2_ge_0 (v - b)). nra. }
  apply Rmult_le_reg_r with r; [exact R|]. assert (T1 : (u - a) * (p * r) <= (u - a) * a) by (apply Rmult_le_compat_l; lra). assert (T2 : (b - v) * b <= (b - v) * (q * r)) by (apply Rmult_le_compat_l; lra). nra.
Qed.
Lemma disc_dot r u v p q : 0 <= r -> u ^ 2 + v ^ 2 <= r ^ 2 -> p ^ 2 + q ^ 2 = 1 -> u * p + v * q <= r.
Proof.
  intros R D N. apply Rnot_lt_le. intros H. assert (r ^ 2 < (u * p + v * q) ^ 2) by nra. assert ((u * p + v * q) ^ 2 <= (u ^ 2 + v ^ 2) * (p ^ 2 + q ^ 2)); [|rewrite N in *; lra].
  pose proof (pow2_ge_0 (u * q - v * p)). nra.
Qed.
Lemma arc h r : 0 < r -> / 2 * (h * h / r + r) = arc_radius h r. Proof. intros. unfold arc_radius. field. lra. Qed.
Lemma arc_facts h r : 0 < r -> r <= h -> let b := arc_radius h r in 0 < b /\ h <= b /\ r <= b /\ (b - r) ^ 2 + h ^ 2 = b ^ 2 /\ (b = h -> h = r).
Proof.
  intros R H b. assert (E : b * (2 * r) = h ^ 2 + r ^ 2) by (unfold b, arc_radius; field; lra). assert (0 < b) by nra.
  assert (H1 : h <= b). { apply Rmult_le_reg_r with (2 * r); [lra|]. rewrite E. pose proof (pow2_ge_0 (h - r)). nra. }
  repeat split; auto; [lra|nra|]. intros B. rewrite B in E. assert ((h - r) ^ 2 = 0) by nra. assert (h - r = 0); [|lra]. apply Rmult_integral in H2. lra.
Qed.

Lemma football_convex h r : 0 < r -> r <= h -> convex (football_body h r).
Proof.
  intros R H x y k X Y K. unfold football_body in *. destruct (arc_facts h r R H) as (_&_&B&_). set (b := arc_radius h r) in *. fold (rho x) in X. fold (rho y) in Y.
  fold (rho (vadd (vscale (1 - k) x) (vscale k y))). pose proof (rho_convex x y k K) as C. set (q := rho (vadd (vscale (1 - k) x) (vscale k y))) in *. pose proof (rho_nonneg (vadd (vscale (1 - k) x) (vscale k y))) as Q. fold q in Q.
  cbn [vz vadd vscale]. assert (T : (q + (b - r)) ^ 2 <= ((1 - k) * (rho x + (b - r)) + k * (rho y + (b - r))) ^ 2) by (apply pow_incr; split; [lra|]; nra).
  pose proof (sq_convex (rho x + (b - r)) (rho y + (b - r)) k K). pose proof (sq_convex (vz x) (vz y) k K). nra.
Qed.
Lemma saucer_convex r t : 0 < t -> t <= r -> convex (saucer_body r t).
Proof.
  intros T H x y k X Y K. unfold saucer_body in *. destruct (arc_facts r t T H) as (_&_&B&_). set (b := arc_radius r t) in *. cbn [vx vy vz vadd vscale].
  assert (Z : Rabs ((1 - k) * vz x + k * vz y) <= (1 - k) * Rabs (vz x) + k * Rabs (vz y)). { eapply Rle_trans; [apply Rabs_triang|]. rewrite !Rabs_mult, !(Rabs_pos_eq k), !(Rabs_pos_eq (1 - k)); lra. }
  pose proof (Rabs_pos ((1 - k) * vz x + k * vz y)). set (q := Rabs ((1 - k) * vz x + k * vz y)) in *.
  assert (T1 : (q + (b - t)) ^ 2 <= ((1 - k) * (Rabs (vz x) + (b - t)) + k * (Rabs (vz y) + (b - t))) ^ 2) by (apply pow_incr; split; [lra|]; nra).
  pose proof (sq_convex (Rabs (vz x) + (b - t)) (Rabs (vz y) + (b - t)) k K). pose proof (sq_convex (vx x) (vx y) k K). pose proof (sq_convex (vy x) (vy y) k K). nra.
Qed.
Lemma scaled_supports b n u s : n = vscale (vnorm n) u -> supports b u s -> supports b n s.
Proof.
  intros E (B&M). split; [exact B|]. intros y Y. rewrite E. assert (K : forall p, vdot p (vscale (vnorm n) u) = vnorm n * vdot p u) by (intros; unfold vdot; cbn; ring). rewrite !K. apply Rmult_le_compat_l; [apply vnorm_nonneg|]. auto.
Qed.
Lemma vdot_rho y u : vdot y u <= rho y * rho u + vz y * vz u. Proof. unfold vdot. pose proof (rho_dot y u). lra. Qed.
Lemma football_ok h r g : xc_football h r = Some g -> (0 < r /\ r <= h) /\ shaped (football_direction h r) g (football_body h r) /\ covered g (football_body h r) /\ filled g (football_body h r).
Proof.
  unfold xc_football. destruct (Rltb 0 r) eqn:P; [|discriminate]. destruct (Rleb r h) eqn:Q; [|discriminate]. apply Rltb_true in P. apply Rleb_true in Q. cbn [andb]. cbv zeta. rewrite (arc h r P). intros [= <-]. split; [auto|].
  destruct (arc_facts h r P Q) as (BP&BH&BR&BE&BD). split; [|split].
  - split; [apply football_convex; auto|]. split.
    { unfold football_body. cbn [xc_centre vzero vx vy vz]. replace (0 ^ 2 + 0 ^ 2) with 0 by ring. rewrite sqrt_0. nra. }
    intros n (N&F). destruct (normalized_some n N) as (u&E&U&S). cbn [xc_support]. rewrite E. cbn [obind]. pose proof (unit_rho u U) as UR. pose proof (rho_nonneg u) as RN. set (b := arc_radius h r) in *.
    assert (Tip : forall s, s = 1 \/ s = -1 -> football_body h r (V3 0 0 (s * h))). { intros s Hs. unfold football_body. cbn [vx vy vz]. replace (0 ^ 2 + 0 ^ 2) with 0 by ring. rewrite sqrt_0. fold b. destruct Hs as [-> | ->]; nra. }
    destruct (Rltb (vz u * b) (- h)) eqn:L1; [apply Rltb_true in L1|apply Rltb_false in L1].
    { exists (V3 0 0 (- h)). split; [reflexivity|]. apply (scaled_supports _ n u _ S). split; [replace (- h) with (-1 * h) by ring; apply Tip; auto|]. intros y Y. unfold football_body in Y. fold (rho y) in Y. fold b in Y.
      pose proof (vdot_rho y u) as D. pose proof (rho_nonneg y). pose proof (corner (b - r) h b (rho y + (b - r)) (- vz y) (rho u) (- vz u) ltac:(lra) ltac:(lra) BP BE ltac:(lra) ltac:(nra) RN ltac:(nra) ltac:(nra)) as C. unfold vdot at 2. cbn. nra. }
    destruct (Rltb h (vz u * b)) eqn:L2; [apply Rltb_true in L2|apply Rltb_false in L2].
    { exists (V3 0 0 h). split; [reflexivity|]. apply (scaled_supports _ n u _ S). split; [replace h with (1 * h) at 2 by ring; apply Tip; auto|]. intros y Y. unfold football_body in Y. fold (rho y) in Y. fold b in Y.
      pose proof (vdot_rho y u) as D. pose proof (rho_nonneg y). pose proof (corner (b - r) h b (rho y + (b - r)) (vz y) (rho u) (vz u) ltac:(lra) ltac:(lra) BP BE ltac:(lra) ltac:(nra) RN ltac:(nra) ltac:(nra)) as C. unfold vdot at 2. cbn. nra. }
    pose proof (vnorm_pos n N) as NP.
    assert (NX : vx n = vnorm n * vx u) by (rewrite S at 1; reflexivity). assert (NY : vy n = vnorm n * vy u) by (rewrite S at 1; reflexivity).
    assert (NZ : V3 (vx n) (vy n) 0 <> vzero).
    { intros Z. injection Z as Z1 Z2. assert (R0 : rho u = 0). { unfold rho. rewrite NX in Z1. rewrite NY in Z2. apply Rmult_integral in Z1, Z2. replace (vx u) with 0 by lra. replace (vy u) with 0 by lra. replace (0 ^ 2 + 0 ^ 2) with 0 by ring. apply sqrt_0. }
      rewrite R0 in UR. assert ((vz u * b) ^ 2 = b ^ 2) by (replace ((vz u * b) ^ 2) with ((0 ^ 2 + vz u ^ 2) * b ^ 2) by ring; rewrite UR; ring). apply F; [|auto]. apply BD. nra. }
    destruct (normalized_some _ NZ) as (w&EW&UW&SW). rewrite EW. cbn [obind]. eexists. split; [reflexivity|]. apply (scaled_supports _ n u _ S).
    rewrite <- (rho_norm n) in SW. assert (RW : rho n = vnorm n * rho u) by (rewrite S at 1; rewrite rho_scale, Rabs_pos_eq; lra).
    assert (WZ : vz w = 0). { assert (H : 0 = rho n * vz w) by (change 0 with (vz (V3 (vx n) (vy n) 0)); rewrite SW at 1; reflexivity). symmetry in H. apply Rmult_integral in H. destruct H as [H|H]; [|exact H]. exfalso. rewrite rho_norm in H. pose proof (vnorm_pos _ NZ). lra. }
    assert (UX : vx u = rho u * vx w). { assert (H : vx n = rho n * vx w) by (change (vx n) with (vx (V3 (vx n) (vy n) 0)); rewrite SW at 1; reflexivity). rewrite NX, RW in H. apply Rmult_eq_reg_l with (vnorm n); [|lra]. rewrite H. ring. }
    assert (UY : vy u = rho u * vy w). { assert (H : vy n = rho n * vy w) by (change (vy n) with (vy (V3 (vx n) (vy n) 0)); rewrite SW at 1; reflexivity). rewrite NY, RW in H. apply Rmult_eq_reg_l with (vnorm n); [|lra]. rewrite H. ring. }
    assert (WR : rho w = 1). { rewrite rho_norm. replace (V3 (vx w) (vy w) 0) with w; [exact UW|]. apply vec_ext; cbn; auto. }
    set (s := vadd _ _). assert (SX : vx s = (b * rho u - (b - r)) * vx w) by (unfold s; cbn; rewrite UX; ring). assert (SY : vy s = (b * rho u - (b - r)) * vy w) by (unfold s; cbn; rewrite UY; ring).
    assert (SZ : vz s = b * vz u) by (unfold s; cbn; rewrite WZ; ring).
    assert (Z2 : (b * vz u) ^ 2 <= h ^ 2) by nra. assert (RB : b - r <= b * rho u). { apply sq_le; [nra|]. replace ((b * rho u) ^ 2) with (b ^ 2 * (rho u ^ 2 + vz u ^ 2) - (b * vz u) ^ 2) by ring. rewrite UR. lra. }
    assert (SR : rho s = b * rho u - (b - r)). { unfold rho at 1. rewrite SX, SY. transitivity (sqrt ((b * rho u - (b - r)) ^ 2 * (vx w ^ 2 + vy w ^ 2))); [f_equal; ring|]. rewrite <- rho_sq, WR. replace ((b * rho u - (b - r)) ^ 2 * 1 ^ 2) with ((b * rho u - (b - r)) * (b * rho u - (b - r))) by ring. apply sqrt_square. lra. }
    split.
    + unfold football_body. fold (rho s). fold b. rewrite SR, SZ. replace (_ + _) with (b ^ 2 * (rho u ^ 2 + vz u ^ 2)) by ring. rewrite UR. lra.
    + intros y Y. unfold football_body in Y. fold (rho y) in Y. fold b in Y. pose proof (vdot_rho y u) as D. pose proof (disc_dot b (rho y + (b - r)) (vz y) (rho u) (vz u) ltac:(lra) Y UR) as C.
      assert (SU : vdot s u = b - (b - r) * rho u). { unfold vdot. rewrite SX, SY, SZ, UX, UY. transitivity ((b * rho u - (b - r)) * rho u * (vx w ^ 2 + vy w ^ 2) + b * vz u ^ 2); [ring|]. rewrite <- rho_sq, WR. replace (b - (b - r) * rho u) with (b * (rho u ^ 2 + vz u ^ 2) - (b - r) * rho u) by (rewrite UR; ring). ring. }
      rewrite SU. nra.
  - intros y Y. cbn [xc_circumsphere]. unfold football_body in Y. fold (rho y) in Y. apply norm_bound; [lra|]. rewrite norm2_rho. pose proof (rho_nonneg y). nra.
  - intros y Y. cbn [xc_insphere] in Y. apply norm_bound_lt in Y; [|lra]. rewrite norm2_rho in Y. unfold football_body. fold (rho y). set (b := arc_radius h r) in *. pose proof (rho_nonneg y). assert (rho y <= r) by nra. nra.
Qed.
Lemma saucer_ok r t g : 0 < t -> xc_saucer r t = Some g -> (0 < r /\ t <= r) /\ shaped disk_direction g (saucer_body r t) /\ covered g (saucer_body r t) /\ filled g (saucer_body r t).
Proof.
  intros T. unfold xc_saucer. destruct (Rltb 0 r) eqn:P; [|discriminate]. destruct (Rleb t r) eqn:Q; [|discriminate]. apply Rltb_true in P. apply Rleb_true in Q. cbn [andb]. cbv zeta. rewrite (arc r t T). intros [= <-]. split; [auto|].
  destruct (arc_facts r t T Q) as (BP&BH&BR&BE&_). split; [|split].
  - split; [apply saucer_convex; auto|]. split.
    { unfold saucer_body. cbn [xc_centre vzero vx vy vz]. rewrite Rabs_R0. nra. }
    intros n (N&F). destruct (normalized_some n N) as (u&E&U&S). cbn [xc_support]. rewrite E. cbn [obind]. pose proof (unit_rho u U) as UR. pose proof (rho_nonneg u) as RN. set (b := arc_radius r t) in *. pose proof (vnorm_pos n N) as NP.
    assert (NX : vx n = vnorm n * vx u) by (rewrite S at 1; reflexivity). assert (NY : vy n = vnorm n * vy u) by (rewrite S at 1; reflexivity). assert (NZ' : vz n = vnorm n * vz u) by (rewrite S at 1; reflexivity).
    assert (Body : forall y, saucer_body r t y -> rho y ^ 2 + (Rabs (vz y) + (b - t)) ^ 2 <= b ^ 2). { intros y Y. rewrite rho_sq. exact Y. }
    assert (DZ : forall y, vz y * vz u <= Rabs (vz y) * Rabs (vz u)). { intros y. rewrite <- Rabs_mult. apply Rle_abs. }
    assert (AZ : rho u ^ 2 + Rabs (vz u) ^ 2 = 1) by (rewrite pow2_abs; exact UR).
    assert (Cap : rho u ^ 2 * b * b <= r * r -> exists s, Some (vadd (vscale (b - t) (vneg (if Rltb (vz n) 0 then V3 0 0 (-1) else V3 0 0 1))) (vscale b u)) = Some s /\ supports (saucer_body r t) n s).
    { intros H. eexists. split; [reflexivity|]. apply (scaled_supports _ n u _ S). set (s := vadd _ _).
      assert (ZB : b - t <= b * Rabs (vz u)). { pose proof (Rabs_pos (vz u)). apply sq_le; [nra|]. replace ((b * Rabs (vz u)) ^ 2) with (b ^ 2 * (rho u ^ 2 + Rabs (vz u) ^ 2) - rho u ^ 2 * b * b) by ring. rewrite AZ. nra. }
      assert (SX : vx s = b * vx u) by (unfold s; destruct (Rltb _ _); cbn; ring). assert (SY : vy s = b * vy u) by (unfold s; destruct (Rltb _ _); cbn; ring).
      assert (SZ : Rabs (vz s) = b * Rabs (vz u) - (b - t) /\ vz s * vz u = (b * Rabs (vz u) - (b - t)) * Rabs (vz u)).
      { unfold s. destruct (Rltb (vz n) 0) eqn:Z; [apply Rltb_true in Z|apply Rltb_false in Z]; cbn.
        - assert (vz u < 0) by nra. rewrite (Rabs_left (vz u)) in * by auto. split; [rewrite Rabs_left1; nra|ring].
        - assert (0 <= vz u) by nra. rewrite (Rabs_pos_eq (vz u)) in * by auto. split; [rewrite Rabs_pos_eq; nra|ring]. }
      destruct SZ as (SZ&SD). split.
      - unfold saucer_body. fold b. rewrite SX, SY, SZ. replace (_ + _) with (b ^ 2 * ((vx u ^ 2 + vy u ^ 2) + Rabs (vz u) ^ 2)) by ring. rewrite <- rho_sq, AZ. lra.
      - intros y Y. apply Body in Y. pose proof (vdot_rho y u) as D. pose proof (DZ y) as Z. pose proof (disc_dot b (rho y) (Rabs (vz y) + (b - t)) (rho u) (Rabs (vz u)) ltac:(lra) Y AZ) as C.
        assert (SU : vdot s u = b - (b - t) * Rabs (vz u)). { unfold vdot. rewrite SX, SY, SD. transitivity (b * ((vx u ^ 2 + vy u ^ 2) + Rabs (vz u) ^ 2) - (b - t) * Rabs (vz u)); [ring|]. rewrite <- rho_sq, AZ. ring. }
        rewrite SU. nra. }
    destruct (is_vector_zero (V3 (vx n) (vy n) 0)) eqn:Z.
    { destruct (long_not_zero _ _ F Z) as (X&Y). apply Cap. rewrite rho_sq. rewrite NX in X. rewrite NY in Y. apply Rmult_integral in X, Y. replace (vx u) with 0 by lra. replace (vy u) with 0 by lra. nra. }
    destruct (normalized_some _ (not_zero_vec _ Z)) as (w&EW&UW&SW). rewrite EW. cbn [obind]. replace (vx u * vx u + vy u * vy u) with (rho u ^ 2) by (rewrite rho_sq; ring).
    destruct (Rltb (r * r) (rho u ^ 2 * b * b)) eqn:L; [apply Rltb_true in L|apply Rltb_false in L; apply Cap; exact L].
    exists (vscale r w). split; [reflexivity|]. apply (scaled_supports _ n u _ S). pose proof (not_zero_vec _ Z) as NZ.
    rewrite <- (rho_norm n) in SW. assert (RW : rho n = vnorm n * rho u) by (rewrite S at 1; rewrite rho_scale, Rabs_pos_eq; lra).
    assert (WZ : vz w = 0). { assert (H : 0 = rho n * vz w) by (change 0 with (vz (V3 (vx n) (vy n) 0)); rewrite SW at 1; reflexivity). symmetry in H. apply Rmult_integral in H. destruct H as [H|H]; [|exact H]. exfalso. rewrite rho_norm in H. pose proof (vnorm_pos _ NZ). lra. }
    assert (UX : vx u = rho u * vx w). { assert (H : vx n = rho n * vx w) by (change (vx n) with (vx (V3 (vx n) (vy n) 0)); rewrite SW at 1; reflexivity). rewrite NX, RW in H. apply Rmult_eq_reg_l with (vnorm n); [|lra]. rewrite H. ring. }
    assert (UY : vy u = rho u * vy w). { assert (H : vy n = rho n * vy w) by (change (vy n) with (vy (V3 (vx n) (vy n) 0)); rewrite SW at 1; reflexivity). rewrite NY, RW in H. apply Rmult_eq_reg_l with (vnorm n); [|lra]. rewrite H. ring. }
    assert (WR : vx w ^ 2 + vy w ^ 2 = 1). { pose proof (unit_rho w UW) as H. rewrite rho_sq, WZ in H. lra. }
    split.
    + unfold saucer_body. fold b. cbn [vx vy vz vscale]. rewrite WZ, Rmult_0_r, Rabs_R0. replace ((r * vx w) ^ 2 + (r * vy w) ^ 2) with (r ^ 2 * (vx w ^ 2 + vy w ^ 2)) by ring. rewrite WR. lra.
    + intros y Y. apply Body in Y. pose proof (vdot_rho y u) as D. pose proof (DZ y) as Zy. pose proof (Rabs_pos (vz y)). pose proof (Rabs_pos (vz u)).
      pose proof (corner (b - t) r b (Rabs (vz y) + (b - t)) (rho y) (Rabs (vz u)) (rho u) ltac:(lra) ltac:(lra) BP BE ltac:(lra) ltac:(lra) ltac:(lra) ltac:(lra) ltac:(apply sq_le; nra)) as C.
      assert (SU : vdot (vscale r w) u = r * rho u). { unfold vdot. cbn. rewrite WZ, UX, UY. transitivity (r * rho u * (vx w ^ 2 + vy w ^ 2)); [ring|]. rewrite WR. ring. }
      rewrite SU. nra.
  - intros y Y. cbn [xc_circumsphere]. unfold saucer_body in Y. apply norm_bound; [lra|]. unfold vnorm2, vdot. pose proof (Rabs_pos (vz y)). rewrite <- (pow2_abs (vz y)) || idtac. assert (Rabs (vz y) ^ 2 = vz y ^ 2) by apply pow2_abs. nra.
  - intros y Y. cbn [xc_insphere] in Y. apply norm_bound_lt in Y; [|lra]. unfold vnorm2, vdot in Y. unfold saucer_body. set (b := arc_radius r t) in *. pose proof (Rabs_pos (vz y)). assert (A : Rabs (vz y) ^ 2 = vz y ^ 2) by apply pow2_abs.
    pose proof (pow2_ge_0 (vx y)). pose proof (pow2_ge_0 (vy y)). assert (Rabs (vz y) <= t) by nra. nra.
Qed.
