From Coq Require Import Reals Bool Lra Psatz.
From Verif Require Import GeomModel GeomProofs SegModel SegSpec SegProofs.
Open Scope R_scope.

Definition between (w u v : vec) (s t : R) : vec := vsub (vadd w (vscale s u)) (vscale t v).
Lemma between_change w u v s t x y : between w u v x y = vadd (between w u v s t) (vsub (vscale (x - s) u) (vscale (y - t) v)).
Proof. apply vec_ext; cbn; ring. Qed.
Lemma vnorm2_add z h : vnorm2 (vadd z h) = vnorm2 z + 2 * vdot z h + vnorm2 h.
Proof. unfold vnorm2, vdot; cbn; ring. Qed.
Lemma vnorm_scale s a : vnorm (vscale s a) = Rabs s * vnorm a.
Proof. unfold vnorm. replace (vnorm2 (vscale s a)) with (Rsqr s * vnorm2 a) by (unfold vnorm2, vdot, Rsqr; cbn; ring). rewrite sqrt_mult by (apply Rle_0_sqr || apply vnorm2_nonneg). rewrite sqrt_Rsqr_abs. reflexivity. Qed.
Lemma vnorm_neg a : vnorm (vneg a) = vnorm a.
Proof. unfold vnorm. f_equal. unfold vnorm2, vdot; cbn; ring. Qed.
Lemma vnorm_sub_triangle a b : vnorm (vsub a b) <= vnorm a + vnorm b.
Proof. replace (vsub a b) with (vadd a (vneg b)) by (apply vec_ext; cbn; ring). rewrite <- (vnorm_neg b). apply vnorm_triangle. Qed.
Lemma vnorm_le a b : vnorm2 a <= vnorm2 b -> vnorm a <= vnorm b.
Proof. intros H. unfold vnorm. apply sqrt_le_1_alt. exact H. Qed.
Lemma spread_eq u v : vnorm2 (vcross u v) = vdot u u * vdot v v - vdot u v * vdot u v.
Proof. pose proof (lagrange u v). unfold vnorm2 in *. lra. Qed.

Lemma optimal_min w u v s t x y : optimal (vdot u u) (vdot u v) (vdot v v) (vdot u w) (vdot v w) s t -> 0 <= x <= 1 -> 0 <= y <= 1 ->
  vnorm (between w u v s t) <= vnorm (between w u v x y).
Proof.
  intros (S&T&GS&GT) X Y. apply vnorm_le. rewrite (between_change w u v s t x y), vnorm2_add.
  pose proof (vnorm2_nonneg (vsub (vscale (x - s) u) (vscale (y - t) v))). specialize (GS x X). specialize (GT y Y).
  assert (E : vdot (between w u v s t) (vsub (vscale (x - s) u) (vscale (y - t) v)) =
     (vdot u u * s - vdot u v * t + vdot u w) * (x - s) + (vdot v v * t - vdot u v * s - vdot v w) * (y - t)) by (unfold vdot; cbn; ring).
  rewrite E. lra.
Qed.
Lemma snap_error n d s k : 0 <= n <= d -> s * d = n -> (n = 0 -> s = 0) -> 0 < k -> (k <= d \/ n = 0 \/ EPSILON <= n) -> Rabs (divide n d - s) <= EPSILON / k.
Proof.
  intros N S Z K H. pose proof EPSILON_pos as EP. assert (EK : 0 < EPSILON / k) by (apply Rdiv_lt_0_compat; lra).
  unfold divide. destruct (Rltb (Rabs n) EPSILON) eqn:E.
  - apply Rltb_true in E. rewrite Rabs_pos_eq in E by lra. destruct H as [H|[H|H]]; [| |lra].
    + replace (0 - s) with (- s) by ring. rewrite Rabs_Ropp. assert (SN : s = n / d) by (rewrite <- S; field; lra). rewrite Rabs_pos_eq by (rewrite SN; apply Rle_mult_inv_pos; lra).
      apply (Rmult_le_reg_r k); [exact K|]. unfold Rdiv. rewrite Rmult_assoc, Rinv_l by lra. assert (0 <= s) by (rewrite SN; apply Rle_mult_inv_pos; lra). nra.
    + rewrite (Z H), Rminus_0_r, Rabs_R0. lra.
  - apply Rltb_false in E. rewrite Rabs_pos_eq in E by lra. assert (SN : s = n / d) by (rewrite <- S; field; lra). rewrite <- SN, Rminus_diag_eq by reflexivity. rewrite Rabs_R0. lra.
Qed.
Lemma between_error w u v s t s' t' x y : Rabs (s' - s) <= x -> Rabs (t' - t) <= y -> vnorm (between w u v s' t') <= vnorm (between w u v s t) + x * vnorm u + y * vnorm v.
Proof.
  intros X Y. rewrite (between_change w u v s t s' t'). pose proof (vnorm_triangle (between w u v s t) (vsub (vscale (s' - s) u) (vscale (t' - t) v))) as T1.
  pose proof (vnorm_sub_triangle (vscale (s' - s) u) (vscale (t' - t) v)) as T2. rewrite !vnorm_scale in T2. pose proof (vnorm_nonneg u). pose proof (vnorm_nonneg v). nra.
Qed.
Definition parts (s11 s12 s21 s22 : vec) : fractions :=
  let u := vsub s12 s11 in let v := vsub s22 s21 in let w := vsub s11 s21 in
  clamp_second (vdot u u) (vdot u v) (vdot u w) (closest_on_lines (vdot u u) (vdot u v) (vdot v v) (vdot u w) (vdot v w)).
Lemma segment_distance2_eq s11 s12 s21 s22 : segment_distance2 s11 s12 s21 s22 =
  vnorm2 (between (vsub s11 s21) (vsub s12 s11) (vsub s22 s21) (divide (fr_sN (parts s11 s12 s21 s22)) (fr_sD (parts s11 s12 s21 s22)))
                                                               (divide (fr_tN (parts s11 s12 s21 s22)) (fr_tD (parts s11 s12 s21 s22)))).
Proof. reflexivity. Qed.
Lemma regular_error s11 s12 s21 s22 k p q : 0 < k -> EPSILON <= spread s11 s12 s21 s22 ->
  k <= vnorm2 (vsub s12 s11) -> k <= vnorm2 (vsub s22 s21) -> k <= spread s11 s12 s21 s22 -> on_segment s11 s12 p -> on_segment s21 s22 q ->
  sqrt (segment_distance2 s11 s12 s21 s22) <= distance p q + EPSILON / k * (vnorm (vsub s12 s11) + vnorm (vsub s22 s21)).
Proof.
  intros K SE KA KC KD (x&X&->) (y&Y&->). rewrite segment_distance2_eq. unfold distance. rewrite <- difference_points. unfold spread in *. rewrite spread_eq in *. unfold vnorm2 in KA, KC.
  set (u := vsub s12 s11) in *. set (v := vsub s22 s21) in *. set (w := vsub s11 s21).
  destruct (fractions_optimal (vdot u u) (vdot u v) (vdot v v) (vdot u w) (vdot v w)) as (s&t&[FS FT]&O&SD&TD); try lra.
  pose proof (fractions_bounded (vdot u u) (vdot u v) (vdot v v) (vdot u w) (vdot v w) ltac:(lra) ltac:(lra)) as [BS BT].
  change (clamp_second (vdot u u) (vdot u v) (vdot u w) (closest_on_lines (vdot u u) (vdot u v) (vdot v v) (vdot u w) (vdot v w))) with (parts s11 s12 s21 s22) in *.
  set (f := parts s11 s12 s21 s22) in *. clearbody f. pose proof EPSILON_pos as EP.
  assert (PS : 0 < fr_sD f) by (destruct SD as [-> | ->]; lra). assert (PT : 0 < fr_tD f) by (destruct TD as [-> | ->]; lra).
  pose proof (snap_error (fr_sN f) (fr_sD f) s k BS FS ltac:(intros Z; rewrite Z in FS; nra) K ltac:(left; destruct SD as [-> | ->]; lra)) as ES.
  pose proof (snap_error (fr_tN f) (fr_tD f) t k BT FT ltac:(intros Z; rewrite Z in FT; nra) K ltac:(left; destruct TD as [-> | ->]; lra)) as ET.
  pose proof (between_error w u v s t _ _ _ _ ES ET) as B. pose proof (optimal_min w u v s t x y O X Y) as M.
  unfold vnorm at 1 in B. fold (between w u v x y). lra.
Qed.

(** *** Almost parallel segments *)
Definition perp (v z : vec) : vec := vsub z (vscale (vdot z v / vdot v v) v).
Lemma perp_least v z y : 0 < vdot v v -> vnorm (perp v z) <= vnorm (vsub z (vscale y v)).
Proof.
  intros C. apply vnorm_le. set (k := vdot z v / vdot v v). assert (K : vdot z v = k * vdot v v) by (unfold k; field; lra).
  replace (vsub z (vscale y v)) with (vadd (perp v z) (vscale (k - y) v)) by (unfold perp; fold k; apply vec_ext; cbn; ring).
  rewrite vnorm2_add. assert (O : vdot (perp v z) (vscale (k - y) v) = 0).
  { transitivity ((k - y) * (vdot z v - k * vdot v v)); [unfold perp; fold k; unfold vdot; cbn; ring|]. rewrite K. ring. }
  rewrite O. pose proof (vnorm2_nonneg (vscale (k - y) v)). lra.
Qed.
Lemma perp_change v w u x y : perp v (vadd w (vscale x u)) = vadd (perp v (vadd w (vscale y u))) (vscale (x - y) (perp v u)).
Proof.
  destruct (Req_dec (vdot v v) 0) as [Z|Z].
  - assert (v = vzero) by (apply vnorm2_zero; exact Z). subst v. apply vec_ext; cbn; ring.
  - unfold perp. assert (E : forall z, vdot (vadd w (vscale z u)) v / vdot v v = vdot w v / vdot v v + z * (vdot u v / vdot v v)) by (intros z; unfold vdot; cbn; field; exact Z).
    rewrite !E. apply vec_ext; cbn; ring.
Qed.
Lemma perp_norm2 u v : 0 < vdot v v -> vnorm2 (perp v u) * vdot v v = vnorm2 (vcross u v).
Proof.
  intros C. rewrite spread_eq. set (k := vdot u v / vdot v v). assert (K : vdot u v = k * vdot v v) by (unfold k; field; lra).
  assert (E : vnorm2 (perp v u) = vdot u u - 2 * k * vdot u v + k * k * vdot v v) by (unfold perp; fold k; unfold vnorm2, vdot; cbn; ring).
  rewrite E, K. ring.
Qed.
Lemma endpoint_error w u v m x y : 0 < vdot v v -> vdot w v <= 0 -> 0 <= x <= 1 -> 0 <= y -> (forall s, 0 <= s <= 1 -> m <= vnorm (vadd w (vscale s u))) ->
  m <= vnorm (between w u v x y) + vnorm (perp v u).
Proof.
  intros C W X Y M. unfold between. destruct (Rle_lt_dec (vdot (vadd w (vscale x u)) v) 0) as [G|G].
  - apply Rle_trans with (vnorm (vsub (vadd w (vscale x u)) (vscale y v))); [|pose proof (vnorm_nonneg (perp v u)); lra].
    eapply Rle_trans; [apply (M x X)|]. apply vnorm_le. set (z := vadd w (vscale x u)) in *. clearbody z.
    replace (vnorm2 (vsub z (vscale y v))) with (vnorm2 z - 2 * y * vdot z v + y * y * vdot v v) by (unfold vnorm2, vdot; cbn; ring).
    assert (0 <= y * y * vdot v v) by (apply Rmult_le_pos; [nra|lra]). nra.
  - assert (GE : vdot (vadd w (vscale x u)) v = vdot w v + x * vdot u v) by (unfold vdot; cbn; ring). rewrite GE in G.
    assert (B : 0 < vdot u v) by nra. set (z := - vdot w v / vdot u v). assert (ZE : z * vdot u v = - vdot w v) by (unfold z; field; lra).
    assert (Z0 : 0 <= z) by (unfold z; apply Rle_mult_inv_pos; lra). assert (ZX : z <= x) by nra.
    assert (P : perp v (vadd w (vscale z u)) = vadd w (vscale z u)).
    { unfold perp. replace (vdot (vadd w (vscale z u)) v) with 0; [unfold Rdiv; rewrite Rmult_0_l; apply vec_ext; cbn; ring|]. transitivity (vdot w v + z * vdot u v); [lra|unfold vdot; cbn; ring]. }
    pose proof (perp_least v (vadd w (vscale x u)) y C) as L. pose proof (M z ltac:(lra)) as Mz.
    rewrite (perp_change v w u x z), P in L.
    assert (T : vnorm (vadd w (vscale z u)) <= vnorm (vadd (vadd w (vscale z u)) (vscale (x - z) (perp v u))) + vnorm (vscale (x - z) (perp v u))).
    { pose proof (vnorm_sub_triangle (vadd (vadd w (vscale z u)) (vscale (x - z) (perp v u))) (vscale (x - z) (perp v u))) as T.
      replace (vsub (vadd (vadd w (vscale z u)) (vscale (x - z) (perp v u))) (vscale (x - z) (perp v u))) with (vadd w (vscale z u)) in T by (apply vec_ext; cbn; ring). exact T. }
    rewrite vnorm_scale, Rabs_pos_eq in T by lra. pose proof (vnorm_nonneg (perp v u)). nra.
Qed.
Lemma edge_min w u s x : (forall x, 0 <= x <= 1 -> 0 <= (vdot u u * s - - vdot u w) * (x - s)) -> 0 <= x <= 1 -> vnorm (vadd w (vscale s u)) <= vnorm (vadd w (vscale x u)).
Proof.
  intros V X. specialize (V x X). apply vnorm_le. replace (vadd w (vscale x u)) with (vadd (vadd w (vscale s u)) (vscale (x - s) u)) by (apply vec_ext; cbn; ring).
  rewrite (vnorm2_add (vadd w (vscale s u))). pose proof (vnorm2_nonneg (vscale (x - s) u)). replace (vdot (vadd w (vscale s u)) (vscale (x - s) u)) with ((vdot u u * s - - vdot u w) * (x - s)) by (unfold vdot; cbn; ring). lra.
Qed.
Lemma edge_cases0 n a sD tN tD : (0 < a \/ (a = 0 /\ n = 0)) -> 0 < sD -> EPSILON <= sD -> exists s, 0 <= s <= 1 /\ s * fr_sD (edge n a sD tN tD) = fr_sN (edge n a sD tN tD) /\
  (fr_sN (edge n a sD tN tD) = 0 -> s = 0) /\
  fr_tN (edge n a sD tN tD) = tN /\ fr_tD (edge n a sD tN tD) = tD /\ (fr_sD (edge n a sD tN tD) = a \/ fr_sN (edge n a sD tN tD) = 0 \/ EPSILON <= fr_sN (edge n a sD tN tD)) /\
  (forall x, 0 <= x <= 1 -> 0 <= (a * s - n) * (x - s)).
Proof.
  intros [A|[A N]] S SE.
  - destruct (edge_cases n a sD tN tD A S) as (s&B&Q&T1&T2&SD&V&W). exists s. split; [exact B|]. split; [exact Q|]. split.
    { intros Z. rewrite Z in Q. assert (0 < fr_sD (edge n a sD tN tD)) by (destruct SD as [-> | ->]; lra). nra. }
    split; [exact T1|]. split; [exact T2|]. split; [|exact V]. unfold edge. destruct (Rltb n 0); [cbn; auto|]. destruct (Rltb a n); cbn; auto.
  - subst a n. unfold edge. rewrite (proj2 (Rltb_false 0 0) ltac:(lra)). cbn. exists 0. split; [lra|]. split; [ring|]. split; [auto|]. split; [reflexivity|]. split; [reflexivity|]. split; [auto|]. intros x X. nra.
Qed.
Lemma parallel_error s11 s12 s21 s22 k p q : 0 < k -> spread s11 s12 s21 s22 < EPSILON ->
  (s11 = s12 \/ k <= vnorm2 (vsub s12 s11)) -> k <= vnorm2 (vsub s22 s21) -> on_segment s11 s12 p -> on_segment s21 s22 q ->
  sqrt (segment_distance2 s11 s12 s21 s22) <= distance p q + sqrt (spread s11 s12 s21 s22 / k) + EPSILON / k * (vnorm (vsub s12 s11) + vnorm (vsub s22 s21)).
Proof.
  intros K SE KA KC (x&X&->) (y&Y&->). rewrite segment_distance2_eq. unfold distance. rewrite <- difference_points. unfold spread in *.
  assert (UA : 0 < vdot (vsub s12 s11) (vsub s12 s11) /\ k <= vdot (vsub s12 s11) (vsub s12 s11) \/ vsub s12 s11 = vzero).
  { destruct KA as [-> |KA]; [right; apply vec_ext; cbn; ring|]. unfold vnorm2 in KA. left. lra. }
  clear KA. unfold parts. set (u := vsub s12 s11) in *. set (v := vsub s22 s21) in *. set (w := vsub s11 s21) in *. clearbody u v w. cbv zeta. fold (between w u v x y).
  unfold vnorm2 in KC. assert (C : 0 < vdot v v) by lra. pose proof EPSILON_pos as EP.
  assert (PB : vnorm (perp v u) <= sqrt (vnorm2 (vcross u v) / k)).
  { unfold vnorm. apply sqrt_le_1_alt. pose proof (perp_norm2 u v C) as PN. pose proof (vnorm2_nonneg (perp v u)). apply (Rmult_le_reg_r k); [exact K|]. unfold Rdiv. rewrite Rmult_assoc, Rinv_l by lra. nra. }
  assert (UE : (0 < vdot u u \/ (vdot u u = 0 /\ - vdot u w = 0)) /\ (0 < vdot u u \/ (vdot u u = 0 /\ - vdot u w + vdot u v = 0))).
  { destruct UA as [[UA _]| ->]; [auto|]. split; right; unfold vdot; cbn; lra. }
  assert (E1 : EPSILON <= 1). { unfold EPSILON. rewrite <- Rinv_1. apply Rinv_le_contravar; [lra|]. cbn. lra. }
  assert (Main : exists s t, fractional (clamp_second (vdot u u) (vdot u v) (vdot u w) (Fr 0 1 (vdot v w) (vdot v v))) s t /\
     (fr_sN (clamp_second (vdot u u) (vdot u v) (vdot u w) (Fr 0 1 (vdot v w) (vdot v v))) = 0 -> s = 0) /\
     (fr_sD (clamp_second (vdot u u) (vdot u v) (vdot u w) (Fr 0 1 (vdot v w) (vdot v v))) = vdot u u \/ fr_sN (clamp_second (vdot u u) (vdot u v) (vdot u w) (Fr 0 1 (vdot v w) (vdot v v))) = 0 \/
      EPSILON <= fr_sN (clamp_second (vdot u u) (vdot u v) (vdot u w) (Fr 0 1 (vdot v w) (vdot v v)))) /\
     fr_tD (clamp_second (vdot u u) (vdot u v) (vdot u w) (Fr 0 1 (vdot v w) (vdot v v))) = vdot v v /\
     vnorm (between w u v s t) <= vnorm (between w u v x y) + vnorm (perp v u)).
  { unfold clamp_second; cbn [fr_sN fr_sD fr_tN fr_tD]. destruct (Rltb (vdot v w) 0) eqn:H1; [|destruct (Rltb (vdot v v) (vdot v w)) eqn:H2].
    - apply Rltb_true in H1. destruct (edge_cases0 (- vdot u w) (vdot u u) 1 0 (vdot v v) (proj1 UE) ltac:(lra) E1) as (s&B&Q&Z&T1&T2&SD&V).
      exists s, 0. split; [split; [exact Q|rewrite T1; ring]|]. split; [exact Z|]. split; [exact SD|]. split; [exact T2|].
      replace (between w u v s 0) with (vadd w (vscale s u)) by (apply vec_ext; cbn; ring).
      apply endpoint_error; [exact C|rewrite vdot_comm; lra|exact X|lra|]. intros z Zb. apply edge_min; [exact V|exact Zb].
    - apply Rltb_true in H2. destruct (edge_cases0 (- vdot u w + vdot u v) (vdot u u) 1 (vdot v v) (vdot v v) (proj2 UE) ltac:(lra) E1) as (s&B&Q&Z&T1&T2&SD&V).
      exists s, 1. split; [split; [exact Q|rewrite T1, T2; ring]|]. split; [exact Z|]. split; [exact SD|]. split; [exact T2|].
      replace (between w u v s 1) with (vadd (vsub w v) (vscale s u)) by (apply vec_ext; cbn; ring).
      pose proof (endpoint_error (vsub w v) u (vneg v) (vnorm (vadd (vsub w v) (vscale s u))) x (1 - y)) as EE.
      replace (perp (vneg v) u) with (perp v u) in EE.
      2: { unfold perp. replace (vdot (vneg v) (vneg v)) with (vdot v v) by (unfold vdot; cbn; ring). replace (vdot u (vneg v)) with (- vdot u v) by (unfold vdot; cbn; ring). apply vec_ext; cbn; field; lra. }
      replace (between (vsub w v) u (vneg v) x (1 - y)) with (between w u v x y) in EE by (apply vec_ext; cbn; ring).
      apply EE; [unfold vdot in *; cbn; lra|unfold vdot in *; cbn; lra|exact X|lra|]. intros z Zb. apply edge_min; [|exact Zb].
      intros x' X'. specialize (V x' X'). replace (vdot u u * s - - vdot u (vsub w v)) with (vdot u u * s - (- vdot u w + vdot u v)) by (unfold vdot; cbn; ring). exact V.
    - apply Rltb_false in H1. apply Rltb_false in H2. exists 0, (vdot v w / vdot v v). cbn [fr_sN fr_sD fr_tN fr_tD]. split; [split; cbn; [ring|field; lra]|].
      split; [auto|]. split; [auto|]. split; [reflexivity|]. replace (between w u v 0 (vdot v w / vdot v v)) with (perp v (vadd w (vscale 0 u))).
      2: { unfold perp. replace (vdot (vadd w (vscale 0 u)) v) with (vdot v w) by (unfold vdot; cbn; ring). reflexivity. }
      pose proof (perp_least v (vadd w (vscale x u)) y C) as L. rewrite (perp_change v w u x 0) in L.
      pose proof (vnorm_sub_triangle (vadd (perp v (vadd w (vscale 0 u))) (vscale (x - 0) (perp v u))) (vscale (x - 0) (perp v u))) as T.
      replace (vsub (vadd (perp v (vadd w (vscale 0 u))) (vscale (x - 0) (perp v u))) (vscale (x - 0) (perp v u))) with (perp v (vadd w (vscale 0 u))) in T by (apply vec_ext; cbn; ring).
      rewrite vnorm_scale, Rminus_0_r, Rabs_pos_eq in T by lra. pose proof (vnorm_nonneg (perp v u)). unfold between. rewrite Rminus_0_r in L. nra. }
  pose proof (fractions_bounded (vdot u u) (vdot u v) (vdot v v) (vdot u w) (vdot v w) ltac:(apply vnorm2_nonneg) ltac:(lra)) as [BS BT].
  assert (CL : closest_on_lines (vdot u u) (vdot u v) (vdot v v) (vdot u w) (vdot v w) = Fr 0 1 (vdot v w) (vdot v v)).
  { unfold closest_on_lines. cbv zeta. rewrite <- spread_eq, (proj2 (Rltb_true _ _) SE). reflexivity. }
  rewrite CL in *. destruct Main as (s&t&[FS FT]&SZ&SD&TD&M). set (f := clamp_second _ _ _ _) in *. clearbody f.
  assert (ES : Rabs (divide (fr_sN f) (fr_sD f) - s) * vnorm u <= EPSILON / k * vnorm u).
  { destruct UA as [[_ UA]| ->].
    - apply Rmult_le_compat_r; [apply vnorm_nonneg|]. apply snap_error; [exact BS|exact FS|exact SZ|exact K|]. destruct SD as [SD|[SD|SD]]; [left; lra|auto|auto].
    - replace (vnorm vzero) with 0; [lra|]. unfold vnorm, vnorm2, vdot; cbn. replace (0 * 0 + 0 * 0 + 0 * 0) with 0 by ring. rewrite sqrt_0. reflexivity. }
  pose proof (snap_error (fr_tN f) (fr_tD f) t k BT FT ltac:(intros Z; rewrite Z, TD in FT; nra) K ltac:(left; lra)) as ET.
  pose proof (between_error w u v s t _ _ _ _ (Rle_refl (Rabs (divide (fr_sN f) (fr_sD f) - s))) ET) as B. unfold vnorm at 1 in B. lra.
Qed.
Lemma point_point p q : segment_distance2 p p q q = vnorm2 (vsub p q).
Proof.
  pose proof EPSILON_pos as EP. rewrite segment_distance2_eq. unfold parts. cbv zeta. replace (vsub p p) with vzero by (apply vec_ext; cbn; ring). replace (vsub q q) with vzero by (apply vec_ext; cbn; ring).
  set (w := vsub p q). replace (vdot vzero vzero) with 0 by (unfold vdot; cbn; ring). replace (vdot vzero w) with 0 by (unfold vdot; cbn; ring).
  unfold closest_on_lines. cbv zeta. rewrite (proj2 (Rltb_true _ EPSILON)) by lra. unfold clamp_second; cbn [fr_sN fr_sD fr_tN fr_tD]. rewrite (proj2 (Rltb_false 0 0)) by lra. cbn [fr_sN fr_sD fr_tN fr_tD].
  f_equal. unfold between. apply vec_ext; cbn; ring.
Qed.
Lemma close s11 s12 s21 s22 err p q : error_bound s11 s12 s21 s22 err -> on_segment s11 s12 p -> on_segment s21 s22 q ->
  sqrt (segment_distance2 s11 s12 s21 s22) <= distance p q + err.
Proof.
  intros [k K S A C D|k K S A C|E1 E2] P Q.
  - exact (regular_error s11 s12 s21 s22 k p q K S A C D P Q).
  - pose proof (parallel_error s11 s12 s21 s22 k p q K S A C P Q). change tiny with EPSILON. lra.
  - subst s12 s22. rewrite point_point. destruct P as (x&X&->), Q as (y&Y&->). unfold distance.
    replace (vsub (vadd s11 (vscale x (vsub s11 s11))) (vadd s21 (vscale y (vsub s21 s21)))) with (vsub s11 s21) by (apply vec_ext; cbn; ring). unfold vnorm. lra.
Qed.
