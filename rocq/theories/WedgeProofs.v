From Coq Require Import Reals ZArith List Bool Arith Lia Lra Psatz.
From Coquelicot Require Import Coquelicot.
From Verif Require Import TextModel GeomModel GeomProofs PbcModel SegErrorProofs GeoModel GeoProofs ShapesModel XcModel XcSpec XcPrimProofs XcOpProofs XcMaxProofs XcBuildProofs VolSpec VolProofs BeadsProofs WedgeModel WedgeSpec OptModel.
Import ListNotations.
Open Scope R_scope.

Lemma lifted_at b z y : lifted b z y <-> b (vsub y (V3 0 0 z)).
Proof.
  unfold lifted, placed. split.
  - intros (x&X&->). replace (vsub (vadd (mvec mid x) (V3 0 0 z)) (V3 0 0 z)) with x by (apply vec_ext; cbn; ring). exact X.
  - intros H. exists (vsub y (V3 0 0 z)). split; [exact H|]. apply vec_ext; cbn; ring.
Qed.
Lemma placed_at b p y : placed b p mid y <-> b (vsub y p).
Proof.
  unfold placed. split.
  - intros (x&X&->). replace (vsub (vadd (mvec mid x) p) p) with x by (apply vec_ext; cbn; ring). exact X.
  - intros H. exists (vsub y p). split; [exact H|]. apply vec_ext; cbn; ring.
Qed.
(** *** The hull of two balls is the union of the balls between them. *)
Definition tapered (z0 r0 z1 r1 : R) : body := fun y => exists k, 0 <= k <= 1 /\ vnorm (vsub y (V3 0 0 ((1 - k) * z0 + k * z1))) <= (1 - k) * r0 + k * r1.
Lemma tapered_convex z0 r0 z1 r1 : convex (tapered z0 r0 z1 r1).
Proof.
  intros x y m (k&K&X) (k'&K'&Y) M. exists ((1 - m) * k + m * k'). split; [nra|].
  match goal with |- vnorm ?a <= _ => replace a with (vadd (vscale (1 - m) (vsub x (V3 0 0 ((1 - k) * z0 + k * z1)))) (vscale m (vsub y (V3 0 0 ((1 - k') * z0 + k' * z1))))) by (apply vec_ext; cbn; ring) end.
  eapply Rle_trans; [apply vnorm_triangle|]. rewrite !vnorm_scale, !Rabs_pos_eq by lra. nra.
Qed.
Lemma tapered_hull z0 r0 z1 r1 y : 0 < r0 -> 0 < r1 -> hull [lifted (ball_body r0) z0; lifted (ball_body r1) z1] y <-> tapered z0 r0 z1 r1 y.
Proof.
  intros P Q. split.
  - intros H. apply H; [apply tapered_convex|]. intros b x [<-|[<-|[]]] X; apply lifted_at in X; unfold ball_body in X.
    + exists 0. split; [lra|]. replace ((1 - 0) * z0 + 0 * z1) with z0 by ring. lra.
    + exists 1. split; [lra|]. replace ((1 - 1) * z0 + 1 * z1) with z1 by ring. lra.
  - intros (k&K&H) c C I. set (rk := (1 - k) * r0 + k * r1) in *. assert (0 < rk) by (unfold rk; nra). set (w := vscale (/ rk) (vsub y (V3 0 0 ((1 - k) * z0 + k * z1)))).
    assert (W : vnorm w <= 1). { unfold w. rewrite vnorm_scale, Rabs_pos_eq by (apply Rlt_le, Rinv_0_lt_compat; assumption). apply Rmult_le_reg_l with rk; [assumption|]. rewrite <- Rmult_assoc, Rinv_r by lra. lra. }
    replace y with (vadd (vscale (1 - k) (vadd (vscale r0 w) (V3 0 0 z0))) (vscale k (vadd (vscale r1 w) (V3 0 0 z1)))).
    + apply C; [| |exact K].
      * apply (I (lifted (ball_body r0) z0)); [left; reflexivity|]. apply lifted_at. unfold ball_body. match goal with |- vnorm ?a <= _ => replace a with (vscale r0 w) by (apply vec_ext; cbn; ring) end. rewrite vnorm_scale, Rabs_pos_eq by lra. nra.
      * apply (I (lifted (ball_body r1) z1)); [right; left; reflexivity|]. apply lifted_at. unfold ball_body. match goal with |- vnorm ?a <= _ => replace a with (vscale r1 w) by (apply vec_ext; cbn; ring) end. rewrite vnorm_scale, Rabs_pos_eq by lra. nra.
    + assert (E : vscale rk w = vsub y (V3 0 0 ((1 - k) * z0 + k * z1))) by (unfold w; apply vec_ext; cbn; field; lra). clearbody w. apply vec_ext.
      * apply (f_equal vx) in E. cbn in E |- *. unfold rk in E. lra.
      * apply (f_equal vy) in E. cbn in E |- *. unfold rk in E. lra.
      * apply (f_equal vz) in E. cbn in E |- *. unfold rk in E. lra.
Qed.
Lemma tapered_lift z0 r0 z1 r1 h y : tapered z0 r0 z1 r1 (vsub y (V3 0 0 h)) <-> tapered (z0 + h) r0 (z1 + h) r1 y.
Proof.
  unfold tapered. split; intros (k&K&H); exists k; (split; [exact K|]).
  - match goal with |- vnorm ?a <= _ => replace a with (vsub (vsub y (V3 0 0 h)) (V3 0 0 ((1 - k) * z0 + k * z1))) by (apply vec_ext; cbn; ring) end. exact H.
  - match goal with |- vnorm ?a <= _ => replace a with (vsub y (V3 0 0 ((1 - k) * (z0 + h) + k * (z1 + h)))) by (apply vec_ext; cbn; ring) end. exact H.
Qed.
(** A part of the union *)
Lemma tapered_part z0 r0 z1 r1 a b y : a <= b ->
  tapered ((1 - a) * z0 + a * z1) ((1 - a) * r0 + a * r1) ((1 - b) * z0 + b * z1) ((1 - b) * r0 + b * r1) y <-> exists k, a <= k <= b /\ vnorm (vsub y (V3 0 0 ((1 - k) * z0 + k * z1))) <= (1 - k) * r0 + k * r1.
Proof.
  intros L. split.
  - intros (j&J&H). exists ((1 - j) * a + j * b). split; [nra|]. replace ((1 - ((1 - j) * a + j * b)) * z0 + ((1 - j) * a + j * b) * z1) with ((1 - j) * ((1 - a) * z0 + a * z1) + j * ((1 - b) * z0 + b * z1)) by ring. lra.
  - intros (k&K&H). destruct (Req_dec a b) as [<-|N].
    + assert (k = a) by lra. subst k. exists 0. split; [lra|]. rewrite Rminus_0_r, !Rmult_1_l, !Rmult_0_l, !Rplus_0_r. exact H.
    + exists ((k - a) / (b - a)). assert (0 < b - a) by lra. split; [split; [apply Rdiv_le_0_compat; lra|apply Rmult_le_reg_r with (b - a); [lra|]; unfold Rdiv; rewrite Rmult_assoc, Rinv_l by lra; lra]|].
      replace ((1 - (k - a) / (b - a)) * ((1 - a) * z0 + a * z1) + (k - a) / (b - a) * ((1 - b) * z0 + b * z1)) with ((1 - k) * z0 + k * z1) by (field; lra).
      replace ((1 - (k - a) / (b - a)) * ((1 - a) * r0 + a * r1) + (k - a) / (b - a) * ((1 - b) * r0 + b * r1)) with ((1 - k) * r0 + k * r1) by (field; lra). exact H.
Qed.
Lemma smooth_tapered r0 r1 l y : 0 < r0 -> 0 < r1 -> smooth_body r0 r1 l y <-> tapered ((- l + r0 - r1) / 2) r0 ((l + r0 - r1) / 2) r1 y.
Proof. intros P Q. apply tapered_hull; assumption. Qed.

(** *** The geometry of a smooth wedge *)
Lemma unit_dot y n : vnorm n = 1 -> vdot y n <= vnorm y. Proof. intros H. pose proof (cauchy_schwarz y n) as C. rewrite H, Rmult_1_r in C. pose proof (Rle_abs (vdot y n)). lra. Qed.
Lemma smooth_describes r0 r1 l g : Rabs (r0 - r1) <= l -> smooth_xc r0 r1 l = Some g -> describes g (smooth_body r0 r1 l).
Proof.
  intros L. unfold smooth_xc. destruct (Rltb 0 r0) eqn:P; [apply Rltb_true in P|discriminate]. destruct (Rltb 0 r1) eqn:Q; [apply Rltb_true in Q|discriminate]. destruct (Rltb 0 l) eqn:LP; [apply Rltb_true in LP|discriminate]. cbn [andb]. intros [= <-].
  pose proof (Rle_abs (r0 - r1)) as A1. pose proof (Rle_abs (- (r0 - r1))) as A2. rewrite Rabs_Ropp in A2.
  set (z0 := (- l + r0 - r1) / 2). set (z1 := (l + r0 - r1) / 2).
  assert (FI : forall y, vnorm y <= 1 / 2 * (r0 + r1 + (r0 - r1) * (r0 - r1) / l) -> smooth_body r0 r1 l y).
  { intros y H. apply smooth_tapered; auto. fold z0 z1. exists ((l - (r0 - r1)) / (2 * l)). split; [split; [apply Rdiv_le_0_compat; lra|apply Rmult_le_reg_r with (2 * l); [lra|]; unfold Rdiv; rewrite Rmult_assoc, Rinv_l by lra; lra]|].
    replace ((1 - (l - (r0 - r1)) / (2 * l)) * z0 + (l - (r0 - r1)) / (2 * l) * z1) with 0 by (unfold z0, z1; field; lra). replace (vsub y (V3 0 0 0)) with y by (apply vec_ext; cbn; ring).
    replace ((1 - (l - (r0 - r1)) / (2 * l)) * r0 + (l - (r0 - r1)) / (2 * l) * r1) with (1 / 2 * (r0 + r1 + (r0 - r1) * (r0 - r1) / l)) by (field; lra). exact H. }
  assert (IP : 0 <= 1 / 2 * (r0 + r1 + (r0 - r1) * (r0 - r1) / l)). { assert (0 <= (r0 - r1) * (r0 - r1) / l) by (apply Rdiv_le_0_compat; [apply Rle_0_sqr|lra]). lra. }
  assert (ZZ : smooth_body r0 r1 l vzero) by (apply FI; rewrite vnorm_zero; exact IP).
  split; [|split; [|split; [|split; [exact ZZ|exact IP]]]].
  - split; [apply hull_convex|]. split; [exact ZZ|]. intros n N. cbn [xc_support]. unfold smooth_support. destruct (normalized_some n N) as (u&E&U&NK). set (k := vnorm n) in NK. assert (K : 0 <= k) by apply vnorm_nonneg. clearbody k. rewrite E. cbn [obind]. eexists. split; [reflexivity|].
    assert (DN : forall y s, vdot y u <= vdot s u -> vdot y n <= vdot s n). { intros y s H. subst n. replace (vdot y (vscale k u)) with (k * vdot y u) by (unfold vdot; cbn; ring). replace (vdot s (vscale k u)) with (k * vdot s u) by (unfold vdot; cbn; ring). apply Rmult_le_compat_l; lra. }
    assert (UU : vdot u u = 1). { change (vnorm2 u = 1). rewrite <- vnorm_sqr, U. ring. }
    assert (MX : forall y, smooth_body r0 r1 l y -> vdot y u <= z0 * vz u + r0 \/ vdot y u <= z1 * vz u + r1).
    { intros y Y. apply smooth_tapered in Y; auto. destruct Y as (j&J&Y). fold z0 z1 in Y. pose proof (unit_dot _ _ U : vdot (vsub y (V3 0 0 ((1 - j) * z0 + j * z1))) u <= _) as D.
      replace (vdot (vsub y (V3 0 0 ((1 - j) * z0 + j * z1))) u) with (vdot y u - ((1 - j) * z0 + j * z1) * vz u) in D by (unfold vdot; cbn; ring).
      destruct (Rle_or_lt (vdot y u) (z0 * vz u + r0)); [left; assumption|right]. destruct (Rle_or_lt (vdot y u) (z1 * vz u + r1)); [assumption|exfalso]. set (a := vdot y u - (z0 * vz u + r0)). set (b := vdot y u - (z1 * vz u + r1)). assert (0 < a) by (unfold a; lra). assert (0 < b) by (unfold b; lra).
      assert (0 < (1 - j) * a + j * b) by (destruct (Rle_or_lt j (1 / 2)); nra). unfold a, b in *. nra. }
    assert (D01 : z1 - z0 = l) by (unfold z0, z1; field). fold z0 z1. destruct (Rltb (vz u * l) (r0 - r1)) eqn:T; [apply Rltb_true in T|apply Rltb_false in T]; split.
    + apply smooth_tapered; auto. fold z0 z1. exists 0. split; [lra|]. match goal with |- vnorm ?a <= _ => replace a with (vscale r0 u) by (apply vec_ext; cbn; ring) end. rewrite vnorm_scale, U, Rabs_pos_eq by lra. lra.
    + intros y Y. apply DN. replace (vdot (vadd (vscale r0 u) (V3 0 0 z0)) u) with (r0 * vdot u u + z0 * vz u) by (unfold vdot; cbn; ring). rewrite UU. destruct (MX y Y); [lra|]. nra.
    + apply smooth_tapered; auto. fold z0 z1. exists 1. split; [lra|]. match goal with |- vnorm ?a <= _ => replace a with (vscale r1 u) by (apply vec_ext; cbn; ring) end. rewrite vnorm_scale, U, Rabs_pos_eq by lra. lra.
    + intros y Y. apply DN. replace (vdot (vadd (vscale r1 u) (V3 0 0 z1)) u) with (r1 * vdot u u + z1 * vz u) by (unfold vdot; cbn; ring). rewrite UU. destruct (MX y Y); [|lra]. nra.
  - intros y Y. apply smooth_tapered in Y; auto. destruct Y as (j&J&Y). fold z0 z1 in Y. cbn [xc_circumsphere].
    pose proof (vnorm_triangle (vsub y (V3 0 0 ((1 - j) * z0 + j * z1))) (V3 0 0 ((1 - j) * z0 + j * z1))) as T. replace (vadd (vsub y (V3 0 0 ((1 - j) * z0 + j * z1))) (V3 0 0 ((1 - j) * z0 + j * z1))) with y in T by (apply vec_ext; cbn; ring).
    assert (V : forall a, vnorm (V3 0 0 a) = Rabs a). { intros a. unfold vnorm, vnorm2, vdot. cbn. replace (0 * 0 + 0 * 0 + a * a) with (Rsqr a) by (unfold Rsqr; ring). apply sqrt_Rsqr_abs. }
    rewrite V in T. assert (Rabs ((1 - j) * z0 + j * z1) <= (l + r0 + r1) / 2 - ((1 - j) * r0 + j * r1)) by (apply Rabs_le; unfold z0, z1; split; nra). lra.
  - intros y Y. apply FI. cbn [xc_insphere] in Y. lra.
Qed.
Lemma smooth_made r0 r1 l : (exists g, smooth_xc r0 r1 l = Some g) <-> 0 < r0 /\ 0 < r1 /\ 0 < l.
Proof.
  unfold smooth_xc. destruct (Rltb 0 r0) eqn:P; [apply Rltb_true in P|apply Rltb_false in P; split; [intros (?&?); discriminate|lra]]. destruct (Rltb 0 r1) eqn:Q; [apply Rltb_true in Q|apply Rltb_false in Q; split; [intros (?&?); discriminate|lra]].
  destruct (Rltb 0 l) eqn:LP; [apply Rltb_true in LP|apply Rltb_false in LP; split; [intros (?&?); discriminate|lra]]. cbn [andb]. split; [auto|eauto].
Qed.

(** *** The volume of a smooth wedge *)
Definition profile (r0 e l : R) (z : R) : R :=
  if Rleb z (r0 * e) then r0 ^ 2 - z ^ 2 else if Rleb z (l + (r0 - e * l) * e) then (r0 - z * e) ^ 2 / (1 - e ^ 2) else (r0 - e * l) ^ 2 - (z - l) ^ 2.
Lemma profile_spec r0 e l z q : 0 < l -> -1 < e < 1 -> 0 < r0 -> 0 < r0 - e * l -> (exists k, 0 <= k <= 1 /\ q <= (r0 - k * (e * l)) ^ 2 - (z - k * l) ^ 2) <-> q <= profile r0 e l z.
Proof.
  intros L E P Q. assert (EE : 0 < 1 - e ^ 2) by nra. unfold profile.
  assert (ID : forall k, (r0 - z * e) ^ 2 / (1 - e ^ 2) - ((r0 - k * (e * l)) ^ 2 - (z - k * l) ^ 2) = (z - r0 * e - k * l * (1 - e ^ 2)) ^ 2 / (1 - e ^ 2)) by (intros k; field; lra).
  destruct (Rleb z (r0 * e)) eqn:A; [apply Rleb_true in A|apply Rleb_false in A].
  - split; [intros (k&K&H)|intros H; exists 0; split; [lra|nra]]. assert (0 <= k * (l * (r0 * e - z))) by (apply Rmult_le_pos; [lra|apply Rmult_le_pos; lra]). assert (0 <= (k * l) ^ 2 * (1 - e ^ 2)) by (apply Rmult_le_pos; [apply pow2_ge_0|lra]). nra.
  - destruct (Rleb z (l + (r0 - e * l) * e)) eqn:B; [apply Rleb_true in B|apply Rleb_false in B].
    + split; [intros (k&K&H)|intros H].
      * specialize (ID k). assert (0 <= (z - r0 * e - k * l * (1 - e ^ 2)) ^ 2 / (1 - e ^ 2)) by (apply Rdiv_le_0_compat; [apply pow2_ge_0|lra]). lra.
      * exists ((z - r0 * e) / (l * (1 - e ^ 2))). assert (0 < l * (1 - e ^ 2)) by nra. split; [split; [apply Rdiv_le_0_compat; lra|apply Rmult_le_reg_r with (l * (1 - e ^ 2)); [lra|]; unfold Rdiv; rewrite Rmult_assoc, Rinv_l by lra; nra]|].
        specialize (ID ((z - r0 * e) / (l * (1 - e ^ 2)))). replace (z - r0 * e - (z - r0 * e) / (l * (1 - e ^ 2)) * l * (1 - e ^ 2)) with 0 in ID by (field; lra). replace (0 ^ 2 / (1 - e ^ 2)) with 0 in ID by (field; lra). lra.
    + split; [intros (k&K&H)|intros H; exists 1; split; [lra|nra]]. assert (0 <= (1 - k) * (l * (z - l - (r0 - e * l) * e))) by (apply Rmult_le_pos; [lra|apply Rmult_le_pos; lra]). assert (0 <= ((1 - k) * l) ^ 2 * (1 - e ^ 2)) by (apply Rmult_le_pos; [apply pow2_ge_0|lra]). nra.
Qed.
Lemma cone_int r0 e x y : -1 < e < 1 -> is_RInt (fun z => (r0 - z * e) ^ 2 / (1 - e ^ 2)) x y ((r0 ^ 2 * y - r0 * e * y ^ 2 + e ^ 2 * y ^ 3 / 3) / (1 - e ^ 2) - (r0 ^ 2 * x - r0 * e * x ^ 2 + e ^ 2 * x ^ 3 / 3) / (1 - e ^ 2)).
Proof.
  intros E. assert (0 < 1 - e ^ 2) by nra. apply (is_RInt_derive (V := R_CompleteNormedModule) (fun z => (r0 ^ 2 * z - r0 * e * z ^ 2 + e ^ 2 * z ^ 3 / 3) / (1 - e ^ 2)) (fun z => (r0 - z * e) ^ 2 / (1 - e ^ 2))).
  - intros z _. auto_derive; [exact I|]. field. lra.
  - intros z _. apply (ex_derive_continuous (V := R_NormedModule)). auto_derive. exact I.
Qed.
Lemma profile_int r0 e l : 0 < l -> -1 < e < 1 -> 0 < r0 -> 0 < r0 - e * l ->
  whole (fun z => Rmax 0 (profile r0 e l z)) (l / 3 * (r0 * r0 + r0 * (r0 - e * l) + (r0 - e * l) * (r0 - e * l)) * (1 + e * e) + 2 / 3 * (r0 ^ 3 + (r0 - e * l) ^ 3)).
Proof.
  intros L E P Q. set (r1 := r0 - e * l) in *. assert (EE : 0 < 1 - e ^ 2) by nra. assert (A : - r0 < r0 * e < r0) by nra. assert (B : - r1 < r1 * e < r1) by nra. assert (C : r0 * e < l + r1 * e) by (unfold r1; nra).
  apply whole_piece with (- r0) (l + r1); [lra| |].
  - intros z [Z|Z]; unfold profile; fold r1; apply Rmax_left.
    + rewrite (proj2 (Rleb_true _ _)) by lra. nra.
    + rewrite (proj2 (Rleb_false _ _)) by lra. rewrite (proj2 (Rleb_false _ _)) by lra. nra.
  - eapply int_eq; [apply int_join with (l + r1 * e); [apply int_join with (r0 * e)|]|].
    + apply (int_on (VolProofs.sq (0, r0))); [lra| |apply sq_int]. intros z Z. unfold profile. rewrite (proj2 (Rleb_true _ _)) by lra. unfold VolProofs.sq. cbn [fst snd]. rewrite Rmax_right by nra. ring.
    + apply (int_on (fun z => (r0 - z * e) ^ 2 / (1 - e ^ 2))); [lra| |apply cone_int; exact E]. intros z Z. unfold profile. fold r1. rewrite (proj2 (Rleb_false _ _)), (proj2 (Rleb_true _ _)) by lra. rewrite Rmax_right; [reflexivity|]. apply Rdiv_le_0_compat; [apply pow2_ge_0|lra].
    + apply (int_on (VolProofs.sq (l, r1))); [lra| |apply sq_int]. intros z Z. unfold profile. fold r1. rewrite (proj2 (Rleb_false _ _)) by lra. rewrite (proj2 (Rleb_false _ _)) by lra. unfold VolProofs.sq. cbn [fst snd]. rewrite Rmax_right by nra. reflexivity.
    + unfold prim. cbn [fst snd]. unfold r1. field. lra.
Qed.
