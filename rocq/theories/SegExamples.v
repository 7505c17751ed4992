From Coq Require Import Reals Bool Lra Psatz.
From Verif Require Import GeomModel GeomProofs SegModel SegSpec SegProofs SegErrorProofs.
Open Scope R_scope.

(** Unit segments crossing in [x] at 0.45 of the length of the first one and 0.9 of the second one; almost, but not quite, parallel *)
Lemma crossing u v x : vnorm2 u = 1 -> vnorm2 v = 1 -> 10 / 9 * EPSILON <= vnorm2 (vcross u v) < 20 / 9 * EPSILON ->
  segment_distance2 (vsub x (vscale (45 / 100) u)) (vadd x (vscale (55 / 100) u)) (vsub x (vscale (9 / 10) v)) (vadd x (vscale (1 / 10) v)) = 2025 / 10000.
Proof.
  intros U V D. pose proof EPSILON_pos as EP. rewrite segment_distance2_eq. unfold parts. cbv zeta.
  replace (vsub (vadd x (vscale (55 / 100) u)) (vsub x (vscale (45 / 100) u))) with u by (apply vec_ext; cbn; field).
  replace (vsub (vadd x (vscale (1 / 10) v)) (vsub x (vscale (9 / 10) v))) with v by (apply vec_ext; cbn; field).
  set (w := vsub (vsub x (vscale (45 / 100) u)) (vsub x (vscale (9 / 10) v))).
  rewrite spread_eq in D. unfold vnorm2 in U, V. rewrite U, V in *.
  assert (E1 : vdot u w = - (45 / 100) + 9 / 10 * vdot u v) by (unfold w; transitivity (- (45 / 100) * vdot u u + 9 / 10 * vdot u v); [unfold vdot; cbn; field|rewrite U; ring]).
  assert (E2 : vdot v w = 9 / 10 - 45 / 100 * vdot u v) by (unfold w; transitivity (9 / 10 * vdot v v - 45 / 100 * vdot u v); [unfold vdot; cbn; field|rewrite V; ring]).
  rewrite E1, E2. set (b := vdot u v) in *. clearbody b. set (D' := 1 * 1 - b * b) in *.
  assert (F : closest_on_lines 1 b 1 (- (45 / 100) + 9 / 10 * b) (9 / 10 - 45 / 100 * b) = Fr (45 / 100 * D') D' (9 / 10 * D') D').
  { unfold closest_on_lines. cbv zeta. fold D'. replace (b * (9 / 10 - 45 / 100 * b) - 1 * (- (45 / 100) + 9 / 10 * b)) with (45 / 100 * D') by (unfold D'; field).
    replace (1 * (9 / 10 - 45 / 100 * b) - b * (- (45 / 100) + 9 / 10 * b)) with (9 / 10 * D') by (unfold D'; field). clearbody D'.
    rewrite (proj2 (Rltb_false D' EPSILON)), (proj2 (Rltb_false _ 0)), (proj2 (Rltb_false D' _)) by lra. reflexivity. }
  rewrite F. clear F. clearbody D'. unfold clamp_second; cbn [fr_sN fr_sD fr_tN fr_tD]. rewrite (proj2 (Rltb_false _ 0)), (proj2 (Rltb_false D' _)) by lra. cbn [fr_sN fr_sD fr_tN fr_tD].
  unfold divide. rewrite !Rabs_pos_eq by lra. rewrite (proj2 (Rltb_true _ _)), (proj2 (Rltb_false _ _)) by lra.
  replace (9 / 10 * D' / D') with (9 / 10) by (field; lra).
  replace (between w u v 0 (9 / 10)) with (vscale (- (45 / 100)) u) by (unfold between, w; apply vec_ext; cbn; field).
  replace (vnorm2 (vscale (- (45 / 100)) u)) with (2025 / 10000 * vdot u u) by (unfold vnorm2, vdot; cbn; field). rewrite U. ring.
Qed.
(** The direction of the second one *)
Definition small : R := 14 / 1000000.
Definition slanted : vec := V3 small 0 (sqrt (1 - small * small)).
Lemma slanted_facts : vnorm2 slanted = 1 /\ 10 / 9 * EPSILON <= vnorm2 (vcross (V3 0 0 1) slanted) < 20 / 9 * EPSILON.
Proof.
  split.
  - unfold slanted, vnorm2, vdot; cbn. rewrite sqrt_sqrt by (unfold small; lra). unfold small; field.
  - unfold slanted, vnorm2, vdot, vcross, EPSILON, small; cbn. lra.
Qed.
Lemma crossing_refuted : exists s11 s12 s21 s22, vnorm (vsub s12 s11) = 1 /\ vnorm (vsub s22 s21) = 1 /\ segments_distance s11 s12 s21 s22 0 /\
  sqrt (segment_distance2 s11 s12 s21 s22) = 45 / 100.
Proof.
  destruct slanted_facts as [N D]. set (u := V3 0 0 1) in *. assert (U : vnorm2 u = 1) by (unfold u, vnorm2, vdot; cbn; ring). set (v := slanted) in *. clearbody u v.
  exists (vsub vzero (vscale (45 / 100) u)), (vadd vzero (vscale (55 / 100) u)), (vsub vzero (vscale (9 / 10) v)), (vadd vzero (vscale (1 / 10) v)).
  replace (vsub (vadd vzero (vscale (55 / 100) u)) (vsub vzero (vscale (45 / 100) u))) with u by (apply vec_ext; cbn; field).
  replace (vsub (vadd vzero (vscale (1 / 10) v)) (vsub vzero (vscale (9 / 10) v))) with v by (apply vec_ext; cbn; field).
  split; [unfold vnorm; rewrite U; apply sqrt_1|]. split; [unfold vnorm; rewrite N; apply sqrt_1|]. split.
  - split; [|intros; apply vnorm_nonneg]. exists vzero, vzero. split; [|split].
    + exists (45 / 100). split; [lra|]. apply vec_ext; cbn; field.
    + exists (9 / 10). split; [lra|]. apply vec_ext; cbn; field.
    + unfold distance, vnorm, vnorm2, vdot; cbn. replace (_ + _ + _) with 0 by ring. apply sqrt_0.
  - rewrite (crossing u v vzero U N D). replace (2025 / 10000) with (45 / 100 * (45 / 100)) by field. apply sqrt_square. lra.
Qed.
(** A sphere of no size in the middle of the first segment *)
Lemma point_refuted : exists s11 s12 s21, segments_distance s11 s12 s21 s21 0 /\ sqrt (segment_distance2 s11 s12 s21 s21) = 1 /\ sqrt (segment_distance2 s21 s21 s11 s12) = 0.
Proof.
  pose proof EPSILON_pos as EP. exists (V3 (-1) 0 0), (V3 1 0 0), vzero. split; [split; [|intros; apply vnorm_nonneg]|split].
  - exists vzero, vzero. split; [exists (1 / 2); split; [lra|apply vec_ext; cbn; field]|]. split; [exists 0; split; [lra|apply vec_ext; cbn; field]|].
    unfold distance, vnorm, vnorm2, vdot; cbn. replace (_ + _ + _) with 0 by ring. apply sqrt_0.
  - rewrite segment_distance2_eq. unfold parts. cbv zeta.
    replace (vsub vzero vzero) with vzero by (apply vec_ext; cbn; ring). set (u := vsub (V3 1 0 0) (V3 (-1) 0 0)). set (w := vsub (V3 (-1) 0 0) vzero).
    replace (vdot u vzero) with 0 by (unfold vdot; cbn; ring). replace (vdot vzero vzero) with 0 by (unfold vdot; cbn; ring). replace (vdot vzero w) with 0 by (unfold vdot; cbn; ring).
    unfold closest_on_lines. cbv zeta. rewrite (proj2 (Rltb_true _ EPSILON)) by lra. unfold clamp_second; cbn [fr_sN fr_sD fr_tN fr_tD]. rewrite (proj2 (Rltb_false 0 0)) by lra. cbn [fr_sN fr_sD fr_tN fr_tD].
    unfold divide. rewrite Rabs_R0, (proj2 (Rltb_true _ EPSILON)) by lra. transitivity (sqrt 1); [f_equal; unfold between, u, w, vnorm2, vdot; cbn; ring|apply sqrt_1].
  - rewrite segment_distance2_eq. unfold parts. cbv zeta.
    replace (vsub vzero vzero) with vzero by (apply vec_ext; cbn; ring). set (v := vsub (V3 1 0 0) (V3 (-1) 0 0)). set (w := vsub vzero (V3 (-1) 0 0)).
    replace (vdot vzero v) with 0 by (unfold vdot; cbn; ring). replace (vdot vzero vzero) with 0 by (unfold vdot; cbn; ring). replace (vdot vzero w) with 0 by (unfold vdot; cbn; ring).
    replace (vdot v v) with 4 by (unfold v, vdot; cbn; ring). replace (vdot v w) with 2 by (unfold v, w, vdot; cbn; ring).
    unfold closest_on_lines. cbv zeta. rewrite (proj2 (Rltb_true _ EPSILON)) by lra. unfold clamp_second; cbn [fr_sN fr_sD fr_tN fr_tD]. rewrite (proj2 (Rltb_false 2 0)), (proj2 (Rltb_false 4 2)) by lra. cbn [fr_sN fr_sD fr_tN fr_tD].
    assert (E1 : EPSILON <= 1). { unfold EPSILON. rewrite <- Rinv_1. apply Rinv_le_contravar; [lra|]. cbn. lra. }
    unfold divide. rewrite Rabs_R0, (proj2 (Rltb_true _ EPSILON)), (Rabs_pos_eq 2), (proj2 (Rltb_false 2 EPSILON)) by lra.
    transitivity (sqrt 0); [f_equal; unfold between, v, w, vnorm2, vdot; cbn; field|apply sqrt_0].
Qed.
