From Coq Require Import Reals List Bool Lra Psatz.
From Verif Require Import GeomModel GeomProofs BoxModel PbcModel PackModel InterModel RotSpec SegModel SegSpec SegProofs SegErrorProofs SegExamples ShapesModel ShapesSpec ShapesProofs.
Import ListNotations.
Open Scope R_scope.

Definition slant : mat := M33 (sqrt (1 - small * small)) 0 small 0 1 0 (- small) 0 (sqrt (1 - small * small)).
Lemma slant_rotation : rotation slant.
Proof.
  assert (Q : sqrt (1 - small * small) * sqrt (1 - small * small) = 1 - small * small) by (apply sqrt_sqrt; unfold small; lra).
  unfold slant. set (q := sqrt (1 - small * small)) in *. clearbody q. set (s := small) in *. clearbody s. split.
  - intros [a b c] [x y z]. unfold vdot; cbn.
    transitivity ((q * q) * (a * x + c * z) + s * s * (a * x + c * z) + b * y); [ring|]. rewrite Q. ring.
  - intros [a b c] [x y z]. apply vec_ext; cbn; try ring.
    transitivity ((q * q) * (c * x - a * z) + s * s * (c * x - a * z)); [rewrite Q; ring|ring].
Qed.
Lemma mid_rotation : rotation mid.
Proof. split; intros; rewrite ?mvec_id; reflexivity. Qed.
Lemma crossing_spherocylinders : exists i p2 m2, spherocylinder 1 (1 / 5) = Some i /\ rotation m2 /\
  (exists x, on_rod vzero (half_axis 1 mid) x /\ on_rod (image (hardcoded vzero) vzero p2) (half_axis 1 m2) x) /\
  in_overlap i vzero mid 0 p2 m2 0 (hardcoded vzero) = false.
Proof.
  assert (M : exists i, spherocylinder 1 (1 / 5) = Some i).
  { unfold spherocylinder. rewrite (proj2 (Rleb_true 0 1)), (proj2 (Rltb_true 0 (1 / 5))) by lra. cbn. eexists. reflexivity. }
  destruct M as (i&M). destruct slanted_facts as [N D]. set (u := V3 0 0 1) in *. assert (U : vnorm2 u = 1) by (unfold u, vnorm2, vdot; cbn; ring).
  set (x := vscale (- (1 / 20)) u). exists i, (vsub x (vscale (4 / 10) slanted)), slant. split; [exact M|]. split; [exact slant_rotation|].
  assert (Im : image (hardcoded vzero) vzero (vsub x (vscale (4 / 10) slanted)) = vsub x (vscale (4 / 10) slanted)) by (apply vec_ext; cbn; ring). rewrite Im.
  assert (H1 : half_axis 1 mid = vscale (1 / 2) u) by (unfold half_axis, u; apply vec_ext; cbn; field).
  assert (H2 : half_axis 1 slant = vscale (1 / 2) slanted) by (unfold half_axis, slant, slanted; apply vec_ext; cbn; field).
  split.
  - exists x. rewrite H1, H2. split; [exists (45 / 100)|exists (9 / 10)]; (split; [lra|unfold x; apply vec_ext; cbn; field]).
  - apply not_true_is_false. intros T. apply (sphero_shortcuts 1 (1 / 5) i M vzero (vsub x (vscale (4 / 10) slanted)) mid slant 0 0 (hardcoded vzero) mid_rotation slant_rotation) in T. rewrite Im, H1, H2 in T.
    assert (B : 0 <= vdot u slanted) by (unfold u, slanted, vdot; cbn; pose proof (sqrt_pos (1 - small * small)); lra).
    set (v := slanted) in *. clearbody v.
    replace (vsub vzero (vscale (1 / 2) u)) with (vsub x (vscale (45 / 100) u)) in T by (unfold x; apply vec_ext; cbn; field).
    replace (vadd vzero (vscale (1 / 2) u)) with (vadd x (vscale (55 / 100) u)) in T by (unfold x; apply vec_ext; cbn; field).
    replace (vsub (vsub x (vscale (4 / 10) v)) (vscale (1 / 2) v)) with (vsub x (vscale (9 / 10) v)) in T by (apply vec_ext; cbn; field).
    replace (vadd (vsub x (vscale (4 / 10) v)) (vscale (1 / 2) v)) with (vadd x (vscale (1 / 10) v)) in T by (apply vec_ext; cbn; field).
    rewrite (crossing u v x U N D) in T. replace (2025 / 10000) with (45 / 100 * (45 / 100)) in T by field. rewrite sqrt_square in T by lra.
    destruct T as [T|T]; [|lra]. unfold distance in T. assert (E : vnorm2 (vsub vzero (vsub x (vscale (4 / 10) v))) = 25 / 10000 * vnorm2 u + 16 / 100 * vnorm2 v + 4 / 100 * vdot u v) by (unfold x, vnorm2, vdot; cbn; field).
    rewrite U, N in E. pose proof (vnorm_sqr (vsub vzero (vsub x (vscale (4 / 10) v)))) as Q. pose proof (vnorm_nonneg (vsub vzero (vsub x (vscale (4 / 10) v)))). nra.
Qed.
(** Parallel spherocylinders lying side by side *)
Lemma side_by_side : exists i err, spherocylinder 3 1 = Some i /\ rods_error vzero (half_axis 3 mid) (image (hardcoded vzero) vzero (V3 (3 / 2) 0 1)) (half_axis 3 mid) err /\ err < 1 / 2 /\
  on_rod vzero (half_axis 3 mid) vzero /\ on_rod (image (hardcoded vzero) vzero (V3 (3 / 2) 0 1)) (half_axis 3 mid) (V3 (3 / 2) 0 0).
Proof.
  unfold spherocylinder. rewrite (proj2 (Rleb_true 0 3)), (proj2 (Rltb_true 0 1)) by lra. cbn [andb]. eexists.
  set (h := half_axis 3 mid). assert (H : h = V3 0 0 (3 / 2)) by (unfold h, half_axis; rewrite mvec_id; reflexivity).
  eexists. split; [reflexivity|]. split; [apply (parallel _ _ _ _ 1); clearbody h; subst h|]; [lra|unfold spread, vnorm2, vdot, tiny; cbn; lra|right; unfold vnorm2, vdot; cbn; lra|unfold vnorm2, vdot; cbn; lra|].
  split; [|split; [apply middle|]].
  - rewrite H. replace (spread _ _ _ _) with 0 by (unfold spread, vnorm2, vdot; cbn; field). replace (0 / 1) with 0 by field. rewrite sqrt_0.
    replace (vnorm _) with 3. 2: { unfold vnorm. symmetry. replace (vnorm2 _) with (3 * 3) by (unfold vnorm2, vdot; cbn; field). apply sqrt_square; lra. }
    replace (vnorm _) with 3. 2: { unfold vnorm. symmetry. replace (vnorm2 _) with (3 * 3) by (unfold vnorm2, vdot; cbn; field). apply sqrt_square; lra. }
    unfold tiny. cbn. lra.
  - rewrite H. exists (1 / 6). split; [lra|]. apply vec_ext; cbn; field.
Qed.
