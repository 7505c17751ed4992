From Coq Require Import Reals ZArith List Bool Lia Lra Psatz.
From Verif Require Import GeomModel GeomProofs BoxModel BoxSpec BoxProofs PbcModel PbcSpec PackModel PackSpec PackSumProofs PackProofs PackHistProofs PackExamples InterModel RotSpec SegErrorProofs ShapesModel ShapesSpec ShapesProofs ShapesExamples WallSpec WallHistProofs WallProofs WallShapesProofs.
Import ListNotations.
Open Scope R_scope.

(** A single particle and walls perpendicular to the first axis *)
Lemma single inter ov en s b : lawful inter ov en -> constructed b -> in_box b (sh_pos s) ->
  exists pk p, reachable 1 [s] b inter [DoWall AX true] pk /\ shapes_of pk = [s] /\ pk_box pk = b /\ pk_parts pk = [p] /\ pt_shape p = s /\
    kept inter (wall_after [DoWall AX true]) pk.
Proof.
  intros L C I. assert (LS : legal_start b inter [s]).
  { split; [exact C|]. split; [discriminate|]. split; [intros x [<-|[]]; exact I|cbn; lia]. }
  destruct (new_spec inter ov en L 1 [s] b LS) as (pk0&E&_&S&B&W&Cn&_). set (pk := toggleWall AX true pk0).
  assert (Rc : reachable 1 [s] b inter [DoWall AX true] pk).
  { split; [exact LS|]. split; [cbn; auto|]. exists pk0. split; [exact E|reflexivity]. }
  assert (S' : shapes_of pk = [s]) by exact S. pose proof S' as S2. unfold shapes_of in S2. destruct (pk_parts pk) as [|p [|]] eqn:P; try discriminate.
  exists pk, p. split; [exact Rc|]. split; [exact S'|]. split; [exact B|]. split; [exact P|]. split; [cbn in S2; congruence|]. exact (reachable_kept inter 1 [s] b _ pk Rc).
Qed.

Section Box.
Variables (s0 s1 s2 : vec) (b : box).
Hypothesis Hb : box_of_sides s0 s1 s2 = Some b.
Lemma sided_relative x y z : absoluteToRelative b (lincomb s0 s1 s2 x y z) = V3 x y z.
Proof. destruct (box_round_trip _ _ _ _ Hb) as (_ & Hr & Hl). rewrite <- Hl, Hr. reflexivity. Qed.
Lemma sided_right : right_handed b <-> 0 < vdot (vcross s0 s1) s2.
Proof. destruct (box_sides_given _ _ _ _ Hb) as (E0 & E1 & E2). unfold right_handed. rewrite E0, E1, E2. tauto. Qed.
Lemma sided_wall : wall_vector b AX = vscale (/ vnorm (vcross s1 s2)) (vcross s1 s2).
Proof. destruct (box_sides_given _ _ _ _ Hb) as (E0 & E1 & E2). unfold wall_vector. cbn [next_axis]. rewrite E1, E2. reflexivity. Qed.
End Box.

Lemma one_axis pk inter p : pk_parts pk = [p] -> kept inter (wall_after [DoWall AX true]) pk -> countWallOverlaps pk inter false = wall_axis_overlaps pk inter false p AX.
Proof.
  intros P K. pose proof (k_wall _ _ _ K) as W. unfold countWallOverlaps, hasAnyWalls. rewrite !W. cbn [wall_after fold_left same_axis orb negb]. rewrite P. cbn [sum_exit]. unfold countParticleWallOverlaps. cbn [sum_exit].
  rewrite (wall_axis_total pk inter false p AX). unfold wall_axis_overlaps. rewrite !W. cbn. rewrite !Nat.add_0_r. reflexivity.
Qed.

(** Walls closer than the total range: the further wall is not checked. *)
Definition dumbbell : list bead := [Bead (V3 0 0 4) (1 / 2); Bead (V3 0 0 (-4)) (1 / 2)].
Lemma sqrt_of x y : 0 <= y -> y * y = x -> sqrt x = y.
Proof. intros P <-. apply sqrt_square, P. Qed.
Lemma dumbbell_made : exists i, polysphere dumbbell = Some i.
Proof. unfold polysphere, dumbbell. cbn. rewrite (proj2 (Rltb_true 0 (1 / 2))) by lra. cbn. eexists. reflexivity. Qed.
Definition slit_sides : vec * vec * vec := (V3 3 0 0, V3 0 20 0, V3 0 0 20).
Lemma slit_box : exists b, box_of_sides (V3 3 0 0) (V3 0 20 0) (V3 0 0 20) = Some b.
Proof. apply (proj1 (box_constructible _ _ _)). intros x y z H. unfold lincomb, vzero in H. cbn in H. injection H; intros. lra. Qed.
Lemma slit_missed : exists i b pk s, polysphere dumbbell = Some i /\ reachable 1 [upright (27 / 10) 10 10] b i [DoWall AX true] pk /\ right_handed (pk_box pk) /\
  Forall (fun s => rotation (sh_rot s)) (shapes_of pk) /\ sticks_out (wall_after [DoWall AX true]) (pk_box pk) i (beads_body dumbbell) (shapes_of pk) s /\
  countWallOverlaps pk i false = Some 0%nat.
Proof.
  destruct dumbbell_made as (i&M). destruct slit_box as (b&Hb). pose proof (beads_lawful dumbbell i M) as L.
  assert (C : constructed b) by (do 3 eexists; exact Hb).
  assert (I : in_box b (sh_pos (upright (27 / 10) 10 10))).
  { cbn. replace (V3 (27 / 10) 10 10) with (lincomb (V3 3 0 0) (V3 0 20 0) (V3 0 0 20) (9 / 10) (1 / 2) (1 / 2)) by (apply vec_ext; cbn; lra). eapply sided_in_box; eauto; lra. }
  destruct (single i _ _ _ b L C I) as (pk&p&Rc&S&B&P&Ps&K).
  destruct (polysphere_made dumbbell i M) as (_&_&E).
  exists i, b, pk, (SiteWall 0 0 AX true). split; [exact M|]. split; [exact Rc|]. rewrite S, B.
  split; [apply (sided_right _ _ _ _ Hb); unfold vdot; cbn; lra|]. split; [constructor; [apply mid_rotation|constructor]|]. split.
  - split; [cbn; lia|]. split; [rewrite E; cbn; lia|]. split; [reflexivity|]. cbv zeta. exists (V3 (1 / 2) 0 0). split.
    + exists (Bead (V3 0 0 4) (1 / 2)). split; [reflexivity|]. unfold vnorm. cbn [bd_radius]. rewrite (sqrt_of _ (1 / 2)); [lra|lra|unfold vnorm2, vdot; cbn; field].
    + unfold outside. cbn [sw_axis sw_far sw_i sw_c nth].
      replace (vadd (site_position i (upright (27 / 10) 10 10) 0) (V3 (1 / 2) 0 0)) with (lincomb (V3 3 0 0) (V3 0 20 0) (V3 0 0 20) (32 / 30) (10 / 20) (14 / 20)) by (rewrite E; apply vec_ext; cbn; lra).
      rewrite (sided_relative _ _ _ _ Hb). cbn. lra.
  - rewrite (one_axis pk i p P K). unfold wall_axis_overlaps. rewrite (k_wall _ _ _ K AX). cbn [wall_after fold_left same_axis negb]. cbv zeta. rewrite B, (sided_wall _ _ _ _ Hb).
    assert (W : vscale (/ vnorm (vcross (V3 0 20 0) (V3 0 0 20))) (vcross (V3 0 20 0) (V3 0 0 20)) = V3 1 0 0).
    { unfold vnorm. rewrite (sqrt_of _ 400); [apply vec_ext; cbn; field|lra|unfold vnorm2, vdot; cbn; field]. }
    rewrite W. assert (T : in_totalRange i = 9).
    { rewrite E. cbn. unfold polysphere_range. cbn. rewrite (proj2 (Rltb_false (1 / 2) (1 / 2))) by lra. rewrite (proj2 (Rltb_true 0 _)) by (unfold vnorm2, vdot; cbn; lra).
      rewrite (proj2 (Rltb_false _ _)) by (unfold vnorm2, vdot; cbn; lra). rewrite (sqrt_of _ 4); [lra|lra|unfold vnorm2, vdot; cbn; lra]. }
    rewrite (proj2 (Rltb_true _ _)) by (rewrite T; unfold pt_pos; rewrite Ps; unfold vdot; cbn; lra).
    rewrite (sites_sum i _ pk false p _ _ K) by (destruct K as [_ _ F _]; rewrite P in F; inversion F; auto). f_equal. apply esum_zero. intros c Ic. rewrite E in Ic. apply in_seq in Ic. change (sites_no _) with 2%nat in Ic.
    rewrite E at 1. cbn [in_wall]. unfold polysphere_wall. rewrite (proj2 (Rltb_false _ _)); [reflexivity|]. rewrite E, Ps.
    destruct c as [|[|c]]; [| |lia]; unfold bead_radius, vdot; cbn; lra.
Qed.

(** A left-handed box: everything overlaps. *)
Lemma left_box : exists b, box_of_sides (V3 0 3 0) (V3 3 0 0) (V3 0 0 3) = Some b.
Proof. apply (proj1 (box_constructible _ _ _)). intros x y z H. unfold lincomb, vzero in H. cbn in H. injection H; intros. lra. Qed.
Lemma sphere_exists r : 0 < r -> exists i, sphere r = Some i.
Proof. intros P. unfold sphere. rewrite (proj2 (Rltb_true 0 r) P). eexists. reflexivity. Qed.
Lemma coordinate_le x r a : vnorm x <= r -> - r <= vget x a <= r.
Proof.
  intros N. pose proof (vnorm_nonneg x). pose proof (vnorm_sqr x) as Q. unfold vnorm2, vdot in Q.
  assert (vget x a * vget x a <= vnorm x * vnorm x) by (rewrite Q; destruct a; cbn; pose proof (Rle_0_sqr (vx x)); pose proof (Rle_0_sqr (vy x)); pose proof (Rle_0_sqr (vz x)); unfold Rsqr in *; lra). split; nra.
Qed.
Lemma left_overlaps : exists i b pk, sphere (1 / 2) = Some i /\ reachable 1 [upright (3 / 2) (3 / 2) (3 / 2)] b i [DoWall AX true] pk /\
  (forall a, in_totalRange i <= box_height (pk_box pk) a) /\ Forall (fun s => rotation (sh_rot s)) (shapes_of pk) /\
  counts (sticks_out (wall_after [DoWall AX true]) (pk_box pk) i (ball_body (1 / 2)) (shapes_of pk)) 0 /\ countWallOverlaps pk i false = Some 1%nat.
Proof.
  destruct (sphere_exists (1 / 2)) as (i&M); [lra|]. destruct left_box as (b&Hb). pose proof (sphere_lawful _ i M) as L.
  assert (C : constructed b) by (do 3 eexists; exact Hb).
  assert (I : in_box b (sh_pos (upright (3 / 2) (3 / 2) (3 / 2)))).
  { cbn. replace (V3 (3 / 2) (3 / 2) (3 / 2)) with (lincomb (V3 0 3 0) (V3 3 0 0) (V3 0 0 3) (1 / 2) (1 / 2) (1 / 2)) by (apply vec_ext; cbn; lra). eapply sided_in_box; eauto; lra. }
  destruct (single i _ _ _ b L C I) as (pk&p&Rc&S&B&P&Ps&K). destruct (sphere_made _ i M) as (_&E).
  exists i, b, pk. split; [exact M|]. split; [exact Rc|]. rewrite S, B.
  split.
  { intros a. rewrite E. cbn [in_totalRange]. apply height_ge; [apply (sided_valid _ _ _ _ Hb)|lra|]. rewrite (sided_volume _ _ _ _ Hb), (sided_face _ _ _ _ Hb).
    replace (Rabs _) with 27 by (unfold vdot; cbn; rewrite Rabs_left; lra). destruct a; unfold vnorm2, vdot; cbn; lra. }
  split; [constructor; [apply mid_rotation|constructor]|]. split.
  - exists []. split; [constructor|]. split; [|reflexivity]. intros [si c a f]. split; [contradiction|]. intros (Si&Sc&W&x&X&O). cbn [sw_i sw_c sw_axis sw_far] in *. rewrite E in Sc. cbn in Sc, Si.
    assert (si = 0%nat) as -> by lia. assert (c = 0%nat) as -> by lia. unfold ball_body in X. unfold outside in O. cbn [nth] in O.
    replace (vadd (site_position i (upright (3 / 2) (3 / 2) (3 / 2)) 0) x) with (lincomb (V3 0 3 0) (V3 3 0 0) (V3 0 0 3) (1 / 2 + vy x / 3) (1 / 2 + vx x / 3) (1 / 2 + vz x / 3)) in O by (rewrite E; apply vec_ext; cbn; lra).
    rewrite (sided_relative _ _ _ _ Hb) in O. pose proof (coordinate_le x _ AX X). pose proof (coordinate_le x _ AY X). pose proof (coordinate_le x _ AZ X). cbn in H, H0, H1. destruct f, a; cbn in O; lra.
  - rewrite (one_axis pk i p P K). unfold wall_axis_overlaps. rewrite (k_wall _ _ _ K AX). cbn [wall_after fold_left same_axis negb]. cbv zeta. rewrite B, (sided_wall _ _ _ _ Hb).
    assert (W : vscale (/ vnorm (vcross (V3 3 0 0) (V3 0 0 3))) (vcross (V3 3 0 0) (V3 0 0 3)) = V3 0 (-1) 0).
    { unfold vnorm. rewrite (sqrt_of _ 9); [apply vec_ext; cbn; field|lra|unfold vnorm2, vdot; cbn; field]. }
    rewrite W. assert (T : in_totalRange i = 1) by (rewrite E; cbn; lra).
    rewrite (proj2 (Rltb_true _ _)) by (rewrite T; unfold pt_pos; rewrite Ps; unfold vdot; cbn; lra).
    unfold wall_sites_overlaps. rewrite (k_no _ _ _ K), E. cbn [in_centres length Nat.eqb in_wall]. unfold sphere_wall. unfold pt_pos. rewrite Ps.
    rewrite (proj2 (Rltb_true _ _)); [reflexivity|]. unfold vdot; cbn; lra.
Qed.

(** A sphere sticking out through the nearer wall of a cubic box *)
Lemma cube_box : exists b, box_of_sides (V3 3 0 0) (V3 0 3 0) (V3 0 0 3) = Some b.
Proof. apply (proj1 (box_constructible _ _ _)). intros x y z H. unfold lincomb, vzero in H. cbn in H. injection H; intros. lra. Qed.
Lemma sphere_out : exists i b pk s, sphere (1 / 2) = Some i /\ reachable 1 [upright (1 / 4) (3 / 2) (3 / 2)] b i [DoWall AX true] pk /\ right_handed (pk_box pk) /\
  Forall (fun s => rotation (sh_rot s)) (shapes_of pk) /\ (forall a, in_totalRange i <= box_height (pk_box pk) a) /\
  sticks_out (wall_after [DoWall AX true]) (pk_box pk) i (ball_body (1 / 2)) (shapes_of pk) s.
Proof.
  destruct (sphere_exists (1 / 2)) as (i&M); [lra|]. destruct cube_box as (b&Hb). pose proof (sphere_lawful _ i M) as L.
  assert (C : constructed b) by (do 3 eexists; exact Hb).
  assert (I : in_box b (sh_pos (upright (1 / 4) (3 / 2) (3 / 2)))).
  { cbn. replace (V3 (1 / 4) (3 / 2) (3 / 2)) with (lincomb (V3 3 0 0) (V3 0 3 0) (V3 0 0 3) (1 / 12) (1 / 2) (1 / 2)) by (apply vec_ext; cbn; lra). eapply sided_in_box; eauto; lra. }
  destruct (single i _ _ _ b L C I) as (pk&p&Rc&S&B&P&Ps&K). destruct (sphere_made _ i M) as (_&E).
  exists i, b, pk, (SiteWall 0 0 AX false). split; [exact M|]. split; [exact Rc|]. rewrite S, B.
  split; [apply (sided_right _ _ _ _ Hb); unfold vdot; cbn; lra|]. split; [constructor; [apply mid_rotation|constructor]|]. split.
  { intros a. rewrite E. cbn [in_totalRange]. apply height_ge; [apply (sided_valid _ _ _ _ Hb)|lra|]. rewrite (sided_volume _ _ _ _ Hb), (sided_face _ _ _ _ Hb).
    replace (Rabs _) with 27 by (unfold vdot; cbn; rewrite Rabs_right; lra). destruct a; unfold vnorm2, vdot; cbn; lra. }
  split; [cbn; lia|]. split; [rewrite E; cbn; lia|]. split; [reflexivity|]. cbv zeta. exists (V3 (- (1 / 2)) 0 0). split.
  - unfold ball_body, vnorm. rewrite (sqrt_of _ (1 / 2)); [lra|lra|unfold vnorm2, vdot; cbn; field].
  - unfold outside. cbn [sw_axis sw_far sw_i sw_c nth].
    replace (vadd (site_position i (upright (1 / 4) (3 / 2) (3 / 2)) 0) (V3 (- (1 / 2)) 0 0)) with (lincomb (V3 3 0 0) (V3 0 3 0) (V3 0 0 3) (- (1 / 12)) (1 / 2) (1 / 2)) by (rewrite E; apply vec_ext; cbn; lra).
    rewrite (sided_relative _ _ _ _ Hb). cbn. lra.
Qed.
