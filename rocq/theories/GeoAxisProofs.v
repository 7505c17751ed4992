From Coq Require Import Reals ZArith List Bool Lia Lra Psatz.
From Verif Require Import OptModel TextModel TextProofs GeomModel GeomProofs PbcModel PackSpec RotSpec SegModel SegSpec SegProofs SegErrorProofs ShapesModel ShapesSpec ShapesExamples GeoModel GeoSpec GeoProofs GeoShapesProofs.
Import ListNotations.
Open Scope R_scope.

(** *** Normalisation *)
Lemma text_eqb_o name : text_eqb name o_name = true -> name = o_name. Proof. apply text_eqb_eq. Qed.
Lemma find_move t name ps : find_point name (moveNamedPoints t ps) = option_map (fun p => vadd p t) (find_point name ps).
Proof. induction ps as [|[n v] ps IH]; [reflexivity|]. cbn [moveNamedPoints map find_point fst snd]. destruct (text_eqb n name); [reflexivity|exact IH]. Qed.
Lemma vsub_zero v : vsub v vzero = v. Proof. apply vec_ext; cbn; ring. Qed.
Lemma mid_vec v : mvec mid v = v. Proof. apply vec_ext; cbn; ring. Qed.
Lemma normalize_spec g : g_data g <> [] -> Forall (fun d => 0 < bd_radius d) (g_data g) ->
  let g' := normalizeMassCentre g in
  exists c, middle (g_data g) c /\ g_data g' = map (fun d => Bead (vsub (bd_pos d) c) (bd_radius d)) (g_data g) /\ middle (g_data g') vzero /\
    g_primary g' = g_primary g /\ g_secondary g' = g_secondary g /\ g_volume g' = g_volume g /\ g_origin g' = vsub (g_origin g) c /\
    (forall name, getNamedPoint g' name = option_map (fun p => vsub p c) (getNamedPoint g name)) /\ normalizeMassCentre g' = g'.
Proof.
  intros N F. cbv zeta. set (c := calculateMassCentre (g_data g)). pose proof (mass_centre_middle (g_data g) N F) as M. fold c in M.
  set (data' := map (fun d => Bead (vsub (bd_pos d) c) (bd_radius d)) (g_data g)).
  assert (M' : middle data' vzero).
  { intros a. specialize (M a). rewrite <- M. unfold data', Rsum. generalize c as c0. intros c0. clear. induction (g_data g) as [|d l IH]; cbn [map fold_right]; [reflexivity|]. rewrite IH. cbn [bd_radius bd_pos]. rewrite vget_vsub. f_equal. f_equal. destruct a; cbn; ring. }
  assert (N' : data' <> []) by (unfold data'; destruct (g_data g); [congruence|discriminate]).
  assert (F' : Forall (fun d => 0 < bd_radius d) data') by (unfold data'; rewrite Forall_forall in *; intros d D; apply in_map_iff in D; destruct D as (e&<-&E); apply (F e E)).
  exists c. split; [exact M|]. split; [reflexivity|]. split; [exact M'|]. split; [reflexivity|]. split; [reflexivity|]. split; [reflexivity|]. split; [reflexivity|]. split.
  - intros name. unfold getNamedPoint. cbn [normalizeMassCentre g_points g_origin]. fold c. destruct (text_eqb name o_name) eqn:E.
    + unfold getGeometricOrigin. cbn [default_shape sh_rot g_origin normalizeMassCentre option_map]. rewrite !mid_vec. reflexivity.
    + rewrite find_move. destruct (find_point name (g_points g)) as [p|]; [|reflexivity]. cbn [option_map]. apply f_equal. apply vec_ext; cbn; ring.
  - assert (Z : calculateMassCentre data' = vzero) by (apply (middle_unique data'); auto; apply mass_centre_middle; auto).
    unfold normalizeMassCentre at 1. cbv zeta. cbn [g_data g_primary g_secondary g_origin g_volume g_points normalizeMassCentre]. fold c. fold data'. rewrite Z. unfold normalizeMassCentre. fold c. fold data'.
    f_equal.
    + transitivity (map (fun d => d) data'); [|apply map_id]. apply map_ext. intros [p r]. cbn. rewrite vsub_zero. reflexivity.
    + apply vsub_zero.
    + unfold moveNamedPoints. rewrite map_map. apply map_ext. intros [n v]. cbn. f_equal. apply vec_ext; cbn; ring.
Qed.
(** *** The flip axis *)
Lemma reference_cross v : v <> vzero -> vcross v (reference_direction v) <> vzero.
Proof.
  intros N E. apply N. unfold reference_direction in E.
  assert (A : forall x y, Rabs x <= Rabs y -> y = 0 -> x = 0) by (intros x y L ->; rewrite Rabs_R0 in L; pose proof (Rabs_pos x); apply Rabs_eq_0 || idtac; unfold Rabs in L; destruct (Rcase_abs x); lra).
  assert (P : forall w : vec, vcross v w = vzero -> vy v * vz w - vz v * vy w = 0 /\ vz v * vx w - vx v * vz w = 0 /\ vx v * vy w - vy v * vx w = 0).
  { intros w H. pose proof (f_equal vx H) as X. pose proof (f_equal vy H) as Y. pose proof (f_equal vz H) as Z. cbn in X, Y, Z. auto. }
  destruct (Rltb (Rabs (vy v)) (Rabs (vx v))) eqn:E1; [destruct (Rltb (Rabs (vz v)) (Rabs (vy v))) eqn:E2|destruct (Rltb (Rabs (vz v)) (Rabs (vx v))) eqn:E2];
    apply P in E; cbn [vx vy vz] in E; destruct E as (X&Y&Z).
  - apply Rltb_true in E2. apply vec_ext; cbn; [lra|lra|]. apply (A _ (vy v)); lra.
  - apply Rltb_true in E1. apply vec_ext; cbn; [lra| |lra]. apply (A _ (vx v)); lra.
  - apply Rltb_true in E2. apply vec_ext; cbn; [lra|lra|]. apply (A _ (vx v)); lra.
  - apply Rltb_false in E2. apply vec_ext; cbn; [|lra|lra]. apply (A _ (vz v)); lra.
Qed.
Lemma cross_perp_left u v : vdot (vcross u v) u = 0. Proof. unfold vdot, vcross; cbn; ring. Qed.
Lemma rotated_nonzero m v : rotation m -> v <> vzero -> mvec m v <> vzero.
Proof. intros (R&_) N E. apply N, vnorm2_zero. unfold vnorm2. rewrite <- (R v v), E. unfold vdot; cbn; ring. Qed.
Lemma normalized_unit v u : normalized v = Some u -> vnorm u = 1 /\ v = vscale (vnorm v) u /\ vnorm v <> 0.
Proof.
  intros H. pose proof (normalized_spec v) as S. rewrite H in S. destruct S as (N&U&E). split; [exact U|]. split; [exact E|]. intros Z. apply N, vnorm2_zero. rewrite <- vnorm_sqr, Z. ring.
Qed.
Lemma vdot_scale_left k u v : vdot (vscale k u) v = k * vdot u v. Proof. unfold vdot; cbn; ring. Qed.
Lemma flip_spec (g : geometry bead) s p : rotation (sh_rot s) -> g_primary g = Some p -> vnorm p = 1 ->
  exists f, findFlipAxis (getPrimaryAxis g) (getSecondaryAxis g) s = Some f /\
    match g_secondary g with
    | Some q => f = mvec (sh_rot s) q
    | None => vnorm f = 1 /\ vdot f (mvec (sh_rot s) p) = 0
    end.
Proof.
  intros Rot P U. unfold findFlipAxis, getPrimaryAxis, getSecondaryAxis. rewrite P. cbn [has_axis default_shape sh_rot]. destruct (g_secondary g) as [q|]; cbn [has_axis]; [eauto|].
  rewrite mid_vec. assert (N : p <> vzero). { intros ->. assert (vnorm vzero = 0) by (unfold vnorm; replace (vnorm2 vzero) with 0 by (unfold vnorm2, vdot; cbn; ring); apply sqrt_0). lra. }
  pose proof (rotated_nonzero (sh_rot s) _ Rot (reference_cross p N)) as NN. set (c := vcross p (reference_direction p)) in *.
  pose proof (normalized_spec (mvec (sh_rot s) c)) as S. destruct (normalized (mvec (sh_rot s) c)) as [f|] eqn:E; [|contradiction]. exists f. split; [reflexivity|]. destruct (normalized_unit _ _ E) as (U1&U2&U3). split; [exact U1|].
  assert (Z : vdot (mvec (sh_rot s) c) (mvec (sh_rot s) p) = 0) by (rewrite (proj1 Rot); apply cross_perp_left).
  rewrite U2, vdot_scale_left in Z. apply Rmult_integral in Z. destruct Z; [contradiction|assumption].
Qed.
(** *** Polyspherocylinders *)
Lemma rods_pass_spec data : spherocylindersOverlap data = false <-> rods_pass data.
Proof.
  assert (T : forall d1 d2, rods_touch d1 d2 = false <-> rd_radius d1 + rd_radius d2 <= segment_distance2 (vsub (rd_pos d1) (rd_half d1)) (vadd (rd_pos d1) (rd_half d1)) (vsub (rd_pos d2) (rd_half d2)) (vadd (rd_pos d2) (rd_half d2)) * (1 + / 10 ^ 12)).
  { intros d1 d2. unfold rods_touch. apply Rltb_false. }
  unfold spherocylindersOverlap. split.
  - intros H i j d1 d2 L X Y. apply T. destruct (rods_touch d1 d2) eqn:TT; [|reflexivity]. assert (some_pair rods_touch data = true) by (apply some_pair_spec; exists i, j, d1, d2; auto). congruence.
  - intros H. destruct (some_pair rods_touch data) eqn:E; [|reflexivity]. apply some_pair_spec in E. destruct E as (i&j&x&y&L&X&Y&TT). specialize (H i j x y L X Y). apply T in H. congruence.
Qed.
Lemma rods_volume_spec data : (rods_volume data <> None <-> rods_pass data) /\ forall v, rods_volume data = Some v -> v = Rsum (fun d => ball_volume (rd_radius d) + cylinder_volume (rd_radius d) (2 * vnorm (rd_half d))) data.
Proof.
  unfold rods_volume. pose proof (rods_pass_spec data) as O. destruct (spherocylindersOverlap data) eqn:E.
  - split; [|discriminate]. split; [congruence|]. intros H. apply O in H. discriminate.
  - split; [split; [intros _; apply O; reflexivity|discriminate]|]. intros v H. injection H as <-. rewrite (fold_sum rod_volume), Rplus_0_l. apply Rsum_ext. intros d _. unfold rod_volume, ball_volume, cylinder_volume. cbv zeta. field.
Qed.
Lemma rods_geometry_spec data primary secondary origin volume custom :
  ((exists g, polyspherocylinder_geometry data primary secondary origin volume custom = Some g) <->
   data <> [] /\ Forall (fun d => 0 < rd_radius d) data /\ proper_axes primary secondary /\ (volume = None -> rods_pass data) /\
   NoDup (names custom) /\ forall i letter, (i < length data)%nat -> In letter [111; 98; 101]%Z -> ~ In (numbered letter i) (names custom)) /\
  forall g, polyspherocylinder_geometry data primary secondary origin volume custom = Some g ->
    g_data g = data /\ direction_of primary (g_primary g) /\ direction_of secondary (g_secondary g) /\ g_origin g = origin /\
    g_volume g = (match volume with Some v => v | None => Rsum (fun d => ball_volume (rd_radius d) + cylinder_volume (rd_radius d) (2 * vnorm (rd_half d))) data end) /\
    forall name v, getNamedPoint g name = Some v <-> point_called (rod_point data) origin custom name v.
Proof.
  unfold polyspherocylinder_geometry. destruct (forallb (fun d => Rltb 0 (rd_radius d)) data) eqn:F.
  2: { split; [split; [intros (?&?); discriminate|]|discriminate]. intros (_&P&_). apply positive_rods in P. congruence. }
  apply positive_rods in F. fold (rod_own data).
  destruct (make_spec data primary secondary origin volume (rods_volume data) (rod_own data) custom (rod_own_distinct data)) as (M1&M2). destruct (rods_volume_spec data) as (V1&V2). split.
  - rewrite M1, V1.
    assert (W : (forall n, In n (names (rod_own data)) -> ~ In n (names custom)) <-> forall i letter, (i < length data)%nat -> In letter [111; 98; 101]%Z -> ~ In (numbered letter i) (names custom)).
    { split.
      - intros H i letter L I. apply H. destruct (nth_error data i) as [d|] eqn:D; [|apply nth_error_None in D; lia]. destruct I as [<-|[<-|[<-|[]]]].
        + apply (in_map fst) with (x := (numbered 111 i, rd_pos d)). apply rod_own_in. exists i, d. auto.
        + apply (in_map fst) with (x := (numbered 98 i, vsub (rd_pos d) (rd_half d))). apply rod_own_in. exists i, d. auto.
        + apply (in_map fst) with (x := (numbered 101 i, vadd (rd_pos d) (rd_half d))). apply rod_own_in. exists i, d. split; auto.
      - intros H n I. apply in_map_iff in I. destruct I as ([m v]&<-&I). apply rod_own_in in I. destruct I as (i&d&D&I). assert (L : (i < length data)%nat) by (apply nth_error_Some; congruence).
        cbn [fst]. destruct I as [(->&_)|[(->&_)|(->&_)]]; apply H; cbn; auto. }
    rewrite W. tauto.
  - intros g H. destruct (M2 g H) as (A&B&C&D&E&G&N). split; [exact A|]. split; [exact B|]. split; [exact C|]. split; [exact D|]. split.
    + destruct volume as [v|]; [congruence|]. apply V2. symmetry. exact E.
    + apply named_point_spec; [exact N| |exact D]. intros n v. rewrite G, in_app_iff, rod_own_in. tauto.
Qed.
(** *** Defects *)
Definition wide_rods : list rod := [Rod vzero (V3 0 0 1) 1; Rod (V3 (3 / 2) 0 0) (V3 0 0 1) 1].
Definition thin_rods : list rod := [Rod vzero (V3 0 0 (1 / 100)) (1 / 10); Rod (V3 (2 / 5) 0 0) (V3 0 0 (1 / 100)) (1 / 10)].
Lemma eps_small : 0 < / 10 ^ 12 < / 100.
Proof. split; [apply Rinv_0_lt_compat, pow_lt; lra|]. apply Rinv_lt_contravar; lra. Qed.
Lemma rods_pair (data : list rod) d1 d2 : data = [d1; d2] -> (rods_pass data <-> rods_touch d1 d2 = false).
Proof.
  intros ->. unfold rods_touch. rewrite Rltb_false. split.
  - intros H. apply (H 0 1 d1 d2)%nat; auto.
  - intros H i j x y L X Y. destruct i as [|[|i]], j as [|[|j]]; try lia; cbn in X, Y; try discriminate; try (destruct j; discriminate).
    injection X as <-. injection Y as <-. exact H.
Qed.
Lemma wide_accepted : (exists d1 d2, wide_rods = [d1; d2] /\ rods_intersect d1 d2) /\ exists g, polyspherocylinder_geometry wide_rods None None vzero None [] = Some g.
Proof.
  split.
  - exists (Rod vzero (V3 0 0 1) 1), (Rod (V3 (3 / 2) 0 0) (V3 0 0 1) 1). split; [reflexivity|]. exists vzero, (V3 (3 / 2) 0 0). split; [apply ShapesProofs.middle|]. split; [apply ShapesProofs.middle|].
    unfold distance. cbn [rd_radius]. apply Rle_lt_trans with (3 / 2); [|lra]. unfold vnorm. replace (vnorm2 (vsub vzero (V3 (3 / 2) 0 0))) with ((3 / 2) * (3 / 2)) by (unfold vnorm2, vdot; cbn; field). rewrite sqrt_square; lra.
  - apply rods_geometry_spec. split; [discriminate|]. split; [repeat constructor; cbn; lra|]. split; [repeat split; auto; discriminate|]. split.
    + intros _. apply (rods_pair wide_rods (Rod vzero (V3 0 0 1) 1) (Rod (V3 (3 / 2) 0 0) (V3 0 0 1) 1) eq_refl). unfold rods_touch. apply Rltb_false. cbn [rd_radius rd_pos rd_half].
      destruct (attained (vsub vzero (V3 0 0 1)) (vadd vzero (V3 0 0 1)) (vsub (V3 (3 / 2) 0 0) (V3 0 0 1)) (vadd (V3 (3 / 2) 0 0) (V3 0 0 1))) as (p&q&P&Q&->).
      destruct P as (x&X&->), Q as (y&Y&->). pose proof eps_small as E.
      match goal with |- _ <= ?n * _ => assert (L : 9 / 4 <= n) end.
      { unfold vnorm2, vdot. cbn. pose proof (Rle_0_sqr (2 * x - 2 * y)) as Sq. unfold Rsqr in Sq. nra. }
      match goal with |- _ <= ?n * _ => set (k := n) in * end. clearbody k. nra.
    + split; [constructor|]. intros i letter _ _ [].
Qed.
Lemma thin_refused : (exists d1 d2, thin_rods = [d1; d2] /\ ~ rods_intersect d1 d2) /\ polyspherocylinder_geometry thin_rods None None vzero None [] = None.
Proof.
  split.
  - exists (Rod vzero (V3 0 0 (1 / 100)) (1 / 10)), (Rod (V3 (2 / 5) 0 0) (V3 0 0 (1 / 100)) (1 / 10)). split; [reflexivity|]. intros (p&q&P&Q&L). cbn [rd_pos rd_half rd_radius] in *.
    destruct P as (x&X&->), Q as (y&Y&->). unfold distance in L. match type of L with vnorm ?v < _ => assert (G : 4 / 25 <= vnorm2 v); [|pose proof (vnorm_sqr v); pose proof (vnorm_nonneg v); set (k := vnorm v) in *; clearbody k; nra] end.
    unfold vnorm2, vdot. cbn. pose proof (Rle_0_sqr (1 / 50 * x - 1 / 50 * y)) as Sq. unfold Rsqr in Sq. nra.
  - destruct (polyspherocylinder_geometry thin_rods None None vzero None []) as [g|] eqn:E; [|reflexivity]. exfalso.
    destruct (rods_geometry_spec thin_rods None None vzero None []) as ((H&_)&_). destruct (H (ex_intro _ g E)) as (_&_&_&P&_). specialize (P eq_refl).
    apply (rods_pair thin_rods (Rod vzero (V3 0 0 (1 / 100)) (1 / 10)) (Rod (V3 (2 / 5) 0 0) (V3 0 0 (1 / 100)) (1 / 10)) eq_refl) in P. unfold rods_touch in P. apply Rltb_false in P. cbn [rd_radius rd_pos rd_half] in P.
    destruct (attained (vsub vzero (V3 0 0 (1 / 100))) (vadd vzero (V3 0 0 (1 / 100))) (vsub (V3 (2 / 5) 0 0) (V3 0 0 (1 / 100))) (vadd (V3 (2 / 5) 0 0) (V3 0 0 (1 / 100)))) as (p&q&A&B&C). rewrite C in P.
    destruct A as (x&X&->), B as (y&Y&->). pose proof eps_small as Ep.
    match type of P with _ <= ?n * _ => assert (L : n <= 17 / 100) end.
    { unfold vnorm2, vdot. cbn. assert (-1 <= x - y <= 1) by lra. nra. }
    match type of P with _ <= ?n * _ => assert (L0 : 0 <= n) end. { apply vnorm2_nonneg. }
    match type of P with _ <= ?n * _ => set (k := n) in * end. clearbody k. nra.
Qed.
Lemma secondary_throws : exists g, polyspherocylinder_geometry [Rod vzero (V3 0 0 1) 1] (Some (V3 0 0 1)) None vzero None [] = Some g /\
  has_axis (rods_getSecondaryAxis g default_shape) = None /\ forall s, findFlipAxis (getPrimaryAxis g) (rods_getSecondaryAxis g) s = None.
Proof.
  assert (X : exists g, polyspherocylinder_geometry [Rod vzero (V3 0 0 1) 1] (Some (V3 0 0 1)) None vzero None [] = Some g).
  { apply rods_geometry_spec. split; [discriminate|]. split; [repeat constructor; cbn; lra|]. split; [split; [discriminate|split; [intros E; injection E as E; lra|discriminate]]|]. split; [|split; [constructor|intros i letter _ _ []]].
    intros _ i j d1 d2 L X Y. destruct i, j as [|[|j]]; try lia; cbn in Y; try discriminate; destruct j; discriminate. }
  destruct X as (g&E). exists g. split; [exact E|]. destruct (rods_geometry_spec [Rod vzero (V3 0 0 1) 1] (Some (V3 0 0 1)) None vzero None []) as (_&M). destruct (M g E) as (_&P&S&_).
  unfold has_axis, rods_getSecondaryAxis, findFlipAxis, getPrimaryAxis. destruct (g_primary g); [|destruct P]. destruct (g_secondary g); [destruct S|]. auto.
Qed.
Lemma origin_shadowed : exists g p, p <> vzero /\ polysphere_geometry [Bead vzero 1] None None vzero None [([111%Z], p)] = Some g /\ In ([111%Z], p) (getNamedPoints g) /\ getNamedPoint g [111%Z] = Some vzero.
Proof.
  assert (X : exists g, polysphere_geometry [Bead vzero 1] None None vzero None [([111%Z], V3 1 0 0)] = Some g).
  { apply polysphere_geometry_spec. split; [discriminate|]. split; [repeat constructor; cbn; lra|]. split; [repeat split; auto; discriminate|]. split; [|split].
    - intros _ i j d1 d2 L X Y. destruct i, j as [|[|j]]; try lia; cbn in Y; try discriminate; destruct j; discriminate.
    - repeat constructor. intros [].
    - intros i L [H|[]]. unfold numbered in H. discriminate. }
  destruct X as (g&E). exists g, (V3 1 0 0). split; [intros H; injection H as H; lra|]. split; [exact E|]. split.
  - destruct (polysphere_geometry_spec [Bead vzero 1] None None vzero None [([111%Z], V3 1 0 0)]) as (_&M). destruct (M g E) as (_&_&_&_&_&P&_). rewrite P. right. apply in_or_app. right. left. reflexivity.
  - apply (polysphere_named _ _ _ _ _ _ g E). left. auto.
Qed.
