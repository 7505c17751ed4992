From Coq Require Import Reals List Bool Arith Lia Lra Psatz.
From Verif Require Import OptModel GeomModel GeomProofs SegErrorProofs GeoModel GeoProofs RotSpec RotProofs PackModel XcModel XcSpec XcPrimProofs XcRoundProofs XcOpProofs XcMaxProofs XcBuildProofs XcExamples CollideModel CollideSpec CollideProofs CollideBodyProofs.
Import ListNotations.
Open Scope R_scope.

(** The hull of points *)
Definition dot_at (p : vec) : entry := Entry (xc_point (V3 0 0 0)) (vadd vzero p) mid.
Definition dot_solid (p : vec) : solid := Solid (point_body (V3 0 0 0)) any_direction (vadd vzero p) mid.
Definition cloud (ps : list vec) : xc := xc_max (map dot_at ps).
Definition cloud_body (ps : list vec) : body := hull (map there (map dot_solid ps)).
Definition cloud_script (ps : list vec) : list command := flat_map (fun p => [Point 0 0 0; Move (vx p) (vy p) (vz p)]) (rev ps) ++ [Wrap (length ps)].
Definition best (p : vec) (ps : list vec) (n : vec) : vec := fold_left (fun v q => if Rltb (vdot v n) (vdot q n) then q else v) ps p.
Lemma dot_support p n : entry_support (dot_at p) n = Some p.
Proof. unfold entry_support, dot_at. cbn [en_geometry en_pos en_rot xc_point xc_support obind]. f_equal. apply vec_ext; cbn; ring. Qed.
Lemma cloud_support p ps n : xc_support (cloud (p :: ps)) n = Some (best p ps n).
Proof.
  unfold cloud. cbn [xc_max xc_support map max_support]. rewrite dot_support. cbn [obind]. unfold best. revert p. induction ps as [|q ps IH]; intros p; cbn [map fold_left]; [reflexivity|]. cbn [obind]. rewrite dot_support. cbn [obind]. apply IH.
Qed.
Lemma dots_good cov fil ps : Forall2 (good cov fil) (map dot_at ps) (map dot_solid ps).
Proof.
  induction ps as [|p ps IH]; cbn [map]; constructor; auto. destruct (point_ok (V3 0 0 0)) as (A&B&C). split; [reflexivity|]. split; [reflexivity|]. split; [apply identity_rotation|]. split; [exact A|]. split; [intros _; apply B; reflexivity|]. intros _. split; [cbn; lra|exact C].
Qed.
Lemma cloud_ok p1 p2 p3 ps : let l := p1 :: p2 :: p3 :: ps in
  shaped any_direction (cloud l) (cloud_body l) /\ covered (cloud l) (cloud_body l) /\ filled (cloud l) (cloud_body l) /\ 0 <= xc_insphere (cloud l).
Proof.
  intros l. destruct (max_ok True True (map dot_at l) (map dot_solid l) (dots_good _ _ _)) as ((A&B&C)&D&F); [discriminate|]. destruct F as (F1&F2); [exact I| |discriminate|].
  - intros s S. apply in_map_iff in S. destruct S as (p&<-&_). cbn. unfold point_body. reflexivity.
  - split; [|split; [apply D; exact I|split; assumption]]. split; [exact A|]. split; [exact B|]. intros n N. apply C. split; [exact N|]. intros s S. apply in_map_iff in S. destruct S as (p&<-&_).
    unfold there_ok, dot_solid. cbn [so_rot so_ok]. replace (mvec (mtrans mid) n) with n by (apply vec_ext; cbn; ring). exact N.
Qed.
Lemma cloud_has ps p : In p ps -> cloud_body ps p.
Proof. intros H. apply (hull_contains _ (there (dot_solid p))); [apply in_map, in_map; exact H|]. exists (V3 0 0 0). split; [reflexivity|]. apply vec_ext; cbn; ring. Qed.
Lemma cloud_below ps n t : (forall p, In p ps -> vdot p n <= t) -> forall y, cloud_body ps y -> vdot y n <= t.
Proof.
  intros H y Y. apply (Y (fun y => vdot y n <= t)); [apply half_space_convex|]. intros b x B X. apply in_map_iff in B. destruct B as (s&<-&S). apply in_map_iff in S. destruct S as (p&<-&P).
  destruct X as (u&U&->). cbn in U. unfold point_body in U. subst u. specialize (H p P). unfold vdot in *. cbn. lra.
Qed.
(** A single point and a hull *)
Definition pair_geometries (ps : list vec) (i : nat) : xc := match i with O => xc_point vzero | _ => cloud ps end.
Definition pair_bodies (ps : list vec) (i : nat) : body := match i with O => point_body vzero | _ => cloud_body ps end.
Lemma pair_good p1 p2 p3 ps : cloud_body (p1 :: p2 :: p3 :: ps) vzero -> good_shape (pair_geometries (p1 :: p2 :: p3 :: ps)) (pair_bodies (p1 :: p2 :: p3 :: ps)).
Proof.
  intros Z i. destruct i as [|i]; cbn [pair_geometries pair_bodies].
  - destruct (point_ok vzero) as (A&B&C). split; [exact A|]. split; [apply B; reflexivity|]. split; [exact C|]. split; [reflexivity|cbn; lra].
  - destruct (cloud_ok p1 p2 p3 ps) as (A&B&C&D). auto.
Qed.
Definition pair_entries (ps : list vec) (pos : vec) : entry * entry := (Entry (xc_point vzero) vzero mid, Entry (cloud ps) pos mid).
Lemma pair_support p ps pos n : difference_support (fst (pair_entries (p :: ps) pos)) (snd (pair_entries (p :: ps) pos)) n = Some (vadd (best p ps n) pos).
Proof.
  unfold difference_support, pair_entries, entry_support. cbn [fst snd en_geometry en_rot en_pos]. replace (mvec (mtrans mid) n) with n by (apply vec_ext; cbn; ring). rewrite cloud_support. cbn [PbcModel.obind obind xc_point xc_support]. f_equal. apply vec_ext; cbn; ring.
Qed.

(** A hit although the bodies are apart *)
Definition six : list vec := [V3 4 0 (-4); V3 1 0 3; V3 (-2) (-2) 3; V3 (-2) 2 3; V3 3 0 0; V3 (-2) 0 (-4)].
Definition six_pos : vec := V3 (-2) 0 (-2).
Definition six_v0 : vec := V3 (-5 / 3) 0 (-11 / 6).
Lemma six_contains : cloud_body six vzero.
Proof.
  pose proof (fun p H => cloud_has six p H) as H. assert (C : convex (cloud_body six)) by apply hull_convex.
  pose proof (C _ _ (2 / 3) (H (V3 4 0 (-4)) ltac:(cbn; tauto)) (H (V3 (-2) 0 (-4)) ltac:(cbn; tauto)) ltac:(lra)) as A.
  pose proof (C _ _ (1 / 2) (H (V3 (-2) (-2) 3) ltac:(cbn; tauto)) (H (V3 (-2) 2 3) ltac:(cbn; tauto)) ltac:(lra)) as B.
  pose proof (C _ _ (1 / 3) (H (V3 1 0 3) ltac:(cbn; tauto)) B ltac:(lra)) as B2. pose proof (C _ _ (4 / 7) A B2 ltac:(lra)) as R.
  match type of R with cloud_body _ ?v => replace v with vzero in R by (apply vec_ext; cbn; field) end. exact R.
Qed.
Ltac choose := unfold best; cbn [fold_left]; repeat match goal with |- context [if Rltb (vdot ?a ?n) (vdot ?b ?n) then _ else _] =>
  first [rewrite (proj2 (Rltb_true (vdot a n) (vdot b n))) by (unfold vdot; cbn; lra)|rewrite (proj2 (Rltb_false (vdot a n) (vdot b n))) by (unfold vdot; cbn; lra)] end.
Section Run.
Variables (support : vec -> option vec) (ps : list vec) (p pos : vec).
Hypothesis is_best : forall n, support n = Some (vadd (best p ps n) pos).
Lemma picks n v w : best p ps n = v -> vadd v pos = w -> support n = Some w. Proof. intros <- <-. apply is_best. Qed.
End Run.
Ltac not_zero := apply not_true_iff_false; intros QZ; apply is_zero_spec in QZ; cbn in QZ; destruct QZ as (QX&QY&QZ); apply Rabs_def2 in QX; apply Rabs_def2 in QY; apply Rabs_def2 in QZ; unfold ZERO in *; lra.
Ltac vnum := apply vec_ext; cbn; field.
Lemma six_hit s fuel1 fuel2 t : (forall n, s n = Some (vadd (best (V3 4 0 (-4)) (tl six) n) six_pos)) -> t < 1 / 100 -> intersect_difference s six_v0 (S fuel1) (S (S fuel2)) t = Answer true.
Proof.
  intros B T. pose proof (picks s (tl six) (V3 4 0 (-4)) six_pos B) as P. unfold tl, six in P.
  assert (S1 : s (vneg six_v0) = Some (V3 (-1) 0 1)) by (apply (P _ (V3 1 0 3)); [unfold six_v0; choose; reflexivity|vnum]).
  assert (C1 : vcross (V3 (-1) 0 1) six_v0 = V3 0 (-7 / 2) 0) by (unfold six_v0; vnum).
  assert (S2 : s (V3 0 (-7 / 2) 0) = Some (V3 (-4) (-2) 1)) by (apply (P _ (V3 (-2) (-2) 3)); [choose; reflexivity|vnum]).
  assert (C2 : vcross (vsub (V3 (-1) 0 1) six_v0) (vsub (V3 (-4) (-2) 1) six_v0) = V3 (17 / 3) (-17 / 2) (-4 / 3)) by (unfold six_v0; vnum).
  assert (S3 : s (V3 (17 / 3) (-17 / 2) (-4 / 3)) = Some (V3 2 0 (-6))) by (apply (P _ (V3 4 0 (-4))); [choose; reflexivity|vnum]).
  assert (N1 : portal_normal (V3 (-1) 0 1, V3 (-4) (-2) 1, V3 2 0 (-6)) = V3 14 (-21) 6) by (unfold portal_normal; vnum).
  assert (S4 : s (V3 14 (-21) 6) = Some (V3 1 0 (-2))) by (apply (P _ (V3 3 0 0)); [choose; reflexivity|vnum]).
  unfold intersect_difference, start. rewrite S1.
  replace (is_vector_zero six_v0) with false by (symmetry; unfold six_v0; not_zero). rewrite (proj2 (Rleb_false _ _)) by (unfold vdot, six_v0; cbn; lra). rewrite C1.
  replace (is_vector_zero (V3 0 (-7 / 2) 0)) with false by (symmetry; not_zero). rewrite S2. rewrite (proj2 (Rleb_false _ _)) by (unfold vdot; cbn; lra). rewrite C2. rewrite (proj2 (Rltb_false _ _)) by (unfold vdot, six_v0; cbn; lra).
  cbn [find_portal]. rewrite S3. rewrite (proj2 (Rleb_false _ _)) by (unfold vdot; cbn; lra). rewrite (proj2 (Rltb_false _ 0)) by (unfold vdot, six_v0; cbn; lra). rewrite (proj2 (Rltb_false _ 0)) by (unfold vdot, six_v0; cbn; lra).
  cbn [refine_portal]. rewrite N1. rewrite (proj2 (Rleb_false _ _)) by (unfold vdot; cbn; lra). rewrite S4.
  assert (NZ : V3 14 (-21) 6 <> vzero) by (intros E; injection E; lra). destruct (normalized_some _ NZ) as (u&Eu&U&Q). rewrite Eu.
  assert (K : vnorm (V3 14 (-21) 6) <= 26) by (apply norm_bound; [lra|]; unfold vnorm2, vdot; cbn; lra). assert (KP : 0 < vnorm (V3 14 (-21) 6)) by (apply vnorm_pos; exact NZ). set (k := vnorm (V3 14 (-21) 6)) in *.
  assert (QD : forall d, vdot d (V3 14 (-21) 6) = k * vdot d u) by (intros d; rewrite Q at 1; vring).
  rewrite (proj2 (Rleb_false _ _)) by (pose proof (QD (V3 1 0 (-2))) as H; unfold vdot in H at 1; cbn in H; nra).
  rewrite (proj2 (Rleb_false _ _)) by (pose proof (QD (vsub (V3 1 0 (-2)) (V3 2 0 (-6)))) as H; unfold vdot in H at 1; cbn in H; nra). cbn [orb].
  unfold next_portal. rewrite (proj2 (Rltb_false 0 _)) by (unfold vdot, six_v0; cbn; lra). rewrite (proj2 (Rltb_false 0 _)) by (unfold vdot, six_v0; cbn; lra).
  rewrite (proj2 (Rleb_true _ _)) by (unfold portal_normal, vdot; cbn; lra). reflexivity.
Qed.
Lemma dot_centre p : entry_centre (dot_at p) = p. Proof. apply vec_ext; cbn; ring. Qed.
Lemma six_overlap fuel1 fuel2 : xc_overlapBetween (S fuel1) (S (S fuel2)) (pair_geometries six) vzero mid 0 six_pos mid 1 (hardcoded vzero) = Answer true.
Proof.
  unfold xc_overlapBetween. cbn [pair_geometries hardcoded bc_translation].
  destruct (cloud_ok (V3 4 0 (-4)) (V3 1 0 3) (V3 (-2) (-2) 3) [V3 (-2) 2 3; V3 3 0 0; V3 (-2) 0 (-4)]) as (_&C&F&NI). fold six in C, F, NI.
  assert (C4 : 4 <= xc_circumsphere (cloud six)).
  { specialize (C _ (cloud_has six (V3 4 0 (-4)) ltac:(cbn; tauto))). destruct (Rle_or_lt 4 (xc_circumsphere (cloud six))) as [L|L]; [exact L|]. exfalso. pose proof (vnorm_nonneg (V3 4 0 (-4))).
    assert (K0 : 0 <= xc_circumsphere (cloud six)) by lra. apply (norm_bound _ (xc_circumsphere (cloud six)) ltac:(lra)) in C. set (k := xc_circumsphere (cloud six)) in *. unfold vnorm2, vdot in C. cbn [vx vy vz] in C. nra. }
  assert (I2 : xc_insphere (cloud six) <= 2).
  { destruct (Rle_or_lt (xc_insphere (cloud six)) 2) as [L|L]; [exact L|exfalso]. set (r := xc_insphere (cloud six)) in *.
    assert (cloud_body six (V3 (- ((r + 2) / 2)) 0 0)) as H. { apply F. fold r. apply norm_bound_lt; [lra|]. unfold vnorm2, vdot. cbn [vx vy vz]. clearbody r. nra. }
    clearbody r. apply (cloud_below six (V3 (-1) 0 0) 2) in H; [unfold vdot in H; cbn in H; lra|]. intros p P. cbn in P. repeat destruct P as [<-|P]; try contradiction; unfold vdot; cbn; lra. }
  cbn [xc_circumsphere xc_insphere xc_point]. set (k := xc_circumsphere (cloud six)) in *. set (r := xc_insphere (cloud six)) in *.
  replace (vnorm2 (vsub (vadd six_pos vzero) vzero)) with 8 by (unfold vnorm2, vdot; cbn; ring). rewrite (proj2 (Rltb_false _ _)) by nra. rewrite (proj2 (Rltb_false _ _)) by nra.
  unfold intersect. match goal with |- intersect_difference _ ?v _ _ _ = _ => replace v with six_v0 end.
  - apply six_hit; [|lra]. intros n. replace (vadd six_pos vzero) with six_pos by vnum. apply (pair_support (V3 4 0 (-4)) (tl six) six_pos n).
  - unfold six_v0. vnum.
Qed.
Lemma six_apart : ~ near (1 / 4) (placed (pair_bodies six 0) vzero mid) (placed (pair_bodies six 1) (vadd six_pos (bc_translation (hardcoded vzero) vzero six_pos)) mid).
Proof.
  intros (x&y&(x0&X&->)&(y0&Y&->)&L). cbn [pair_bodies] in X, Y. unfold point_body in X. subst x0. apply norm_bound in L; [|lra].
  apply (cloud_below six (V3 3 0 2) 9) in Y; [|intros p P; cbn in P; repeat destruct P as [<-|P]; try contradiction; unfold vdot; cbn; lra].
  destruct y0 as [a b c]. unfold vnorm2, vdot in *. cbn in Y, L. assert (Q : (a - 2) * (a - 2) + b * b + (c - 2) * (c - 2) <= 1 / 16) by lra. pose proof (Rle_0_sqr (2 * (a - 2) - 3 * (c - 2))) as S1. unfold Rsqr in S1. set (x := a - 2) in *. set (z := c - 2) in *. assert (W : 3 * x + 2 * z <= -1) by (unfold x, z; lra). clearbody x z. nra.
Qed.
Lemma six_good : good_shape (pair_geometries six) (pair_bodies six). Proof. apply pair_good. exact six_contains. Qed.

(** A hit after the portal has been refined once, without ties *)
Definition five : list vec := [V3 1 0 3; V3 2 (-2) 1; V3 (-1) 1 (-1); V3 3 0 1; V3 (-1) 0 (-1)].
Definition five_v0 : vec := V3 (4 / 5) (- (1 / 5)) (3 / 5).
Lemma five_contains : cloud_body five vzero.
Proof.
  pose proof (fun p H => cloud_has five p H) as H. assert (C : convex (cloud_body five)) by apply hull_convex.
  pose proof (C _ _ (1 / 2) (H (V3 2 (-2) 1) ltac:(cbn; tauto)) (H (V3 3 0 1) ltac:(cbn; tauto)) ltac:(lra)) as A.
  pose proof (C _ _ (1 / 2) A (H (V3 (-1) 1 (-1)) ltac:(cbn; tauto)) ltac:(lra)) as B.
  pose proof (C _ _ (3 / 4) (H (V3 1 0 3) ltac:(cbn; tauto)) (H (V3 (-1) 0 (-1)) ltac:(cbn; tauto)) ltac:(lra)) as D. pose proof (C _ _ (3 / 5) B D ltac:(lra)) as R.
  match type of R with cloud_body _ ?v => replace v with vzero in R by (apply vec_ext; cbn; field) end. exact R.
Qed.
Lemma five_good : good_shape (pair_geometries five) (pair_bodies five). Proof. apply pair_good. exact five_contains. Qed.
Section Five.
Variable s : vec -> option vec.
Hypothesis is_best : forall n, s n = Some (vadd (best (V3 1 0 3) (tl five) n) vzero).
Lemma five_picks n v : best (V3 1 0 3) (tl five) n = v -> s n = Some v.
Proof. intros E. rewrite is_best, E. f_equal. vnum. Qed.
Lemma five_start : start s five_v0 = Begun (V3 (-1) 1 (-1)) (V3 2 (-2) 1) (V3 (-12 / 5) (-6 / 5) (9 / 5)).
Proof.
  assert (S1 : s (vneg five_v0) = Some (V3 (-1) 1 (-1))) by (apply five_picks; unfold five_v0, five, tl; choose; reflexivity).
  assert (C1 : vcross (V3 (-1) 1 (-1)) five_v0 = V3 (2 / 5) (- (1 / 5)) (-3 / 5)) by (unfold five_v0; vnum).
  assert (S2 : s (V3 (2 / 5) (- (1 / 5)) (-3 / 5)) = Some (V3 2 (-2) 1)) by (apply five_picks; unfold five, tl; choose; reflexivity).
  unfold start. rewrite S1. replace (is_vector_zero five_v0) with false by (symmetry; unfold five_v0; not_zero). rewrite (proj2 (Rleb_false _ _)) by (unfold vdot, five_v0; cbn; lra). rewrite C1.
  replace (is_vector_zero (V3 (2 / 5) (- (1 / 5)) (-3 / 5))) with false by (symmetry; not_zero). rewrite S2. rewrite (proj2 (Rleb_false _ _)) by (unfold vdot; cbn; lra). rewrite (proj2 (Rltb_false _ _)) by (unfold vdot, five_v0; cbn; lra).
  f_equal; unfold five_v0; vnum.
Qed.
Lemma five_find fuel : find_portal s five_v0 (S fuel) (V3 (-1) 1 (-1)) (V3 2 (-2) 1) (V3 (-12 / 5) (-6 / 5) (9 / 5)) = Found (V3 (-1) 1 (-1), V3 2 (-2) 1, V3 1 0 3).
Proof.
  assert (S3 : s (V3 (-12 / 5) (-6 / 5) (9 / 5)) = Some (V3 1 0 3)) by (apply five_picks; unfold five, tl; choose; reflexivity).
  cbn [find_portal]. rewrite S3. rewrite (proj2 (Rleb_false _ _)) by (unfold vdot; cbn; lra). rewrite (proj2 (Rltb_false _ 0)) by (unfold vdot, five_v0; cbn; lra). rewrite (proj2 (Rltb_false _ 0)) by (unfold vdot, five_v0; cbn; lra). reflexivity.
Qed.
Lemma five_first p : first_portal s five_v0 p -> p = (V3 (-1) 1 (-1), V3 2 (-2) 1, V3 1 0 3).
Proof. intros (fuel&v1&v2&n&E&F). rewrite five_start in E. injection E as <- <- <-. destruct fuel as [|fuel]; [discriminate|]. rewrite five_find in F. congruence. Qed.
Lemma five_normal : portal_normal (V3 (-1) 1 (-1), V3 2 (-2) 1, V3 1 0 3) = V3 (-10) (-8) 3. Proof. unfold portal_normal; vnum. Qed.
Lemma five_fourth : s (V3 (-10) (-8) 3) = Some (V3 (-1) 0 (-1)). Proof. apply five_picks; unfold five, tl; choose; reflexivity. Qed.
Lemma five_next : next_portal five_v0 (V3 (-1) 1 (-1), V3 2 (-2) 1, V3 1 0 3) (V3 (-1) 0 (-1)) = (V3 (-1) 1 (-1), V3 (-1) 0 (-1), V3 1 0 3).
Proof. unfold next_portal. rewrite (proj2 (Rltb_false 0 _)) by (unfold vdot, five_v0; cbn; lra). rewrite (proj2 (Rltb_true 0 _)) by (unfold vdot, five_v0; cbn; lra). reflexivity. Qed.
Lemma five_inside : ~ outside_portal (V3 (-1) 1 (-1), V3 (-1) 0 (-1), V3 1 0 3). Proof. unfold outside_portal, vdot. cbn. lra. Qed.
Lemma five_visited p : visited s five_v0 p -> p = (V3 (-1) 1 (-1), V3 2 (-2) 1, V3 1 0 3) \/ p = (V3 (-1) 1 (-1), V3 (-1) 0 (-1), V3 1 0 3).
Proof.
  induction 1 as [p F|p v4 _ IH O E]; [left; apply five_first; exact F|]. destruct IH as [->| ->].
  - right. rewrite five_normal, five_fourth in E. injection E as <-. apply five_next.
  - contradiction (five_inside O).
Qed.
Lemma five_no_ties : no_ties s five_v0.
Proof.
  intros p v4 V O E. destruct (five_visited p V) as [->| ->]; [|contradiction (five_inside O)]. rewrite five_normal, five_fourth in E. injection E as <-. unfold tied, vdot, five_v0. cbn. lra.
Qed.
End Five.
Definition five_entries := pair_entries five vzero.
Lemma five_centre : vsub (entry_centre (Entry (pair_geometries five 1) vzero mid)) (entry_centre (Entry (pair_geometries five 0) vzero mid)) = five_v0.
Proof. unfold five_v0. vnum. Qed.
Lemma five_free : no_ties (difference_support (Entry (pair_geometries five 0) vzero mid) (Entry (pair_geometries five 1) vzero mid)) (vsub (entry_centre (Entry (pair_geometries five 1) vzero mid)) (entry_centre (Entry (pair_geometries five 0) vzero mid))).
Proof. rewrite five_centre. apply five_no_ties. intros n. apply (pair_support (V3 1 0 3) (tl five) vzero n). Qed.
Lemma five_hit fuel1 fuel2 : intersect (S fuel1) (S (S fuel2)) (Entry (pair_geometries five 0) vzero mid) (Entry (pair_geometries five 1) vzero mid) (/ 10 ^ 12) = Answer true.
Proof.
  unfold intersect. rewrite five_centre. set (s := difference_support _ _). assert (B : forall n, s n = Some (vadd (best (V3 1 0 3) (tl five) n) vzero)) by (intros n; apply (pair_support (V3 1 0 3) (tl five) vzero n)). clearbody s.
  unfold intersect_difference. rewrite five_start, five_find by exact B. cbn [refine_portal]. rewrite five_normal, five_fourth by exact B. rewrite (proj2 (Rleb_false _ _)) by (unfold vdot; cbn; lra).
  assert (NZ : V3 (-10) (-8) 3 <> vzero) by (intros E; injection E; lra). destruct (normalized_some _ NZ) as (u&Eu&U&Q). rewrite Eu.
  assert (K : vnorm (V3 (-10) (-8) 3) <= 14) by (apply norm_bound; [lra|]; unfold vnorm2, vdot; cbn; lra). assert (KP : 0 < vnorm (V3 (-10) (-8) 3)) by (apply vnorm_pos; exact NZ). set (k := vnorm (V3 (-10) (-8) 3)) in *.
  assert (QD : forall d, vdot d (V3 (-10) (-8) 3) = k * vdot d u) by (intros d; rewrite Q at 1; vring).
  rewrite (proj2 (Rleb_false _ _)) by (pose proof (QD (V3 (-1) 0 (-1))) as H; unfold vdot in H at 1; cbn in H; nra).
  rewrite (proj2 (Rleb_false _ _)) by (pose proof (QD (vsub (V3 (-1) 0 (-1)) (V3 1 0 3))) as H; unfold vdot in H at 1; cbn [vx vy vz vsub] in H; assert (/ 10 ^ 12 < 1 / 100) by lra; nra). cbn [orb].
  rewrite five_next. rewrite (proj2 (Rleb_true _ _)) by (unfold portal_normal, vdot; cbn; lra). reflexivity.
Qed.
Lemma five_overlap fuel1 fuel2 : xc_overlapBetween (S fuel1) (S (S fuel2)) (pair_geometries five) vzero mid 0 vzero mid 1 (hardcoded vzero) = Answer true.
Proof.
  unfold xc_overlapBetween. cbn [hardcoded bc_translation]. replace (vadd vzero vzero) with vzero by vnum. replace (vnorm2 (vsub vzero vzero)) with 0 by (unfold vnorm2, vdot; cbn; ring).
  rewrite (proj2 (Rltb_false _ _)) by apply Rle_0_sqr. destruct (Rltb 0 _); [reflexivity|]. apply five_hit.
Qed.
Lemma five_still : vadd vzero (bc_translation (hardcoded vzero) vzero vzero) = vzero. Proof. cbn [hardcoded bc_translation]. vnum. Qed.

(** Two balls and a wall *)
Definition balls_geometries (i : nat) : xc := XC (fun n => u <- normalized n ;; Some (vscale 1 u)) vzero 1 1.
Lemma balls_good : good_shape balls_geometries (fun _ => ball_body 1).
Proof.
  intros i. destruct (sphere_ok 1 (balls_geometries i)) as (_&A&B&C).
  - unfold xc_sphere. rewrite (proj2 (Rltb_true _ _)) by lra. reflexivity.
  - split; [exact A|]. split; [exact B|]. split; [exact C|]. split; [unfold ball_body; rewrite vnorm_zero; lra|cbn; lra].
Qed.
Lemma balls_range : xc_getRangeRadius balls_geometries [] < vnorm (vsub (vadd (V3 3 0 0) (bc_translation (hardcoded vzero) vzero (V3 3 0 0))) vzero).
Proof.
  unfold xc_getRangeRadius. cbn [List.length Nat.max seq fold_left balls_geometries xc_circumsphere]. rewrite (proj2 (Rltb_true 0 1)) by lra. apply Rnot_le_lt. intros H. apply norm_bound in H; [|lra]. unfold vnorm2, vdot in H. cbn in H. lra.
Qed.
Lemma balls_wall_touches : exists x, placed (ball_body 1) (V3 5 1 1) mid x /\ vdot (vsub x (V3 0 0 0)) (V3 0 0 1) <= 0.
Proof. exists (vadd (mvec mid (V3 0 0 (-1))) (V3 5 1 1)). split; [exists (V3 0 0 (-1)); split; [|reflexivity]; unfold ball_body; apply norm_bound; [lra|]; unfold vnorm2, vdot; cbn; lra|]. unfold vdot. cbn. lra. Qed.
