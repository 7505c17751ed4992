From Coq Require Import Reals List Bool Lra Psatz.
From Verif Require Import GeomModel GeomProofs OptModel BoxModel PbcModel PackModel InterModel RotSpec SegModel SegSpec SegProofs SegErrorProofs SegExamples ShapesModel ShapesSpec.
Import ListNotations.
Open Scope R_scope.

Lemma on_segment_swap p q x : on_segment p q x -> on_segment q p x.
Proof. intros (t&T&->). exists (1 - t). split; [lra|]. apply vec_ext; cbn; ring. Qed.
Lemma vsub_swap p q : vsub p q = vneg (vsub q p).
Proof. apply vec_ext; cbn; ring. Qed.
Lemma spread_swap p q r s : spread q p s r = spread p q r s.
Proof. unfold spread. f_equal. apply vec_ext; cbn; ring. Qed.
Lemma vnorm2_swap p q : vnorm2 (vsub p q) = vnorm2 (vsub q p).
Proof. unfold vnorm2, vdot; cbn; ring. Qed.
Lemma vnorm_swap p q : vnorm (vsub p q) = vnorm (vsub q p).
Proof. unfold vnorm. rewrite vnorm2_swap. reflexivity. Qed.
Lemma error_bound_swap p q r s err : error_bound p q r s err -> error_bound q p s r err.
Proof.
  intros [k K S A C D|k K S A C|E1 E2].
  - rewrite (vnorm_swap q p), (vnorm_swap s r). rewrite <- (spread_swap p q r s) in S, D. rewrite (vnorm2_swap q p) in A. rewrite (vnorm2_swap s r) in C.
    apply crossed; assumption.
  - rewrite (vnorm_swap q p), (vnorm_swap s r), <- (spread_swap p q r s). rewrite <- (spread_swap p q r s) in S. rewrite (vnorm2_swap q p) in A. rewrite (vnorm2_swap s r) in C.
    apply parallel; try assumption. destruct A; auto.
  - apply points; auto.
Qed.
(** The test with both shortcuts *)
Definition shortcuts (d2 inner2 outer2 segments2 : R) : bool := if Rltb d2 inner2 then true else if Rleb outer2 d2 then false else Rltb segments2 inner2.
Lemma sqr_lt x y : 0 <= x -> 0 < y -> (x * x < y * y <-> x < y).
Proof. intros X Y. split; intros H; nra. Qed.
Lemma on_rod_far c h p : on_rod c h p -> vnorm (vsub p c) <= vnorm h.
Proof.
  intros (t&T&->). replace (vsub (vadd (vsub c h) (vscale t (vsub (vadd c h) (vsub c h)))) c) with (vscale (2 * t - 1) h) by (apply vec_ext; cbn; ring).
  rewrite vnorm_scale. pose proof (vnorm_nonneg h). assert (Rabs (2 * t - 1) <= 1) by (apply Rabs_le; lra). nra.
Qed.
Lemma middle c h : on_rod c h c.
Proof. exists (1 / 2). split; [lra|]. apply vec_ext; cbn; field. Qed.
Lemma sqrt_seg p q r s x : 0 < x -> (segment_distance2 p q r s < x * x <-> sqrt (segment_distance2 p q r s) < x).
Proof.
  intros X. assert (N : 0 <= segment_distance2 p q r s) by apply vnorm2_nonneg. rewrite <- (sqrt_sqrt (segment_distance2 p q r s) N) at 1. apply sqr_lt; [apply sqrt_pos|exact X].
Qed.
Section Rods.
Variables c1 h1 c2 h2 s11 s12 s21 s22 : vec.
Variable r : R.
Hypothesis PR : 0 < r.
Hypothesis On1 : forall p, on_segment s11 s12 p <-> on_rod c1 h1 p.
Hypothesis On2 : forall p, on_segment s21 s22 p <-> on_rod c2 h2 p.
Let test (outer : R) : bool := shortcuts (vnorm2 (vsub c2 c1)) (r * r) (outer * outer) (segment_distance2 s11 s12 s21 s22).
Lemma seg_points : exists p q, on_rod c1 h1 p /\ on_rod c2 h2 q /\ sqrt (segment_distance2 s11 s12 s21 s22) = distance p q.
Proof. destruct (attained s11 s12 s21 s22) as (p&q&P&Q&E). exists p, q. split; [apply On1, P|]. split; [apply On2, Q|]. rewrite E. reflexivity. Qed.
Lemma shortcuts_exact outer : outer = r + vnorm h1 + vnorm h2 ->
  (test outer = true <-> distance c1 c2 < r \/ sqrt (segment_distance2 s11 s12 s21 s22) < r).
Proof.
  intros O. unfold test, shortcuts. pose proof (vnorm_nonneg h1). pose proof (vnorm_nonneg h2). assert (OP : 0 < outer) by lra.
  rewrite <- (vnorm_sqr (vsub c2 c1)). unfold distance. rewrite (vnorm_swap c1 c2). pose proof (vnorm_nonneg (vsub c2 c1)) as DN.
  destruct (Rltb (vnorm (vsub c2 c1) * vnorm (vsub c2 c1)) (r * r)) eqn:E1.
  - apply Rltb_true in E1. apply (proj1 (sqr_lt _ r DN PR)) in E1. split; [intros _; left; exact E1|reflexivity].
  - apply Rltb_false in E1. destruct (Rleb (outer * outer) (vnorm (vsub c2 c1) * vnorm (vsub c2 c1))) eqn:E2.
    + apply Rleb_true in E2. split; [discriminate|]. intros [D|D]; exfalso; [nra|].
      destruct seg_points as (p&q&P&Q&E). apply on_rod_far in P, Q. unfold distance in E.
      assert (outer <= vnorm (vsub c2 c1)) by nra.
      pose proof (vnorm_triangle (vsub p c1) (vsub q p)) as T1. pose proof (vnorm_triangle (vadd (vsub p c1) (vsub q p)) (vsub c2 q)) as T2.
      replace (vadd (vadd (vsub p c1) (vsub q p)) (vsub c2 q)) with (vsub c2 c1) in T2 by (apply vec_ext; cbn; ring).
      rewrite (vnorm_swap q p) in T1. rewrite (vnorm_swap c2 q) in T2. lra.
    + rewrite Rltb_true. rewrite sqrt_seg by exact PR. split; auto. intros [D|D]; auto. exfalso. nra.
Qed.
Lemma rods_sound outer : outer = r + vnorm h1 + vnorm h2 -> test outer = true -> closer_than c1 h1 c2 h2 r.
Proof.
  intros O T. apply (shortcuts_exact outer O) in T. destruct T as [T|T].
  - exists c1, c2. split; [apply middle|]. split; [apply middle|exact T].
  - destruct seg_points as (p&q&P&Q&E). exists p, q. split; [exact P|]. split; [exact Q|]. lra.
Qed.
Lemma rods_complete outer err p q : outer = r + vnorm h1 + vnorm h2 -> error_bound s11 s12 s21 s22 err -> on_rod c1 h1 p -> on_rod c2 h2 q -> distance p q + err < r -> test outer = true.
Proof.
  intros O B P Q D. apply (shortcuts_exact outer O). right. pose proof (close s11 s12 s21 s22 err p q B (proj2 (On1 p) P) (proj2 (On2 q) Q)). lra.
Qed.
End Rods.
Lemma rotation_norm m v : rotation m -> vnorm (mvec m v) = vnorm v.
Proof. intros [H _]. unfold vnorm, vnorm2. rewrite H. reflexivity. Qed.
Lemma half_axis_norm l m : 0 <= l -> rotation m -> vnorm (half_axis l m) = l / 2.
Proof.
  intros L R. unfold half_axis. rewrite (rotation_norm m _ R). unfold vnorm, vnorm2, vdot; cbn. replace (0 * 0 + 0 * 0 + l / 2 * (l / 2)) with (l / 2 * (l / 2)) by ring. apply sqrt_square. lra.
Qed.
Lemma cap_begin l p m : getCapCentre l (-1) (Shape p m) = vsub p (half_axis l m).
Proof. unfold getCapCentre, half_axis. apply vec_ext; cbn; field. Qed.
Lemma cap_end l p m : getCapCentre l 1 (Shape p m) = vadd p (half_axis l m).
Proof. unfold getCapCentre, half_axis. apply vec_ext; cbn; field. Qed.
Lemma sphero_inv l r i : spherocylinder l r = Some i -> 0 <= l /\ 0 < r /\ in_overlap i = spherocylinder_overlap l r /\ in_wall i = spherocylinder_wall l r /\ in_centres i = [] /\
  in_totalRange i = 2 * r + l /\ in_rangeRadius i = 2 * r + l.
Proof.
  unfold spherocylinder. destruct (Rleb 0 l) eqn:E1; [|discriminate]. destruct (Rltb 0 r) eqn:E2; [|discriminate]. cbn. intros H. injection H as <-.
  apply Rleb_true in E1. apply Rltb_true in E2. cbn. auto 10.
Qed.
Lemma sphero_test l r p1 m1 c1 p2 m2 c2 bc : 0 < r -> spherocylinder_overlap l r p1 m1 c1 p2 m2 c2 bc =
  shortcuts (vnorm2 (vsub (image bc p1 p2) p1)) (2 * r * (2 * r)) ((2 * r + l) * (2 * r + l))
    (segment_distance2 (vsub p1 (half_axis l m1)) (vadd p1 (half_axis l m1)) (vsub (image bc p1 p2) (half_axis l m2)) (vadd (image bc p1 p2) (half_axis l m2))).
Proof.
  intros R. unfold spherocylinder_overlap, shortcuts, image. cbv zeta. rewrite !cap_begin, !cap_end. replace (4 * r * r) with (2 * r * (2 * r)) by ring.
  replace ((2 * r + l) ^ 2) with ((2 * r + l) * (2 * r + l)) by ring. reflexivity.
Qed.
Section Sphero.
Variables l r : R.
Variable i : interaction.
Hypothesis Made : spherocylinder l r = Some i.
Variables p1 p2 : vec.
Variables m1 m2 : mat.
Variables c1 c2 : nat.
Variable bc : bcond.
Hypothesis Rot1 : rotation m1.
Hypothesis Rot2 : rotation m2.
Lemma sphero_shortcuts : in_overlap i p1 m1 c1 p2 m2 c2 bc = true <-> distance p1 (image bc p1 p2) < 2 * r \/
  sqrt (segment_distance2 (vsub p1 (half_axis l m1)) (vadd p1 (half_axis l m1)) (vsub (image bc p1 p2) (half_axis l m2)) (vadd (image bc p1 p2) (half_axis l m2))) < 2 * r.
Proof.
  destruct (sphero_inv l r i Made) as (L&R&O&_). rewrite O, sphero_test by exact R. apply (shortcuts_exact p1 (half_axis l m1) (image bc p1 p2) (half_axis l m2)).
  - lra.
  - intros p. reflexivity.
  - intros p. reflexivity.
  - rewrite !half_axis_norm by assumption. field.
Qed.
Lemma sphero_sound : in_overlap i p1 m1 c1 p2 m2 c2 bc = true -> closer_than p1 (half_axis l m1) (image bc p1 p2) (half_axis l m2) (2 * r).
Proof.
  destruct (sphero_inv l r i Made) as (L&R&O&_). rewrite O, sphero_test by exact R. apply (rods_sound p1 (half_axis l m1) (image bc p1 p2) (half_axis l m2)).
  - lra.
  - intros p. reflexivity.
  - intros p. reflexivity.
  - rewrite !half_axis_norm by assumption. field.
Qed.
Lemma sphero_complete err p q : rods_error p1 (half_axis l m1) (image bc p1 p2) (half_axis l m2) err -> on_rod p1 (half_axis l m1) p -> on_rod (image bc p1 p2) (half_axis l m2) q ->
  distance p q + err < 2 * r -> in_overlap i p1 m1 c1 p2 m2 c2 bc = true.
Proof.
  destruct (sphero_inv l r i Made) as (L&R&O&_). rewrite O, sphero_test by exact R. apply (rods_complete p1 (half_axis l m1) (image bc p1 p2) (half_axis l m2)).
  - lra.
  - intros x. reflexivity.
  - intros x. reflexivity.
  - rewrite !half_axis_norm by assumption. field.
Qed.
End Sphero.

Lemma poly_inv rods i : polyspherocylinder rods = Some i -> rods <> [] /\ (forall d, In d rods -> 0 < rd_radius d) /\ in_overlap i = polyspherocylinder_overlap rods /\ in_wall i = polyspherocylinder_wall rods /\
  in_centres i = map rd_pos rods /\ in_totalRange i = getTotalRangeRadius (map rd_pos rods) (polyspherocylinder_range rods) /\ in_rangeRadius i = polyspherocylinder_range rods.
Proof.
  unfold polyspherocylinder. destruct (Nat.eqb (length rods) 0) eqn:E1; [discriminate|]. destruct (forallb _ rods) eqn:E2; [|discriminate]. cbn. intros H. injection H as <-.
  split; [intros ->; discriminate|]. split; [|cbn; auto 10]. rewrite forallb_forall in E2. intros d D. apply Rltb_true, E2, D.
Qed.
Section Poly.
Variable rods : list rod.
Variable i : interaction.
Hypothesis Made : polyspherocylinder rods = Some i.
Variables p1 p2 : vec.
Variables m1 m2 : mat.
Variables c1 c2 : nat.
Variables d1 d2 : rod.
Variable bc : bcond.
Hypothesis Rot1 : rotation m1.
Hypothesis Rot2 : rotation m2.
Hypothesis Rod1 : nth_error rods c1 = Some d1.
Hypothesis Rod2 : nth_error rods c2 = Some d2.
Let h1 := mvec m1 (rd_half d1).
Let h2 := mvec m2 (rd_half d2).
Let r := rd_radius d1 + rd_radius d2.
Lemma poly_radius : 0 < r.
Proof. destruct (poly_inv rods i Made) as (_&R&_). pose proof (R d1 (nth_error_In _ _ Rod1)). pose proof (R d2 (nth_error_In _ _ Rod2)). unfold r. lra. Qed.
Lemma poly_test : in_overlap i p1 m1 c1 p2 m2 c2 bc =
  shortcuts (vnorm2 (vsub (image bc p1 p2) p1)) (r * r) ((r + vnorm (rd_half d1) + vnorm (rd_half d2)) * (r + vnorm (rd_half d1) + vnorm (rd_half d2)))
    (segment_distance2 (vadd p1 h1) (vsub p1 h1) (vadd (image bc p1 p2) h2) (vsub (image bc p1 p2) h2)).
Proof.
  destruct (poly_inv rods i Made) as (_&_&O&_). rewrite O. unfold polyspherocylinder_overlap, rod_at. cbv zeta.
  rewrite (nth_error_nth rods c1 _ Rod1), (nth_error_nth rods c2 _ Rod2). unfold shortcuts, circumsphereRadius, image.
  replace (rd_radius d1 + vnorm (rd_half d1) + (rd_radius d2 + vnorm (rd_half d2))) with (r + vnorm (rd_half d1) + vnorm (rd_half d2)) by (unfold r; ring). reflexivity.
Qed.
Lemma poly_on c h p : on_segment (vadd c h) (vsub c h) p <-> on_rod c h p.
Proof. split; apply on_segment_swap. Qed.
Lemma poly_shortcuts : in_overlap i p1 m1 c1 p2 m2 c2 bc = true <-> distance p1 (image bc p1 p2) < r \/
  sqrt (segment_distance2 (vadd p1 h1) (vsub p1 h1) (vadd (image bc p1 p2) h2) (vsub (image bc p1 p2) h2)) < r.
Proof.
  rewrite poly_test. apply (shortcuts_exact p1 h1 (image bc p1 p2) h2); [exact poly_radius|apply poly_on|apply poly_on|].
  unfold h1, h2. rewrite !rotation_norm by assumption. reflexivity.
Qed.
Lemma poly_sound : in_overlap i p1 m1 c1 p2 m2 c2 bc = true -> closer_than p1 h1 (image bc p1 p2) h2 r.
Proof.
  rewrite poly_test. apply (rods_sound p1 h1 (image bc p1 p2) h2); [exact poly_radius|apply poly_on|apply poly_on|].
  unfold h1, h2. rewrite !rotation_norm by assumption. reflexivity.
Qed.
Lemma poly_complete err p q : rods_error p1 h1 (image bc p1 p2) h2 err -> on_rod p1 h1 p -> on_rod (image bc p1 p2) h2 q -> distance p q + err < r -> in_overlap i p1 m1 c1 p2 m2 c2 bc = true.
Proof.
  intros E. rewrite poly_test. apply (rods_complete p1 h1 (image bc p1 p2) h2 _ _ _ _ r poly_radius (poly_on p1 h1) (poly_on _ h2)).
  - unfold h1, h2. rewrite !rotation_norm by assumption. reflexivity.
  - apply error_bound_swap, E.
Qed.
End Poly.

Lemma sphero_detected l r i p1 p2 m1 m2 c1 c2 bc err : spherocylinder l r = Some i -> rotation m1 -> rotation m2 ->
  rods_error p1 (half_axis l m1) (image bc p1 p2) (half_axis l m2) err -> closer_than p1 (half_axis l m1) (image bc p1 p2) (half_axis l m2) (2 * r - err) ->
  in_overlap i p1 m1 c1 p2 m2 c2 bc = true.
Proof. intros M R1 R2 E (p&q&P&Q&D). refine (sphero_complete l r i M p1 p2 m1 m2 c1 c2 bc R1 R2 err p q E P Q _). apply (Rplus_lt_compat_r err) in D. replace (2 * r - err + err) with (2 * r) in D by ring. exact D. Qed.

Lemma poly_detected rods i p1 p2 m1 m2 c1 c2 d1 d2 bc err : polyspherocylinder rods = Some i -> rotation m1 -> rotation m2 -> nth_error rods c1 = Some d1 -> nth_error rods c2 = Some d2 ->
  rods_error p1 (mvec m1 (rd_half d1)) (image bc p1 p2) (mvec m2 (rd_half d2)) err ->
  closer_than p1 (mvec m1 (rd_half d1)) (image bc p1 p2) (mvec m2 (rd_half d2)) (rd_radius d1 + rd_radius d2 - err) -> in_overlap i p1 m1 c1 p2 m2 c2 bc = true.
Proof. intros M R1 R2 D1 D2 E (p&q&P&Q&D). refine (poly_complete rods i M p1 p2 m1 m2 c1 c2 d1 d2 bc R1 R2 D1 D2 err p q E P Q _). apply (Rplus_lt_compat_r err) in D. replace (rd_radius d1 + rd_radius d2 - err + err) with (rd_radius d1 + rd_radius d2) in D by ring. exact D. Qed.
