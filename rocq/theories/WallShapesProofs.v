(** Spheres, polyspheres, spherocylinders and polyspherocylinders: wall tests, total ranges, laws. *)
From Coq Require Import Reals ZArith List Bool Lia Lra Psatz.
From Verif Require Import GeomModel GeomProofs BoxModel PbcModel PackModel PackSpec InterModel InterProofs RotSpec SegSpec SegErrorProofs ShapesModel ShapesSpec ShapesProofs WallSpec WallProofs.
Import ListNotations.
Open Scope R_scope.

(** *** Balls and capsules against planes *)
Lemma unit_dot_le w x : vnorm w = 1 -> - vnorm x <= vdot w x.
Proof. intros U. pose proof (cauchy_schwarz w x) as C. rewrite U, Rmult_1_l in C. pose proof (Rle_abs (- vdot w x)) as A. rewrite Rabs_Ropp in A. lra. Qed.
Lemma unit_dot_self w : vnorm w = 1 -> vdot w w = 1.
Proof. intros U. change (vdot w w) with (vnorm2 w). rewrite <- vnorm_sqr, U. ring. Qed.
Lemma capsule_wall h r p o w : vnorm w = 1 -> 0 < r ->
  ((if Rltb (vdot w (vsub (vsub p h) o)) r then true else if Rltb (vdot w (vsub (vadd p h) o)) r then true else false) = true <->
   exists x, capsule h r x /\ vdot w (vsub (vadd p x) o) < 0).
Proof.
  intros U P. pose proof (unit_dot_self w U) as WW. rewrite !vdot_sub, !vdot_add.
  assert (Ball : forall t, 0 <= t <= 1 -> vdot w p + (2 * t - 1) * vdot w h - vdot w o < r -> exists x, capsule h r x /\ vdot w (vsub (vadd p x) o) < 0).
  { intros t T L. exists (vsub (vscale (2 * t - 1) h) (vscale r w)). split.
    - exists (vscale (2 * t - 1) h). split; [exists t; split; [exact T|apply vec_ext; cbn; ring]|].
      replace (vsub (vsub (vscale (2 * t - 1) h) (vscale r w)) (vscale (2 * t - 1) h)) with (vscale (- r) w) by (apply vec_ext; cbn; ring).
      rewrite vnorm_scale, U, Rabs_Ropp, Rabs_pos_eq by lra. lra.
    - rewrite vdot_sub, vdot_add, vdot_sub. replace (vdot w (vscale (2 * t - 1) h)) with ((2 * t - 1) * vdot w h) by (unfold vdot; cbn; ring).
      replace (vdot w (vscale r w)) with (r * vdot w w) by (unfold vdot; cbn; ring). rewrite WW. lra. }
  split.
  - destruct (Rltb _ r) eqn:E1; [intros _; apply Rltb_true in E1; apply (Ball 0); lra|].
    destruct (Rltb _ r) eqn:E2 in |- *; [intros _; apply Rltb_true in E2; apply (Ball 1); lra|discriminate].
  - intros (x&(y&(t&T&->)&N)&L). rewrite vdot_sub, vdot_add in L.
    pose proof (unit_dot_le w _ U : - vnorm (vsub x (vadd (vsub vzero h) (vscale t (vsub (vadd vzero h) (vsub vzero h))))) <= _) as D.
    replace (vdot w (vsub x (vadd (vsub vzero h) (vscale t (vsub (vadd vzero h) (vsub vzero h)))))) with (vdot w x - (2 * t - 1) * vdot w h) in D by (unfold vdot; cbn; ring).
    destruct (Rltb (vdot w p - vdot w h - vdot w o) r) eqn:E1; [reflexivity|]. destruct (Rltb (vdot w p + vdot w h - vdot w o) r) eqn:E2; [reflexivity|].
    exfalso. apply Rltb_false in E1. apply Rltb_false in E2. nra.
Qed.
Lemma ball_wall r p o w : vnorm w = 1 -> 0 < r -> (Rltb (vdot w (vsub p o)) r = true <-> exists x, vnorm x <= r /\ vdot w (vsub (vadd p x) o) < 0).
Proof.
  intros U P. pose proof (unit_dot_self w U) as WW. rewrite Rltb_true, vdot_sub. split.
  - intros L. exists (vscale (- r) w). split; [rewrite vnorm_scale, U, Rabs_Ropp, Rabs_pos_eq by lra; lra|].
    rewrite vdot_sub, vdot_add. replace (vdot w (vscale (- r) w)) with (- r * vdot w w) by (unfold vdot; cbn; ring). rewrite WW. lra.
  - intros (x&N&L). rewrite vdot_sub, vdot_add in L. pose proof (unit_dot_le w x U). lra.
Qed.
Lemma capsule_norm h r x : capsule h r x -> vnorm x <= vnorm h + r.
Proof.
  intros (y&Y&N). apply on_rod_far in Y. replace (vsub y vzero) with y in Y by (apply vec_ext; cbn; ring).
  replace x with (vadd y (vsub x y)) by (apply vec_ext; cbn; ring). pose proof (vnorm_triangle y (vsub x y)). lra.
Qed.

(** *** Ranges *)
Lemma max_of_ge x l : In x l -> x <= max_of l.
Proof.
  assert (G : forall l m, m <= fold_left (fun m y => if Rltb m y then y else m) l m /\ forall x, In x l -> x <= fold_left (fun m y => if Rltb m y then y else m) l m).
  { clear. induction l as [|y l IH]; cbn; intros m; [split; [lra|contradiction]|].
    destruct (Rltb m y) eqn:E; [apply Rltb_true in E|apply Rltb_false in E]; destruct (IH (if Rltb m y then y else m)) as [H1 H2].
    - rewrite (proj2 (Rltb_true m y) E) in *. split; [lra|]. intros x [<-|X]; auto.
    - rewrite (proj2 (Rltb_false m y) E) in *. split; [lra|]. intros x [<-|X]; auto. lra. }
  destruct l as [|y l]; [contradiction|]. destruct (G l y) as [H1 H2]. cbn [max_of]. intros [<-|X]; auto.
Qed.
Lemma total_range_centre cs range c : In c cs -> vnorm c + range / 2 <= getTotalRangeRadius cs range / 2.
Proof.
  intros I. unfold getTotalRangeRadius. destruct cs as [|c0 cs]; [contradiction|]. destruct (max_radius_spec (c0 :: cs) 0) as (_&H&_).
  assert (L : vnorm c <= sqrt (max_radius2 (c0 :: cs) 0)) by (unfold vnorm; apply sqrt_le_1_alt, H, I). lra.
Qed.
Lemma centre_bound m c x r range cs : rotation m -> In c cs -> vnorm x <= r -> r <= range / 2 -> vnorm (vadd (mvec m c) x) <= getTotalRangeRadius cs range / 2.
Proof.
  intros Rot I X Rg. pose proof (vnorm_triangle (mvec m c) x) as T. rewrite (rotation_norm m c Rot) in T. pose proof (total_range_centre cs range c I). lra.
Qed.
Lemma zero_centre m x : vadd (mvec m vzero) x = x.
Proof. rewrite mvec_zero. apply vec_ext; cbn; ring. Qed.

(** *** Spheres *)
Lemma sphere_made r i : sphere r = Some i -> 0 < r /\
  i = Inter true false true (2 * r) (2 * r) [] (sphere_overlap r) no_energy_function (sphere_wall r).
Proof. unfold sphere. destruct (Rltb 0 r) eqn:E; [|discriminate]. intros H. injection H as <-. apply Rltb_true in E. auto. Qed.
Lemma sphere_solid r i : sphere r = Some i -> solid_walls i (ball_body r) /\ bounded i (ball_body r).
Proof.
  intros M. destruct (sphere_made r i M) as [P ->]. split.
  - intros p m c o w _ U. apply ball_wall; auto.
  - intros m c x Rot C X. cbn in C. assert (c = 0%nat) as -> by lia. cbn [site_vectors in_centres nth in_totalRange]. rewrite zero_centre. unfold ball_body in X. lra.
Qed.
Definition nothing : law R := fun _ _ _ _ _ _ => 0.
Definition sphere_ov (r : R) : law bool := fun _ _ _ _ _ s => Rltb s ((2 * r) ^ 2).
Lemma norm_le_sqr d x : 0 < x -> vnorm2 d < x * x -> vnorm d <= x.
Proof. intros P L. rewrite <- vnorm_sqr in L. pose proof (vnorm_nonneg d). nra. Qed.
Lemma sphere_lawful r i : sphere r = Some i -> lawful i (sphere_ov r) nothing.
Proof.
  intros M. destruct (sphere_made r i M) as [P ->]. split; [intros ? ? ? ? ? ? ?; reflexivity|]. split; [intros ? ? ? ? ? ?; reflexivity|].
  split; [intros ? ? ? ? ? ? ?; reflexivity|]. split; [intros ? ? ? ? ? ?; reflexivity|]. split; [cbn; lra|]. split; [|split].
  - intros ? ? ? ? d H. cbn. apply norm_le_sqr; [lra|]. apply Rltb_true in H. lra.
  - intros ? ? ? ? d H. exfalso. apply H. reflexivity.
  - discriminate.
Qed.

(** *** Polyspheres *)
Lemma polysphere_made beads i : polysphere beads = Some i -> beads <> [] /\ (forall d, In d beads -> 0 < bd_radius d) /\
  i = Inter true false false (polysphere_range beads) (getTotalRangeRadius (map bd_pos beads) (polysphere_range beads)) (map bd_pos beads)
                (polysphere_overlap beads) no_energy_function (polysphere_wall beads).
Proof.
  unfold polysphere. destruct (_ && _)%bool eqn:E; [|discriminate]. intros H. injection H as <-. apply andb_true_iff in E. destruct E as [E F]. split; [|split; [|reflexivity]].
  - intros ->. discriminate.
  - intros d D. rewrite forallb_forall in F. apply Rltb_true, F, D.
Qed.
Lemma sites_mapped {A} (f : A -> vec) l i : in_centres i = map f l -> l <> [] -> sites_no i = length l /\ forall c d, nth_error l c = Some d -> nth c (site_vectors i) vzero = f d.
Proof.
  intros C N. unfold sites_no, site_vectors. rewrite C. destruct l as [|x l]; [contradiction|]. cbn [map]. change (f x :: map f l) with (map f (x :: l)). rewrite map_length. split; [reflexivity|].
  intros c d E. apply nth_error_nth. rewrite nth_error_map, E. reflexivity.
Qed.
Lemma beads_solid beads i : polysphere beads = Some i -> solid_walls i (beads_body beads) /\ bounded i (beads_body beads).
Proof.
  intros M. destruct (polysphere_made beads i M) as (N&P&E). destruct (sites_mapped bd_pos beads i) as [S1 S2]; [rewrite E; reflexivity|exact N|]. split.
  - intros p m c o w C U. rewrite E. cbn [in_wall]. rewrite S1 in C. destruct (nth_error beads c) as [d|] eqn:D; [|apply nth_error_None in D; lia].
    unfold polysphere_wall, bead_radius. rewrite (nth_error_nth beads c _ D). etransitivity; [apply (ball_wall (bd_radius d) p o w U), P; eapply nth_error_In; eauto|].
    split; intros (x&X&L); exists x; (split; [|exact L]).
    + exists d. auto.
    + destruct X as (d'&D'&X). congruence.
  - intros m c x Rot C (d&D&X). rewrite (S2 c d D). rewrite E. cbn [in_totalRange]. apply (centre_bound m (bd_pos d) x (bd_radius d)); auto.
    + apply in_map. eapply nth_error_In; eauto.
    + unfold polysphere_range. assert (L : bd_radius d <= max_of (map bd_radius beads)) by (apply max_of_ge, in_map; eapply nth_error_In; eauto). lra.
Qed.
Definition beads_ov (beads : list bead) : law bool := fun _ c1 _ c2 _ s => let r := bead_radius beads c1 + bead_radius beads c2 in Rltb s (r * r).
Lemma bead_radius_le beads c : beads <> [] -> (forall d, In d beads -> 0 < bd_radius d) -> 0 <= bead_radius beads c <= max_of (map bd_radius beads).
Proof.
  intros N P. unfold bead_radius. destruct (nth_in_or_default c beads (Bead vzero 0)) as [I| ->].
  - split; [apply Rlt_le, P, I|apply max_of_ge, in_map, I].
  - cbn. split; [lra|]. destruct beads as [|d l]; [contradiction|]. assert (L : bd_radius d <= max_of (map bd_radius (d :: l))) by (apply max_of_ge; left; reflexivity). specialize (P d (or_introl eq_refl)). lra.
Qed.
Lemma beads_lawful beads i : polysphere beads = Some i -> lawful i (beads_ov beads) nothing.
Proof.
  intros M. destruct (polysphere_made beads i M) as (N&P&->). split; [intros ? ? ? ? ? ? ?; reflexivity|]. split; [intros ? ? ? ? ? ?; unfold beads_ov; cbv zeta; rewrite Rplus_comm; reflexivity|].
  assert (Pos : 0 < max_of (map bd_radius beads)).
  { destruct beads as [|d l]; [contradiction|]. assert (L : bd_radius d <= max_of (map bd_radius (d :: l))) by (apply max_of_ge; left; reflexivity). specialize (P d (or_introl eq_refl)). lra. }
  split; [intros ? ? ? ? ? ? ?; reflexivity|]. split; [intros ? ? ? ? ? ?; reflexivity|]. split; [cbn; unfold polysphere_range; lra|]. split; [|split].
  - intros ? c1 ? c2 d H. cbn. unfold beads_ov in H. cbv zeta in H. apply Rltb_true in H. destruct (bead_radius_le beads c1 N P), (bead_radius_le beads c2 N P).
    apply norm_le_sqr; [unfold polysphere_range; lra|]. unfold polysphere_range. set (s := bead_radius beads c1 + bead_radius beads c2) in *. assert (s <= 2 * max_of (map bd_radius beads)) by (unfold s; lra). assert (0 <= s) by (unfold s; lra). clearbody s. nra.
  - intros ? ? ? ? d H. exfalso. apply H. reflexivity.
  - discriminate.
Qed.

(** *** Spherocylinders and polyspherocylinders *)
Lemma half_axis_column l m : half_axis l m = vscale (l / 2) (mcol m AZ).
Proof. unfold half_axis. apply vec_ext; cbn; ring. Qed.
Lemma test_swap a b r : (if Rltb a r then true else if Rltb b r then true else false) = (if Rltb b r then true else if Rltb a r then true else false).
Proof. destruct (Rltb a r), (Rltb b r); reflexivity. Qed.
Lemma sphero_solid l r i : spherocylinder l r = Some i -> solid_walls i (spherocylinder_body l r) /\ bounded i (spherocylinder_body l r).
Proof.
  unfold spherocylinder. destruct (_ && _)%bool eqn:E; [|discriminate]. intros H. injection H as <-. apply andb_true_iff in E. destruct E as [E1 E2]. apply Rleb_true in E1. apply Rltb_true in E2. split.
  - intros p m c o w _ U. cbn [in_wall]. unfold spherocylinder_wall. cbv zeta. rewrite <- half_axis_column, test_swap. apply capsule_wall; auto.
  - intros m c x Rot C X. cbn in C. assert (c = 0%nat) as -> by lia. cbn [site_vectors in_centres nth in_totalRange getTotalRangeRadius]. rewrite zero_centre. apply capsule_norm in X. rewrite half_axis_norm in X by auto. lra.
Qed.
Lemma poly_made rods i : polyspherocylinder rods = Some i -> rods <> [] /\ (forall d, In d rods -> 0 < rd_radius d) /\
  i = Inter true false false (polyspherocylinder_range rods) (getTotalRangeRadius (map rd_pos rods) (polyspherocylinder_range rods)) (map rd_pos rods)
                (polyspherocylinder_overlap rods) no_energy_function (polyspherocylinder_wall rods).
Proof.
  unfold polyspherocylinder. destruct (_ && _)%bool eqn:E; [|discriminate]. intros H. injection H as <-. apply andb_true_iff in E. destruct E as [E F]. split; [|split; [|reflexivity]].
  - intros ->. discriminate.
  - intros d D. rewrite forallb_forall in F. apply Rltb_true, F, D.
Qed.
Lemma rods_solid rods i : polyspherocylinder rods = Some i -> solid_walls i (rods_body rods) /\ bounded i (rods_body rods).
Proof.
  intros M. destruct (poly_made rods i M) as (N&P&E). destruct (sites_mapped rd_pos rods i) as [S1 S2]; [rewrite E; reflexivity|exact N|]. split.
  - intros p m c o w C U. rewrite E. cbn [in_wall]. rewrite S1 in C. destruct (nth_error rods c) as [d|] eqn:D; [|apply nth_error_None in D; lia].
    unfold polyspherocylinder_wall, rod_at. rewrite (nth_error_nth rods c _ D). cbv zeta. etransitivity; [apply (capsule_wall (mvec m (rd_half d)) (rd_radius d) p o w U), P; eapply nth_error_In; eauto|].
    split; intros (x&X&L); exists x; (split; [|exact L]).
    + exists d. auto.
    + destruct X as (d'&D'&X). congruence.
  - intros m c x Rot C (d&D&X). rewrite (S2 c d D). rewrite E. cbn [in_totalRange]. apply (centre_bound m (rd_pos d) x (circumsphereRadius d)); auto.
    + apply in_map. eapply nth_error_In; eauto.
    + apply capsule_norm in X. rewrite rotation_norm in X by auto. unfold circumsphereRadius. lra.
    + unfold polyspherocylinder_range. assert (L : circumsphereRadius d <= max_of (map circumsphereRadius rods)) by (apply max_of_ge, in_map; eapply nth_error_In; eauto). lra.
Qed.
