(** Property C61: volumes, named points and axes of polyspheres and polyspherocylinders. *)
From Coq Require Import Reals ZArith List.
From Verif Require Import TextModel GeomModel PbcModel PackSpec RotSpec SegSpec ShapesModel ShapesSpec GeoModel GeoSpec GeoProofs GeoShapesProofs GeoAxisProofs.
Import ListNotations.
Open Scope R_scope.

(** What is accepted and what is then reported *)
Theorem C61_polysphere : forall data primary secondary origin volume custom,
  ((exists g, polysphere_geometry data primary secondary origin volume custom = Some g) <->
   data <> [] /\ Forall (fun d => 0 < bd_radius d) data /\ proper_axes primary secondary /\ (volume = None -> apart data) /\
   NoDup (names custom) /\ forall i, (i < length data)%nat -> ~ In (numbered 115 i) (names custom)) /\
  forall g, polysphere_geometry data primary secondary origin volume custom = Some g ->
    g_data g = data /\ direction_of primary (g_primary g) /\ direction_of secondary (g_secondary g) /\ g_origin g = origin /\
    g_volume g = (match volume with Some v => v | None => Rsum (fun d => ball_volume (bd_radius d)) data end) /\
    getNamedPoints g = ([111%Z], mvec mid origin) :: map (fun e => (numbered 115 (fst e), bd_pos (snd e))) (combine (seq 0 (length data)) data) ++ custom /\ NoDup (names (g_points g)).
Proof. exact polysphere_geometry_spec. Qed.
Print Assumptions C61_polysphere.

Theorem C61_named_points : forall data primary secondary origin volume custom g, polysphere_geometry data primary secondary origin volume custom = Some g ->
  forall name v, getNamedPoint g name = Some v <-> point_called (bead_point data) origin custom name v.
Proof. exact polysphere_named. Qed.
Print Assumptions C61_named_points.

Theorem C61_has_named_point : forall D (g : geometry D) name, hasNamedPoint g name = true <-> exists v, getNamedPoint g name = Some v.
Proof. exact @has_named. Qed.
Print Assumptions C61_has_named_point.

(** Named points move with a shape as with a rigid body. *)
Theorem C61_rigid : forall D (g : geometry D) n1 n2 s p1 p2 q1 q2, rotation (sh_rot s) -> getNamedPoint g n1 = Some p1 -> getNamedPoint g n2 = Some p2 ->
  getNamedPointForShape g n1 s = Some q1 -> getNamedPointForShape g n2 s = Some q2 -> distance q1 q2 = distance p1 p2.
Proof. exact @named_rigid. Qed.
Print Assumptions C61_rigid.

(** The centre of mass is moved to the origin and everything with it; doing it again changes nothing. *)
Theorem C61_mass_centre : forall g, g_data g <> [] -> Forall (fun d => 0 < bd_radius d) (g_data g) ->
  let g' := normalizeMassCentre g in
  exists c, middle (g_data g) c /\ g_data g' = map (fun d => Bead (vsub (bd_pos d) c) (bd_radius d)) (g_data g) /\ middle (g_data g') vzero /\
    g_primary g' = g_primary g /\ g_secondary g' = g_secondary g /\ g_volume g' = g_volume g /\ g_origin g' = vsub (g_origin g) c /\
    (forall name, getNamedPoint g' name = option_map (fun p => vsub p c) (getNamedPoint g name)) /\ normalizeMassCentre g' = g'.
Proof. exact normalize_spec. Qed.
Print Assumptions C61_mass_centre.

(** The axis of flips *)
Theorem C61_flip_axis : forall (g : geometry bead) s p, rotation (sh_rot s) -> g_primary g = Some p -> vnorm p = 1 ->
  exists f, findFlipAxis (getPrimaryAxis g) (getSecondaryAxis g) s = Some f /\
    match g_secondary g with
    | Some q => f = mvec (sh_rot s) q
    | None => vnorm f = 1 /\ vdot f (mvec (sh_rot s) p) = 0
    end.
Proof. exact flip_spec. Qed.
Print Assumptions C61_flip_axis.

Theorem C61_polyspherocylinder : forall data primary secondary origin volume custom,
  ((exists g, polyspherocylinder_geometry data primary secondary origin volume custom = Some g) <->
   data <> [] /\ Forall (fun d => 0 < rd_radius d) data /\ proper_axes primary secondary /\ (volume = None -> rods_pass data) /\
   NoDup (names custom) /\ forall i letter, (i < length data)%nat -> In letter [111; 98; 101]%Z -> ~ In (numbered letter i) (names custom)) /\
  forall g, polyspherocylinder_geometry data primary secondary origin volume custom = Some g ->
    g_data g = data /\ direction_of primary (g_primary g) /\ direction_of secondary (g_secondary g) /\ g_origin g = origin /\
    g_volume g = (match volume with Some v => v | None => Rsum (fun d => ball_volume (rd_radius d) + cylinder_volume (rd_radius d) (2 * vnorm (rd_half d))) data end) /\
    forall name v, getNamedPoint g name = Some v <-> point_called (rod_point data) origin custom name v.
Proof. exact rods_geometry_spec. Qed.
Print Assumptions C61_polyspherocylinder.

(** The test of the overlap within a polyspherocylinder compares the squared distance: intersecting wide spherocylinders are accepted and separate thin ones are refused. *)
Theorem C61_wide_refuted : (exists d1 d2, wide_rods = [d1; d2] /\ rods_intersect d1 d2) /\ exists g, polyspherocylinder_geometry wide_rods None None vzero None [] = Some g.
Proof. exact wide_accepted. Qed.
Print Assumptions C61_wide_refuted.

Theorem C61_thin_refuted : (exists d1 d2, thin_rods = [d1; d2] /\ ~ rods_intersect d1 d2) /\ polyspherocylinder_geometry thin_rods None None vzero None [] = None.
Proof. exact thin_refused. Qed.
Print Assumptions C61_thin_refuted.

(** Asking whether a polyspherocylinder without a secondary axis has one fails with an unexpected exception; no flip axis can be found. *)
Theorem C61_secondary_axis_refuted : exists g, polyspherocylinder_geometry [Rod vzero (V3 0 0 1) 1] (Some (V3 0 0 1)) None vzero None [] = Some g /\
  has_axis (rods_getSecondaryAxis g default_shape) = None /\ forall s, findFlipAxis (getPrimaryAxis g) (rods_getSecondaryAxis g) s = None.
Proof. exact secondary_throws. Qed.
Print Assumptions C61_secondary_axis_refuted.

(** A custom point may be called o: it is listed, but it is the geometric origin which is found by this name. *)
Theorem C61_origin_name_refuted : exists g p, p <> vzero /\ polysphere_geometry [Bead vzero 1] None None vzero None [([111%Z], p)] = Some g /\ In ([111%Z], p) (getNamedPoints g) /\ getNamedPoint g [111%Z] = Some vzero.
Proof. exact origin_shadowed. Qed.
Print Assumptions C61_origin_name_refuted.

Example C61_case : exists g, polyspherocylinder_geometry wide_rods None None vzero None [] = Some g. Proof. exact (proj2 wide_accepted). Qed.
Example C61_flip_case : forall g, polysphere_geometry [Bead vzero 1] (Some (V3 0 0 2)) None vzero None [] = Some g -> exists p, g_primary g = Some p /\ vnorm p = 1.
Proof.
  intros g H. destruct (proj2 (polysphere_geometry_spec _ _ _ _ _ _) g H) as (_&P&_). destruct (g_primary g) as [p|]; [|destruct P]. exists p. split; [reflexivity|apply P].
Qed.
