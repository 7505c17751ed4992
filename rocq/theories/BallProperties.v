(** Property C62: hard spheres and polyspheres. *)
From Coq Require Import Reals List.
From Verif Require Import GeomModel PbcModel PackModel PackSpec InterModel SegSpec ShapesModel ShapesSpec WallShapesProofs BallSpec BallProofs.
Import ListNotations.
Open Scope R_scope.

(** Spheres overlap exactly when they have common inner points. *)
Theorem C62_sphere : forall r i p1 m1 c1 p2 m2 c2 bc, sphere r = Some i -> true_distance bc p1 p2 ->
  (in_overlap i p1 m1 c1 p2 m2 c2 bc = true <-> exists x, inside_ball p1 r x /\ inside_ball (image bc p1 p2) r x).
Proof. exact sphere_exact. Qed.
Print Assumptions C62_sphere.

Theorem C62_beads : forall beads i p1 m1 c1 d1 p2 m2 c2 d2 bc, polysphere beads = Some i -> true_distance bc p1 p2 -> nth_error beads c1 = Some d1 -> nth_error beads c2 = Some d2 ->
  (in_overlap i p1 m1 c1 p2 m2 c2 bc = true <-> exists x, inside_ball p1 (bd_radius d1) x /\ inside_ball (image bc p1 p2) (bd_radius d2) x).
Proof. exact bead_exact. Qed.
Print Assumptions C62_beads.

(** Whole polyspheres *)
Theorem C62_polyspheres : forall beads i c s1 s2 t, polysphere beads = Some i ->
  (overlapBetweenShapes (WInter i c) s1 s2 (hardcoded t) = true <-> exists x, inside_beads beads (sh_pos s1) (sh_rot s1) x /\ inside_beads beads (vadd (sh_pos s2) t) (sh_rot s2) x).
Proof. exact polysphere_exact. Qed.
Print Assumptions C62_polyspheres.

(** Theorems about packings apply to them. *)
Theorem C62_sphere_lawful : forall r i, sphere r = Some i -> lawful i (sphere_ov r) nothing.
Proof. exact sphere_lawful. Qed.
Print Assumptions C62_sphere_lawful.

Theorem C62_polysphere_lawful : forall beads i, polysphere beads = Some i -> lawful i (beads_ov beads) nothing.
Proof. exact beads_lawful. Qed.
Print Assumptions C62_polysphere_lawful.

Example C62_case : exists i, polysphere [Bead (V3 0 0 (-1)) 1; Bead (V3 0 0 1) (1 / 2)] = Some i /\
  overlapBetweenShapes (WInter i true) (Shape vzero mid) (Shape (V3 0 0 3) mid) (hardcoded vzero) = true /\
  overlapBetweenShapes (WInter i true) (Shape vzero mid) (Shape (V3 0 0 4) mid) (hardcoded vzero) = false.
Proof. exact dumbbells_meet. Qed.
