(** C81: convex bodies described in input files. *)
From Coq Require Import Reals ZArith List String.
From Verif Require Import TextModel StringsModel PyonModel MatchModel GeomModel GeoModel XcModel XcSpec InputModel InputSpec ConvexModel ConvexSpec ConvexShapeProofs ConvexExamples.
Import ListNotations.
Open Scope Z_scope.

(** Which descriptions of bodies are accepted. *)
Theorem C81_geometry_accepted of_float erange s : match_geometry of_float erange s <> None <-> exists n g, parse erange s = Ok n /\ written of_float g n.
Proof. exact (geometry_accepted of_float erange s). Qed.
Print Assumptions C81_geometry_accepted.

(** Every accepted description is made into a body, and this body is the one described: the support points and the centre are right, and the outer ball contains it if there are no points away from the origin. *)
Theorem C81_geometry_bodies of_float erange s n g : parse erange s = Ok n -> written of_float g n ->
  exists cs x, match_geometry of_float erange s = Some cs /\ build cs = Some x /\ shaped (directions_of (unplaced g)) x (body_of (unplaced g)) /\ (points_at_origin g -> covered x (body_of (unplaced g))).
Proof. exact (geometry_bodies of_float erange s n g). Qed.
Print Assumptions C81_geometry_bodies.
Example C81_geometry_case of_float : parse no_range wrapped_text = Ok wrapped_node /\ written of_float wrapped_geom wrapped_node.
Proof. exact (conj wrapped_parsed (wrapped_written of_float)). Qed.

(** Which shapes are accepted. *)
Theorem C81_shape_accepted of_float erange s : match_convex of_float erange s <> None <-> exists n g pa sa origin volume ps, parse erange s = Ok n /\ convex_written of_float n g pa sa origin volume ps.
Proof. exact (convex_accepted of_float erange s). Qed.
Print Assumptions C81_shape_accepted.

(** What is in an accepted shape. *)
Theorem C81_shape of_float erange s n g pa sa origin volume ps : parse erange s = Ok n -> convex_written of_float n g pa sa origin volume ps ->
  exists x, match_convex of_float erange s = Some (ConvexShape x pa sa origin volume ps) /\ shaped (directions_of (unplaced g)) x (body_of (unplaced g)) /\ (points_at_origin g -> covered x (body_of (unplaced g))).
Proof. exact (convex_means of_float erange s n g pa sa origin volume ps). Qed.
Print Assumptions C81_shape.
Example C81_shape_case of_float : parse no_range axes_text = Ok axes_node /\ convex_written of_float axes_node axes_geom (Some (V3 1 0 0)) (Some (V3 (-1) 0 0)) vzero 4 [(tx "top", V3 0 0 1)].
Proof. exact (conj axes_parsed (axes_written of_float)). Qed.

(** Axes of an accepted shape are unit vectors, *)
Theorem C81_axes_unit of_float erange s c u : match_convex of_float erange s = Some c -> cx_primary c = Some u \/ cx_secondary c = Some u -> vnorm2 u = 1%R.
Proof. exact (axes_unit of_float erange s c u). Qed.
Print Assumptions C81_axes_unit.
Example C81_axes_unit_case of_float : exists c, match_convex of_float no_range axes_text = Some c /\ cx_primary c = Some (V3 1 0 0).
Proof. destruct (convex_means of_float no_range axes_text _ _ _ _ _ _ _ axes_parsed (axes_written of_float)) as (x & M & _). eexists. split; [exact M|reflexivity]. Qed.

(** but they need not be perpendicular: only the sign of their product is looked at. *)
Theorem C81_axes_refuted of_float : ~ (forall erange s c pa sa, match_convex of_float erange s = Some c -> cx_primary c = Some pa -> cx_secondary c = Some sa -> (Rabs (vdot pa sa) < 1)%R).
Proof. exact (opposite_axes of_float). Qed.
Print Assumptions C81_axes_refuted.

(** The position of the outermost primitive is lost. *)
Theorem C81_position_refuted of_float :
  ~ (forall erange s n g cs x, parse erange s = Ok n -> written of_float g n -> match_geometry of_float erange s = Some cs -> build cs = Some x -> shaped (directions_of g) x (body_of g)).
Proof. exact (position_lost of_float). Qed.
Print Assumptions C81_position_refuted.
