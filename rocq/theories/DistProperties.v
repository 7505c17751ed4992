(** Property C56: the search for the tangent distance. *)
From Coq Require Import Reals List.
From Verif Require Import GeomModel PbcModel PbcSpec PackModel InterModel ShapesModel DistModel DistSpec DistProofs DistExamples.
Open Scope R_scope.

(** The search always ends. It fails exactly when the arguments are refused, otherwise it gives a distance without an overlap, with an overlap at most 10^-12 below. *)
Theorem C56_distance : forall w s1 s2 direction, exists r,
  terminates_with (fun fuel => minimizeForDirection fuel w s1 s2 direction) r /\
  match r with Value d => ~ refused w s1 s2 direction /\ tangent w s1 s2 direction d | Violated => refused w s1 s2 direction end.
Proof. exact minimize_spec. Qed.
Print Assumptions C56_distance.

(** If an overlap does not appear again when moving away, the shapes do not touch at the distance and beyond, and do touch at all smaller ones but the last 10^-12. *)
Theorem C56_monotone : forall w s1 s2 direction d, monotone w s1 s2 direction ->
  terminates_with (fun fuel => minimizeForDirection fuel w s1 s2 direction) (Value d) ->
  forall x, 0 <= x -> (d <= x -> ~ touch w s1 s2 direction x) /\ (x <= d - precision -> touch w s1 s2 direction x).
Proof. exact minimize_monotone. Qed.
Print Assumptions C56_monotone.

(** Three axes *)
Theorem C56_axes : forall w s1 s2, exists r,
  terminates_with (fun fuel => minimizeForAxes fuel w s1 s2) r /\
  match r with
  | Value (x, y, z) => tangent w s1 s2 (V3 1 0 0) x /\ tangent w s1 s2 (V3 0 1 0) y /\ tangent w s1 s2 (V3 0 0 1) z
  | Violated => refused w s1 s2 (V3 1 0 0) \/ refused w s1 s2 (V3 0 1 0) \/ refused w s1 s2 (V3 0 0 1)
  end.
Proof. exact axes_spec. Qed.
Print Assumptions C56_axes.

(** Spheres are found to touch at their diameter, along all directions. *)
Theorem C56_sphere : forall r i c s1 s2 direction, sphere r = Some i -> precision < vnorm2 direction -> 2 * r <= 512 -> exists d,
  terminates_with (fun fuel => minimizeForDirection fuel (WInter i c) s1 s2 direction) (Value d) /\ 2 * r <= d <= 2 * r + precision.
Proof. exact sphere_distance. Qed.
Print Assumptions C56_sphere.

Example C56_case : forall i c s1 s2, sphere 1 = Some i -> exists d,
  terminates_with (fun fuel => minimizeForDirection fuel (WInter i c) s1 s2 (V3 1 1 0)) (Value d) /\ 2 <= d <= 2 + precision.
Proof. exact diagonal_distance. Qed.
Example C56_monotone_case : forall r i c s1 s2 direction, sphere r = Some i -> 0 < vnorm2 direction -> monotone (WInter i c) s1 s2 direction.
Proof. exact sphere_monotone. Qed.
