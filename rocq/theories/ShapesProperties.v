From Coq Require Import Reals List.
From Verif Require Import GeomModel PbcModel PackModel InterModel RotSpec SegModel SegSpec ShapesModel ShapesSpec ShapesProofs ShapesExamples.
Import ListNotations.
Open Scope R_scope.

(* both shortcuts only make the answer agree with the distance of middles or the calculated distance of axes *)
Theorem C55_shortcuts l r i p1 p2 m1 m2 c1 c2 bc : spherocylinder l r = Some i -> rotation m1 -> rotation m2 ->
  (in_overlap i p1 m1 c1 p2 m2 c2 bc = true <-> distance p1 (image bc p1 p2) < 2 * r \/
   sqrt (segment_distance2 (vsub p1 (half_axis l m1)) (vadd p1 (half_axis l m1)) (vsub (image bc p1 p2) (half_axis l m2)) (vadd (image bc p1 p2) (half_axis l m2))) < 2 * r).
Proof. exact (fun M R1 R2 => sphero_shortcuts l r i M p1 p2 m1 m2 c1 c2 bc R1 R2). Qed.
Print Assumptions C55_shortcuts.

Theorem C55_sound l r i p1 p2 m1 m2 c1 c2 bc : spherocylinder l r = Some i -> rotation m1 -> rotation m2 ->
  in_overlap i p1 m1 c1 p2 m2 c2 bc = true -> closer_than p1 (half_axis l m1) (image bc p1 p2) (half_axis l m2) (2 * r).
Proof. exact (fun M R1 R2 => sphero_sound l r i M p1 p2 m1 m2 c1 c2 bc R1 R2). Qed.
Print Assumptions C55_sound.

Theorem C55_complete l r i p1 p2 m1 m2 c1 c2 bc err : spherocylinder l r = Some i -> rotation m1 -> rotation m2 ->
  rods_error p1 (half_axis l m1) (image bc p1 p2) (half_axis l m2) err -> closer_than p1 (half_axis l m1) (image bc p1 p2) (half_axis l m2) (2 * r - err) ->
  in_overlap i p1 m1 c1 p2 m2 c2 bc = true.
Proof. exact (sphero_detected l r i p1 p2 m1 m2 c1 c2 bc err). Qed.
Print Assumptions C55_complete.

(* spherocylinders with crossing axes which are reported as not overlapping *)
Theorem C55_exact_refuted : exists i p2 m2, spherocylinder 1 (1 / 5) = Some i /\ rotation m2 /\
  (exists x, on_rod vzero (half_axis 1 mid) x /\ on_rod (image (hardcoded vzero) vzero p2) (half_axis 1 m2) x) /\
  in_overlap i vzero mid 0 p2 m2 0 (hardcoded vzero) = false.
Proof. exact crossing_spherocylinders. Qed.
Print Assumptions C55_exact_refuted.

Theorem C55_poly_sound rods i p1 p2 m1 m2 c1 c2 d1 d2 bc : polyspherocylinder rods = Some i -> rotation m1 -> rotation m2 -> nth_error rods c1 = Some d1 -> nth_error rods c2 = Some d2 ->
  in_overlap i p1 m1 c1 p2 m2 c2 bc = true -> closer_than p1 (mvec m1 (rd_half d1)) (image bc p1 p2) (mvec m2 (rd_half d2)) (rd_radius d1 + rd_radius d2).
Proof. exact (fun M R1 R2 D1 D2 => poly_sound rods i M p1 p2 m1 m2 c1 c2 d1 d2 bc R1 R2 D1 D2). Qed.
Print Assumptions C55_poly_sound.

Theorem C55_poly_complete rods i p1 p2 m1 m2 c1 c2 d1 d2 bc err : polyspherocylinder rods = Some i -> rotation m1 -> rotation m2 -> nth_error rods c1 = Some d1 -> nth_error rods c2 = Some d2 ->
  rods_error p1 (mvec m1 (rd_half d1)) (image bc p1 p2) (mvec m2 (rd_half d2)) err ->
  closer_than p1 (mvec m1 (rd_half d1)) (image bc p1 p2) (mvec m2 (rd_half d2)) (rd_radius d1 + rd_radius d2 - err) -> in_overlap i p1 m1 c1 p2 m2 c2 bc = true.
Proof. exact (poly_detected rods i p1 p2 m1 m2 c1 c2 d1 d2 bc err). Qed.
Print Assumptions C55_poly_complete.

(* spherocylinders side by side, with the error less than a half *)
Example C55_case : exists i err, spherocylinder 3 1 = Some i /\ rods_error vzero (half_axis 3 mid) (image (hardcoded vzero) vzero (V3 (3 / 2) 0 1)) (half_axis 3 mid) err /\ err < 1 / 2 /\
  on_rod vzero (half_axis 3 mid) vzero /\ on_rod (image (hardcoded vzero) vzero (V3 (3 / 2) 0 1)) (half_axis 3 mid) (V3 (3 / 2) 0 0).
Proof. exact side_by_side. Qed.
