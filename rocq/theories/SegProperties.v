From Coq Require Import Reals Lra.
From Verif Require Import GeomModel SegModel SegSpec SegProofs SegErrorProofs SegExamples.
Open Scope R_scope.

Theorem C54_attained s11 s12 s21 s22 : exists p q, on_segment s11 s12 p /\ on_segment s21 s22 q /\ segment_distance2 s11 s12 s21 s22 = vnorm2 (vsub p q).
Proof. exact (attained s11 s12 s21 s22). Qed.
Print Assumptions C54_attained.

Theorem C54_close s11 s12 s21 s22 err p q : error_bound s11 s12 s21 s22 err -> on_segment s11 s12 p -> on_segment s21 s22 q ->
  sqrt (segment_distance2 s11 s12 s21 s22) <= distance p q + err.
Proof. exact (close s11 s12 s21 s22 err p q). Qed.
Print Assumptions C54_close.

(* unit segments which cross, with the calculated distance 0.45 *)
Theorem C54_minimum_refuted : exists s11 s12 s21 s22, vnorm (vsub s12 s11) = 1 /\ vnorm (vsub s22 s21) = 1 /\ segments_distance s11 s12 s21 s22 0 /\
  sqrt (segment_distance2 s11 s12 s21 s22) = 45 / 100.
Proof. exact crossing_refuted. Qed.
Print Assumptions C54_minimum_refuted.

(* a point within a segment, with the calculated distance 1 or 0, depending on the order of arguments *)
Theorem C54_point_refuted : exists s11 s12 s21, segments_distance s11 s12 s21 s21 0 /\ sqrt (segment_distance2 s11 s12 s21 s21) = 1 /\ sqrt (segment_distance2 s21 s21 s11 s12) = 0.
Proof. exact point_refuted. Qed.
Print Assumptions C54_point_refuted.

(* perpendicular unit segments and parallel ones *)
Example C54_crossed : error_bound vzero (V3 1 0 0) (V3 0 0 3) (V3 0 1 3) (tiny / 1 * (vnorm (vsub (V3 1 0 0) vzero) + vnorm (vsub (V3 0 1 3) (V3 0 0 3)))).
Proof. unfold tiny. apply crossed; unfold spread, vnorm2, vdot, tiny; cbn; lra. Qed.
Example C54_parallel : exists err, error_bound vzero (V3 1 0 0) (V3 5 0 3) (V3 6 0 3) err.
Proof. eexists. apply (parallel _ _ _ _ 1); unfold spread, vnorm2, vdot, tiny; cbn; try lra. Qed.
