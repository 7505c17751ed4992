(** Properties of bodies made by the body builder (C63). *)
From Coq Require Import Reals List Bool Arith Lra.
From Verif Require Import OptModel GeomModel XcModel XcSpec XcPrimProofs XcMaxProofs XcBuildProofs XcExamples.
Import ListNotations.
Open Scope R_scope.

(** A script is accepted exactly when each command is applicable to what is on the stack and one body is left in the end. *)
Theorem C63_builder_accepts : forall cs, build cs <> None <-> exists s, steps cs [] [s].
Proof. exact build_accepts. Qed.
Print Assumptions C63_builder_accepts.
Example C63_accepted : build two_balls <> None. Proof. apply C63_builder_accepts. exists two_balls_solid. exact two_balls_steps. Qed.
Example C63_refused : build [Sphere 1; Wrap 2] = None /\ build [Sphere 1; Sphere 2] = None /\ build [Sphere (-1)] = None.
Proof.
  unfold build. cbn [run_script run_command]. unfold push_checked, xc_sphere.
  destruct (Rltb 0 1); destruct (Rltb 0 2); repeat split; try reflexivity; cbn; destruct (Rltb 0 (-1)) eqn:E; try reflexivity; apply GeomProofs.Rltb_true in E; lra.
Qed.

(** The geometry made describes the body which the script means: the centre lies in it, the support points are its points lying the furthest in the direction asked for, the outer ball contains it and the inner one is contained in it. *)
Theorem C63_builder_bodies : forall cs g s, build cs = Some g -> steps cs [] [s] ->
  shaped (so_ok s) g (so_body s) /\ (no_points cs -> covered g (so_body s)) /\ (careful cs [] -> filled g (so_body s)).
Proof. exact build_means. Qed.
Print Assumptions C63_builder_bodies.
Example C63_body : exists g, build two_balls = Some g /\ steps two_balls [] [two_balls_solid] /\ no_points two_balls /\ careful two_balls [].
Proof. destruct (build_runs _ _ two_balls_steps) as (g&E). exists g. split; [exact E|]. split; [exact two_balls_steps|]. split; [exact two_balls_no_points|exact two_balls_careful]. Qed.

(** The outer ball need not contain a body made of points: *)
Theorem C63_outer_ball_refuted : exists cs g s, build cs = Some g /\ steps cs [] [s] /\ ~ covered g (so_body s).
Proof. exact points_not_covered. Qed.
Print Assumptions C63_outer_ball_refuted.
(** the inner ball need not be contained in a body made of two coinciding ones away from the origin, *)
Theorem C63_inner_ball_wrap_refuted : exists cs g s, build cs = Some g /\ steps cs [] [s] /\ no_points cs /\ ~ filled g (so_body s).
Proof. exact balls_not_filled. Qed.
Print Assumptions C63_inner_ball_wrap_refuted.
(** nor in a sum with a point away from the origin; *)
Theorem C63_inner_ball_sum_refuted : exists cs g s, build cs = Some g /\ steps cs [] [s] /\ ~ filled g (so_body s).
Proof. exact sum_not_filled. Qed.
Print Assumptions C63_inner_ball_sum_refuted.
(** the centre of a disk is given instead of its edge for short directions; *)
Theorem C63_short_direction_refuted : exists g s n, build [Disk 1] = Some g /\ steps [Disk 1] [] [s] /\ n <> vzero /\ exists v, xc_support g n = Some v /\ ~ supports (so_body s) n v.
Proof. exact disk_short. Qed.
Print Assumptions C63_short_direction_refuted.
(** a football as wide as long has no support point at its ends (not-a-number is computed). *)
Theorem C63_round_football_refuted : exists g, build [Football 2 1] = Some g /\ xc_support g (V3 0 0 1) = None.
Proof. exact football_end. Qed.
Print Assumptions C63_round_football_refuted.
