(** Arcs and bodies built on them. *)
From Coq Require Import Reals ZArith List.
From Verif Require Import GeomModel ShapesModel SegSpec XcSpec VolSpec.
Import ListNotations.
Open Scope R_scope.

(** The arc of the given radius lies in the plane xz, is symmetric with respect to the x axis and opens towards positive x. [c] is its centre. *)
Definition on_arc (radius : R) (c : vec) (angle : R) : vec := vadd c (V3 (- radius * cos angle) 0 (radius * sin angle)).
(** The origin lies in the middle between the ends of the arc if its angle is below [PI], and in its centre otherwise. *)
Definition arc_centre (radius arcAngle : R) (c : vec) : Prop := (arcAngle < PI -> c = V3 (radius * cos (arcAngle / 2)) 0 0) /\ (PI <= arcAngle -> c = vzero).
(** The [i]-th one of points dividing the arc into [n] equal parts *)
Definition division (radius arcAngle : R) (c : vec) (n i : nat) : vec := on_arc radius c (- arcAngle / 2 + INR i / INR n * arcAngle).

(** The number of indices below [n] with a property *)
Definition number_of (P : nat -> Prop) (n k : nat) : Prop := exists l, NoDup l /\ (forall i, In i l <-> (i < n)%nat /\ P i) /\ length l = k.
Definition bead_has (data : list bead) (y : vec) (i : nat) : Prop := exists d, nth_error data i = Some d /\ in_ball (bd_pos d) (bd_radius d) y.
(** The volume common to two balls of radius [r] which are [d] apart *)
Definition common_volume (r d v : R) : Prop :=
  (d < 2 * r -> volume (fun y => in_ball vzero r y /\ in_ball (V3 0 0 d) r y) v) /\ (2 * r <= d -> v = 0).
(** A cylinder, and the part of a cylinder of radius [r] (along x) cut by two planes containing the axis y, inclined by [angle] to each other *)
Definition cylinder_body (r h : R) : body := fun y => 0 <= vz y <= h /\ vx y ^ 2 + vy y ^ 2 <= r ^ 2.
Definition cut_body (r angle : R) : body := fun y => 0 <= vz y <= r /\ vy y ^ 2 + vz y ^ 2 <= r ^ 2 /\ Rabs (vx y) <= vz y * tan (angle / 2).
(** A spherocylinder given by the ends of its axis *)
Definition rod_between (p q : vec) (r : R) (d : rod) : Prop := vsub (rd_pos d) (rd_half d) = p /\ vadd (rd_pos d) (rd_half d) = q /\ rd_radius d = r.
(** The [j]-th one of points dividing a segment into [n] equal parts *)
Definition part (p q : vec) (n j : nat) : vec := vadd p (vscale (INR j / INR n) (vsub q p)).
(** The arc of the legacy shape lies in the plane xy. *)
Definition on_flat_arc (radius : R) (c : vec) (angle : R) : vec := vadd c (V3 (- radius * cos angle) (radius * sin angle) 0).
(** The union of spherocylinders *)
Definition rods_body (data : list rod) : body := fun y => exists d t, In d data /\ - 1 <= t <= 1 /\ in_ball (vadd (rd_pos d) (vscale t (rd_half d))) (rd_radius d) y.
