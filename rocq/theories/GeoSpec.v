From Coq Require Import Reals ZArith List.
From Verif Require Import TextModel GeomModel PbcModel PackSpec SegSpec ShapesModel ShapesSpec GeoModel.
Import ListNotations.
Open Scope R_scope.

(** Axes which may be given: not zero vectors, no secondary one without the primary one *)
Definition proper_axes (primary secondary : option vec) : Prop :=
  (primary = None -> secondary = None) /\ primary <> Some vzero /\ secondary <> Some vzero.
(** The unit vector along a given one *)
Definition direction_of (v u : option vec) : Prop :=
  match v, u with None, None => True | Some v, Some u => vnorm u = 1 /\ exists k, 0 < k /\ v = vscale k u | _, _ => False end.
(** Beads are not closer than the sum of the radii, up to the relative tolerance of 10^-12 for squared distances. *)
Definition apart (data : list bead) : Prop :=
  forall i j d1 d2, (i < j)%nat -> nth_error data i = Some d1 -> nth_error data j = Some d2 ->
    (bd_radius d1 + bd_radius d2) ^ 2 <= (1 + / 10 ^ 12) * distance (bd_pos d1) (bd_pos d2) ^ 2.
Definition ball_volume (r : R) : R := 4 / 3 * PI * r ^ 3.
Definition cylinder_volume (r h : R) : R := PI * r ^ 2 * h.
(** Names of points: the letter and the index *)
Definition numbered (letter : Z) (i : nat) : text := letter :: decimal (Z.of_nat i).
Definition names (ps : points) : list text := map fst ps.
(** What the points are called: ["o"] is the geometric origin, [own] gives the points of a shape, [custom] the additional ones. *)
Definition point_called (own : text -> vec -> Prop) (origin : vec) (custom : points) (name : text) (v : vec) : Prop :=
  (name = [111%Z] /\ v = origin) \/ (name <> [111%Z] /\ (own name v \/ In (name, v) custom)).
Definition bead_point (data : list bead) (name : text) (v : vec) : Prop := exists i d, nth_error data i = Some d /\ name = numbered 115 i /\ v = bd_pos d.
Definition rod_point (data : list rod) (name : text) (v : vec) : Prop :=
  exists i d, nth_error data i = Some d /\
    ((name = numbered 111 i /\ v = rd_pos d) \/ (name = numbered 98 i /\ v = vsub (rd_pos d) (rd_half d)) \/ (name = numbered 101 i /\ v = vadd (rd_pos d) (rd_half d))).
(** The middle of mass of homogeneous balls *)
Definition middle (data : list bead) (c : vec) : Prop :=
  forall a, Rsum (fun d => ball_volume (bd_radius d) * (vget (bd_pos d) a - vget c a)) data = 0.
(** The test of the code for spherocylinders: the squared distance of axes is not less than the sum of radii, up to 10^-12. *)
Definition rods_pass (data : list rod) : Prop :=
  forall i j d1 d2, (i < j)%nat -> nth_error data i = Some d1 -> nth_error data j = Some d2 ->
    rd_radius d1 + rd_radius d2 <= SegModel.segment_distance2 (vsub (rd_pos d1) (rd_half d1)) (vadd (rd_pos d1) (rd_half d1)) (vsub (rd_pos d2) (rd_half d2)) (vadd (rd_pos d2) (rd_half d2)) * (1 + / 10 ^ 12).
(** Two spherocylinders have common inner points. *)
Definition rods_intersect (d1 d2 : rod) : Prop := closer_than (rd_pos d1) (rd_half d1) (rd_pos d2) (rd_half d2) (rd_radius d1 + rd_radius d2).
