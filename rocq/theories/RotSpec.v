(** What rotations, reflections of orientation and quaternions are. *)
From Coq Require Import Reals.
From Verif Require Import GeomModel PbcModel PackModel RotModel.
Open Scope R_scope.

(** Distances and orientation of space are kept. *)
Definition rotation (m : mat) : Prop :=
  (forall u v, vdot (mvec m u) (mvec m v) = vdot u v) /\
  (forall u v, mvec m (vcross u v) = vcross (mvec m u) (mvec m v)).
(** The right-handed rotation by an angle about a unit vector: the axis stays, vectors perpendicular to it turn. *)
Definition rotates_about (m : mat) (a : vec) (angle : R) : Prop :=
  mvec m a = a /\
  forall v, vdot a v = 0 -> mvec m v = vadd (vscale (cos angle) v) (vscale (sin angle) (vcross a v)).

(** Geometric origin of a placed shape. *)
Definition origin_of (g : vec) (s : shape) : vec := vadd (sh_pos s) (mvec (sh_rot s) g).

(** How a unit quaternion [w + v] acts on a vector: q u q*. *)
Definition qvec (q : quat) : vec := V3 (qx q) (qy q) (qz q).
Definition quat_act (q : quat) (u : vec) : vec :=
  let v := qvec q in
  vadd u (vscale 2 (vadd (vscale (qw q) (vcross v u)) (vcross v (vcross v u)))).

(** A geometry whose axes are unit vectors, the secondary one perpendicular to the primary one. *)
Definition proper_geometry (g : geometry) : Prop :=
  (forall p, ge_primary g = Some p -> vnorm2 p = 1) /\
  (forall p s, ge_primary g = Some p -> ge_secondary g = Some s -> vnorm2 s = 1 /\ vdot s p = 0).
