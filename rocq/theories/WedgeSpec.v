(** Wedges as bodies. *)
From Coq Require Import Reals ZArith List.
From Verif Require Import TextModel GeomModel GeoModel XcModel XcSpec.
Import ListNotations.
Open Scope R_scope.

(** A body moved along the z axis *)
Definition lifted (b : body) (z : R) : body := placed b (V3 0 0 z) mid.
(** The convex hull of two balls at the distance [l], extending equally far up and down *)
Definition smooth_body (R0 r l : R) : body := hull [lifted (ball_body R0) ((- l + R0 - r) / 2); lifted (ball_body r) ((l + R0 - r) / 2)].
(** The convex hull of two rectangles at the distance [len] *)
Definition polyhedral_body (axBottom ayBottom axTop ayTop len : R) : body :=
  hull [lifted (cuboid_body (axBottom / 2) (ayBottom / 2) 0) (- len / 2); lifted (cuboid_body (axTop / 2) (ayTop / 2) 0) (len / 2)].
(** A geometry for the collision test describes a body exactly (see [good_shape]). *)
Definition describes (g : xc) (b : body) : Prop := shaped any_direction g b /\ covered g b /\ filled g b /\ b vzero /\ 0 <= xc_insphere g.
(** The parts, at their centres, make the body up. *)
Definition made_of (b : body) (data : list (xc * vec)) : Prop :=
  exists bodies, Forall2 (fun d p => describes (fst d) p) data bodies /\
    forall y, b y <-> exists i d p, nth_error data i = Some d /\ nth_error bodies i = Some p /\ placed p (snd d) mid y.
(** The named points *)
Definition ends_at (g : geometry (xc * vec)) (z1 z2 : R) : Prop :=
  forall name v, getNamedPoint g name = Some v <-> (name = [111%Z] /\ v = vzero) \/ (name = [98; 101; 103]%Z /\ v = V3 0 0 z1) \/ (name = [101; 110; 100]%Z /\ v = V3 0 0 z2).
