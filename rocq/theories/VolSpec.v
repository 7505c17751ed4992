(** Volumes of bodies as integrals of areas of cross-sections. *)
From Coq Require Import Reals List.
From Coquelicot Require Import Coquelicot.
From Verif Require Import GeomModel ShapesModel XcSpec.
Import ListNotations.
Open Scope R_scope.

(** The area of the cross-section of a body at the height [z], for cross-sections which are empty, disks or rectangles around the axis *)
Inductive section_area (b : body) (z : R) : R -> Prop :=
| sec_empty : (forall x y, ~ b (V3 x y z)) -> section_area b z 0
| sec_disk : forall r, 0 <= r -> (forall x y, b (V3 x y z) <-> x ^ 2 + y ^ 2 <= r ^ 2) -> section_area b z (PI * r ^ 2)
| sec_rectangle : forall p q, 0 <= p -> 0 <= q -> (forall x y, b (V3 x y z) <-> Rabs x <= p / 2 /\ Rabs y <= q / 2) -> section_area b z (p * q).
(** The body lies between the heights [a] and [c] and its volume is the integral of the areas. *)
Definition volume (b : body) (v : R) : Prop :=
  exists area a c, a <= c /\ (forall y, b y -> a <= vz y <= c) /\ (forall z, section_area b z (area z)) /\ is_RInt area a c v.

(** A ball and the union of balls *)
Definition in_ball (c : vec) (r : R) : body := fun y => vnorm (vsub y c) <= r.
Definition beads_body (data : list bead) : body := fun y => exists d, In d data /\ in_ball (bd_pos d) (bd_radius d) y.
