(** What it means that particles stick out through walls. *)
From Coq Require Import Reals List Bool.
From Verif Require Import GeomModel BoxModel PbcModel PackModel PackSpec RotSpec ShapesModel ShapesSpec.
Import ListNotations.
Open Scope R_scope.

(** ** Bodies *)

(** Points of the part of a particle which belongs to a given interaction centre, relative to the centre, for an orientation. *)
Definition body := nat -> mat -> vec -> Prop.
(** The wall test says whether there is a point of the part behind the plane going through [o] with the unit normal [w]. *)
Definition solid_walls (inter : interaction) (B : body) : Prop :=
  forall p r c o w, (c < sites_no inter)%nat -> vnorm w = 1 -> (in_wall inter p r c o w = true <-> exists x, B c r x /\ vdot w (vsub (vadd p x) o) < 0).
(** The whole particle fits in the sphere whose diameter is the total range. *)
Definition bounded (inter : interaction) (B : body) : Prop :=
  forall r c x, rotation r -> (c < sites_no inter)%nat -> B c r x ->
    vnorm (vadd (mvec r (nth c (site_vectors inter) vzero)) x) <= in_totalRange inter / 2.

Definition ball_body (radius : R) : body := fun _ _ x => vnorm x <= radius.
Definition beads_body (beads : list bead) : body := fun c _ x => exists d, nth_error beads c = Some d /\ vnorm x <= bd_radius d.
(** Points not further than the radius from the rod *)
Definition capsule (h : vec) (radius : R) (x : vec) : Prop := exists y, on_rod vzero h y /\ vnorm (vsub x y) <= radius.
Definition spherocylinder_body (length radius : R) : body := fun _ r x => capsule (half_axis length r) radius x.
Definition rods_body (rods : list rod) : body := fun c r x => exists d, nth_error rods c = Some d /\ capsule (mvec r (rd_half d)) (rd_radius d) x.

(** ** Walls *)
Definition same_axis (a b : axis) : bool := match a, b with AX, AX | AY, AY | AZ, AZ => true | _, _ => false end.
(** Walls after a history *)
Definition wall_after (os : list pack_op) (a : axis) : bool :=
  fold_left (fun w o => match o with DoWall a' present => if same_axis a a' then present else w | _ => w end) os false.
Definition right_handed (b : box) : Prop := 0 < vdot (vcross (box_side b AX) (box_side b AY)) (box_side b AZ).

(** An interaction centre of a particle and one of two walls perpendicular to an axis *)
Record site_wall := SiteWall { sw_i : nat; sw_c : nat; sw_axis : axis; sw_far : bool }.
Definition outside (b : box) (a : axis) (far : bool) (x : vec) : Prop :=
  let c := vget (absoluteToRelative b x) a in if far then 1 < c else c < 0.
Definition sticks_out (walls : axis -> bool) (b : box) (inter : interaction) (B : body) (shapes : list shape) (s : site_wall) : Prop :=
  (sw_i s < length shapes)%nat /\ (sw_c s < sites_no inter)%nat /\ walls (sw_axis s) = true /\
  let shape := nth (sw_i s) shapes no_shape in
  exists x, B (sw_c s) (sh_rot shape) x /\ outside b (sw_axis s) (sw_far s) (vadd (site_position inter shape (sw_c s)) x).
