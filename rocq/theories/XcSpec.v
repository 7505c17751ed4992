(** Convex bodies, what a support function is and what the operations of the body builder mean. *)
From Coq Require Import Reals List.
From Verif Require Import GeomModel RotSpec XcModel.
Import ListNotations.
Open Scope R_scope.

(** A body is the set of its points. *)
Definition body := vec -> Prop.
Definition convex (b : body) : Prop := forall x y k, b x -> b y -> 0 <= k <= 1 -> b (vadd (vscale (1 - k) x) (vscale k y)).
(** The support point of a body in a direction is its point lying the furthest in this direction. *)
Definition supports (b : body) (n s : vec) : Prop := b s /\ forall y, b y -> vdot y n <= vdot s n.
(** A geometry gives support points for directions [ok] and its centre lies in the body. *)
Definition shaped (ok : vec -> Prop) (g : xc) (b : body) : Prop :=
  convex b /\ b (xc_centre g) /\ forall n, ok n -> exists s, xc_support g n = Some s /\ supports b n s.
(** The radius of a ball around the origin which contains the body and of the one contained in the body *)
Definition covered (g : xc) (b : body) : Prop := forall y, b y -> vnorm y <= xc_circumsphere g.
Definition filled (g : xc) (b : body) : Prop := forall y, vnorm y < xc_insphere g -> b y.

(** The bodies of primitives *)
Definition point_body (p : vec) : body := fun y => y = p.
Definition segment_body (h : R) : body := fun y => vx y = 0 /\ vy y = 0 /\ - h <= vz y <= h.
Definition cuboid_body (a b c : R) : body := fun y => - a <= vx y <= a /\ - b <= vy y <= b /\ - c <= vz y <= c.
Definition ellipsoid_body (a b c : R) : body := fun y => (vx y / a) ^ 2 + (vy y / b) ^ 2 + (vz y / c) ^ 2 <= 1.
Definition ellipse_body (a b : R) : body := fun y => vz y = 0 /\ (vx y / a) ^ 2 + (vy y / b) ^ 2 <= 1.
Definition ball_body (r : R) : body := fun y => vnorm y <= r.
Definition disk_body (r : R) : body := fun y => vz y = 0 /\ vnorm y <= r.
(** The radius of the arc of the chord [2 h] and the height [r] *)
Definition arc_radius (h r : R) : R := (h ^ 2 + r ^ 2) / (2 * r).
(** An arc between [(0, 0, -h)] and [(0, 0, h)], [r] away from the axis in the middle, revolved around the axis z *)
Definition football_body (h r : R) : body := fun y => (sqrt (vx y ^ 2 + vy y ^ 2) + (arc_radius h r - r)) ^ 2 + vz y ^ 2 <= arc_radius h r ^ 2.
(** An arc between [(-r, 0, 0)] and [(r, 0, 0)], [t] away from the plane xy in the middle, revolved around the axis z *)
Definition saucer_body (r t : R) : body := fun y => vx y ^ 2 + vy y ^ 2 + (Rabs (vz y) + (arc_radius r t - t)) ^ 2 <= arc_radius r t ^ 2.

(** The operations *)
Definition placed (b : body) (pos : vec) (rot : mat) : body := fun y => exists x, b x /\ y = vadd (mvec rot x) pos.
Definition sum_body (b1 b2 : body) : body := fun y => exists x1 x2, b1 x1 /\ b2 x2 /\ y = vadd x1 x2.
Definition diff_body (b1 b2 : body) : body := fun y => exists x1 x2, b1 x1 /\ b2 x2 /\ y = vsub x1 x2.
Definition sum_bodies (bs : list body) : body := fold_right sum_body (point_body vzero) bs.
(** The convex hull is the smallest convex set. *)
Definition hull (bs : list body) : body := fun y => forall c : body, convex c -> (forall b x, In b bs -> b x -> c x) -> c y.

(** Directions for which the support points are exact. The code treats components smaller than [ZERO] as 0 for some bodies. *)
Definition any_direction (n : vec) : Prop := n <> vzero.
Definition flat_or_long (x y : R) : Prop := (x = 0 /\ y = 0) \/ ZERO <= Rabs x \/ ZERO <= Rabs y.
Definition disk_direction (n : vec) : Prop := n <> vzero /\ flat_or_long (vx n) (vy n).
Definition ellipse_direction (a b : R) (n : vec) : Prop := n <> vzero /\ flat_or_long (a * vx n) (b * vy n).
(** A football as wide as long has no support points along its axis. *)
Definition football_direction (h r : R) (n : vec) : Prop := n <> vzero /\ (h = r -> ~ (vx n = 0 /\ vy n = 0)).

(** The stack of bodies, the last one first: what the builder should hold *)
Record solid := Solid { so_body : body; so_ok : vec -> Prop; so_pos : vec; so_rot : mat }.
Definition there (s : solid) : body := placed (so_body s) (so_pos s) (so_rot s).
Definition there_ok (s : solid) (n : vec) : Prop := so_ok s (mvec (mtrans (so_rot s)) n).
Definition fresh (b : body) (ok : vec -> Prop) : solid := Solid b ok vzero mid.
Definition all_ok (l : list solid) (n : vec) : Prop := n <> vzero /\ forall s, In s l -> there_ok s n.
Inductive step : command -> list solid -> list solid -> Prop :=
| st_cuboid : forall x y z l, 0 < x -> 0 < y -> 0 < z -> step (Cuboid x y z) l (fresh (cuboid_body (x / 2) (y / 2) (z / 2)) any_direction :: l)
| st_disk : forall r l, 0 < r -> step (Disk r) l (fresh (disk_body r) disk_direction :: l)
| st_ellipse : forall x y l, 0 < x -> 0 < y -> step (Ellipse x y) l (fresh (ellipse_body x y) (ellipse_direction x y) :: l)
| st_ellipsoid : forall x y z l, 0 < x -> 0 < y -> 0 < z -> step (Ellipsoid x y z) l (fresh (ellipsoid_body x y z) any_direction :: l)
| st_football : forall a r l, 0 < r -> 2 * r <= a -> step (Football a r) l (fresh (football_body (a / 2) r) (football_direction (a / 2) r) :: l)
| st_point : forall x y z l, step (Point x y z) l (fresh (point_body (V3 x y z)) any_direction :: l)
| st_rectangle : forall x y l, 0 < x -> 0 < y -> step (Rectangle x y) l (fresh (cuboid_body (x / 2) (y / 2) 0) any_direction :: l)
| st_saucer : forall r t l, 0 < t -> t <= 2 * r -> step (Saucer r t) l (fresh (saucer_body r (t / 2)) disk_direction :: l)
| st_segment : forall a l, 0 < a -> step (Segment a) l (fresh (segment_body (a / 2)) any_direction :: l)
| st_sphere : forall r l, 0 < r -> step (Sphere r) l (fresh (ball_body r) any_direction :: l)
| st_move : forall x y z s l, step (Move x y z) (s :: l) (Solid (so_body s) (so_ok s) (vadd (so_pos s) (V3 x y z)) (so_rot s) :: l)
| st_rotate : forall x y z mx my mz s l, rotates_about mx (V3 1 0 0) (x * PI / 180) -> rotates_about my (V3 0 1 0) (y * PI / 180) -> rotates_about mz (V3 0 0 1) (z * PI / 180) ->
    step (Rotate x y z) (s :: l) (Solid (so_body s) (so_ok s) (so_pos s) (mmul mz (mmul my (mmul mx (so_rot s)))) :: l)
| st_diff : forall s1 s2 l, step Diff (s2 :: s1 :: l) (fresh (diff_body (there s1) (there s2)) (fun n => n <> vzero /\ there_ok s1 n /\ there_ok s2 (vneg n)) :: l)
| st_sum : forall count top l, length top = count -> (2 <= count)%nat -> step (Sum count) (top ++ l) (fresh (sum_bodies (map there top)) (all_ok top) :: l)
| st_wrap : forall count top l, length top = count -> (2 <= count)%nat -> step (Wrap count) (top ++ l) (fresh (hull (map there top)) (all_ok top) :: l)
| st_dup : forall k top l, length top = k -> (1 <= k)%nat -> step (Dup k) (top ++ l) (top ++ top ++ l)
| st_pop : forall s l, step Pop (s :: l) l
| st_swap : forall s1 s2 l, step Swap (s1 :: s2 :: l) (s2 :: s1 :: l)
| st_clear : forall l, step Clear l [].
Inductive steps : list command -> list solid -> list solid -> Prop :=
| sts_nil : forall l, steps [] l l
| sts_cons : forall c cs l1 l2 l3, step c l1 l2 -> steps cs l2 l3 -> steps (c :: cs) l1 l3.

(** Conditions under which the radii of the balls are right. The position of a point is forgotten in the radius of the outer ball; *)
Definition no_points (cs : list command) : Prop := forall x y z, In (Point x y z) cs -> V3 x y z = vzero.
(** a component with no inner ball is taken to contain its own origin; two components at nearly the same place are taken to be at the origin. *)
Definition wrap_safe (s1 s2 : solid) : Prop :=
  so_pos s1 = vzero \/ so_pos s2 = vzero \/
  forall s r, s = s1 \/ s = s2 -> 0 < r -> (forall y, vnorm y < r -> so_body s y) -> r <= 10 ^ 14 * vnorm (vsub (so_pos s2) (so_pos s1)).
Definition careful (cs : list command) (l : list solid) : Prop :=
  forall cs1 c cs2 l', cs = cs1 ++ c :: cs2 -> steps cs1 l l' ->
    (forall s, In s l' -> so_body s vzero) /\ (forall s1 s2 rest, c = Wrap 2 -> l' = s1 :: s2 :: rest -> wrap_safe s1 s2).
