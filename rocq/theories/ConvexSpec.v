(** What convex bodies may be described in an input file, and what bodies they are. *)
From Coq Require Import Reals ZArith List String Sorted.
From Verif Require Import TextModel StringsModel GeomModel PyonModel MatchModel GeoModel RotSpec XcModel XcSpec InputModel InputSpec.
Import ListNotations.
Open Scope R_scope.

(** *** Descriptions *)
Inductive primitive :=
| Stick (l : R) | Plate (ax ay : R) | Box (ax ay az : R) | Round (r : R) | Ball (r : R) | Oval (rx ry : R) | Egg (rx ry rz : R) | Lens (r l : R) | Lemon (r l : R).
Inductive geom :=
| GPoint (pos : vec)
| GPrimitive (p : primitive) (pos rot : vec)
| GSum (l : list geom)
| GDiff (g1 g2 : geom)
| GWrap (l : list geom).

Section Written.
Variable of_float : list Z -> R.
Notation num := (num of_float).
Notation positive := (positive_num of_float).
Definition vector (n : node) (v : vec) : Prop := three_of num n (vx v, vy v, vz v).
(** Names of sizes, and of the rest of arguments of primitives *)
Definition placed_sig (sizes : list string) : signature := (map (fun s => (s, true)) sizes ++ [("pos"%string, false); ("rot"%string, false)])%list.
Definition placed_at (a : string -> option node) (pos rot : vec) : Prop := arg_or a "pos" vector vzero pos /\ arg_or a "rot" vector vzero rot.
Definition sized (p : primitive) (pos rot : vec) (n : node) : Prop :=
  match p with
  | Stick l => exists a, object n "segment" (placed_sig ["l"%string]) a /\ arg a "l" positive l /\ placed_at a pos rot
  | Plate x y => exists a, object n "rectangle" (placed_sig ["ax"; "ay"]%string) a /\ arg a "ax" positive x /\ arg a "ay" positive y /\ placed_at a pos rot
  | Box x y z => exists a, object n "cuboid" (placed_sig ["ax"; "ay"; "az"]%string) a /\ arg a "ax" positive x /\ arg a "ay" positive y /\ arg a "az" positive z /\ placed_at a pos rot
  | Round r => exists a, object n "disk" (placed_sig ["r"%string]) a /\ arg a "r" positive r /\ placed_at a pos rot
  | Ball r => exists a, object n "sphere" [("r", true); ("pos", false)]%string a /\ arg a "r" positive r /\ arg_or a "pos" vector vzero pos /\ rot = vzero
  | Oval x y => exists a, object n "ellipse" (placed_sig ["rx"; "ry"]%string) a /\ arg a "rx" positive x /\ arg a "ry" positive y /\ placed_at a pos rot
  | Egg x y z => exists a, object n "ellipsoid" (placed_sig ["rx"; "ry"; "rz"]%string) a /\ arg a "rx" positive x /\ arg a "ry" positive y /\ arg a "rz" positive z /\ placed_at a pos rot
  | Lens r l => exists a, object n "saucer" (placed_sig ["r"; "l"]%string) a /\ arg a "r" positive r /\ arg a "l" positive l /\ placed_at a pos rot /\ l <= 2 * r
  | Lemon r l => exists a, object n "football" (placed_sig ["r"; "l"]%string) a /\ arg a "r" positive r /\ arg a "l" positive l /\ placed_at a pos rot /\ 2 * r <= l
  end.
(** The same number of elements, in relation one by one *)
Definition pairwise {A B} (P : A -> B -> Prop) : list A -> list B -> Prop :=
  fix go l m := match l, m with [], [] => True | a :: l', b :: m' => P a b /\ go l' m' | _, _ => False end.
Fixpoint written (g : geom) (n : node) : Prop :=
  match g with
  | GPoint p => exists a, object n "point" [("pos", true)]%string a /\ arg a "pos" vector p
  | GPrimitive p pos rot => sized p pos rot n
  | GSum l => exists ns, n = NClass (tx "sum") ns [] /\ (2 <= List.length l)%nat /\ pairwise written l ns
  | GDiff g1 g2 => exists a, object n "diff" [("g1", true); ("g2", true)]%string a /\ (exists n1, a "g1"%string = Some n1 /\ written g1 n1) /\ (exists n2, a "g2"%string = Some n2 /\ written g2 n2)
  | GWrap l => exists ns, n = NClass (tx "wrap") ns [] /\ (2 <= List.length l)%nat /\ pairwise written l ns
  end.

(** *** The class generic_convex *)
(** An axis is any vector with a component longer than 1e-10, and its length is made 1. *)
Definition axis (n : node) (u : vec) : Prop :=
  exists v, vector n v /\ (/ 10 ^ 10 < Rabs (vx v) \/ / 10 ^ 10 < Rabs (vy v) \/ / 10 ^ 10 < Rabs (vz v)) /\ u = vscale (/ vnorm v) v.
(** Points with their names, in the order of names *)
Definition point_names (n : node) (ps : points) : Prop :=
  exists l, n = NDict l /\ StronglySorted (fun x y => text_ltb (fst x) (fst y) = true) ps /\
    (forall k m, In (k, m) l -> exists v, vector m v /\ In (k, v) ps) /\ (forall k v, In (k, v) ps -> exists m, In (k, m) l /\ vector m v).
(** The secondary axis is given only with the primary one. Their scalar product is not large. *)
Definition axes_allowed (pa sa : option vec) : Prop :=
  match pa, sa with None, Some _ => False | Some p, Some s => vdot p s < / 10 ^ 12 | _, None => True end.
Definition convex_sig : signature := [("geometry", true); ("volume", true); ("geometric_center", false); ("primary_axis", false); ("secondary_axis", false); ("named_points", false)]%string.
Record convex_written (n : node) (g : geom) (pa sa : option vec) (origin : vec) (volume : R) (ps : points) : Prop := {
  cw_args : exists a, object n "generic_convex" convex_sig a /\ arg a "geometry" (fun m g => written g m) g /\ arg a "volume" positive volume /\ arg_or a "geometric_center" vector vzero origin /\
    arg_or a "primary_axis" (or_none axis) None pa /\ arg_or a "secondary_axis" (or_none axis) None sa /\ arg_or a "named_points" point_names [] ps;
  cw_axes : axes_allowed pa sa }.
End Written.

(** *** Bodies *)
(** The whole of a primitive, with its centre at the origin *)
Definition primitive_body (p : primitive) : body :=
  match p with
  | Stick l => segment_body (l / 2) | Plate x y => cuboid_body (x / 2) (y / 2) 0 | Box x y z => cuboid_body (x / 2) (y / 2) (z / 2)
  | Round r => disk_body r | Ball r => ball_body r | Oval x y => ellipse_body x y | Egg x y z => ellipsoid_body x y z
  | Lens r l => saucer_body r (l / 2) | Lemon r l => football_body (l / 2) r
  end.
(** Directions for which the support points are exact (see C63) *)
Definition primitive_directions (p : primitive) : vec -> Prop :=
  match p with
  | Round _ | Lens _ _ => disk_direction | Oval x y => ellipse_direction x y | Lemon r l => football_direction (l / 2) r | _ => any_direction
  end.
(** Angles in degrees: first about x, then about y, then about z *)
Definition turns (rot : vec) (m : mat) : Prop :=
  exists mx my mz, rotates_about mx (V3 1 0 0) (vx rot * PI / 180) /\ rotates_about my (V3 0 1 0) (vy rot * PI / 180) /\ rotates_about mz (V3 0 0 1) (vz rot * PI / 180) /\ m = mmul mz (mmul my mx).
(** The body described, with the placement of the outermost primitive: *)
Fixpoint body_of (g : geom) (y : vec) : Prop :=
  match g with
  | GPoint p => point_body p y
  | GPrimitive p pos rot => exists m, turns rot m /\ placed (primitive_body p) pos m y
  | GSum l => sum_bodies (map body_of l) y
  | GDiff g1 g2 => diff_body (body_of g1) (body_of g2) y
  | GWrap l => hull (map body_of l) y
  end.
Fixpoint directions_of (g : geom) (n : vec) : Prop :=
  match g with
  | GPoint _ => n <> vzero
  | GPrimitive p _ rot => exists m, turns rot m /\ primitive_directions p (mvec (mtrans m) n)
  | GSum l | GWrap l => n <> vzero /\ fold_right (fun g P => directions_of g n /\ P) True l
  | GDiff g1 g2 => n <> vzero /\ directions_of g1 n /\ directions_of g2 (vneg n)
  end.
(** and without it, which is what is made: *)
Definition unplaced (g : geom) : geom := match g with GPrimitive p _ _ => GPrimitive p vzero vzero | _ => g end.
(** Points other than the origin are not taken into account in outer balls (see C63). *)
Fixpoint points_at_origin (g : geom) : Prop :=
  match g with
  | GPoint p => p = vzero
  | GPrimitive _ _ _ => True
  | GSum l | GWrap l => fold_right (fun g P => points_at_origin g /\ P) True l
  | GDiff g1 g2 => points_at_origin g1 /\ points_at_origin g2
  end.
