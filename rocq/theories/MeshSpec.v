(** Geodesic polyhedra, and what a mesh of a convex body is to be. *)
From Coq Require Import Reals List.
From Verif Require Import GeomModel RotSpec XcModel XcSpec MeshModel.
Import ListNotations.
Open Scope R_scope.

(** *** Directions *)
Definition unit_vec (v : vec) : Prop := vnorm v = 1.
(** [m] is the middle of the arc between [a] and [b]. *)
Definition middle (a b m : vec) : Prop := unit_vec m /\ exists k, 0 < k /\ vadd a b = vscale k m.
Definition sign (s : R) : Prop := s = 1 \/ s = -1.
(** Faces of the octahedron divided [n] times; the order of vertices does not matter. *)
Inductive facet : nat -> vec -> vec -> vec -> Prop :=
| F_octahedron x y z : sign x -> sign y -> sign z -> facet 0 (V3 x 0 0) (V3 0 y 0) (V3 0 0 z)
| F_corner n a b c ab ca : facet n a b c -> middle a b ab -> middle c a ca -> facet (S n) a ab ca
| F_inner n a b c ab bc ca : facet n a b c -> middle a b ab -> middle b c bc -> middle c a ca -> facet (S n) ab bc ca
| F_turn n a b c : facet n a b c -> facet n b c a
| F_flip n a b c : facet n a b c -> facet n b a c.

(** *** Meshes *)
Definition points_hull (vs : list vec) : body := hull (map point_body vs).
(** What is assumed of the library for convex hulls: the vertices are some of the points, all points are in their hull, the indices
    form triangles of these vertices, and all vertices are at one side of each triangle. *)
Definition one_side (vs : list vec) (p0 p1 p2 : vec) : Prop :=
  let n := vcross (vsub p1 p0) (vsub p2 p0) in
  (forall v, In v vs -> vdot n (vsub v p0) <= 0) \/ (forall v, In v vs -> 0 <= vdot n (vsub v p0)).
Inductive face_indices (vs : list vec) : list nat -> list (vec * vec * vec) -> Prop :=
| I_nil : face_indices vs [] []
| I_cons i j k l p0 p1 p2 fs : nth_error vs i = Some p0 -> nth_error vs j = Some p1 -> nth_error vs k = Some p2 ->
    face_indices vs l fs -> face_indices vs (i :: j :: k :: l) ((p0, p1, p2) :: fs).
Definition hull_library (quickhull : list vec -> list vec * list nat) : Prop :=
  forall ps, let '(vs, is) := quickhull ps in
    incl vs ps /\ (forall p, In p ps -> points_hull vs p) /\
    exists fs, face_indices vs is fs /\ Forall (fun f => let '(p0, p1, p2) := f in one_side vs p0 p1 p2) fs.
(** The points of a triangle of a mesh. *)
Definition face (p : polyhedron) (t : triangle) (f : vec * vec * vec) : Prop :=
  let '(i, j, k) := t in let '(p0, p1, p2) := f in
  nth_error (po_vertices p) i = Some p0 /\ nth_error (po_vertices p) j = Some p1 /\ nth_error (po_vertices p) k = Some p2.
(** The same triangle, perhaps with the first two vertices exchanged. *)
Definition same_face (f g : vec * vec * vec) : Prop :=
  let '(p0, p1, p2) := f in let '(q0, q1, q2) := g in q2 = p2 /\ ((q0 = p0 /\ q1 = p1) \/ (q0 = p1 /\ q1 = p0)).
(** Vertices of a triangle are seen counter-clockwise from outside; [outward] only looks from the centre. *)
Definition normal (f : vec * vec * vec) : vec := let '(p0, p1, p2) := f in vcross (vsub p1 p0) (vsub p2 p0).
Definition first (f : vec * vec * vec) : vec := fst (fst f).
Definition outward (c : vec) (f : vec * vec * vec) : Prop := 0 <= vdot (normal f) (vsub (first f) c).
Definition counter_clockwise (vs : list vec) (f : vec * vec * vec) : Prop := forall v, In v vs -> vdot (normal f) (vsub v (first f)) <= 0.
(** The greatest distance between points of a body is at most [d]. *)
Definition diameter_le (b : body) (d : R) : Prop := forall x y, b x -> b y -> vnorm (vsub x y) <= d.
(** The volume of pyramids with the given apex over faces. *)
Definition pyramids (c : vec) (fs : list (vec * vec * vec)) : R :=
  fold_right (fun f v => vdot (normal f) (vsub (first f) c) / 6 + v) 0 fs.
