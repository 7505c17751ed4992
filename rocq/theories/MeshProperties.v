From Coq Require Import Reals List.
From Verif Require Import GeomModel RotSpec XcModel XcSpec XcPrimProofs MeshModel MeshSpec MeshHullProofs MeshExamples.
Import ListNotations.
Open Scope R_scope.

(** C79. The sampled directions are the vertices of the octahedron whose faces have been divided the given number of times; there are 8 * 4^n - 2 of
    them (with repetitions), all have length 1, opposite ones are there too, and every direction has one of them near: the cosine of the
    angle is at least 1 - 1/2^n. *)
Theorem C79_directions : forall n, exists vs, generateSpherePoints n = Some vs /\ (length vs + 2 = 8 * 4 ^ n)%nat /\
  (forall v, In v vs <-> exists b c, facet n v b c) /\ (forall v, In v vs -> unit_vec v /\ In (vneg v) vs) /\
  (forall u, unit_vec u -> exists v, In v vs /\ 1 - vdot u v <= / 2 ^ n).
Proof. exact sphere_all. Qed.
Print Assumptions C79_directions.

(** More subdivisions add directions and keep all the previous ones. *)
Theorem C79_refined : forall n vs vs', generateSpherePoints n = Some vs -> generateSpherePoints (S n) = Some vs' -> exists more, vs' = vs ++ more.
Proof. exact sphere_more. Qed.
Print Assumptions C79_refined.

(** The mesh of a convex body is contained in the body, and in no direction the body extends further than the mesh by more than
    sqrt(2/2^n) times the diameter of the body. *)
Theorem C79_mesh : forall quickhull g b ok n, hull_library quickhull -> shaped ok g b -> (forall u, unit_vec u -> ok u) ->
  exists p, buildPolyhedron quickhull g n = Some p /\ (forall y, points_hull (po_vertices p) y -> b y) /\
    (forall d u y, diameter_le b d -> unit_vec u -> b y -> exists v, In v (po_vertices p) /\ vdot u y <= vdot u v + sqrt (2 * / 2 ^ n) * d).
Proof. exact mesh_inside. Qed.
Print Assumptions C79_mesh.
Example C79_mesh_case : forall n, hull_library slow_hull /\ diameter_le (ball_body 1) 2 /\
  exists g p, xc_sphere 1 = Some g /\ buildPolyhedron slow_hull g n = Some p /\ (forall y, points_hull (po_vertices p) y -> vnorm y <= 1).
Proof. intros n. split; [exact slow_hull_ok|]. split; [exact ball_diameter|exact (ball_mesh n)]. Qed.

(** The triangles are those of the convex hull of the support points in these directions, turned so that their normals point away from the centre of the
    body; if the centre is inside, then all of the mesh is behind the triangle. The volume is that of pyramids over the triangles. *)
Theorem C79_triangles : forall quickhull g b ok n, hull_library quickhull -> shaped ok g b -> (forall u, unit_vec u -> ok u) ->
  exists dirs ps p fs fs', generateSpherePoints n = Some dirs /\ Forall2 (fun u s => xc_support g u = Some s /\ supports b u s) dirs ps /\
    buildPolyhedron quickhull g n = Some p /\ po_centre p = xc_centre g /\ po_vertices p = fst (quickhull ps) /\
    face_indices (po_vertices p) (snd (quickhull ps)) fs /\ Forall2 (face p) (po_triangles p) fs' /\ Forall2 same_face fs fs' /\
    Forall (outward (xc_centre g)) fs' /\
    (points_hull (po_vertices p) (xc_centre g) -> forall f, In f fs' ->
       0 < vdot (normal f) (vsub (first f) (xc_centre g)) -> counter_clockwise (po_vertices p) f) /\
    getVolume p = Some (pyramids (xc_centre g) fs').
Proof. exact mesh_faces. Qed.
Print Assumptions C79_triangles.
Example C79_triangles_case : getVolume octahedron = Some (4 / 3) /\ points_hull (po_vertices octahedron) (po_centre octahedron).
Proof. exact octahedron_volume. Qed.

(** Indices which do not make whole triangles are an error. *)
Theorem C79_refused : forall quickhull g n, (forall ps, (length (snd (quickhull ps)) mod 3 <> 0)%nat) -> buildPolyhedron quickhull g n = None.
Proof. exact mesh_refused. Qed.
Print Assumptions C79_refused.
Example C79_refused_case : forall ps : list vec, (length (snd ((fun l : list vec => (l, [0; 1; 2; 0]%nat)) ps)) mod 3 <> 0)%nat.
Proof. intros ps. discriminate. Qed.

(** A moved mesh has the triangles moved, *)
Theorem C79_moved : forall m pos p t p0 p1 p2, face p t (p0, p1, p2) ->
  face (transformed pos m p) t (vadd (mvec m p0) pos, vadd (mvec m p1) pos, vadd (mvec m p2) pos) /\
  po_triangles (transformed pos m p) = po_triangles p /\ length (po_vertices (transformed pos m p)) = length (po_vertices p).
Proof. intros m pos p t p0 p1 p2 F. split; [exact (transformed_faces m pos p t p0 p1 p2 F)|]. split; [reflexivity|apply map_length]. Qed.
Print Assumptions C79_moved.

(** and the same volume if the centre lies on the axis of the rotation, *)
Theorem C79_moved_volume : forall m pos p fs, rotation m -> Forall2 (face p) (po_triangles p) fs -> mvec m (po_centre p) = po_centre p ->
  getVolume (transformed pos m p) = getVolume p.
Proof. exact volume_moved. Qed.
Print Assumptions C79_moved_volume.

(** but not in general: the centre is moved without being rotated. *)
Theorem C79_moved_volume_refuted : exists m p v, rotation m /\ getVolume p = Some v /\ 0 < v /\ getVolume (transformed vzero m p) = Some 0.
Proof. exists quarter_turn, off_centre, (1 / 6). destruct volume_changes as (A & B & C). repeat split; try assumption; try apply A. apply Rdiv_lt_0_compat; [apply Rlt_0_1|apply IZR_lt; reflexivity]. Qed.
Print Assumptions C79_moved_volume_refuted.
