(** Meshes of convex bodies: [src/geometry/xenocollide/XCPrinter.{h,cpp}] and [src/geometry/Polyhedron.{h,cpp}] without the output of text. *)
From Coq Require Import Reals List Arith.
From Verif Require Import GeomModel GeoModel XcModel OptModel.
Import ListNotations.
Open Scope R_scope.

(** Polyhedron.h:18-28 *)
Definition triangle := (nat * nat * nat)%type.
Record polyhedron := Poly { po_centre : vec; po_vertices : list vec; po_triangles : list triangle }.

(** XCPrinter.cpp:67-75: one triangle of the sphere; the three new points go to the end. [None]: an index out of range or the division by zero in
    normalized(). *)
Definition divide_one (tri : triangle) (verts : list vec) : option (list vec * list triangle) :=
  let '(t0, t1, t2) := tri in
  let backIdx := length verts in
  a <- nth_error verts t0 ;; b <- nth_error verts t1 ;; c <- nth_error verts t2 ;;
  ab <- normalized (vadd a b) ;; bc <- normalized (vadd b c) ;; ca <- normalized (vadd c a) ;;
  Some (verts ++ [ab; bc; ca],
        [(t0, backIdx, backIdx + 2); (backIdx, t1, backIdx + 1); (backIdx + 2, backIdx + 1, t2); (backIdx, backIdx + 1, backIdx + 2)]%nat).
(** XCPrinter.cpp:65-77: the loop over triangles *)
Fixpoint divide (tris : list triangle) (verts : list vec) : option (list vec * list triangle) :=
  match tris with
  | [] => Some (verts, [])
  | tri :: tris' => one <- divide_one tri verts ;; rest <- divide tris' (fst one) ;; Some (fst rest, snd one ++ snd rest)
  end.
(** XCPrinter.cpp:59-61 *)
Definition octahedron_verts : list vec := [V3 1 0 0; V3 (-1) 0 0; V3 0 1 0; V3 0 (-1) 0; V3 0 0 1; V3 0 0 (-1)].
Definition octahedron_tris : list triangle :=
  [(0, 3, 5); (2, 0, 5); (1, 2, 5); (3, 1, 5); (3, 0, 4); (0, 2, 4); (2, 1, 4); (1, 3, 4)]%nat.
(** XCPrinter.cpp:63-78: the loop over subdivisions *)
Fixpoint sphere_loop (subdivisions : nat) (verts : list vec) (tris : list triangle) : option (list vec * list triangle) :=
  match subdivisions with
  | O => Some (verts, tris)
  | S n => r <- divide tris verts ;; sphere_loop n (fst r) (snd r)
  end.
(** XCPrinter.cpp:58-81 *)
Definition generateSpherePoints (subdivisions : nat) : option (list vec) :=
  r <- sphere_loop subdivisions octahedron_verts octahedron_tris ;; Some (fst r).

Fixpoint all_some {A} (l : list (option A)) : option (list A) :=
  match l with [] => Some [] | x :: l' => a <- x ;; r <- all_some l' ;; Some (a :: r) end.
(** XCPrinter.cpp:42-52: one triangle, with the first two vertices exchanged if the normal does not point outwards *)
Definition orient (centre : vec) (vertices : list vec) (tri : triangle) : option triangle :=
  let '(t0, t1, t2) := tri in
  p0 <- nth_error vertices t0 ;; p1 <- nth_error vertices t1 ;; p2 <- nth_error vertices t2 ;;
  let s1 := vsub p1 p0 in
  let s2 := vsub p2 p1 in
  let r := vsub p0 centre in
  Some (if Rltb (vdot (vcross s1 s2) r) 0 then (t1, t0, t2) else (t0, t1, t2)).
(** The indices in groups of three; [None]: the failed Assert of line 30 *)
Fixpoint by_three (l : list nat) : option (list triangle) :=
  match l with
  | [] => Some []
  | i :: j :: k :: l' => r <- by_three l' ;; Some ((i, j, k) :: r)
  | _ => None
  end.
(** XCPrinter.cpp:14-56; [quickhull] is getConvexHull of the library QuickHull: the vertex buffer and the index buffer. *)
Definition buildPolyhedron (quickhull : list vec -> list vec * list nat) (geometry : xc) (subdivisions : nat) : option polyhedron :=
  spherePoints <- generateSpherePoints subdivisions ;;
  hullPoints <- all_some (map (xc_support geometry) spherePoints) ;;
  let '(vertices, indexBuffer) := quickhull hullPoints in
  tris <- by_three indexBuffer ;;
  triangles <- all_some (map (orient (xc_centre geometry) vertices) tris) ;;
  Some (Poly (xc_centre geometry) vertices triangles).

(** Polyhedron.cpp:33-42: one summand *)
Definition tetrahedron (p : polyhedron) (tri : triangle) : option R :=
  let '(t0, t1, t2) := tri in
  p0 <- nth_error (po_vertices p) t0 ;; p1 <- nth_error (po_vertices p) t1 ;; p2 <- nth_error (po_vertices p) t2 ;;
  let v1 := vsub p2 p0 in
  let v2 := vsub p2 p1 in
  let v3 := vsub p2 (po_centre p) in
  Some (1 / 6 * Rabs (vdot (vcross v1 v2) v3)).
(** Polyhedron.cpp:32-43 *)
Definition getVolume (p : polyhedron) : option R :=
  l <- all_some (map (tetrahedron p) (po_triangles p)) ;; Some (fold_left Rplus l 0).
(** Polyhedron.cpp:56-63 *)
Definition transformed (pos : vec) (transform : mat) (p : polyhedron) : polyhedron :=
  Poly (vadd (po_centre p) pos) (map (fun vertex => vadd (mvec transform vertex) pos) (po_vertices p)) (po_triangles p).
