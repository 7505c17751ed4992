(** Shapes as text: the printers of [src/core/shapes/*Traits.cpp], [XCWolframShapePrinter.cpp], [XCObjShapePrinter.cpp], the output functions of
    [src/geometry/Polyhedron.cpp] and [src/core/io/WolframWriter.cpp]. *)
From Coq Require Import Reals ZArith List Bool Ascii String.
From Verif Require Import TextModel GeomModel PbcModel GeoModel ShapesModel MeshModel XyzModel OptModel.
Import ListNotations.
Local Open Scope list_scope.
Open Scope Z_scope.

(** What is printed of a shape: the radius of a sphere, the beads of a polysphere, length and radius of a spherocylinder, the rods of
    a polyspherocylinder, or meshes with the interaction centres they belong to. *)
Inductive printer :=
| SphereP (radius : R)
| PolysphereP (beads : list bead)
| SpherocylinderP (length radius : R)
| PolyspherocylinderP (rods : list rod)
| MeshP (parts : list (polyhedron * vec)).

Definition endl : list Z := [newline].
(** Texts with a separator after all but the last: loops with [if (i < size - 1)] *)
Fixpoint separated (sep : list Z) (l : list (list Z)) : list Z :=
  match l with [] => [] | [t] => t | t :: l' => t ++ sep ++ separated sep l' end.

(** [plain] is operator<< of a double, [fixed] the same after std::fixed. *)
Section printers.
Variables plain fixed : R -> list Z.

(** Vector.tpp:116-124 *)
Definition show_vec (show : R -> list Z) (v : vec) : list Z :=
  tx "{" ++ show (vx v) ++ tx ", " ++ show (vy v) ++ tx ", " ++ show (vz v) ++ tx "}".
(** SphereTraits.cpp:77-81: there is no std::fixed *)
Definition print_sphere (radius : R) (s : shape) : list Z := tx "Sphere[" ++ show_vec plain (sh_pos s) ++ tx "," ++ plain radius ++ tx "]".
(** PolysphereTraits.cpp:89-95 *)
Definition bead_toWolfram (s : shape) (b : bead) : list Z :=
  tx "Sphere[" ++ show_vec fixed (vadd (sh_pos s) (mvec (sh_rot s) (bd_pos b))) ++ tx "," ++ fixed (bd_radius b) ++ tx "]".
(** PolyspherocylinderTraits.cpp:86-92, 105-107 *)
Definition rod_toWolfram (s : shape) (r : rod) : list Z :=
  let shapeHalfAxis := mvec (sh_rot s) (rd_half r) in
  let beg := vadd (vadd (sh_pos s) (mvec (sh_rot s) (rd_pos r))) shapeHalfAxis in
  let fin := vsub (vadd (sh_pos s) (mvec (sh_rot s) (rd_pos r))) shapeHalfAxis in
  tx "Tube[{" ++ show_vec fixed beg ++ tx "," ++ show_vec fixed fin ++ tx "}," ++ fixed (rd_radius r) ++ tx "]".
(** SpherocylinderTraits.cpp:24-26; [sign] is beginOrEnd *)
Definition column2 (m : mat) : vec := V3 (m02 m) (m12 m) (m22 m).
Definition getCapCentre (sign length : R) (s : shape) : vec :=
  vadd (sh_pos s) (vscale (1 / 2 * sign * length) (column2 (sh_rot s))).
(** SpherocylinderTraits.cpp:104-111 *)
Definition print_spherocylinder (length radius : R) (s : shape) : list Z :=
  tx "CapsuleShape[{" ++ show_vec fixed (getCapCentre (-1) length s) ++ tx "," ++ show_vec fixed (getCapCentre 1 length s) ++ tx "}," ++ fixed radius ++ tx "]".
(** PolysphereTraits.cpp:16-29, PolyspherocylinderTraits.cpp:225-238; [None]: back() of an empty vector *)
Definition print_list {D} (show : D -> list Z) (ds : list D) : option (list Z) :=
  match ds with [] => None | _ => Some (tx "{" ++ separated (tx ",") (map show ds) ++ tx "}") end.

(** Polyhedron.cpp:8-30 *)
Definition index (i : nat) : list Z := decimal (Z.of_nat i + 1).
Definition show_triangle (t : triangle) : list Z :=
  let '(i, j, k) := t in tx "    {" ++ index i ++ tx ", " ++ index j ++ tx ", " ++ index k ++ tx "}".
(** The loops end every line: a comma for all but the last *)
Fixpoint lined (l : list (list Z)) : list Z :=
  match l with [] => [] | [t] => t ++ endl | t :: l' => t ++ tx "," ++ endl ++ lined l' end.
Definition storeWolframGraphicsComplex (p : polyhedron) : list Z :=
  tx "GraphicsComplex[{" ++ endl ++ lined (map (fun v => tx "    " ++ show_vec fixed v) (po_vertices p)) ++
  tx "}," ++ endl ++ tx "Polygon[{" ++ endl ++ lined (map show_triangle (po_triangles p)) ++ tx "}]]" ++ endl.
(** XCWolframShapePrinter.cpp:24-42 *)
Definition print_part (s : shape) (part : polyhedron * vec) : list Z :=
  let rot := sh_rot s in
  let pos := vadd (sh_pos s) (mvec rot (snd part)) in
  tx "GeometricTransformation[" ++ storeWolframGraphicsComplex (fst part) ++ tx "," ++ endl ++ tx "AffineTransform[" ++ endl ++
  tx "    {{{" ++ fixed (m00 rot) ++ tx ", " ++ fixed (m01 rot) ++ tx ", " ++ fixed (m02 rot) ++ tx "}," ++ endl ++
  tx "      {" ++ fixed (m10 rot) ++ tx ", " ++ fixed (m11 rot) ++ tx ", " ++ fixed (m12 rot) ++ tx "}," ++ endl ++
  tx "      {" ++ fixed (m20 rot) ++ tx ", " ++ fixed (m21 rot) ++ tx ", " ++ fixed (m22 rot) ++ tx "}}," ++ endl ++
  tx "      " ++ show_vec fixed pos ++ tx "}]" ++ endl ++ tx "]".
(** XCWolframShapePrinter.cpp:15-46 and the precondition of line 56; the sizes of the two vectors agree, so they are one list of pairs *)
Definition print_mesh (parts : list (polyhedron * vec)) (s : shape) : option (list Z) :=
  match parts with [] => None | _ => Some (tx "{EdgeForm[None]," ++ endl ++ lined (map (print_part s) parts) ++ tx "}") end.

Definition print (pr : printer) (s : shape) : option (list Z) :=
  match pr with
  | SphereP radius => Some (print_sphere radius s)
  | PolysphereP beads => print_list (bead_toWolfram s) beads
  | SpherocylinderP length radius => Some (print_spherocylinder length radius s)
  | PolyspherocylinderP rods => print_list (rod_toWolfram s) rods
  | MeshP parts => print_mesh parts s
  end.

(** WolframWriter.cpp:45-58 *)
Definition storeStandard (pr : printer) (shapes : list shape) : option (list Z) :=
  ts <- all_some (map (print pr) shapes) ;;
  Some (tx "Graphics3D[{" ++ endl ++ separated (tx "," ++ endl) ts ++ tx "}]" ++ endl).
(** WolframWriter.cpp:31-41 *)
Definition show_placement (s : shape) : list Z :=
  let rot := sh_rot s in
  tx "{{{" ++ fixed (m00 rot) ++ tx ", " ++ fixed (m01 rot) ++ tx ", " ++ fixed (m02 rot) ++ tx "}, " ++
  tx "{" ++ fixed (m10 rot) ++ tx ", " ++ fixed (m11 rot) ++ tx ", " ++ fixed (m12 rot) ++ tx "}, " ++
  tx "{" ++ fixed (m20 rot) ++ tx ", " ++ fixed (m21 rot) ++ tx ", " ++ fixed (m22 rot) ++ tx "}}, " ++
  show_vec fixed (sh_pos s) ++ tx "}".
(** WolframWriter.cpp:24-43 *)
Definition storeAffineTransform (pr : printer) (shapes : list shape) : option (list Z) :=
  t <- print pr default_shape ;;
  Some (tx "Graphics3D[GeometricTransformation[" ++ endl ++ t ++ tx ",AffineTransform@#]& /@ {" ++ endl ++
        lined (map show_placement shapes) ++ tx "}]" ++ endl).

(** *** Wavefront OBJ *)
(** Polyhedron.cpp:45-54 *)
Definition obj_vertex (v : vec) : list Z := tx "v " ++ plain (vx v) ++ tx " " ++ plain (vy v) ++ tx " " ++ plain (vz v) ++ endl.
Definition obj_face (o : nat) (t : triangle) : list Z :=
  let '(i, j, k) := t in tx "f " ++ index (i + o) ++ tx " " ++ index (j + o) ++ tx " " ++ index (k + o) ++ endl.
Definition storeWavefrontObj (vertexOffset : nat) (p : polyhedron) : list Z :=
  flat_map obj_vertex (po_vertices p) ++ endl ++ flat_map (obj_face vertexOffset) (po_triangles p).
(** XCObjShapePrinter.cpp:15-27 *)
Fixpoint print_obj (parts : list (polyhedron * vec)) (offset : nat) (s : shape) : list Z :=
  match parts with
  | [] => []
  | (p, centre) :: parts' =>
    let t := transformed (vadd (sh_pos s) (mvec (sh_rot s) centre)) (sh_rot s) p in
    storeWavefrontObj offset t ++ print_obj parts' (offset + List.length (po_vertices t))%nat s
  end.
End printers.
