(** [src/core/ShapeGeometry.{h,cpp}] and the geometries in [src/core/shapes/PolysphereTraits.{h,cpp}] and
    [src/core/shapes/PolyspherocylinderTraits.{h,cpp}]. *)
From Coq Require Import Reals ZArith List Bool.
From Verif Require Import OptModel TextModel GeomModel PbcModel SegModel ShapesModel.
Import ListNotations.
Open Scope R_scope.

(** Vector::normalized (Vector.tpp); [None]: a division by zero *)
Definition normalized (v : vec) : option vec := if Reqb (vnorm2 v) 0 then None else Some (vscale (/ vnorm v) v).
Definition normalized_axis (a : option vec) : option (option vec) := match a with None => Some None | Some v => n <- normalized v ;; Some (Some n) end.

(** ShapeGeometry.h:37-39; the map and the vector of named points, which always have the same contents, are one list *)
Definition points := list (text * vec).
(** PolysphereTraits.h:45-57, PolyspherocylinderTraits.h:60-66 *)
Record geometry (D : Type) := Geo { g_data : list D; g_primary : option vec; g_secondary : option vec; g_origin : vec; g_volume : R; g_points : points }.
Arguments Geo {D}. Arguments g_data {D}. Arguments g_primary {D}. Arguments g_secondary {D}. Arguments g_origin {D}. Arguments g_volume {D}. Arguments g_points {D}.

Fixpoint find_point (name : text) (ps : points) : option vec :=
  match ps with [] => None | (n, v) :: ps' => if text_eqb n name then Some v else find_point name ps' end.
(** ShapeGeometry.cpp:26-30; [None]: a failed precondition *)
Definition registerNamedPoint (ps : points) (p : text * vec) : option points :=
  match find_point (fst p) ps with None => Some (ps ++ [p]) | Some _ => None end.
(** ShapeGeometry.cpp:39-42 *)
Fixpoint registerNamedPoints (ps new : points) : option points :=
  match new with [] => Some ps | p :: new' => ps' <- registerNamedPoint ps p ;; registerNamedPoints ps' new' end.
(** ShapeGeometry.cpp:44-49 *)
Definition moveNamedPoints (t : vec) (ps : points) : points := map (fun p => (fst p, vadd (snd p) t)) ps.
Definition o_name : text := [111%Z].
(** PolysphereTraits.h:86-88: getGeometricOrigin *)
Definition getGeometricOrigin {D} (g : geometry D) (s : shape) : vec := mvec (sh_rot s) (g_origin g).
Definition default_shape : shape := Shape vzero mid.
(** ShapeGeometry.cpp:16-24 *)
Definition getNamedPoint {D} (g : geometry D) (name : text) : option vec :=
  if text_eqb name o_name then Some (getGeometricOrigin g default_shape) else find_point name (g_points g).
(** ShapeGeometry.cpp:12-14 *)
Definition getNamedPointForShape {D} (g : geometry D) (name : text) (s : shape) : option vec :=
  p <- getNamedPoint g name ;; Some (vadd (sh_pos s) (mvec (sh_rot s) p)).
(** ShapeGeometry.cpp:32-37 *)
Definition getNamedPoints {D} (g : geometry D) : points := (o_name, getGeometricOrigin g default_shape) :: g_points g.
(** ShapeGeometry.cpp:51-56 *)
Definition hasNamedPoint {D} (g : geometry D) (name : text) : bool :=
  if text_eqb name o_name then true else match find_point name (g_points g) with Some _ => true | None => false end.

(** What a query of an axis gives: a vector, std::runtime_error or another exception, here std::bad_optional_access, which is not a std::runtime_error *)
Inductive query := Axis (v : vec) | Unsupported | Bad_access.
(** PolysphereTraits.h:74-84, PolyspherocylinderTraits.h:85-89 *)
Definition getPrimaryAxis {D} (g : geometry D) (s : shape) : query :=
  match g_primary g with Some a => Axis (mvec (sh_rot s) a) | None => Unsupported end.
(** PolysphereTraits.h:80-84 *)
Definition getSecondaryAxis {D} (g : geometry D) (s : shape) : query :=
  match g_secondary g with Some a => Axis (mvec (sh_rot s) a) | None => Unsupported end.
(** PolyspherocylinderTraits.h:91-95: the primary axis is checked, not the secondary one *)
Definition rods_getSecondaryAxis {D} (g : geometry D) (s : shape) : query :=
  match g_primary g with
  | None => Unsupported
  | Some _ => match g_secondary g with Some a => Axis (mvec (sh_rot s) a) | None => Bad_access end
  end.
(** ShapeGeometry.cpp:58-83; [None]: an exception *)
Definition has_axis (q : query) : option bool := match q with Axis _ => Some true | Unsupported => Some false | Bad_access => None end.
(** ShapeGeometry.h:88-90; [None]: an exception or a division by zero *)
Definition getAuxiliaryAxis (primary secondary : query) : option vec :=
  match primary, secondary with Axis p, Axis s => normalized (vcross p s) | _, _ => None end.
(** ShapeGeometry.cpp:92-97: std::min_element gives the first one of equal *)
Definition reference_direction (v : vec) : vec :=
  if Rltb (Rabs (vy v)) (Rabs (vx v)) then
    if Rltb (Rabs (vz v)) (Rabs (vy v)) then V3 0 0 1 else V3 0 1 0
  else if Rltb (Rabs (vz v)) (Rabs (vx v)) then V3 0 0 1 else V3 1 0 0.
(** ShapeGeometry.cpp:85-101; [None]: an exception or a division by zero *)
Definition findFlipAxis (primary secondary : shape -> query) (s : shape) : option vec :=
  match has_axis (primary default_shape) with
  | Some true =>
    match has_axis (secondary default_shape) with
    | Some true => match secondary s with Axis a => Some a | _ => None end
    | Some false =>
      match primary default_shape with
      | Axis p => normalized (mvec (sh_rot s) (vcross p (reference_direction p)))
      | _ => None
      end
    | None => None
    end
  | _ => None
  end.

(** PolysphereTraits.cpp:165-186, PolyspherocylinderTraits.cpp:26-54, common parts. [automatic] is the volume calculated automatically;
    [None]: a failed precondition or a division by zero *)
Definition make_geometry {D} (data : list D) (primary secondary : option vec) (origin : vec) (volume automatic : option R) (own custom : points) : option (geometry D) :=
  match data with
  | [] => None
  | _ =>
    if match primary, secondary with None, Some _ => true | _, _ => false end then None
    else
      primary' <- normalized_axis primary ;;
      (secondary' <- normalized_axis secondary ;;
      (v <- match volume with Some v => Some v | None => automatic end ;;
      (ps <- registerNamedPoints [] own ;;
      (ps' <- registerNamedPoints ps custom ;;
       Some (Geo data primary' secondary' origin v ps')))))
  end.
Definition indexed {A} (l : list A) : list (nat * A) := combine (seq 0 (length l)) l.
(** std::to_string of an index *)
Definition index_text (i : nat) : text := decimal (Z.of_nat i).
(** Some pair of different elements satisfies a test: two nested loops *)
Fixpoint some_pair {A} (test : A -> A -> bool) (l : list A) : bool :=
  match l with [] => false | x :: l' => existsb (test x) l' || some_pair test l' end.

(** PolysphereTraits.cpp:207-223 *)
Definition beads_touch (d1 d2 : bead) : bool :=
  Rltb (vnorm2 (vsub (bd_pos d1) (bd_pos d2)) * (/ 10 ^ 12 + 1)) ((bd_radius d1 + bd_radius d2) ^ 2).
Definition spheresOverlap (data : list bead) : bool := some_pair beads_touch data.
(** PolysphereTraits.cpp:139-147; [None]: a failed precondition *)
Definition beads_volume (data : list bead) : option R :=
  if spheresOverlap data then None
  else Some (fold_left (fun v d => v + 4 * PI / 3 * bd_radius d * bd_radius d * bd_radius d) data 0).
(** PolysphereTraits.cpp:79-83 and 165-186 *)
Definition polysphere_geometry (data : list bead) (primary secondary : option vec) (origin : vec) (volume : option R) (custom : points) : option (geometry bead) :=
  if forallb (fun d => Rltb 0 (bd_radius d)) data then
    make_geometry data primary secondary origin volume (beads_volume data) (map (fun e => (115%Z :: index_text (fst e), bd_pos (snd e))) (indexed data)) custom
  else None.
(** PolysphereTraits.cpp:188-205 *)
Definition calculateMassCentre (data : list bead) : vec :=
  let massCentre := fold_left (fun sum d => vadd sum (vscale (bd_radius d * bd_radius d * bd_radius d) (bd_pos d))) data vzero in
  let weightSum := fold_left (fun sum d => sum + bd_radius d * bd_radius d * bd_radius d) data 0 in
  vscale (/ weightSum) massCentre.
(** PolysphereTraits.cpp:149-163 *)
Definition normalizeMassCentre (g : geometry bead) : geometry bead :=
  let massCentre := calculateMassCentre (g_data g) in
  Geo (map (fun d => Bead (vsub (bd_pos d) massCentre) (bd_radius d)) (g_data g)) (g_primary g) (g_secondary g)
      (vsub (g_origin g) massCentre) (g_volume g) (moveNamedPoints (vneg massCentre) (g_points g)).

(** PolyspherocylinderTraits.cpp:56-76: a squared distance is compared with a sum of radii *)
Definition rods_touch (d1 d2 : rod) : bool :=
  Rltb (segment_distance2 (vsub (rd_pos d1) (rd_half d1)) (vadd (rd_pos d1) (rd_half d1)) (vsub (rd_pos d2) (rd_half d2)) (vadd (rd_pos d2) (rd_half d2)) * (1 + / 10 ^ 12))
       (rd_radius d1 + rd_radius d2).
Definition spherocylindersOverlap (data : list rod) : bool := some_pair rods_touch data.
(** PolyspherocylinderTraits.cpp:99-104 *)
Definition rod_volume (d : rod) : R :=
  let radius2 := rd_radius d * rd_radius d in
  let radius3 := radius2 * rd_radius d in
  let axisLength := 2 * vnorm (rd_half d) in
  4 * PI / 3 * radius3 + PI * radius2 * axisLength.
(** PolyspherocylinderTraits.cpp:15-24 *)
Definition rods_volume (data : list rod) : option R :=
  if spherocylindersOverlap data then None else Some (fold_left (fun v d => v + rod_volume d) data 0).
(** PolyspherocylinderTraits.cpp:78-84 and 26-54 *)
Definition polyspherocylinder_geometry (data : list rod) (primary secondary : option vec) (origin : vec) (volume : option R) (custom : points) : option (geometry rod) :=
  if forallb (fun d => Rltb 0 (rd_radius d)) data then
    make_geometry data primary secondary origin volume (rods_volume data)
      (flat_map (fun e => [(111%Z :: index_text (fst e), rd_pos (snd e)); (98%Z :: index_text (fst e), vsub (rd_pos (snd e)) (rd_half (snd e)));
                           (101%Z :: index_text (fst e), vadd (rd_pos (snd e)) (rd_half (snd e)))]) (indexed data)) custom
  else None.
