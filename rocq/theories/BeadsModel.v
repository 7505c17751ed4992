(** Shapes made of spheres placed along a line: [src/core/shapes/KMerTraits.cpp], [PolysphereWedgeTraits.cpp], [PolysphereLollipopTraits.cpp],
    and [src/geometry/VolumeCalculator.cpp]. [None]: a failed precondition. *)
From Coq Require Import Reals ZArith List Bool Arith.
From Verif Require Import OptModel TextModel GeomModel PbcModel ShapesModel GeoModel.
Import ListNotations.
Open Scope R_scope.

(** VolumeCalculator.cpp:11-16 *)
Definition sphericalCap (radius capHeight : R) : option R :=
  if Rleb 0 radius && Rleb capHeight (2 * radius) then Some (PI * capHeight * capHeight / 3 * (3 * radius - capHeight)) else None.
(** VolumeCalculator.cpp:18-29 *)
Definition sphereIntersection (radius1 radius2 distance : R) : option R :=
  if Rltb 0 radius1 && Rltb 0 radius2 && Rltb 0 distance && Rleb distance (radius1 + radius2) then
    let r1 := radius1 in let r2 := radius2 in let d := distance in
    Some (PI / 12 / d * (r1 + r2 - d) ^ 2 * (d * d + 2 * d * (r1 + r2) - 3 * (r1 - r2) ^ 2))
  else None.

(** PolysphereTraits.h:113, PolysphereTraits.h:115-117 *)
Definition setGeometricOrigin (o : vec) (g : geometry bead) : geometry bead := Geo (g_data g) (g_primary g) (g_secondary g) o (g_volume g) (g_points g).
Definition addCustomNamedPoints (new : points) (g : geometry bead) : option (geometry bead) :=
  ps <- registerNamedPoints (g_points g) new ;; Some (Geo (g_data g) (g_primary g) (g_secondary g) (g_origin g) (g_volume g) ps).
(** The positions of the first and the last sphere *)
Definition front_pos (data : list bead) : vec := bd_pos (hd (Bead vzero 0) data).
Definition back_pos (data : list bead) : vec := bd_pos (last data (Bead vzero 0)).
Definition cm_name : text := [99; 109]%Z.
Definition beg_name : text := [98; 101; 103]%Z.
Definition end_name : text := [101; 110; 100]%Z.
Definition ss_name : text := [115; 115]%Z.
Definition st_name : text := [115; 116]%Z.

(** KMerTraits.cpp:34-45; [sphereNum - 1] does not wrap around, see below *)
Definition kmer_volume (sphereNum : nat) (sphereRadius distance : R) : option R :=
  let sphereVolume := 4 / 3 * PI * sphereRadius * sphereRadius * sphereRadius in
  let baseVolume := INR sphereNum * sphereVolume in
  if Rltb distance (2 * sphereRadius) then
    let capHeight := sphereRadius - distance / 2 in
    cap <- sphericalCap sphereRadius capHeight ;; Some (baseVolume - 2 * INR (sphereNum - 1) * cap)
  else Some baseVolume.
(** KMerTraits.cpp:18-22: the loop, run the given number of times more *)
Fixpoint kmer_loop (n : nat) (sphereZ sphereRadius distance : R) : list bead :=
  match n with O => [] | S n' => Bead (V3 0 0 sphereZ) sphereRadius :: kmer_loop n' (sphereZ + distance) sphereRadius distance end.
(** KMerTraits.cpp:10-32 *)
Definition kmer_geometry (sphereNum : nat) (sphereRadius distance : R) : option (geometry bead) :=
  if Nat.leb 2 sphereNum && Rltb 0 sphereRadius && Rltb 0 distance then
    let sphereZ := - INR (sphereNum - 1) / 2 * distance in
    let data := kmer_loop sphereNum sphereZ sphereRadius distance in
    volume <- kmer_volume sphereNum sphereRadius distance ;;
    (geometry <- polysphere_geometry data (Some (V3 0 0 1)) (Some (V3 1 0 0)) vzero (Some volume) [] ;;
     let geometry' := setGeometricOrigin vzero (normalizeMassCentre geometry) in
     let newSphereData := g_data geometry' in
     addCustomNamedPoints [(cm_name, vzero); (beg_name, front_pos newSphereData); (end_name, back_pos newSphereData)] geometry')
  else None.

(** The shift of spheres common to PolysphereWedgeTraits.cpp:65-75 and PolysphereLollipopTraits.cpp:72-82 *)
Definition first_z (data : list bead) : R := vz (front_pos data) - bd_radius (hd (Bead vzero 0) data).
Definition last_z (data : list bead) : R := vz (back_pos data) + bd_radius (last data (Bead vzero 0)).
Definition shift_middle (data : list bead) : list bead :=
  let origin := (first_z data + last_z data) / 2 in
  let translation := V3 0 0 (- origin) in
  map (fun d => Bead (vadd (bd_pos d) translation) (bd_radius d)) data.
(** std::accumulate in PolysphereWedgeTraits.cpp:86-89 and PolysphereLollipopTraits.cpp:95-98 *)
Definition sum_volumes (data : list bead) : R := fold_left (fun volume d => volume + 4 / 3 * PI * bd_radius d ^ 3) data 0.

(** PolysphereWedgeTraits.cpp:91-99: the loop *)
Fixpoint subtract_intersections (data : list bead) (baseVolume : R) : option R :=
  match data with
  | data1 :: ((data2 :: _) as rest) =>
    v <- sphereIntersection (bd_radius data1) (bd_radius data2) (vz (bd_pos data2) - vz (bd_pos data1)) ;; subtract_intersections rest (baseVolume - v)
  | _ => Some baseVolume
  end.
(** PolysphereWedgeTraits.cpp:85-102 *)
Definition wedge_volume (data : list bead) (spherePenetration : R) : option R :=
  let baseVolume := sum_volumes data in
  if Rltb 0 spherePenetration then subtract_intersections data baseVolume else Some baseVolume.
(** PolysphereWedgeTraits.cpp:59-63 *)
Fixpoint wedge_loop (n : nat) (centrePos currentRadius radiusDelta spherePenetration : R) : list bead :=
  match n with
  | O => []
  | S n' => Bead (V3 0 0 centrePos) currentRadius :: wedge_loop n' (centrePos + (2 * currentRadius + radiusDelta - spherePenetration)) (currentRadius + radiusDelta) radiusDelta spherePenetration
  end.
(** PolysphereWedgeTraits.cpp:45-83 *)
Definition wedge_geometry (sphereNum : nat) (bottomSphereRadius topSphereRadius spherePenetration : R) : option (geometry bead) :=
  if Nat.leb 2 sphereNum && Rltb 0 topSphereRadius && Rltb 0 bottomSphereRadius && Rltb spherePenetration (2 * Rmin topSphereRadius bottomSphereRadius) then
    let radiusDelta := (topSphereRadius - bottomSphereRadius) / INR (sphereNum - 1) in
    let data := shift_middle (wedge_loop sphereNum 0 bottomSphereRadius radiusDelta spherePenetration) in
    volume <- wedge_volume data spherePenetration ;;
    (geometry <- polysphere_geometry data (Some (V3 0 0 1)) None vzero (Some volume) [] ;;
    (geometry' <- addCustomNamedPoints [(beg_name, front_pos data); (end_name, back_pos data)] geometry ;;
     if Reqb spherePenetration 0 then addCustomNamedPoints [(cm_name, calculateMassCentre (g_data geometry'))] geometry' else Some geometry'))
  else None.

(** PolysphereLollipopTraits.cpp:63-67: the loop; [n] spheres are left *)
Fixpoint stick_loop (n : nat) (centrePos stickSphereRadius stickSpherePenetration : R) : list bead * R :=
  match n with
  | O => ([], centrePos)
  | S n' =>
    let centrePos' := if Nat.eqb n' 0 then centrePos else centrePos + (2 * stickSphereRadius - stickSpherePenetration) in
    let '(data, e) := stick_loop n' centrePos' stickSphereRadius stickSpherePenetration in
    (Bead (V3 0 0 centrePos) stickSphereRadius :: data, e)
  end.
(** PolysphereLollipopTraits.cpp:92-118; the indices are valid, see below *)
Definition lollipop_volume (data : list bead) (stickSpherePenetration tipSpherePenetration : R) : option R :=
  let baseVolume := sum_volumes data in
  let sphereNum := length data in
  (baseVolume' <- (if Rltb 0 stickSpherePenetration then
       capVolume <- sphericalCap (bd_radius (hd (Bead vzero 0) data)) (stickSpherePenetration / 2) ;; Some (baseVolume - 2 * INR (sphereNum - 2) * capVolume)
     else Some baseVolume) ;;
   if Rltb 0 tipSpherePenetration then
     dataTip <- nth_error data (sphereNum - 1) ;;
     (dataStick <- nth_error data (sphereNum - 2) ;;
     (v <- sphereIntersection (bd_radius dataTip) (bd_radius dataStick) (vz (bd_pos dataTip) - vz (bd_pos dataStick)) ;; Some (baseVolume' - v)))
   else Some baseVolume').
(** PolysphereLollipopTraits.cpp:49-90 *)
Definition lollipop_geometry (sphereNum : nat) (stickSphereRadius tipSphereRadius stickSpherePenetration tipSpherePenetration : R) : option (geometry bead) :=
  if Nat.leb 2 sphereNum && Rltb 0 stickSphereRadius && Rltb 0 tipSphereRadius && Rltb stickSpherePenetration (2 * stickSphereRadius) &&
     Rltb tipSpherePenetration (2 * Rmin stickSphereRadius tipSphereRadius) then
    let '(stick, centrePos) := stick_loop (sphereNum - 1) 0 stickSphereRadius stickSpherePenetration in
    let data := shift_middle (stick ++ [Bead (V3 0 0 (centrePos + (stickSphereRadius + tipSphereRadius - tipSpherePenetration))) tipSphereRadius]) in
    volume <- lollipop_volume data stickSpherePenetration tipSpherePenetration ;;
    (geometry <- polysphere_geometry data (Some (V3 0 0 1)) None vzero (Some volume) [] ;;
    (geometry' <- addCustomNamedPoints [(ss_name, front_pos data); (st_name, back_pos data)] geometry ;;
     if Reqb stickSpherePenetration 0 && Reqb tipSpherePenetration 0 then addCustomNamedPoints [(cm_name, calculateMassCentre (g_data geometry'))] geometry' else Some geometry'))
  else None.
