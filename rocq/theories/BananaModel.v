(** Shapes placed on an arc: [src/core/shapes/PolysphereBananaTraits.cpp] with its legacy version and [PolyspherocylinderBananaTraits.cpp].
    [None]: a failed precondition. *)
From Coq Require Import Reals ZArith List Bool Arith.
From Verif Require Import TextModel GeomModel PbcModel ShapesModel GeoModel BeadsModel OptModel.
Import ListNotations.
Open Scope R_scope.

(** PolysphereBananaTraits.cpp:63, PolyspherocylinderBananaTraits.cpp:77-78 *)
Definition arc_position (arcRadius angle : R) : vec := mvec (mrot_xyz 0 angle 0) (V3 (- arcRadius) 0 0).
(** PolysphereBananaTraits.cpp:62-66: the loop, run the given number of times more *)
Fixpoint banana_loop (n : nat) (angle angleStep arcRadius : R) : list vec :=
  match n with O => [] | S n' => arc_position arcRadius angle :: banana_loop n' (angle + angleStep) angleStep arcRadius end.
(** PolysphereBananaTraits.cpp:95-117 *)
Definition banana_volume (data : list bead) (arcAngle : R) : option R :=
  let numSpheres := length data in
  data1 <- nth_error data 0 ;;
  (data2 <- nth_error data 1 ;;
  (let baseVolume := INR numSpheres * 4 / 3 * PI * bd_radius data1 ^ 3 in
   let distance := vnorm (vsub (bd_pos data1) (bd_pos data2)) in
   baseVolume' <- (if Rltb distance (bd_radius data1 + bd_radius data2) then
       overlapVolume <- sphereIntersection (bd_radius data1) (bd_radius data2) distance ;; Some (baseVolume - INR (numSpheres - 1) * overlapVolume)
     else Some baseVolume) ;;
   if Rltb PI arcAngle && Nat.ltb 2 numSpheres then
     data3 <- nth_error data (numSpheres - 1) ;;
     (let distance := vnorm (vsub (bd_pos data1) (bd_pos data3)) in
      if Rltb distance (bd_radius data1 + bd_radius data3) then
        overlapVolume <- sphereIntersection (bd_radius data1) (bd_radius data3) distance ;; Some (baseVolume' - overlapVolume)
      else Some baseVolume')
   else Some baseVolume')).
(** PolysphereBananaTraits.cpp:84-93: the condition for adding the mass centre; a squared distance is compared with a squared radius *)
Definition has_mass_centre (data : list bead) : bool :=
  match nth_error data 0, nth_error data 1 with
  | Some d1, Some d2 =>
    let r := bd_radius d1 in
    let dist2 := vnorm2 (vsub (bd_pos d2) (bd_pos d1)) in
    Rleb (r * r) (dist2 + / 10 ^ 12 * / 10 ^ 12)
  | _, _ => false
  end.
(** PolysphereBananaTraits.cpp:46-82 *)
Definition banana_geometry (arcRadius arcAngle : R) (sphereNum : nat) (sphereRadius : R) : option (geometry bead) :=
  if Rltb 0 arcRadius && Rltb 0 arcAngle && Rltb arcAngle (2 * PI) && Nat.leb 2 sphereNum && Rltb 0 sphereRadius && Rleb sphereRadius arcRadius then
    let angleStep := arcAngle / INR (sphereNum - 1) in
    let pos0 := banana_loop sphereNum (- arcAngle / 2) angleStep arcRadius in
    let spherePos := if Rltb arcAngle PI then map (fun pos => vadd pos (V3 (- vx (hd vzero pos0)) 0 0)) pos0 else pos0 in
    let data := map (fun pos => Bead pos sphereRadius) spherePos in
    volume <- banana_volume data arcAngle ;;
    (geometry <- polysphere_geometry data (Some (V3 0 0 1)) (Some (V3 (-1) 0 0)) vzero (Some volume) [] ;;
    (geometry' <- addCustomNamedPoints [(beg_name, hd vzero spherePos); (end_name, last spherePos vzero)] geometry ;;
     if has_mass_centre (g_data geometry') then addCustomNamedPoints [(cm_name, calculateMassCentre (g_data geometry'))] geometry' else Some geometry'))
  else None.

(** PolysphereBananaTraits.cpp:20-29: the division of ints truncates towards zero *)
Definition legacy_indices (sphereNum : nat) : list Z :=
  let start := Z.quot (- Z.of_nat sphereNum) 2 in
  let end_ := if Nat.even sphereNum then (Z.of_nat (sphereNum / 2) - 1)%Z else Z.of_nat (sphereNum / 2) in
  map (fun k => (start + Z.of_nat k)%Z) (seq 0 (Z.to_nat (end_ - start + 1))).
(** PolysphereBananaTraits.cpp:11-42 *)
Definition legacy_banana_geometry (arcRadius arcAngle : R) (sphereNum : nat) (sphereRadius : R) : option (geometry bead) :=
  if Rltb 0 arcRadius && Rltb 0 arcAngle && Nat.leb 2 sphereNum && Rltb 0 sphereRadius then
    let angleFactor := arcAngle / INR (sphereNum - 1) in
    let data := map (fun i => Bead (vadd (mvec (mrot_xyz 0 0 (IZR (- i) * angleFactor)) (V3 (- arcRadius) 0 0)) (V3 arcRadius 0 0)) sphereRadius) (legacy_indices sphereNum) in
    let volume := INR sphereNum * 4 / 3 * PI * sphereRadius ^ 3 in
    geometry <- polysphere_geometry data (Some (V3 0 1 0)) (Some (V3 (-1) 0 0)) vzero (Some volume) [] ;;
    (let geometry' := setGeometricOrigin vzero (normalizeMassCentre geometry) in
     let newSphereData := g_data geometry' in
     addCustomNamedPoints [(cm_name, vzero); (beg_name, front_pos newSphereData); (end_name, back_pos newSphereData)] geometry')
  else None.

(** PolyspherocylinderBananaTraits.cpp:10-18 *)
Definition basicValidation (arcRadius arcAngle : R) (segmentsNum : nat) (radius : R) : bool :=
  Rltb 0 arcRadius && Rltb 0 arcAngle && Rltb arcAngle (2 * PI) && Nat.leb 2 segmentsNum && Rltb 0 radius.
(** PolyspherocylinderBananaTraits.cpp:20-28 *)
Definition isArcOriginOutside (arcRadius arcAngle : R) (segmentsNum : nat) (radius : R) : option bool :=
  if basicValidation arcRadius arcAngle segmentsNum radius then
    let segmentAngle := arcAngle / INR segmentsNum in
    let segmentDistance := arcRadius * cos (segmentAngle / 2) in
    Some (Rleb radius (segmentDistance * (1 + / 10 ^ 12)))
  else None.
(** PolyspherocylinderBananaTraits.cpp:30-41 *)
Definition isArcOpen (arcRadius arcAngle : R) (segmentsNum : nat) (radius : R) : option bool :=
  if basicValidation arcRadius arcAngle segmentsNum radius then
    if Rleb arcAngle PI then Some true
    else
      let endDistance := 2 * sin (arcAngle / 2) * arcRadius in
      Some (Rleb (2 * radius) (endDistance * (1 + / 10 ^ 12)))
  else None.
(** PolyspherocylinderBananaTraits.cpp:43-59 *)
Definition rod_banana_volume (arcRadius arcAngle : R) (segmentsNum : nat) (radius : R) : R :=
  let n := INR segmentsNum in
  let alpha := arcAngle / n in
  let H := radius * tan (alpha / 2) in
  let L := 2 * arcRadius * sin (alpha / 2) in
  let V1 := PI * L * radius * radius in
  let V2 := 2 / 3 * H * radius * radius in
  let V3 := 4 / 3 * PI * radius * radius * radius in
  n * V1 - (2 * n - 2) * V2 + ((n - 1) * alpha / 2 / PI + 1) * V3.
(** PolyspherocylinderBananaTraits.cpp:77-85: the parts of a single segment *)
Definition segment_rods (arcRadius angle angleStep radius : R) (subdivisions : nat) : list rod :=
  let pos1 := arc_position arcRadius (angle - angleStep / 2) in
  let pos2 := arc_position arcRadius (angle + angleStep / 2) in
  let axis := vsub pos2 pos1 in
  let halfAxis := vscale (/ (2 * INR subdivisions)) axis in
  map (fun j => Rod (vadd pos1 (vscale ((INR j + 1 / 2) / INR subdivisions) axis)) halfAxis radius) (seq 0 subdivisions).
(** PolyspherocylinderBananaTraits.cpp:76-87: the loop, run the given number of times more *)
Fixpoint rod_banana_loop (n : nat) (arcRadius angle angleStep radius : R) (subdivisions : nat) : list rod :=
  match n with O => [] | S n' => segment_rods arcRadius angle angleStep radius subdivisions ++ rod_banana_loop n' arcRadius (angle + angleStep) angleStep radius subdivisions end.
(** PolyspherocylinderTraits.h: PolyspherocylinderGeometry::addCustomNamedPoints *)
Definition addRodPoints (new : points) (g : geometry rod) : option (geometry rod) :=
  ps <- registerNamedPoints (g_points g) new ;; Some (Geo (g_data g) (g_primary g) (g_secondary g) (g_origin g) (g_volume g) ps).
(** PolyspherocylinderBananaTraits.cpp:61-105 *)
Definition rod_banana_geometry (arcRadius arcAngle : R) (segmentsNum : nat) (radius : R) (subdivisions : nat) : option (geometry rod) :=
  if basicValidation arcRadius arcAngle segmentsNum radius then
    outside <- (if Nat.ltb 2 segmentsNum then isArcOriginOutside arcRadius arcAngle segmentsNum radius else Some true) ;;
    (isOpen <- isArcOpen arcRadius arcAngle segmentsNum radius ;;
     if outside && isOpen && Nat.ltb 0 subdivisions then
       let angleStep := arcAngle / INR segmentsNum in
       let startAngle := - angleStep * INR (segmentsNum - 1) / 2 in
       let scData := rod_banana_loop segmentsNum arcRadius startAngle angleStep radius subdivisions in
       let front d := hd (Rod vzero vzero 0) d in
       let back d := last d (Rod vzero vzero 0) in
       let scData' := if Rltb arcAngle PI then
           let beg := vsub (rd_pos (front scData)) (rd_half (front scData)) in
           map (fun d => Rod (vadd (rd_pos d) (V3 (- vx beg) 0 0)) (rd_half d) (rd_radius d)) scData
         else scData in
       let volume := rod_banana_volume arcRadius arcAngle segmentsNum radius in
       geometry <- polyspherocylinder_geometry scData' (Some (V3 0 0 1)) (Some (V3 (-1) 0 0)) vzero (Some volume) [] ;;
       addRodPoints [(beg_name, vsub (rd_pos (front scData')) (rd_half (front scData'))); (end_name, vadd (rd_pos (back scData')) (rd_half (back scData')))] geometry
     else None)
  else None.
