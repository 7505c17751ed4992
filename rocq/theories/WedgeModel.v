(** Wedges: [src/core/shapes/SmoothWedgeTraits.cpp] (.h) and [src/core/shapes/PolyhedralWedgeTraits.cpp] (.h). [None]: a failed precondition.
    The data of a shape are its parts: geometries for the collision test together with interaction centres; an empty list of centres in the
    source means one centre, at the origin. Printers are not modelled. *)
From Coq Require Import Reals ZArith List Bool Arith.
From Verif Require Import OptModel TextModel GeomModel PbcModel GeoModel XcModel.
Import ListNotations.
Open Scope R_scope.

Definition parts := geometry (xc * vec).
(** XenoCollideTraits.h:90-95 *)
Definition xc_traits (data : list (xc * vec)) (primary secondary : option vec) (origin : vec) (volume : R) (custom : points) : option parts :=
  primary' <- normalized_axis primary ;;
  (secondary' <- normalized_axis secondary ;;
  (ps <- registerNamedPoints [] custom ;;
   Some (Geo data primary' secondary' origin volume ps))).
Definition wbeg_name : text := [98; 101; 103]%Z.
Definition wend_name : text := [101; 110; 100]%Z.

(** SmoothWedgeTraits.cpp:10-25; [l] is not 0 if the radii differ, because the value is not used otherwise *)
Definition smooth_volume (R0 r l : R) : R :=
  let r2 := r * r in let r3 := r2 * r in let R2 := R0 * R0 in let R3 := R2 * R0 in let Rr := R0 * r in
  let epsilon := if Reqb R0 r then 0 else (R0 - r) / l in
  let epsilon2 := epsilon * epsilon in
  PI * l / 3 * (R2 + Rr + r2) * (1 + epsilon2) + 2 * PI / 3 * (R3 + r3).
(** SmoothWedgeTraits.h:48-54 *)
Definition smooth_support (R0 r l : R) (n : vec) : option vec :=
  nNorm <- normalized n ;;
  Some (if Rltb (vz nNorm * l) (R0 - r) then vadd (vscale R0 nNorm) (V3 0 0 ((- l + R0 - r) / 2)) else vadd (vscale r nNorm) (V3 0 0 ((l + R0 - r) / 2))).
(** SmoothWedgeTraits.cpp:96-103, SmoothWedgeTraits.h:46, 56-57; the inner radius is not calculated if a precondition is not met *)
Definition smooth_xc (R0 r l : R) : option xc :=
  if Rltb 0 R0 && Rltb 0 r && Rltb 0 l then Some (XC (smooth_support R0 r l) vzero ((l + R0 + r) / 2) (1 / 2 * (R0 + r + (R0 - r) * (R0 - r) / l))) else None.
(** SmoothWedgeTraits.cpp:71-73: the values pushed after [back] *)
Fixpoint grow (a : R) (n : nat) (back : R) : list R :=
  match n with O => [] | S n' => let next := a * back + 1 in next :: grow a n' next end.
(** SmoothWedgeTraits.cpp:62-77; [None]: a division by zero, after which the radii of parts are not numbers and the parts are refused *)
Definition calculateRelativeSpherePositions (R0 r l : R) (subdivisions : nat) : option (list R) :=
  a <- (if Reqb R0 r then Some 1 else if Reqb (l + r - R0) 0 then None else Some ((l - r + R0) / (l + r - R0))) ;;
  (let alphas := 0 :: grow a subdivisions 0 in Some (map (fun alpha => alpha / last alphas 0) alphas)).
(** SmoothWedgeTraits.cpp:46-59: the loop *)
Fixpoint smooth_loop (R0 r l begZ : R) (alphas : list R) : option (list (xc * vec)) :=
  match alphas with
  | alpha0 :: ((alpha1 :: _) as rest) =>
    let r0 := alpha0 * r + (1 - alpha0) * R0 in
    let r1 := alpha1 * r + (1 - alpha1) * R0 in
    let l01 := (alpha1 - alpha0) * l in
    g <- smooth_xc r0 r1 l01 ;;
    (let centreZ := begZ + l * (alpha0 + alpha1) / 2 - (r0 - r1) / 2 in
     others <- smooth_loop R0 r l begZ rest ;; Some ((g, V3 0 0 centreZ) :: others))
  | _ => Some []
  end.
(** SmoothWedgeTraits.cpp:27-60 *)
Definition smooth_wedge (R0 r l : R) (subdivisions : nat) : option parts :=
  if Rltb 0 r && Rltb 0 R0 && Rleb (Rabs (R0 - r)) l then
    data <- (if Nat.leb subdivisions 1 then g <- smooth_xc R0 r l ;; Some [(g, vzero)]
             else alphas <- calculateRelativeSpherePositions R0 r l subdivisions ;; smooth_loop R0 r l ((- l + R0 - r) / 2) alphas) ;;
    xc_traits data (Some (V3 0 0 1)) None vzero (smooth_volume R0 r l) [(wbeg_name, V3 0 0 ((- l + R0 - r) / 2)); (wend_name, V3 0 0 ((l + R0 - r) / 2))]
  else None.

(** PolyhedralWedgeTraits.cpp:10-13 *)
Definition polyhedral_volume (axBottom ayBottom axTop ayTop len : R) : R :=
  len / 6 * (2 * axBottom * ayBottom + axTop * ayBottom + axBottom * ayTop + 2 * axTop * ayTop).
(** PolyhedralWedgeTraits.h:42-60 *)
Definition polyhedral_support (up down n : vec) : vec :=
  let flip (v : vec) := V3 (signed (vx n) (vx v)) (signed (vy n) (vy v)) (vz v) in
  let rUp := flip up in let rDown := flip down in
  if Rltb 0 (vdot (vsub rUp rDown) n) then rUp else rDown.
(** PolyhedralWedgeTraits.cpp:66-79, PolyhedralWedgeTraits.h:40, 62-63 *)
Definition polyhedral_xc (axBottom ayBottom axTop ayTop len : R) : option xc :=
  let vertexUp := V3 (axTop / 2) (ayTop / 2) (len / 2) in
  let vertexDown := V3 (axBottom / 2) (ayBottom / 2) (- len / 2) in
  if (Rltb 0 axTop && Rltb 0 ayBottom || Rltb 0 ayTop && Rltb 0 axBottom) && Rltb 0 len then
    Some (XC (fun n => Some (polyhedral_support vertexUp vertexDown n)) vzero (fmax (vnorm vertexUp) (vnorm vertexDown))
             (fmin (fmin (fmin axTop ayTop) (fmin axBottom ayBottom)) len / 2))
  else None.
(** PolyhedralWedgeTraits.cpp:37-46: the loop, from the turn [i], [n] turns left *)
Fixpoint polyhedral_loop (n i : nat) (axTop ayTop len dl dx dy : R) : option (list (xc * vec)) :=
  match n with
  | O => Some []
  | S n' =>
    let subAxBottom := axTop + INR (i + 1) * dx in
    let subAyBottom := ayTop + INR (i + 1) * dy in
    let subAxTop := axTop + INR i * dx in
    let subAyTop := ayTop + INR i * dy in
    g <- polyhedral_xc subAxBottom subAyBottom subAxTop subAyTop dl ;;
    (others <- polyhedral_loop n' (S i) axTop ayTop len dl dx dy ;; Some ((g, V3 0 0 (len / 2 - (INR i + 1 / 2) * dl)) :: others))
  end.
(** PolyhedralWedgeTraits.cpp:15-47 *)
Definition polyhedral_wedge (axBottom ayBottom axTop ayTop len : R) (subdivisions : nat) : option parts :=
  if (Rltb 0 axTop && Rltb 0 ayBottom || Rltb 0 ayTop && Rltb 0 axBottom) && Rltb 0 len then
    data <- (if Nat.leb subdivisions 1 then g <- polyhedral_xc axBottom ayBottom axTop ayTop len ;; Some [(g, vzero)]
             else let dl := len / INR subdivisions in let dy := (ayBottom - ayTop) / INR subdivisions in let dx := (axBottom - axTop) / INR subdivisions in
                  polyhedral_loop subdivisions 0 axTop ayTop len dl dx dy) ;;
    xc_traits data (Some (V3 0 0 1)) (Some (V3 1 0 0)) vzero (polyhedral_volume axBottom ayBottom axTop ayTop len)
      [(wbeg_name, V3 0 0 (- len / 2)); (wend_name, V3 0 0 (len / 2))]
  else None.
