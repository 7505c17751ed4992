(** [src/core/shapes]: hard spheres, polyspheres, spherocylinders and polyspherocylinders. Printers are left out. *)
From Coq Require Import Reals List Bool.
From Verif Require Import OptModel GeomModel BoxModel PbcModel PackModel InterModel SegModel.
Import ListNotations.
Open Scope R_scope.

Definition no_energy_function (_ : vec) (_ : mat) (_ : nat) (_ : vec) (_ : mat) (_ : nat) (_ : bcond) : R := 0.

(** SphereTraits.cpp:56-75, SphereTraits.h:18-35; the constructor (SphereTraits.cpp:14-20) requires a positive radius *)
Definition sphere_overlap (radius : R) (pos1 : vec) (_ : mat) (_ : nat) (pos2 : vec) (_ : mat) (_ : nat) (bc : bcond) : bool :=
  Rltb (bc_distance2 bc pos1 pos2) ((2 * radius) ^ 2).
Definition sphere_wall (radius : R) (pos : vec) (_ : mat) (_ : nat) (origin wall : vec) : bool := Rltb (vdot wall (vsub pos origin)) radius.
Definition sphere (radius : R) : option interaction :=
  if Rltb 0 radius then Some (Inter true false true (2 * radius) (getTotalRangeRadius [] (2 * radius)) [] (sphere_overlap radius) no_energy_function (sphere_wall radius))
  else None.

(** PolysphereTraits.h:24-40 *)
Record bead := Bead { bd_pos : vec; bd_radius : R }.
(** PolysphereTraits.cpp:79-83: the radius of each bead is positive *)
Definition bead_radius (beads : list bead) (i : nat) : R := bd_radius (nth i beads (Bead vzero 0)).
(** PolysphereTraits.cpp:97-107 *)
Definition polysphere_overlap (beads : list bead) (pos1 : vec) (_ : mat) (idx1 : nat) (pos2 : vec) (_ : mat) (idx2 : nat) (bc : bcond) : bool :=
  let r := bead_radius beads idx1 + bead_radius beads idx2 in Rltb (bc_distance2 bc pos1 pos2) (r * r).
(** std::max_element of a non-empty vector: the value *)
Definition max_of (l : list R) : R := match l with [] => 0 | x :: l' => fold_left (fun m y => if Rltb m y then y else m) l' x end.
(** PolysphereTraits.cpp:117-122 *)
Definition polysphere_range (beads : list bead) : R := 2 * max_of (map bd_radius beads).
(** PolysphereTraits.cpp:130-137 *)
Definition polysphere_wall (beads : list bead) (pos : vec) (_ : mat) (idx : nat) (origin wall : vec) : bool :=
  Rltb (vdot wall (vsub pos origin)) (bead_radius beads idx).
(** PolysphereTraits.cpp:79-83, 109-128 *)
Definition polysphere (beads : list bead) : option interaction :=
  if negb (Nat.eqb (length beads) 0) && forallb (fun d => Rltb 0 (bd_radius d)) beads then
    Some (Inter true false false (polysphere_range beads) (getTotalRangeRadius (map bd_pos beads) (polysphere_range beads)) (map bd_pos beads)
                (polysphere_overlap beads) no_energy_function (polysphere_wall beads))
  else None.

(** SpherocylinderTraits.cpp:24-26; [-1] and [1] are the beginning and the end *)
Definition getCapCentre (length : R) (beginOrEnd : R) (s : shape) : vec :=
  vadd (sh_pos s) (vscale (5 / 10 * beginOrEnd * length) (mcol (sh_rot s) AZ)).
(** SpherocylinderTraits.cpp:28-46 *)
Definition spherocylinder_overlap (length radius : R) (pos1 : vec) (rot1 : mat) (_ : nat) (pos2 : vec) (rot2 : mat) (_ : nat) (bc : bcond) : bool :=
  let pos2bc := vadd pos2 (bc_translation bc pos1 pos2) in
  let distance2 := vnorm2 (vsub pos2bc pos1) in
  if Rltb distance2 (4 * radius * radius) then true
  else if Rleb ((2 * radius + length) ^ 2) distance2 then false
  else
    let shape1 := Shape pos1 rot1 in
    let shape2 := Shape pos2bc rot2 in
    Rltb (segment_distance2 (getCapCentre length (-1) shape1) (getCapCentre length 1 shape1) (getCapCentre length (-1) shape2) (getCapCentre length 1 shape2))
         (4 * radius * radius).
(** SpherocylinderTraits.cpp:56-73 *)
Definition spherocylinder_wall (length radius : R) (pos : vec) (rot : mat) (_ : nat) (origin wall : vec) : bool :=
  let halfAxis := vscale (length / 2) (mcol rot AZ) in
  if Rltb (vdot wall (vsub (vadd pos halfAxis) origin)) radius then true
  else if Rltb (vdot wall (vsub (vsub pos halfAxis) origin)) radius then true
  else false.
(** SpherocylinderTraits.cpp:12-22, SpherocylinderTraits.h:68-80 *)
Definition spherocylinder (length radius : R) : option interaction :=
  if Rleb 0 length && Rltb 0 radius then
    Some (Inter true false true (2 * radius + length) (getTotalRangeRadius [] (2 * radius + length)) []
                (spherocylinder_overlap length radius) no_energy_function (spherocylinder_wall length radius))
  else None.

(** PolyspherocylinderTraits.h:27-42; [halfLength] and [circumsphereRadius] are functions here *)
Record rod := Rod { rd_pos : vec; rd_half : vec; rd_radius : R }.
(** PolyspherocylinderTraits.cpp:78-84: the radius is positive *)
Definition circumsphereRadius (d : rod) : R := rd_radius d + vnorm (rd_half d).
Definition rod_at (rods : list rod) (i : nat) : rod := nth i rods (Rod vzero vzero 0).
(** PolyspherocylinderTraits.cpp:108-131 *)
Definition polyspherocylinder_overlap (rods : list rod) (pos1 : vec) (rot1 : mat) (idx1 : nat) (pos2 : vec) (rot2 : mat) (idx2 : nat) (bc : bcond) : bool :=
  let data1 := rod_at rods idx1 in
  let data2 := rod_at rods idx2 in
  let pos2bc := vadd pos2 (bc_translation bc pos1 pos2) in
  let distance2 := vnorm2 (vsub pos2bc pos1) in
  let insphereR := rd_radius data1 + rd_radius data2 in
  let insphereR2 := insphereR * insphereR in
  if Rltb distance2 insphereR2 then true
  else
    let circumsphereR := circumsphereRadius data1 + circumsphereRadius data2 in
    if Rleb (circumsphereR * circumsphereR) distance2 then false
    else
      let halfAxis1 := mvec rot1 (rd_half data1) in
      let halfAxis2 := mvec rot2 (rd_half data2) in
      Rltb (segment_distance2 (vadd pos1 halfAxis1) (vsub pos1 halfAxis1) (vadd pos2bc halfAxis2) (vsub pos2bc halfAxis2)) insphereR2.
(** PolyspherocylinderTraits.cpp:142-149 *)
Definition polyspherocylinder_range (rods : list rod) : R := 2 * max_of (map circumsphereRadius rods).
(** PolyspherocylinderTraits.cpp:151-170 *)
Definition polyspherocylinder_wall (rods : list rod) (pos : vec) (rot : mat) (idx : nat) (origin wall : vec) : bool :=
  let data := rod_at rods idx in
  let halfAxis := mvec rot (rd_half data) in
  if Rltb (vdot wall (vsub (vsub pos halfAxis) origin)) (rd_radius data) then true
  else if Rltb (vdot wall (vsub (vadd pos halfAxis) origin)) (rd_radius data) then true
  else false.
(** PolyspherocylinderTraits.h:155-190, PolyspherocylinderTraits.cpp:26-33 and 133-140 *)
Definition polyspherocylinder (rods : list rod) : option interaction :=
  if negb (Nat.eqb (length rods) 0) && forallb (fun d => Rltb 0 (rd_radius d)) rods then
    Some (Inter true false false (polyspherocylinder_range rods) (getTotalRangeRadius (map rd_pos rods) (polyspherocylinder_range rods)) (map rd_pos rods)
                (polyspherocylinder_overlap rods) no_energy_function (polyspherocylinder_wall rods))
  else None.
