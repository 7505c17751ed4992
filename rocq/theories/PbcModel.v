(** [src/core/PeriodicBoundaryConditions.cpp], [src/core/FreeBoundaryConditions.h], [src/core/Shape.cpp].

    The [while] loops are run with fuel; [None] means "the loop has not finished within [fuel] iterations". *)
From Coq Require Import Reals.
From Verif Require Import GeomModel BoxModel.
Open Scope R_scope.

(** [while (cond(c)) c += d;] *)
Fixpoint while_add (fuel : nat) (cond : R -> bool) (d : R) (c : R) : option R :=
  if cond c then
    match fuel with
    | O => None
    | S fuel' => while_add fuel' cond d (c + d)
    end
  else Some c.

Definition obind {A B} (o : option A) (f : A -> option B) : option B :=
  match o with Some x => f x | None => None end.

(** Runs the body of [for (i = 0; i < 3; i++)] for the three axes in order. *)
Definition for_axes (f : axis -> option R) : option vec :=
  obind (f AX) (fun x => obind (f AY) (fun y => obind (f AZ) (fun z => Some (V3 x y z)))).

(** PeriodicBoundaryConditions.cpp:16-19, one axis. *)
Definition correction_axis (fuel : nat) (p : R) : option R :=
  obind (while_add fuel (fun c => Rltb (p + c) 0) 1 0)
        (fun c => while_add fuel (fun c => Rleb 1 (p + c)) (-1) c).
(** PeriodicBoundaryConditions.cpp:11-22. *)
Definition getCorrection (fuel : nat) (b : box) (position : vec) : option vec :=
  let positionRel := absoluteToRelative b position in
  obind (for_axes (fun i => correction_axis fuel (vget positionRel i)))
        (fun correctionRel => Some (relativeToAbsolute b correctionRel)).

(** PeriodicBoundaryConditions.cpp:30-33, one axis. *)
Definition translation_axis (fuel : nat) (p1 p2 : R) : option R :=
  obind (while_add fuel (fun t => Rltb (1/2) (p2 + t - p1)) (-1) 0)
        (fun t => while_add fuel (fun t => Rltb (p2 + t - p1) (-1/2)) 1 t).
(** PeriodicBoundaryConditions.cpp:24-36. *)
Definition getTranslation (fuel : nat) (b : box) (position1 position2 : vec) : option vec :=
  let positionRel1 := absoluteToRelative b position1 in
  let positionRel2 := absoluteToRelative b position2 in
  obind (for_axes (fun i => translation_axis fuel (vget positionRel1 i) (vget positionRel2 i)))
        (fun translationRel => Some (relativeToAbsolute b translationRel)).

(** PeriodicBoundaryConditions.cpp:44-47, one axis. *)
Definition distance_axis (fuel : nat) (p1 p2 : R) : option R :=
  while_add fuel (fun d => Rltb (1/2) d) (-1) (Rabs (p2 - p1)).
(** PeriodicBoundaryConditions.cpp:38-50. *)
Definition getDistance2 (fuel : nat) (b : box) (position1 position2 : vec) : option R :=
  let positionRel1 := absoluteToRelative b position1 in
  let positionRel2 := absoluteToRelative b position2 in
  obind (for_axes (fun i => distance_axis fuel (vget positionRel1 i) (vget positionRel2 i)))
        (fun distanceRel => Some (vnorm2 (relativeToAbsolute b distanceRel))).

(** PeriodicBoundaryConditions.cpp:52-59: constructor and [setBox] require a non-zero volume. *)
Definition pbc_setBox (b : box) : option box := if Reqb (box_volume b) 0 then None else Some b.

(** src/core/FreeBoundaryConditions.h. *)
Definition free_getCorrection (position : vec) : vec := vzero.
Definition free_getTranslation (position1 position2 : vec) : vec := vzero.
Definition free_getDistance2 (position1 position2 : vec) : R := vnorm2 (vsub position2 position1).

(** src/core/Shape.h: position and orientation matrix. *)
Record shape := Shape { sh_pos : vec; sh_rot : mat }.
(** src/core/Shape.cpp:9-12. *)
Definition shape_translate (fuel : nat) (b : box) (t : vec) (s : shape) : option shape :=
  let p := vadd (sh_pos s) t in
  obind (getCorrection fuel b p) (fun c => Some (Shape (vadd p c) (sh_rot s))).
(** src/core/Shape.cpp:14-16. *)
Definition shape_rotate (r : mat) (s : shape) : shape := Shape (sh_pos s) (mmul r (sh_rot s)).
