(** Rotations: [src/core/move_samplers/FlipSampler.cpp], [src/core/ShapeGeometry.cpp] findFlipAxis, [src/geometry/EulerAngles.cpp],
    [src/geometry/Quaternion.cpp], [src/core/Simulation.cpp] getRotationMatrixDeviation. Matrix::rotation is in GeomModel,
    Packing::fixRotationMatrix in PackModel. *)
From Coq Require Import Reals List Bool.
From Verif Require Import GeomModel BoxModel PbcModel PackModel PackSpec.
Import ListNotations.
Open Scope R_scope.

(** src/geometry/Vector.h [normalized]; division by the zero norm is not excluded by the code. *)
Definition vnormalized (v : vec) : vec := vscale (/ vnorm v) v.

(** Matrix.tpp:546-550. *)
Definition mnorm2 (m : mat) : R :=
  m00 m * m00 m + m01 m * m01 m + m02 m * m02 m + m10 m * m10 m + m11 m * m11 m + m12 m * m12 m +
  m20 m * m20 m + m21 m * m21 m + m22 m * m22 m.
(** Simulation.cpp:771-773. *)
Definition rotationMatrixDeviation (m : mat) : R := mnorm2 (msub (mmul m (mtrans m)) mid).

(** *** Flip moves *)

(** What FlipSampler.cpp:48-52 asks of the geometry of a shape in the default position and orientation: optional axes, the
    geometric origin. *)
Record geometry := Geometry { ge_primary : option vec; ge_secondary : option vec; ge_origin : vec }.

(** ShapeGeometry.cpp:93-97: index of the first component with the smallest absolute value. *)
Definition min_component (v : vec) : axis :=
  if Rltb (Rabs (vy v)) (Rabs (vx v))
  then (if Rltb (Rabs (vz v)) (Rabs (vy v)) then AZ else AY)
  else (if Rltb (Rabs (vz v)) (Rabs (vx v)) then AZ else AX).
Definition unit_vector (a : axis) : vec := vmake (fun a' => if axis_eqb a' a then 1 else 0).
(** ShapeGeometry.cpp:85-102 for the shape in the default orientation; [None]: failed precondition. *)
Definition findFlipAxis (g : geometry) : option vec :=
  match ge_primary g with
  | None => None
  | Some primary =>
    match ge_secondary g with
    | Some s => Some s
    | None => Some (vnormalized (vcross primary (unit_vector (min_component primary))))
    end
  end.

(** FlipSampler.cpp:48-59. *)
Record flipSampler := Flip { fl_axis : vec; fl_origin : vec; fl_originZero : bool }.
Definition FLIP_EPSILON : R := / 10 ^ 14.
Definition setupFlip (g : geometry) : option flipSampler :=
  a <- findFlipAxis g ;;
  Some (Flip a (ge_origin g) (Rltb (vnorm2 (ge_origin g)) (FLIP_EPSILON * FLIP_EPSILON))).

(** FlipSampler.cpp:24-45 for the chosen particle [i]: rotation by pi about the axis of the shape, and the translation which
    restores the geometric origin. Both kinds of moves carry the active domain given by the caller. *)
Definition flip_axis_of (f : flipSampler) (s : shape) : vec := vnormalized (mvec (sh_rot s) (fl_axis f)).
Definition flip_rotation (f : flipSampler) (s : shape) : mat := mrot_axis (flip_axis_of f s) PI.
Definition flip_translation (f : flipSampler) (s : shape) : vec :=
  let g := mvec (sh_rot s) (fl_origin f) in
  vadd (vneg (mvec (flip_rotation f s) g)) g.
Definition sampleFlip (f : flipSampler) (thread i : nat) (inside : option (vec -> bool)) (wanted : bool) (s : shape) : pack_op :=
  if fl_originZero f then DoRotation thread i (flip_rotation f s) wanted
  else DoMove thread i (flip_translation f s) (flip_rotation f s) inside wanted.

(** *** Euler angles *)

(** C's [atan2]; the value for (0, 0) is that of a C library with IEEE arithmetic for positive zeros. *)
Definition atan2 (y x : R) : R :=
  if Rltb 0 x then atan (y / x)
  else if Rltb x 0 then (if Rleb 0 y then atan (y / x) + PI else atan (y / x) - PI)
  else if Rltb 0 y then PI / 2 else if Rltb y 0 then - (PI / 2) else 0.

(** EulerAngles.h:22, EulerAngles.cpp:58-66. *)
Definition EULER_EPSILON : R := / 10 ^ 12.
Definition isRotationMatrix (m : mat) : bool :=
  let z := msub (mmul m (mtrans m)) mid in
  forallb (fun i => forallb (fun j => Rltb (Rabs (mget z i j)) EULER_EPSILON) [AX; AY; AZ]) [AX; AY; AZ].
(** EulerAngles.cpp:11-44: two triples of angles about x, y, z. [None]: division by zero. *)
Definition eulerForMatrix (m : mat) : option ((R * R * R) * (R * R * R)) :=
  if Rltb (-1 + EULER_EPSILON) (m20 m) || Rltb (m20 m) (1 - EULER_EPSILON) then
    let theta1 := - asin (m20 m) in
    let theta2 := PI - theta1 in
    let c1 := cos theta1 in
    let c2 := cos theta2 in
    if Reqb c1 0 || Reqb c2 0 then None
    else Some ((atan2 (m21 m / c1) (m22 m / c1), theta1, atan2 (m10 m / c1) (m00 m / c1)),
               (atan2 (m21 m / c2) (m22 m / c2), theta2, atan2 (m10 m / c2) (m00 m / c2)))
  else if Rltb (m20 m) 0
  then let psi := atan2 (m01 m) (m02 m) in Some ((psi, PI / 2, 0), (psi, PI / 2, 0))
  else let psi := atan2 (- m01 m) (- m02 m) in Some ((psi, - (PI / 2), 0), (psi, - (PI / 2), 0)).
(** EulerAngles.cpp:46-52. *)
Definition eulerAngles (m : mat) : option ((R * R * R) * (R * R * R)) :=
  if isRotationMatrix m then eulerForMatrix m else None.

(** *** Quaternions *)

(** The vector part [qx], [qy], [qz] and the scalar part [qw]: components 0-2 and 3 of the Vector<4>. *)
Record quat := Quat { qx : R; qy : R; qz : R; qw : R }.
Definition qnorm2 (q : quat) : R := qx q * qx q + qy q * qy q + qz q * qz q + qw q * qw q.
Definition qnormalized (q : quat) : quat :=
  let n := sqrt (qnorm2 q) in Quat (qx q / n) (qy q / n) (qz q / n) (qw q / n).
(** Quaternion.cpp:8-57. *)
Definition quaternionFromMatrix (m : mat) : quat :=
  let trace := mtr m in
  qnormalized
    (if Rltb 0 trace then Quat (m21 m - m12 m) (m02 m - m20 m) (m10 m - m01 m) (1 + trace)
     else
       let mx := m00 m in
       let ix := AX in
       let '(mx, ix) := if Rltb mx (m11 m) then (m11 m, AY) else (mx, ix) in
       let '(mx, ix) := if Rltb mx (m22 m) then (m22 m, AZ) else (mx, ix) in
       match ix with
       | AX => Quat (1 + m00 m - m11 m - m22 m) (m10 m + m01 m) (m20 m + m02 m) (m21 m - m12 m)
       | AY => Quat (m01 m + m10 m) (1 - m00 m + m11 m - m22 m) (m21 m + m12 m) (m02 m - m20 m)
       | AZ => Quat (m02 m + m20 m) (m12 m + m21 m) (1 - m00 m - m11 m + m22 m) (m10 m - m01 m)
       end).
