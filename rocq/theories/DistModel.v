(** [src/core/lattice/DistanceOptimizer.{h,cpp}]. *)
From Coq Require Import Reals List Bool.
From Verif Require Import GeomModel BoxModel PbcModel PackModel InterModel.
Import ListNotations.
Open Scope R_scope.

(** src/core/FreeBoundaryConditions.h:17-31 *)
Definition free : bcond := Bc (fun _ _ => vzero) (fun p1 p2 => vnorm2 (vsub p2 p1)).
(** DistanceOptimizer.h:30 *)
Definition EPSILON : R := / 10 ^ 12.
(** The value returned or an exception: a failed Expects or Assert *)
Inductive answer (A : Type) := Value (a : A) | Violated.
Arguments Value {A}. Arguments Violated {A}.

(** DistanceOptimizer.cpp:21-22, 27 and 40: the overlap when the second shape is moved by [d] in the direction *)
Definition overlap_at (w : winter) (shape1 shape2 : shape) (direction : vec) (d : R) : bool :=
  overlapBetweenShapes w (Shape vzero (sh_rot shape1)) (Shape (vscale d direction) (sh_rot shape2)) free.
(** DistanceOptimizer.cpp:28-32; [None]: out of fuel *)
Fixpoint find_upper (fuel : nat) (ov : R -> bool) (distanceMax : R) : option (answer R) :=
  match fuel with
  | O => None
  | S fuel' =>
    if ov distanceMax then
      let distanceMax := distanceMax * 2 in
      if Rltb distanceMax 1000 then find_upper fuel' ov distanceMax else Some Violated
    else Some (Value distanceMax)
  end.
(** DistanceOptimizer.cpp:36-43 *)
Fixpoint bisect (fuel : nat) (ov : R -> bool) (distanceMin distanceMax : R) : option R :=
  match fuel with
  | O => None
  | S fuel' =>
    let distanceMid := (distanceMax + distanceMin) / 2 in
    let '(lo, hi) := if ov distanceMid then (distanceMid, distanceMax) else (distanceMin, distanceMid) in
    if Rltb EPSILON (hi - lo) then bisect fuel' ov lo hi else Some hi
  end.
(** DistanceOptimizer.cpp:13-47 *)
Definition minimizeForDirection (fuel : nat) (w : winter) (shape1 shape2 : shape) (direction : vec) : option (answer R) :=
  if negb (Rltb EPSILON (vnorm2 direction)) then Some Violated
  else if negb (in_hard (wi w)) then Some Violated
  else
    let direction := vscale (/ vnorm direction) direction in
    let ov := overlap_at w shape1 shape2 direction in
    if negb (overlapBetweenShapes w (Shape vzero (sh_rot shape1)) (Shape vzero (sh_rot shape2)) free) then Some Violated
    else
      r <- find_upper fuel ov 1 ;;
      match r with
      | Violated => Some Violated
      | Value distanceMax => d <- bisect fuel ov 0 distanceMax ;; Some (Value d)
      end.
(** DistanceOptimizer.cpp:49-55 *)
Definition minimizeForAxes (fuel : nat) (w : winter) (shape1 shape2 : shape) : option (answer (R * R * R)) :=
  x <- minimizeForDirection fuel w shape1 shape2 (V3 1 0 0) ;;
  (y <- minimizeForDirection fuel w shape1 shape2 (V3 0 1 0) ;;
  (z <- minimizeForDirection fuel w shape1 shape2 (V3 0 0 1) ;;
   Some (match x, y, z with Value x, Value y, Value z => Value (x, y, z) | _, _, _ => Violated end))).
