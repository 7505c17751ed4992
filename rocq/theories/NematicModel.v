(** [src/core/observables/NematicOrder.cpp]. Doubles are real numbers; [None]: a failed assertion. *)
From Coq Require Import Reals List Bool.
From Verif Require Import GeomModel.
Import ListNotations.
Local Open Scope R_scope.

(** NematicOrder.cpp:12-22: axes of all shapes, in order *)
Definition dyad (a : vec) : mat := mmake (fun i j => vget a i * vget a j).
Definition QTensor (axes : list vec) : mat :=
  let sum := fold_left (fun q a => madd q (dyad a)) axes (mscale 0 mid) in
  mscale 0.5 (msub (mscale 3 (mscale (/ INR (length axes)) sum)) mid).
(** NematicOrder.cpp:31-65 *)
Definition calculateEigenvalues (m : mat) : option (R * R * R) :=
  let A11 := m00 m in let A12 := m01 m in let A13 := m02 m in
  let A22 := m11 m in let A23 := m12 m in let A33 := m22 m in
  let b := A11 + A22 + A33 in
  let c := A11*A22 + A11*A33 + A22*A33 - A12*A12 - A13*A13 - A23*A23 in
  let d := A11*A23*A23 + A22*A13*A13 + A33*A12*A12 - A11*A22*A33 - 2*A12*A13*A23 in
  let p := b*b - 3*c in
  if negb (Rltb 0 p) then None
  else
    let sqrt_p := sqrt p in
    let q := 2*b*b*b - 9*b*c - 27*d in
    let ratio := q / 2 / (sqrt_p*sqrt_p*sqrt_p) in
    match (if Rltb 1 (Rabs ratio) then (if Rleb (Rabs ratio) (1 + / 10 ^ 15) then Some (if Rltb ratio 0 then -1 else 1) else None) else Some ratio) with
    | None => None
    | Some ratio =>
      let Delta := acos ratio in
      Some (1/3*(b + 2*sqrt_p*cos (Delta/3)), 1/3*(b + 2*sqrt_p*cos ((Delta + 2*PI)/3)), 1/3*(b + 2*sqrt_p*cos ((Delta - 2*PI)/3)))
    end.
(** NematicOrder.cpp:23-28: std::max_element with comparison of absolute values *)
Definition greatest (e : R * R * R) : R :=
  let '(e1, e2, e3) := e in
  let l := if Rltb (Rabs e1) (Rabs e2) then e2 else e1 in if Rltb (Rabs l) (Rabs e3) then e3 else l.
Definition P2 (axes : list vec) : option R := match calculateEigenvalues (QTensor axes) with None => None | Some e => Some (greatest e) end.
