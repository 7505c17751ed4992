(** [src/geometry/SegmentDistanceCalculator.h]. *)
From Coq Require Import Reals Bool.
From Verif Require Import GeomModel.
Open Scope R_scope.

(** SegmentDistanceCalculator.h:12 *)
Definition EPSILON : R := / 10 ^ 10.
(** Numerators and denominators of both parameters: sN, sD, tN, tD *)
Record fractions := Fr { fr_sN : R; fr_sD : R; fr_tN : R; fr_tD : R }.
(** SegmentDistanceCalculator.h:31-53 *)
Definition closest_on_lines (a b c d e : R) : fractions :=
  let D := a * c - b * b in
  if Rltb D EPSILON then Fr 0 1 e c
  else
    let sN := b * e - c * d in
    let tN := a * e - b * d in
    if Rltb sN 0 then Fr 0 D e c
    else if Rltb D sN then Fr D D (e + b) c
    else Fr sN D tN D.
(** SegmentDistanceCalculator.h:58-65 and 69-76; [n] is the new numerator and [a] its denominator *)
Definition edge (n a sD tN tD : R) : fractions :=
  if Rltb n 0 then Fr 0 sD tN tD else if Rltb a n then Fr sD sD tN tD else Fr n a tN tD.
(** SegmentDistanceCalculator.h:55-77 *)
Definition clamp_second (a b d : R) (f : fractions) : fractions :=
  if Rltb (fr_tN f) 0 then edge (- d) a (fr_sD f) 0 (fr_tD f)
  else if Rltb (fr_tD f) (fr_tN f) then edge (- d + b) a (fr_sD f) (fr_tD f) (fr_tD f)
  else f.
(** SegmentDistanceCalculator.h:79-80 *)
Definition divide (n d : R) : R := if Rltb (Rabs n) EPSILON then 0 else n / d.
(** SegmentDistanceCalculator.h:22-86 *)
Definition segment_distance2 (s11 s12 s21 s22 : vec) : R :=
  let u := vsub s12 s11 in
  let v := vsub s22 s21 in
  let w := vsub s11 s21 in
  let f := clamp_second (vdot u u) (vdot u v) (vdot u w) (closest_on_lines (vdot u u) (vdot u v) (vdot v v) (vdot u w) (vdot v w)) in
  let sc := divide (fr_sN f) (fr_sD f) in
  let tc := divide (fr_tN f) (fr_tD f) in
  vnorm2 (vsub (vadd w (vscale sc u)) (vscale tc v)).
