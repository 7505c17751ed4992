From Coq Require Import Reals ZArith List.
From Verif Require Import GeomModel PackSpec SmecticModel.
Import ListNotations.
Local Open Scope Z_scope.

Definition opposite (n : triple) : triple := let '(h, k, l) := n in (- h, - k, - l).
Definition within (r n : triple) : Prop := let '(h, k, l) := n in let '(rx, ry, rz) := r in Z.abs h <= rx /\ Z.abs k <= ry /\ Z.abs l <= rz.
(** The order parameter for a wave vector: |sum of f_i exp(i k r_i)| divided by [norm]. *)
Definition phase (inverse : mat) (n : triple) (p : vec) : R :=
  let '(h, k, l) := n in (2 * PI * (IZR h * vx (mvec inverse p) + IZR k * vy (mvec inverse p) + IZR l * vz (mvec inverse p)))%R.
Definition order (inverse : mat) (norm : R) (points : list vec) (values : list R) (n : triple) : R :=
  let c := Rsum (fun x => (snd x * cos (phase inverse n (fst x)))%R) (combine points values) in
  let s := Rsum (fun x => (snd x * sin (phase inverse n (fst x)))%R) (combine points values) in
  (sqrt (c * c + s * s) / norm)%R.
