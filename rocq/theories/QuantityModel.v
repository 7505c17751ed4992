(** [src/utils/Quantity.cpp], lines 45-62, with doubles as real numbers. Printing of quantities is not modelled. *)
From Coq Require Import Reals List.
Import ListNotations.
Open Scope R_scope.

(** std::accumulate *)
Definition accumulate {A} (f : R -> A -> R) (l : list A) : R := fold_left f l 0.
(** Quantity::calculateFromSamples: value and error *)
Definition calculateFromSamples (samples : list R) : R * R :=
  match samples with
  | [] => (0, 0)
  | [x] => (x, 0)
  | _ =>
    let n := INR (length samples) in
    let value := accumulate (fun s next => s + next) samples / n in
    let dev := accumulate (fun s next => s + pow (value - next) 2) samples in
    (value, sqrt (dev / n / (INR (length samples - 1))))
  end.
