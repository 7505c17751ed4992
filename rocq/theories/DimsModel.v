(** [src/frontend/LatticeDimensionsOptimizer.cpp]. *)
From Coq Require Import ZArith Reals List Bool Arith.
From Verif Require Import GeomModel BoxModel RFloorModel ScalingModel LatticeModel.
Local Open Scope nat_scope.

(** LatticeDimensionsOptimizer.cpp:13-17 *)
Definition num_all_cells (numParticles cellSize : nat) : nat :=
  if Nat.eqb (numParticles mod cellSize) 0 then numParticles / cellSize else numParticles / cellSize + 1.
(** LatticeDimensionsOptimizer.cpp:20-29; for no cells at all the size of a cell is infinite and numbers of cells are zero *)
Definition rounded_dims (numAllCells : nat) (b : box) : idx3 :=
  let target := real_cbrt (box_height b AX * box_height b AY * box_height b AZ / INR numAllCells)%R in
  let f a := if Nat.eqb numAllCells 0 then 0 else Z.to_nat (Rround (box_height b a / target)%R) in I3 (f AX) (f AY) (f AZ).
Definition product (d : idx3) : nat := ix d * iy d * iz d.
(** std::max_element: the first one of the largest *)
Definition max_dim (d : idx3) : axis :=
  if Nat.ltb (ix d) (iy d) then (if Nat.ltb (iy d) (iz d) then AZ else AY) else (if Nat.ltb (ix d) (iz d) then AZ else AX).
(** LatticeDimensionsOptimizer.cpp:32-35; [None]: not finished within [fuel] iterations *)
Fixpoint grow (fuel numAllCells : nat) (d : idx3) : option idx3 :=
  if Nat.ltb (product d) numAllCells then
    match fuel with O => None | S fuel' => grow fuel' numAllCells (iset d (max_dim d) (iget d (max_dim d) + 1)) end
  else Some d.
(** LatticeDimensionsOptimizer.cpp:10-38; [None] also for the division by zero in line 14 *)
Definition optimize_dims (fuel numParticles cellSize : nat) (b : box) : option idx3 :=
  if Nat.eqb cellSize 0 then None else let n := num_all_cells numParticles cellSize in grow fuel n (rounded_dims n b).
