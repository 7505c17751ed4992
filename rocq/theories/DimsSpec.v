From Coq Require Import ZArith Reals List Bool Arith.
From Verif Require Import GeomModel BoxModel LatticeModel.
Local Open Scope nat_scope.

(** The least number of cells with [size] molecules each which is enough for [n] of them. *)
Definition cells_needed (n size cells : nat) : Prop := n <= cells * size /\ forall m, n <= m * size -> cells <= m.
(** Side of a cube, such that [cells] of them have the volume which is the product of heights of the box. *)
Definition cube_side (b : box) (cells : nat) (t : R) : Prop :=
  (0 < t /\ t * t * t * INR cells = box_height b AX * box_height b AY * box_height b AZ)%R.
(** The nearest integer, halves are rounded up. *)
Definition nearest (x : R) (n : nat) : Prop := (x - / 2 < INR n <= x + / 2)%R.
(** The first axis with the greatest number of cells. *)
Definition first_greatest (d : idx3) (a : axis) : Prop :=
  (forall a', iget d a' <= iget d a) /\
  match a with AX => True | AY => iget d AX < iget d AY | AZ => iget d AX < iget d AZ /\ iget d AY < iget d AZ end.
Definition lengthened (d : idx3) (a : axis) (n : nat) (d' : idx3) : Prop :=
  iget d' a = iget d a + n /\ forall a', a' <> a -> iget d' a' = iget d a'.
Definition cells_in (d : idx3) : nat := ix d * iy d * iz d.
