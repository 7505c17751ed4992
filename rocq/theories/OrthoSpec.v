(** What an orthorhombic arrangement of shapes is. *)
From Coq Require Import Reals List Arith.
From Verif Require Import GeomModel PbcModel RotSpec OrthoModel.
Import ListNotations.
Open Scope nat_scope.

Definition unit_vector (x : axis) : vec := match x with AX => V3 1 0 0 | AY => V3 0 1 0 | AZ => V3 0 0 1 end%R.
(** How many sites the lattice has, and in which row, along each axis, the [m]-th shape is: they are counted along z first, then along y and x. *)
Definition sites (lines : axis -> nat) : nat := lines AX * lines AY * lines AZ.
Definition row (lines : axis -> nat) (m : nat) (x : axis) : nat :=
  match x with AX => m / (lines AZ * lines AY) | AY => (m / lines AZ) mod lines AY | AZ => m mod lines AZ end.
(** The lattice is in the middle of the box and inside it. *)
Definition fits (lines : axis -> nat) (cell box : vec) : Prop :=
  forall x, 0 < lines x /\ (0 < vget cell x)%R /\ (0 < vget box x)%R /\ ((INR (lines x) - 1) * vget cell x < vget box x)%R.
(** Layers of opposite polarisation need an even number of layers. *)
Definition layers_match (a : arranging) (lines : axis -> nat) : Prop := polar a = Antiferro -> Nat.Even (lines (polar_axis a)).
(** The distance from the middle of the box is that of the row from the middle row. *)
Definition in_row (lines : axis -> nat) (cell box : vec) (r : axis -> nat) (p : vec) : Prop :=
  forall x, (vget p x - vget box x / 2 = (INR (r x) - (INR (lines x) - 1) / 2) * vget cell x)%R.
(** In odd layers: a half-turn about the axis of layers (opposite polarisation), then a tilt the other way (opposite clinicity). *)
Definition oriented (a : arranging) (layer : nat) (m : mat) : Prop :=
  exists tilt half,
    m = mmul tilt half /\
    (Nat.Even layer \/ clinic a <> Anticlinic -> rotates_about tilt (unit_vector (tilt_axis a)) (tilt_angle a)) /\
    (Nat.Odd layer -> clinic a = Anticlinic -> rotates_about tilt (unit_vector (tilt_axis a)) (- tilt_angle a)) /\
    (Nat.Even layer \/ polar a <> Antiferro -> half = mid) /\
    (Nat.Odd layer -> polar a = Antiferro -> rotates_about half (unit_vector (polar_axis a)) PI).
Definition arranged (a : arranging) (n : nat) (lines : axis -> nat) (cell box : vec) (l : list shape) : Prop :=
  List.length l = Nat.min n (sites lines) /\
  forall m s, nth_error l m = Some s -> in_row lines cell box (row lines m) (sh_pos s) /\ oriented a (row lines m (polar_axis a)) (sh_rot s).
