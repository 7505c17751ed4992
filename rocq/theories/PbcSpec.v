(** What periodic boundary conditions are supposed to do, independently of the code. *)
From Coq Require Import Reals ZArith.
From Verif Require Import GeomModel BoxModel.
Open Scope R_scope.

(** Integer combination of the three side vectors of the box. *)
Definition lattice_vector (b : box) (i j k : Z) : vec :=
  vadd (vscale (IZR i) (box_side b AX)) (vadd (vscale (IZR j) (box_side b AY)) (vscale (IZR k) (box_side b AZ))).
Definition is_lattice_vector (b : box) (l : vec) : Prop := exists i j k, l = lattice_vector b i j k.

(** A point whose relative coordinates are all in [0,1). *)
Definition in_box (b : box) (p : vec) : Prop :=
  forall a, 0 <= vget (absoluteToRelative b p) a < 1.

(** The program (parametrised by the number of loop iterations it is allowed) terminates with result [r]. *)
Definition terminates_with {A} (prog : nat -> option A) (r : A) : Prop :=
  exists n, forall fuel, (n <= fuel)%nat -> prog fuel = Some r.

(** The three sides are mutually perpendicular. *)
Definition orthogonal_sides (b : box) : Prop :=
  vdot (box_side b AX) (box_side b AY) = 0 /\ vdot (box_side b AY) (box_side b AZ) = 0 /\
  vdot (box_side b AZ) (box_side b AX) = 0.

