(** Layers and columns of molecules of a lattice, and what transformers do with them. *)
From Coq Require Import ZArith Reals List Bool Arith Sorting.Sorted.
From Verif Require Import GeomModel BoxModel PbcModel PbcSpec LatticeModel LatticeSpec RotModel RotSpec TransModel.
Import ListNotations.
Open Scope R_scope.

(** Different coordinates along the axis, in the increasing order *)
Definition layer_coordinates (a : axis) (cell : list shape) (zs : list R) : Prop :=
  StronglySorted Rlt zs /\ forall z, In z zs <-> exists s, In s cell /\ vget (sh_pos s) a = z.
(** How many layers of the cell are below [x] *)
Definition layers_below (zs : list R) (x : R) : nat := length (filter (fun z => if Rlt_dec z x then true else false) zs).
(** The number of the layer among all layers of the lattice along the axis *)
Definition layer_number (a : axis) (zs : list R) (c : idx3) (s : shape) : nat :=
  (iget c a * length zs + layers_below zs (vget (sh_pos s) a))%nat.
(** Coordinates which are different differ by 1e-10 at least. *)
Definition distinct_layers (a : axis) (cell : list shape) : Prop :=
  forall s s', In s cell -> In s' cell -> vget (sh_pos s) a = vget (sh_pos s') a \/ / 10 ^ 10 <= Rabs (vget (sh_pos s) a - vget (sh_pos s') a).
(** Molecules one above another along the axis *)
Definition same_column (a : axis) (s s' : shape) : Prop := forall a', a' <> a -> vget (sh_pos s) a' = vget (sh_pos s') a'.
Definition distinct_columns (a : axis) (cell : list shape) : Prop :=
  forall s s', In s cell -> In s' cell -> same_column a s s' \/ exists a', a' <> a /\ / 10 ^ 10 <= Rabs (vget (sh_pos s) a' - vget (sh_pos s') a').
Definition unit_along (a : axis) : vec := match a with AX => V3 1 0 0 | AY => V3 0 1 0 | AZ => V3 0 0 1 end.
(** The molecule turned about its position by the matrix, the molecule translated *)
Definition turned (m : mat) (s : shape) : shape := Shape (sh_pos s) (mmul m (sh_rot s)).
Definition translated (v : vec) (s : shape) : shape := Shape (vadd (sh_pos s) v) (sh_rot s).
(** A half-turn about the axis [axis] of the molecule, with the geometric origin left in place *)
Definition half_turned (g : geometry) (axis : vec) (s s' : shape) : Prop :=
  origin_of (ge_origin g) s' = origin_of (ge_origin g) s /\
  exists m, rotation m /\ rotates_about m (mvec (sh_rot s) axis) PI /\ sh_rot s' = mmul m (sh_rot s).
(** Molecules of all cells together with the cell and the index in it *)
Definition numbered (k : idx3 -> list shape) (cells : list idx3) : list (idx3 * nat * shape) :=
  flat_map (fun c => map (fun p => (c, fst p, snd p)) (combine (seq 0 (length (k c))) (k c))) cells.
(** The other two axes, in the cyclic order *)
Definition second_axis (a : axis) : axis := match a with AX => AY | AY => AZ | AZ => AX end.
Definition third_axis (a : axis) : axis := match a with AX => AZ | AY => AX | AZ => AY end.
(** The axis of rotation given by a vector or by an axis of the molecule *)
Definition turning_axis (g : geometry) (x : rotation_axis) (s : shape) : option vec :=
  match x, ge_primary g, ge_secondary g with
  | AxisVector v, _, _ => Some v
  | AxisPrimary, Some p, _ => Some (mvec (sh_rot s) p)
  | AxisSecondary, _, Some q => Some (mvec (sh_rot s) q)
  | AxisAuxiliary, Some p, Some q => Some (vcross (mvec (sh_rot s) p) (mvec (sh_rot s) q))
  | _, _, _ => None
  end.
(** Turned by the first number about the axis, or by three angles about the axes of coordinates *)
Definition randomly_turned (g : geometry) (x : rotation_axis) (draw : R * R * R) (s s' : shape) : Prop :=
  sh_pos s' = sh_pos s /\ exists m, rotation m /\ sh_rot s' = mmul m (sh_rot s) /\
  match x with
  | AxisRandom => let '(u, v, w) := draw in m = mmul (mrot_axis (V3 0 0 1) w) (mmul (mrot_axis (V3 0 1 0) (asin v)) (mrot_axis (V3 1 0 0) u))
  | _ => exists u, turning_axis g x s = Some u /\ rotates_about m (vscale (/ vnorm u) u) (fst (fst draw))
  end.
