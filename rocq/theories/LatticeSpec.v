(** A lattice is a function from cells to lists of molecules. *)
From Coq Require Import ZArith Reals List Bool Arith Permutation Sorting.Sorted.
From Verif Require Import OptModel TextModel GeomModel BoxModel BoxSpec PbcModel PbcSpec LatticeModel.
Import ListNotations.
Local Open Scope nat_scope.

Definition in_range (c d : idx3) : Prop := ix c < ix d /\ iy c < iy d /\ iz c < iz d.
Definition idx3_dec (c c' : idx3) : {c = c'} + {c <> c'} := ltac:(decide equality; apply Nat.eq_dec).
(** Lattices which can be made: the box of a cell, numbers of cells and molecules of each cell. *)
Inductive built : lattice -> box -> idx3 -> (idx3 -> list shape) -> Prop :=
| built_new b molecules d l : constructed b -> make_lattice b molecules d = Some l -> built l b d (fun _ => molecules)
| built_cell l b d k c f l' : built l b d k -> modifySpecificCellMolecules l c f = Some l' ->
    built l' b d (fun c' => if idx3_dec c' c then f (k c') else k c')
| built_unit l b d k f l' : built l b d k -> modifyUnitCellMolecules l f = Some l' -> built l' b d (fun c => f (k c))
| built_box l b d k b' : built l b d k -> constructed b' -> built (modifyCellBox l b') b' d k
| built_normalized l b d k fuel l' k' : built l b d k -> normalize fuel l = Some l' ->
    (forall c, in_range c d -> getSpecificCell l' c = Some (k' c)) -> built l' b d k'.

(** Cells visited with the index along [a0] changing the slowest and along [a2] the fastest. *)
Definition before (a0 a1 a2 : axis) (c c' : idx3) : Prop :=
  iget c a0 < iget c' a0 \/ (iget c a0 = iget c' a0 /\ (iget c a1 < iget c' a1 \/ (iget c a1 = iget c' a1 /\ iget c a2 < iget c' a2))).
Definition traversal (a0 a1 a2 : axis) (d : idx3) (cells : list idx3) : Prop :=
  (forall c, In c cells <-> in_range c d) /\ StronglySorted (before a0 a1 a2) cells.
(** A molecule of the cell [c] in the absolute coordinates *)
Definition placed (b : box) (c : idx3) (s : shape) : shape :=
  Shape (relativeToAbsolute b (V3 (INR (ix c) + vx (sh_pos s)) (INR (iy c) + vy (sh_pos s)) (INR (iz c) + vz (sh_pos s)))) (sh_rot s).
(** Subsequence *)
Inductive subsequence {A} : list A -> list A -> Prop :=
| sub_nil : subsequence [] []
| sub_skip x l l' : subsequence l l' -> subsequence l (x :: l')
| sub_take x l l' : subsequence l l' -> subsequence (x :: l) (x :: l').
Definition axis_letter (a : axis) : Z := match a with AX => 120 | AY => 121 | AZ => 122 end%Z.
Open Scope R_scope.
(** Positions differ by a combination of sides of the box with integer coefficients. *)
Definition same_modulo (lb : box) (s s' : shape) : Prop :=
  sh_rot s' = sh_rot s /\ exists i j k : Z, sh_pos s' =
    vadd (sh_pos s) (vadd (vadd (vscale (IZR i) (box_side lb AX)) (vscale (IZR j) (box_side lb AY))) (vscale (IZR k) (box_side lb AZ))).
Definition in_unit (s : shape) : Prop := forall a, 0 <= vget (sh_pos s) a < 1.
