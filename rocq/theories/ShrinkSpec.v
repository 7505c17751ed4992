(** Boxes and layers compressed until molecules touch each other. *)
From Coq Require Import ZArith Reals List Bool Arith.
From Verif Require Import GeomModel BoxModel BoxSpec PbcModel PbcTotalModel PbcSpec LatticeModel LatticeSpec TransSpec.
Import ListNotations.
Local Open Scope R_scope.

(** The accuracy of factors and of relative coordinates, and the margin added to compressed sides *)
Definition accuracy : R := / 10 ^ 12.
Definition margin : R := 1 + / 10 ^ 12.
Definition put (v : vec) (a : axis) (x : R) : vec := match a with AX => V3 x (vy v) (vz v) | AY => V3 (vx v) x (vz v) | AZ => V3 (vx v) (vy v) x end.
(** Sides multiplied by factors *)
Definition scaled (b : box) (g : vec) (b' : box) : Prop := constructed b' /\ forall a, box_side b' a = vscale (vget g a) (box_side b a).
(** The molecule at the same relative position in another box *)
Definition stretched (b b' : box) (s : shape) : shape := Shape (relativeToAbsolute b' (absoluteToRelative b (sh_pos s))) (sh_rot s).
(** The same molecule with relative coordinates in [0, 1) *)
Definition wrapped (s s' : shape) : Prop :=
  sh_rot s' = sh_rot s /\ in_unit s' /\ exists i j k : Z, sh_pos s' = vadd (sh_pos s) (V3 (IZR i) (IZR j) (IZR k)).
(** Molecules of the layer number i have the i-th coordinate of [ys]; [zs] are coordinates in the original cell *)
Definition relayered (a : axis) (zs ys : list R) (cell : list shape) : list shape :=
  map (fun s => Shape (put (sh_pos s) a (nth (layers_below zs (vget (sh_pos s) a)) ys 0)) (sh_rot s)) cell.

Section Overlaps.
Variable range : R.
Variable overlaps : box -> list shape -> bool.

(** Overlaps at the same relative positions if sides are multiplied by the factors *)
Definition overlapping_at (b : box) (shapes : list shape) (g : vec) : Prop :=
  exists b', scaled b g b' /\ overlaps b' (map (stretched b b') shapes) = true.
(** Overlaps if molecules stay where they are for the factor [f], but the box is larger by the margin *)
Definition margin_overlap (b : box) (shapes : list shape) (g : vec) (a : axis) (f : R) : Prop :=
  exists b1 b2, scaled b (put g a f) b1 /\ scaled b (put g a (f * margin)) b2 /\ overlaps b2 (map (stretched b b1) shapes) = true.
(** The factor with which the height is the range, with the margin *)
Definition least_factor (b : box) (a : axis) : R := range * margin / box_height b a.
(** No overlaps for the factor [f] (if anything has changed), but they are there for one smaller by no more than the accuracy. *)
Definition touching (P : R -> Prop) (least f : R) : Prop :=
  least < f <= 1 /\ (f < 1 -> ~ P f) /\ exists f', least <= f' < f /\ f <= f' + accuracy /\ P f'.
(** Axes are compressed one by one; [None]: it is impossible. *)
Inductive shrunk (b : box) (shapes : list shape) : list axis -> vec -> option vec -> Prop :=
| shrunk_done g : shrunk b shapes [] g (Some g)
| shrunk_axis a axes g f r : overlapping_at b shapes (put g a (least_factor b a)) -> touching (fun x => overlapping_at b shapes (put g a x)) (least_factor b a) f ->
    ~ margin_overlap b shapes g a f -> shrunk b shapes axes (put g a (f * margin)) r -> shrunk b shapes (a :: axes) g r
| shrunk_loose a axes g : ~ overlapping_at b shapes (put g a (least_factor b a)) -> shrunk b shapes (a :: axes) g None
| shrunk_margin a axes g f : touching (fun x => overlapping_at b shapes (put g a x)) (least_factor b a) f -> margin_overlap b shapes g a f -> shrunk b shapes (a :: axes) g None.

(** Overlaps in the lattice of such cells *)
Definition crystal_overlaps (b : box) (d : idx3) (cell : list shape) : Prop :=
  exists lb cells cell', scaled b (V3 (INR (ix d)) (INR (iy d)) (INR (iz d))) lb /\ traversal AX AY AZ d cells /\ Forall2 wrapped cell cell' /\
    overlaps lb (flat_map (fun c => map (placed b c) cell') cells) = true.
(** Layers are moved down one by one: [done] are new coordinates of layers below, [z] is the old coordinate of the last of them. *)
Inductive compressed (P : list R -> Prop) : list R -> R -> list R -> list R -> Prop :=
| compressed_done done z : compressed P done z [] done
| compressed_layer done z z' rest y r : z < y <= z' -> (y < z' -> ~ P (done ++ y :: rest)) ->
    (y <= z + accuracy \/ exists y', z < y' < y /\ y <= y' + accuracy /\ P (done ++ y' :: rest)) ->
    compressed P (done ++ [y + accuracy]) z' rest r -> compressed P done z (z' :: rest) r.
(** Overlaps if the cell becomes shorter by the factor [f] and molecules stay in place *)
Definition cell_overlaps (b : box) (d : idx3) (a : axis) (zs ys : list R) (cell : list shape) (f : R) : Prop :=
  exists b', scaled b (put (V3 1 1 1) a f) b' /\ crystal_overlaps b' d (relayered a zs (map (fun y => y / f) ys) cell).
End Overlaps.
(** Coordinates of layers, relative to the cell of the height [h * f] plus [spacing] for each layer *)
Fixpoint spaced (h f spacing : R) (m i : nat) (ys : list R) : list R :=
  match ys with [] => [] | y :: ys' => (y * h + INR i * spacing) / (f * h + INR m * spacing) :: spaced h f spacing m (S i) ys' end.
(** Hard spheres with a given diameter, in periodic boundary conditions *)
Fixpoint spheres (diameter : R) (b : box) (shapes : list shape) : bool :=
  match shapes with
  | [] => false
  | s :: shapes' => existsb (fun s' => if Rlt_dec (distance2 b (sh_pos s) (sh_pos s')) (diameter * diameter) then true else false) shapes' || spheres diameter b shapes'
  end.
