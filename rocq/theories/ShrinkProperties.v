From Coq Require Import ZArith Reals List Bool Arith.
From Verif Require Import TextModel GeomModel BoxModel BoxSpec PbcModel PbcSpec LatticeModel LatticeSpec PackModel TransModel TransSpec DistModel ShrinkModel ShrinkSpec ShrinkProofs ShrinkCellProofs ShrinkLayerProofs ShrinkWholeProofs CorrExamples ShrinkExamples.
Import ListNotations.
Local Open Scope R_scope.

(** Any packing, any interaction given by its range and the presence of overlaps. *)
Theorem C73_shrink_packing hard range overlaps b shapes order : 0 < range -> constructed b ->
  exists r, terminates_with (fun fuel => shrinkPacking hard range overlaps fuel b shapes order) r /\
  match r with
  | Value b' => exists a0 a1 a2 g, hard = true /\ (a0 <> a1 /\ a0 <> a2 /\ a1 <> a2) /\ order = [axis_letter a0; axis_letter a1; axis_letter a2] /\ (forall a, margin * range < box_height b a) /\ overlaps b shapes = false /\
      shrunk range overlaps b shapes [a0; a1; a2] (V3 1 1 1) (Some g) /\ (forall a, 0 < vget g a) /\ scaled b g b'
  | Violated => hard = false \/ ~ (exists a0 a1 a2, (a0 <> a1 /\ a0 <> a2 /\ a1 <> a2) /\ order = [axis_letter a0; axis_letter a1; axis_letter a2]) \/ (exists a, box_height b a <= margin * range) \/ overlaps b shapes = true \/
      exists a0 a1 a2, (a0 <> a1 /\ a0 <> a2 /\ a1 <> a2) /\ order = [axis_letter a0; axis_letter a1; axis_letter a2] /\ (forall a, margin * range < box_height b a) /\ overlaps b shapes = false /\ shrunk range overlaps b shapes [a0; a1; a2] (V3 1 1 1) None
  end.
Proof. exact (fun R => shrinkPacking_spec hard range overlaps R b shapes order). Qed.
Print Assumptions C73_shrink_packing.

Theorem C73_optimize_cell hard range overlaps l b d k order sp : 0 < range -> built l b d k ->
  exists lb molecules r, getLatticeBox l = Some lb /\ generateMolecules l = Some molecules /\ terminates_with (fun fuel => cell_optimization hard range overlaps fuel order sp l) r /\
  match r with
  | Value l' => exists a0 a1 a2 g b', hard = true /\ (a0 <> a1 /\ a0 <> a2 /\ a1 <> a2) /\ order = [axis_letter a0; axis_letter a1; axis_letter a2] /\ (forall c s, in_range c d -> In s (k c) -> in_unit s) /\
      (forall a, margin * range < box_height lb a) /\ overlaps lb molecules = false /\ shrunk range overlaps lb molecules [a0; a1; a2] (V3 1 1 1) (Some g) /\
      (forall a, 0 < vget g a * box_height b a + vget sp a) /\ built l' b' d k /\ lat_regular l' = lat_regular l /\
      (forall a, box_side b' a = vscale (vget g a + vget sp a / box_height b a) (box_side b a)) /\ (forall a, box_height b' a = vget g a * box_height b a + vget sp a)
  | Violated => hard = false \/ ~ (exists a0 a1 a2, (a0 <> a1 /\ a0 <> a2 /\ a1 <> a2) /\ order = [axis_letter a0; axis_letter a1; axis_letter a2]) \/ ~ (forall c s, in_range c d -> In s (k c) -> in_unit s) \/
      (exists a, box_height lb a <= margin * range) \/ overlaps lb molecules = true \/
      exists a0 a1 a2 o, (a0 <> a1 /\ a0 <> a2 /\ a1 <> a2) /\ order = [axis_letter a0; axis_letter a1; axis_letter a2] /\ (forall a, margin * range < box_height lb a) /\ overlaps lb molecules = false /\
        shrunk range overlaps lb molecules [a0; a1; a2] (V3 1 1 1) o /\ match o with Some g => exists a, vget g a * box_height b a + vget sp a <= 0 | None => True end
  end.
Proof. exact (fun R => cell_spec hard range overlaps R l b d k order sp). Qed.
Print Assumptions C73_optimize_cell.

(** Cubes with the side 1/2, in a cubic cell with the side 1 *)
Example C73_example : exists l' b', terminates_with (fun fuel => cell_optimization true (1/4) blocks fuel [122; 120; 121]%Z (V3 (1/10) 0 (1/10)) block_lattice) (Value l') /\ built l' b' one (fun _ => column [1/2]) /\ 6/10 <= box_height b' AX.
Proof. exact block_optimized. Qed.

Theorem C74_optimize_layers hard range overlaps l b d k a spacing cell zs : 0 < range -> built l b d k -> k (I3 0 0 0) = cell -> distinct_layers a cell -> layer_coordinates a cell zs ->
  let h := box_height b a in let m := length zs in
  exists lb r, scaled b (V3 (INR (ix d)) (INR (iy d)) (INR (iz d))) lb /\ terminates_with (fun fuel => layer_optimization hard range overlaps fuel a spacing l) r /\
  match r with
  | Value l' => hard = true /\ lat_regular l = true /\ (forall s, In s cell -> in_unit s) /\ ~ crystal_overlaps overlaps b d cell /\ (forall a', margin * range < box_height lb a') /\
      exists z0 rest ys f s0 s1 b' cell' ws, zs = z0 :: rest /\ compressed (fun ys => crystal_overlaps overlaps b d (relayered a zs ys cell)) [z0] z0 rest ys /\
        cell_overlaps overlaps b d a zs ys cell (least_factor range lb a) /\ touching (cell_overlaps overlaps b d a zs ys cell) (least_factor range lb a) f /\ 0 < f * h + INR m * spacing /\
        nth_error cell 0 = Some s0 /\ nth_error cell (length cell - 1) = Some s1 /\ ws = spaced h f spacing m 0 ys /\ length ws = m /\
        (let w s := nth (layers_below zs (vget (sh_pos s) a)) ws 0 in
         Forall2 wrapped (relayered a zs (map (fun w' => w' + (1/2 - (w s0 + w s1) / 2)) ws) cell) cell') /\
        built l' b' d (fun _ => cell') /\ lat_regular l' = true /\ scaled b (put (V3 1 1 1) a (f + INR m * spacing / h)) b'
  | Violated => hard = false \/ lat_regular l = false \/ ~ (forall s, In s cell -> in_unit s) \/ cell = [] \/ crystal_overlaps overlaps b d cell \/ (exists a', box_height lb a' <= margin * range) \/
      exists z0 rest ys, zs = z0 :: rest /\ compressed (fun ys => crystal_overlaps overlaps b d (relayered a zs ys cell)) [z0] z0 rest ys /\
        (~ cell_overlaps overlaps b d a zs ys cell (least_factor range lb a) \/
         exists f, touching (cell_overlaps overlaps b d a zs ys cell) (least_factor range lb a) f /\ f * h + INR m * spacing <= 0)
  end.
Proof. exact (fun R => layer_spec hard range overlaps R l b d k a spacing cell zs). Qed.
Print Assumptions C74_optimize_layers.

(** Spheres with the diameter 0.1 in three layers: tangent ones need the height 0.3, and there is no spacing, but the result is higher. *)
Theorem C74_layers_tangent_refuted : exists l b d cell zs, built l b d (fun _ => cell) /\ lat_regular l = true /\ distinct_layers AZ cell /\ layer_coordinates AZ cell zs /\
  (exists l' b' cell', terminates_with (fun fuel => layer_optimization true (1/10) (spheres (1/10)) fuel AZ 0 l) (Value l') /\ built l' b' d (fun _ => cell') /\ 9/20 <= box_height b' AZ) /\
  exists b' ys, scaled b (put (V3 1 1 1) AZ (3/10)) b' /\ box_height b' AZ = 3/10 /\ ~ crystal_overlaps (spheres (1/10)) b' d (relayered AZ zs ys cell).
Proof.
  exists column_lattice, cube, one, (column zs3), zs3. split; [exact column_built|]. split; [reflexivity|]. split; [exact zs3_distinct|]. split; [exact zs3_coordinates|]. split; [exact column_high|].
  destruct column_could_be_low as (b'&H). exists b', [0; 1/3; 2/3]. exact H.
Qed.
Print Assumptions C74_layers_tangent_refuted.
