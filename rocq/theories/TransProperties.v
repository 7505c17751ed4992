From Coq Require Import ZArith Reals List Bool Arith Permutation Sorting.Sorted Lra Lia.
From Verif Require Import GeomModel BoxModel BoxSpec PbcModel PbcSpec LatticeModel LatticeSpec RotModel RotSpec TransModel TransSpec TransLayerProofs TransWholeProofs TransTurnProofs TransExamples.
Import ListNotations.
Local Open Scope nat_scope.

(** Layers are numbered along the whole lattice. Molecules of all layers, or of layers with even numbers, are turned by the angle and those of
    other layers by the opposite one. *)
Theorem C70_layers l b d k zs a ra angle (alternating : bool) : built l b d k -> lat_regular l = true -> (forall c s, in_range c d -> In s (k c) -> in_unit s) ->
  let cell := k (I3 0 0 0) in cell <> [] -> distinct_layers a cell -> layer_coordinates a cell zs ->
  if alternating && Nat.odd (length zs) && Nat.odd (iget d a) then layer_rotation a ra angle alternating l = None
  else exists l' b' d' k' lb molecules' cells, layer_rotation a ra angle alternating l = Some l' /\ built l' b' d' k' /\ lat_regular l' = true /\
      (forall c s, in_range c d' -> In s (k' c) -> in_unit s) /\ getLatticeBox l = Some lb /\ getLatticeBox l' = Some lb /\
      traversal AX AY AZ d cells /\ generateMolecules l' = Some molecules' /\
      Permutation (flat_map (fun c => map (fun s => turned (mrot_axis (unit_along ra) (if alternating && Nat.odd (layer_number a zs c s) then - angle else angle)%R) (placed b c s)) (k c)) cells) molecules'.
Proof. exact (layer_rotation_spec l b d k zs a ra angle alternating). Qed.
Print Assumptions C70_layers.

(** Any number of kinds of layers *)
Theorem C70_layerwise requested f (M : nat -> mat) l b d k zs a : 0 < requested -> (forall s m, m < requested -> f s m = Some (turned (M m) s)) ->
  built l b d k -> lat_regular l = true -> (forall c s, in_range c d -> In s (k c) -> in_unit s) ->
  let cell := k (I3 0 0 0) in cell <> [] -> distinct_layers a cell -> layer_coordinates a cell zs ->
  let factor := Nat.lcm (length zs) requested / length zs in
  if Nat.eqb (iget d a mod factor) 0 then
    exists l' b' d' k' lb molecules' cells, layerwise_transform requested f a l = Some l' /\ built l' b' d' k' /\ lat_regular l' = true /\
      (forall c s, in_range c d' -> In s (k' c) -> in_unit s) /\ getLatticeBox l = Some lb /\ getLatticeBox l' = Some lb /\
      traversal AX AY AZ d cells /\ generateMolecules l' = Some molecules' /\
      Permutation (flat_map (fun c => map (fun s => turned (M (layer_number a zs c s mod requested)) (placed b c s)) (k c)) cells) molecules'
  else layerwise_transform requested f a l = None.
Proof. exact (fun P T => layerwise_spec requested f M a P T l b d k zs). Qed.
Print Assumptions C70_layerwise.

Theorem C70_layers_refused a ra angle alternating l : layer_rotation a ra angle alternating l <> None ->
  lat_regular l = true /\ isNormalized l = true /\ nth_error (lat_cells l) 0 <> Some [].
Proof. exact (layerwise_refused _ _ a l). Qed.
Print Assumptions C70_layers_refused.

Example C70_layers_case : exists l b, built l b dims223 (fun _ => three) /\ lat_regular l = true /\ (forall c s, in_range c dims223 -> In s three -> in_unit s) /\ three <> [] /\
  distinct_layers AZ three /\ layer_coordinates AZ three [0%R; (1/2)%R] /\ Nat.odd (iget dims223 AZ) = true.
Proof.
  destruct three_lattice as (l&b&B&R). exists l, b. split; [exact B|]. split; [exact R|]. split; [intros c s _; exact (three_unit s)|]. split; [discriminate|]. split; [exact (proj1 three_layers)|]. split; [exact (proj2 three_layers)|reflexivity].
Qed.

(** Columns along the axis are translated along it by numbers of their own, everything else is as it was, up to translations by sides of the
    box of the lattice. *)
Theorem C70_columns l b d k a shift : built l b d k -> lat_regular l = true -> (forall c s, in_range c d -> In s (k c) -> in_unit s) ->
  let cell := k (I3 0 0 0) in distinct_columns a cell ->
  exists l' k' lb molecules' images cells (column : shape -> nat), terminates_with (fun fuel => columnar fuel shift a l) l' /\ built l' b d k' /\
    (forall c s, in_range c d -> In s (k' c) -> in_unit s) /\ getLatticeBox l = Some lb /\ getLatticeBox l' = Some lb /\
    (forall s s', In s cell -> In s' cell -> (column s = column s' <-> same_column a s s')) /\
    traversal AX AY AZ d cells /\ generateMolecules l' = Some molecules' /\
    Forall2 (same_modulo lb)
      (flat_map (fun c => map (fun s => translated (vscale (shift (iget c (second_axis a)) (iget c (third_axis a)) (column s)) (box_side b a)) (placed b c s)) (k c)) cells) images /\
    Permutation images molecules'.
Proof. exact (columnar_spec l b d k a shift). Qed.
Print Assumptions C70_columns.

Theorem C70_columns_refused fuel shift a l : columnar fuel shift a l <> None -> lat_regular l = true /\ isNormalized l = true.
Proof. exact (columnar_refused fuel shift a l). Qed.
Print Assumptions C70_columns_refused.

Example C70_columns_case : exists l b, built l b dims223 (fun _ => three) /\ lat_regular l = true /\ (forall c s, in_range c dims223 -> In s three -> in_unit s) /\ distinct_columns AZ three.
Proof. destruct three_lattice as (l&b&B&R). exists l, b. split; [exact B|]. split; [exact R|]. split; [intros c s _; exact (three_unit s)|exact three_columns]. Qed.

(** Chosen molecules make a half-turn about an axis perpendicular to their primary axis, with the geometric origin in place. *)
Theorem C70_flips l b d k g p flips : built l b d k -> proper_geometry g -> ge_primary g = Some p -> (forall c s, in_range c d -> In s (k c) -> rotation (sh_rot s)) ->
  exists axis l' k' lb cells moved images molecules', findFlipAxis g = Some axis /\ vnorm2 axis = 1%R /\ vdot axis p = 0%R /\ (forall q, ge_secondary g = Some q -> axis = q) /\
    terminates_with (fun fuel => flip_randomize fuel g flips l) l' /\ built l' b d k' /\ getLatticeBox l = Some lb /\ getLatticeBox l' = Some lb /\
    ((forall c s, in_range c d -> In s (k c) -> in_unit s) -> forall c s, in_range c d -> In s (k' c) -> in_unit s) /\ traversal AX AY AZ d cells /\
    Forall2 (fun x m => let '(c, n, s) := x in if flips c n : bool then half_turned g axis (placed b c s) m else m = placed b c s) (numbered k cells) moved /\
    Forall2 (same_modulo lb) moved images /\ generateMolecules l' = Some molecules' /\ Permutation images molecules' /\
    (~ (forall c s, in_range c d -> In s (k c) -> in_unit s) -> images = moved /\ molecules' = moved).
Proof. exact (flips_spec l b d k g p flips). Qed.
Print Assumptions C70_flips.

Theorem C70_flips_refused l g flips fuel : ge_primary g = None -> flip_randomize fuel g flips l = None.
Proof. exact (flips_refused l g flips fuel). Qed.
Print Assumptions C70_flips_refused.

Example C70_flips_case : exists l b, built l b dims223 (fun _ => three) /\ proper_geometry off_rod /\ ge_primary off_rod = Some (V3 0 0 1) /\ (forall c s, in_range c dims223 -> In s three -> rotation (sh_rot s)).
Proof. destruct three_lattice as (l&b&B&_). exists l, b. split; [exact B|]. split; [exact off_rod_proper|]. split; [reflexivity|]. intros c s _. exact (three_rotations s). Qed.

(** Molecules are turned about the given axis by drawn angles, positions are kept. *)
Theorem C70_rotations l b d k g x draw : built l b d k -> (forall v, x = AxisVector v -> / 10 ^ 20 < vnorm2 v)%R ->
  (forall c s, in_range c d -> In s (k c) -> x <> AxisRandom -> exists u, turning_axis g x s = Some u /\ u <> vzero) ->
  exists l' k' lb cells molecules', rotation_randomize g x draw l = Some l' /\ built l' b d k' /\ getLatticeBox l = Some lb /\ getLatticeBox l' = Some lb /\
    ((forall c s, in_range c d -> In s (k c) -> in_unit s) -> forall c s, in_range c d -> In s (k' c) -> in_unit s) /\ traversal AX AY AZ d cells /\ generateMolecules l' = Some molecules' /\
    Forall2 (fun y m => let '(c, n, s) := y in randomly_turned g x (draw c n) (placed b c s) m) (numbered k cells) molecules'.
Proof. exact (rotations_spec l b d k g x draw). Qed.
Print Assumptions C70_rotations.

Theorem C70_rotations_refused l b d k g x draw : built l b d k ->
  (exists v, x = AxisVector v /\ (vnorm2 v <= / 10 ^ 20)%R) \/ (x <> AxisRandom /\ exists c s, in_range c d /\ In s (k c) /\ turning_axis g x s = None) ->
  rotation_randomize g x draw l = None.
Proof. exact (rotations_refused l b d k g x draw). Qed.
Print Assumptions C70_rotations_refused.

Example C70_rotations_case : exists l b, built l b dims223 (fun _ => three) /\ (forall c s, in_range c dims223 -> In s three -> AxisPrimary <> AxisRandom -> exists u, turning_axis off_rod AxisPrimary s = Some u /\ u <> vzero).
Proof. destruct three_lattice as (l&b&B&_). exists l, b. split; [exact B|]. intros c s _ I _. exact (off_rod_axis s I). Qed.
