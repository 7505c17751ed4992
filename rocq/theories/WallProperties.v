From Coq Require Import Reals List.
From Verif Require Import GeomModel BoxModel PbcModel PackModel PackSpec PackExamples RotSpec ShapesModel ShapesSpec WallSpec WallProofs WallShapesProofs WallExamples.
Import ListNotations.
Open Scope R_scope.

Theorem C58_count inter B threads shapes b os pk : solid_walls inter B -> bounded inter B -> reachable threads shapes b inter os pk -> right_handed (pk_box pk) ->
  Forall (fun s => rotation (sh_rot s)) (shapes_of pk) -> (forall a, wall_after os a = true -> in_totalRange inter <= box_height (pk_box pk) a) ->
  exists n, countWallOverlaps pk inter false = Some n /\ counts (sticks_out (wall_after os) (pk_box pk) inter B (shapes_of pk)) n.
Proof. exact (fun S D => walls_counted inter B S D threads shapes b os pk). Qed.
Print Assumptions C58_count.

Theorem C58_early_exit inter B threads shapes b os pk : solid_walls inter B -> bounded inter B -> reachable threads shapes b inter os pk -> right_handed (pk_box pk) ->
  Forall (fun s => rotation (sh_rot s)) (shapes_of pk) -> (forall a, wall_after os a = true -> in_totalRange inter <= box_height (pk_box pk) a) ->
  exists n, countWallOverlaps pk inter true = Some n /\ ((0 < n)%nat <-> exists s, sticks_out (wall_after os) (pk_box pk) inter B (shapes_of pk) s).
Proof. exact (fun S D => walls_exit inter B S D threads shapes b os pk). Qed.
Print Assumptions C58_early_exit.

Theorem C58_sphere r i : sphere r = Some i -> solid_walls i (ball_body r) /\ bounded i (ball_body r).
Proof. exact (sphere_solid r i). Qed.
Print Assumptions C58_sphere.

Theorem C58_polysphere beads i : polysphere beads = Some i -> solid_walls i (beads_body beads) /\ bounded i (beads_body beads).
Proof. exact (beads_solid beads i). Qed.
Print Assumptions C58_polysphere.

Theorem C58_spherocylinder l r i : spherocylinder l r = Some i -> solid_walls i (spherocylinder_body l r) /\ bounded i (spherocylinder_body l r).
Proof. exact (sphero_solid l r i). Qed.
Print Assumptions C58_spherocylinder.

Theorem C58_polyspherocylinder rods i : polyspherocylinder rods = Some i -> solid_walls i (rods_body rods) /\ bounded i (rods_body rods).
Proof. exact (rods_solid rods i). Qed.
Print Assumptions C58_polyspherocylinder.

(* walls closer to each other than the total range: the further one is not checked *)
Theorem C58_narrow_refuted : exists i b pk s, polysphere dumbbell = Some i /\ reachable 1 [upright (27 / 10) 10 10] b i [DoWall AX true] pk /\ right_handed (pk_box pk) /\
  Forall (fun s => rotation (sh_rot s)) (shapes_of pk) /\ sticks_out (wall_after [DoWall AX true]) (pk_box pk) i (beads_body dumbbell) (shapes_of pk) s /\
  countWallOverlaps pk i false = Some 0%nat.
Proof. exact slit_missed. Qed.
Print Assumptions C58_narrow_refuted.

(* a left-handed box: a particle in the middle of the box is reported *)
Theorem C58_left_handed_refuted : exists i b pk, sphere (1 / 2) = Some i /\ reachable 1 [upright (3 / 2) (3 / 2) (3 / 2)] b i [DoWall AX true] pk /\
  (forall a, in_totalRange i <= box_height (pk_box pk) a) /\ Forall (fun s => rotation (sh_rot s)) (shapes_of pk) /\
  counts (sticks_out (wall_after [DoWall AX true]) (pk_box pk) i (ball_body (1 / 2)) (shapes_of pk)) 0 /\ countWallOverlaps pk i false = Some 1%nat.
Proof. exact left_overlaps. Qed.
Print Assumptions C58_left_handed_refuted.

Example C58_case : exists i b pk s, sphere (1 / 2) = Some i /\ reachable 1 [upright (1 / 4) (3 / 2) (3 / 2)] b i [DoWall AX true] pk /\ right_handed (pk_box pk) /\
  Forall (fun s => rotation (sh_rot s)) (shapes_of pk) /\ (forall a, in_totalRange i <= box_height (pk_box pk) a) /\
  sticks_out (wall_after [DoWall AX true]) (pk_box pk) i (ball_body (1 / 2)) (shapes_of pk) s.
Proof. exact sphere_out. Qed.
