(** C64: the collision test of convex bodies. *)
From Coq Require Import Reals List Bool Lra Lia.
From Verif Require Import GeomModel RotSpec RotProofs SegErrorProofs PackModel GeoModel XcModel XcSpec XcPrimProofs XcBuildProofs CollideModel CollideSpec CollideBodyProofs CollideExamples.
Import ListNotations.
Open Scope R_scope.

(** However many turns of the loops are made, coordinates stay numbers, and an answer is not changed by making more turns. *)
Theorem C64_answer_definite : forall geometries bodies pos1 m1 i pos2 m2 j bc fuel1 fuel2, good_shape geometries bodies -> rotation m1 -> rotation m2 ->
  let result := fun f1 f2 => xc_overlapBetween f1 f2 geometries pos1 m1 i pos2 m2 j bc in
  result fuel1 fuel2 <> Undefined /\ forall b, result fuel1 fuel2 = Answer b -> forall more1 more2, result (fuel1 + more1)%nat (fuel2 + more2)%nat = Answer b.
Proof. intros geometries bodies pos1 m1 i pos2 m2 j bc fuel1 fuel2 G R1 R2 result. split; [exact (proj1 (overlap_spec geometries bodies fuel1 fuel2 pos1 m1 i pos2 m2 j bc G R1 R2))|]. intros b H more1 more2. exact (more_spec fuel1 fuel2 more1 more2 geometries pos1 m1 i pos2 m2 j bc b H). Qed.
Print Assumptions C64_answer_definite.

(** Overlaps deeper than the tolerance are never missed. *)
Theorem C64_no_missed_overlap : forall geometries bodies pos1 m1 i pos2 m2 j bc fuel1 fuel2, good_shape geometries bodies -> rotation m1 -> rotation m2 ->
  xc_overlapBetween fuel1 fuel2 geometries pos1 m1 i pos2 m2 j bc = Answer false ->
  apart (/ 10 ^ 12) (placed (bodies i) pos1 m1) (placed (bodies j) (vadd pos2 (bc_translation bc pos1 pos2)) m2).
Proof. intros geometries bodies pos1 m1 i pos2 m2 j bc fuel1 fuel2 G R1 R2. exact (proj1 (proj2 (overlap_spec geometries bodies fuel1 fuel2 pos1 m1 i pos2 m2 j bc G R1 R2))). Qed.
Print Assumptions C64_no_missed_overlap.

(** A reported overlap is one of bodies which touch, up to a small distance, if no support point falls exactly on a side of a portal as seen from the centre. *)
Theorem C64_no_false_overlap : forall geometries bodies pos1 m1 i pos2 m2 j bc fuel1 fuel2, good_shape geometries bodies -> rotation m1 -> rotation m2 ->
  let pos2' := vadd pos2 (bc_translation bc pos1 pos2) in
  let first := Entry (geometries i) pos1 m1 in let second := Entry (geometries j) pos2' m2 in
  xc_overlapBetween fuel1 fuel2 geometries pos1 m1 i pos2 m2 j bc = Answer true ->
  no_ties (difference_support first second) (vsub (entry_centre second) (entry_centre first)) ->
  near (2 / 10 ^ 6) (placed (bodies i) pos1 m1) (placed (bodies j) pos2' m2).
Proof. intros geometries bodies pos1 m1 i pos2 m2 j bc fuel1 fuel2 G R1 R2. exact (proj2 (proj2 (overlap_spec geometries bodies fuel1 fuel2 pos1 m1 i pos2 m2 j bc G R1 R2))). Qed.
Print Assumptions C64_no_false_overlap.

(** Otherwise an overlap of bodies may be reported, even though they are far from each other. *)
Theorem C64_no_false_overlap_refuted : exists geometries bodies pos1 m1 i pos2 m2 j bc, good_shape geometries bodies /\ rotation m1 /\ rotation m2 /\
  (forall fuel1 fuel2, (1 <= fuel1)%nat -> (2 <= fuel2)%nat -> xc_overlapBetween fuel1 fuel2 geometries pos1 m1 i pos2 m2 j bc = Answer true) /\
  ~ near (1 / 4) (placed (bodies i) pos1 m1) (placed (bodies j) (vadd pos2 (bc_translation bc pos1 pos2)) m2).
Proof.
  exists (pair_geometries six), (pair_bodies six), vzero, mid, 0%nat, six_pos, mid, 1%nat, (hardcoded vzero). split; [exact six_good|]. split; [apply identity_rotation|]. split; [apply identity_rotation|]. split; [|exact six_apart].
  intros [|fuel1] [|[|fuel2]] F1 F2; try lia. apply six_overlap.
Qed.
Print Assumptions C64_no_false_overlap_refuted.

(** Bodies further than the range radius do not overlap. *)
Theorem C64_range_radius : forall geometries bodies centres pos1 m1 i pos2 m2 j bc fuel1 fuel2, good_shape geometries bodies ->
  (i < Nat.max (length centres) 1)%nat -> (j < Nat.max (length centres) 1)%nat ->
  xc_getRangeRadius geometries centres < vnorm (vsub (vadd pos2 (bc_translation bc pos1 pos2)) pos1) ->
  xc_overlapBetween fuel1 fuel2 geometries pos1 m1 i pos2 m2 j bc = Answer false.
Proof. intros geometries bodies centres pos1 m1 i pos2 m2 j bc fuel1 fuel2 G I J. exact (range_spec fuel1 fuel2 geometries centres pos1 m1 i pos2 m2 j bc I J (circ_nonneg _ _ (proj1 (proj2 (G i))) (proj1 (proj2 (proj2 (proj2 (G i)))))) (circ_nonneg _ _ (proj1 (proj2 (G j))) (proj1 (proj2 (proj2 (proj2 (G j))))))). Qed.
Print Assumptions C64_range_radius.

(** A body overlaps with a wall if and only if a point of it does not lie strictly on the inner side of the wall. *)
Theorem C64_wall : forall geometries bodies ok pos m i wallOrigin wallVector, shaped ok (geometries i) (bodies i) -> rotation m -> ok (vneg (mvec (mtrans m) wallVector)) ->
  exists b, xc_overlapWithWall geometries pos m i wallOrigin wallVector = Some b /\
  (b = true <-> exists x, placed (bodies i) pos m x /\ vdot (vsub x wallOrigin) wallVector <= 0).
Proof. exact wall_spec. Qed.
Print Assumptions C64_wall.

Example five_shape : good_shape (pair_geometries five) (pair_bodies five). Proof. exact five_good. Qed.
Example five_bodies_meet : near (2 / 10 ^ 6) (placed (pair_bodies five 0) vzero mid) (placed (pair_bodies five 1) (vadd vzero (bc_translation (hardcoded vzero) vzero vzero)) mid).
Proof.
  apply (C64_no_false_overlap (pair_geometries five) (pair_bodies five) vzero mid 0%nat vzero mid 1%nat (hardcoded vzero) 1%nat 2%nat five_good identity_rotation identity_rotation (five_overlap 0 0)).
  cbv zeta. rewrite five_still. exact five_free.
Qed.
Example balls_apart : apart (/ 10 ^ 12) (placed (ball_body 1) vzero mid) (placed (ball_body 1) (vadd (V3 3 0 0) (bc_translation (hardcoded vzero) vzero (V3 3 0 0))) mid).
Proof.
  apply (C64_no_missed_overlap balls_geometries (fun _ => ball_body 1) vzero mid 0%nat (V3 3 0 0) mid 0%nat (hardcoded vzero) 0%nat 0%nat balls_good identity_rotation identity_rotation).
  apply (C64_range_radius balls_geometries (fun _ => ball_body 1) []); [exact balls_good|auto|auto|exact balls_range].
Qed.
Example ball_at_wall : xc_overlapWithWall balls_geometries (V3 5 1 1) mid 0 (V3 0 0 0) (V3 0 0 1) = Some true.
Proof.
  destruct (C64_wall balls_geometries (fun _ => ball_body 1) any_direction (V3 5 1 1) mid 0%nat (V3 0 0 0) (V3 0 0 1)) as (b&->&H); [exact (proj1 (balls_good 0%nat))|exact identity_rotation|intros E; injection E; lra|].
  rewrite (proj2 H balls_wall_touches). reflexivity.
Qed.
