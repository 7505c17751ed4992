From Coq Require Import Reals List.
From Verif Require Import GeomModel PbcModel PackModel RotSpec ShapesModel SegSpec.
Import ListNotations.
Open Scope R_scope.

(** Points of the rod with the middle in [c] and [h] joining it with the end. *)
Definition on_rod (c h : vec) (x : vec) : Prop := on_segment (vsub c h) (vadd c h) x.
Definition closer_than (c1 h1 c2 h2 : vec) (x : R) : Prop := exists p q, on_rod c1 h1 p /\ on_rod c2 h2 q /\ distance p q < x.
(** Half of the axis of a spherocylinder. *)
Definition half_axis (length : R) (rot : mat) : vec := mvec rot (V3 0 0 (length / 2)).
(** The nearest image of the second particle. *)
Definition image (bc : bcond) (pos1 pos2 : vec) : vec := vadd pos2 (bc_translation bc pos1 pos2).
Definition rods_error (c1 h1 c2 h2 : vec) (err : R) : Prop := error_bound (vsub c1 h1) (vadd c1 h1) (vsub c2 h2) (vadd c2 h2) err.
