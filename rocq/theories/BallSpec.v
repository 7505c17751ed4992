From Coq Require Import Reals List.
From Verif Require Import GeomModel PbcModel PackModel SegSpec ShapesModel ShapesSpec.
Import ListNotations.
Open Scope R_scope.

(** Inner points of a ball *)
Definition inside_ball (centre : vec) (radius : R) (x : vec) : Prop := distance x centre < radius.
(** Inner points of some bead of a polysphere *)
Definition inside_beads (beads : list bead) (pos : vec) (rot : mat) (x : vec) : Prop :=
  exists d, In d beads /\ inside_ball (vadd pos (mvec rot (bd_pos d))) (bd_radius d) x.
(** The distance given by boundary conditions is the one to the image given by them. *)
Definition true_distance (bc : bcond) (p1 p2 : vec) : Prop := bc_distance2 bc p1 p2 = distance p1 (image bc p1 p2) ^ 2.
