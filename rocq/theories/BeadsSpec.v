(** Spheres placed along the z axis. *)
From Coq Require Import Reals ZArith List.
From Verif Require Import TextModel GeomModel ShapesModel XcSpec GeoModel VolSpec.
Import ListNotations.
Open Scope R_scope.

Definition along_z (data : list bead) : Prop := forall d, In d data -> vx (bd_pos d) = 0 /\ vy (bd_pos d) = 0.
(** Distances of centres of successive spheres *)
Definition spaced (data : list bead) (gap : nat -> bead -> bead -> R) : Prop :=
  forall i d1 d2, nth_error data i = Some d1 -> nth_error data (S i) = Some d2 -> vz (bd_pos d2) - vz (bd_pos d1) = gap i d1 d2.
(** The lowest point of the first sphere is as far from the origin as the highest one of the last sphere. *)
Definition centred (data : list bead) : Prop :=
  forall d1 d2, nth_error data 0 = Some d1 -> nth_error data (length data - 1) = Some d2 -> vz (bd_pos d2) + bd_radius d2 = - (vz (bd_pos d1) - bd_radius d1).
(** The named positions of the first and the last sphere *)
Definition ends (data : list bead) (first last : text) (custom : points) : Prop :=
  exists d1 d2, nth_error data 0 = Some d1 /\ nth_error data (length data - 1) = Some d2 /\ custom = [(first, bd_pos d1); (last, bd_pos d2)].
(** The tip meets the other spheres only inside the last one of them. *)
Definition tip_clear (data : list bead) : Prop :=
  forall tip next, nth_error data (length data - 1) = Some tip -> nth_error data (length data - 2) = Some next ->
  forall y, in_ball (bd_pos tip) (bd_radius tip) y -> forall i d, (S i < length data)%nat -> nth_error data i = Some d -> in_ball (bd_pos d) (bd_radius d) y -> in_ball (bd_pos next) (bd_radius next) y.
