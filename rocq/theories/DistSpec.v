From Coq Require Import Reals List.
From Verif Require Import GeomModel PbcModel PackModel InterModel DistModel.
Open Scope R_scope.

(** 10^-12 *)
Definition precision : R := / 10 ^ 12.
(** The overlap of shapes when the second one is moved away from the first one by [d] along a direction *)
Definition touch (w : winter) (s1 s2 : shape) (direction : vec) (d : R) : Prop :=
  overlapBetweenShapes w (Shape vzero (sh_rot s1)) (Shape (vscale (d / vnorm direction) direction) (sh_rot s2)) free = true.
(** The shapes do not touch at [d], but they do at a distance not more than the precision smaller. *)
Definition tangent (w : winter) (s1 s2 : shape) (direction : vec) (d : R) : Prop :=
  0 < d < 1000 /\ ~ touch w s1 s2 direction d /\ exists d', 0 <= d' < d /\ d <= d' + precision /\ touch w s1 s2 direction d'.
(** The arguments are refused *)
Definition refused (w : winter) (s1 s2 : shape) (direction : vec) : Prop :=
  vnorm2 direction <= precision \/ in_hard (wi w) = false \/ ~ touch w s1 s2 direction 0 \/ forall k, (k <= 9)%nat -> touch w s1 s2 direction (2 ^ k).
(** Shapes which touch at a distance touch at all smaller ones. *)
Definition monotone (w : winter) (s1 s2 : shape) (direction : vec) : Prop :=
  forall d d', 0 <= d' <= d -> touch w s1 s2 direction d -> touch w s1 s2 direction d'.
