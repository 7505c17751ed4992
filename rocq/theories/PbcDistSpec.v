From Coq Require Import Reals.
From Verif Require Import GeomModel BoxModel.
Open Scope R_scope.

(** The relative coordinates of [v] with the signs changed along the axes along which [p2] precedes [p1] *)
Definition turn (x : R) : R := if Rlt_dec x 0 then -1 else 1.
Definition mirrored (b : box) (p1 p2 v : vec) : vec :=
  let component a := vscale (turn (vget (absoluteToRelative b (vsub p2 p1)) a) * vget (absoluteToRelative b v) a) (box_side b a) in
  vadd (component AX) (vadd (component AY) (component AZ)).
(** Nothing is mirrored, or everything is. *)
Definition same_signs (b : box) (p1 p2 : vec) : Prop :=
  (forall a, 0 <= vget (absoluteToRelative b (vsub p2 p1)) a) \/ (forall a, vget (absoluteToRelative b (vsub p2 p1)) a <= 0).
