(** [src/core/TriclinicBox.{h,cpp}]. *)
From Coq Require Import Reals.
From Verif Require Import GeomModel.
Open Scope R_scope.

(** TriclinicBox.h:21-22: side matrix (columns are the side vectors) and its cached inverse. *)
Record box := Box { dims : mat; invdims : mat }.

(** TriclinicBox.h:49-51; [None] is the exception thrown by [Matrix::inverse]. *)
Definition box_of_matrix (m : mat) : option box :=
  match minverse m with
  | Some i => Some (Box m i)
  | None => None
  end.

(** TriclinicBox.cpp:8-14: [dimensions(i, j) = sides[j][i]]. *)
Definition matrix_of_sides (s0 s1 s2 : vec) : mat :=
  mmake (fun i j => match j with AX => vget s0 i | AY => vget s1 i | AZ => vget s2 i end).
Definition box_of_sides (s0 s1 s2 : vec) : option box := box_of_matrix (matrix_of_sides s0 s1 s2).

(** TriclinicBox.h:40-44: cuboid. *)
Definition box_cuboid (a b c : R) : option box := box_of_matrix (M33 a 0 0 0 b 0 0 0 c).

(** TriclinicBox.h:61-63. *)
Definition absoluteToRelative (b : box) (p : vec) : vec := mvec (invdims b) p.
(** TriclinicBox.h:68-70. *)
Definition relativeToAbsolute (b : box) (p : vec) : vec := mvec (dims b) p.

(** TriclinicBox.cpp:16-19. *)
Definition box_transform (t : mat) (b : box) : option box := box_of_matrix (mmul t (dims b)).
(** TriclinicBox.cpp:21-25. *)
Definition box_scale (f : vec) (b : box) : option box :=
  box_transform (M33 (vx f) 0 0 0 (vy f) 0 0 0 (vz f)) b.

(** TriclinicBox.cpp:27-33. *)
Definition box_side (b : box) (a : axis) : vec :=
  match a with
  | AX => relativeToAbsolute b (V3 1 0 0)
  | AY => relativeToAbsolute b (V3 0 1 0)
  | AZ => relativeToAbsolute b (V3 0 0 1)
  end.
(** TriclinicBox.cpp:35-38. *)
Definition box_volume (b : box) : R :=
  Rabs (vdot (vcross (box_side b AX) (box_side b AY)) (box_side b AZ)).
(** TriclinicBox.cpp:46-48: the face opposite to / spanned by the two other sides, cyclically. *)
Definition box_face (b : box) (a : axis) : vec :=
  match a with
  | AX => vcross (box_side b AY) (box_side b AZ)
  | AY => vcross (box_side b AZ) (box_side b AX)
  | AZ => vcross (box_side b AX) (box_side b AY)
  end.
(** TriclinicBox.cpp:40-51. *)
Definition box_height (b : box) (a : axis) : R := box_volume b / vnorm (box_face b a).

(** src/core/volume_scalers/TriclinicAdapter.h:27-33: multiplies the i-th side vector by the i-th factor. *)
Definition box_scale_sides (f : vec) (b : box) : option box :=
  box_of_sides (vscale (vx f) (box_side b AX)) (vscale (vy f) (box_side b AY)) (vscale (vz f) (box_side b AZ)).
