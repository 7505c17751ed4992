(** Vectors and matrices of [src/geometry/Vector.h], [src/geometry/Matrix.tpp] for dimension 3.

    [double] is modelled by the real numbers [R]: rounding, overflow, infinities and NaN are not modelled. *)
From Coq Require Import Reals.
Open Scope R_scope.

(** The index type of a 3-vector; the loops [for (i = 0; i < 3; i++)] of the code are componentwise maps. *)
Inductive axis := AX | AY | AZ.

(** Decidable comparisons as booleans (the conditions of [if]/[while] in the code). *)
Definition Rltb (a b : R) : bool := if Rlt_dec a b then true else false.
Definition Rleb (a b : R) : bool := if Rle_dec a b then true else false.
Definition Reqb (a b : R) : bool := if Req_EM_T a b then true else false.

(** [Vector<3>] (src/geometry/Vector.h). *)
Record vec := V3 { vx : R; vy : R; vz : R }.

Definition vget (v : vec) (a : axis) : R :=
  match a with AX => vx v | AY => vy v | AZ => vz v end.
Definition vmake (f : axis -> R) : vec := V3 (f AX) (f AY) (f AZ).
Definition vzero : vec := V3 0 0 0.

(** src/geometry/Vector.tpp: componentwise operators +, -, unary -, scalar *, dot product [*], cross product [^],
    [norm2] and [norm]. *)
Definition vadd (a b : vec) : vec := V3 (vx a + vx b) (vy a + vy b) (vz a + vz b).
Definition vsub (a b : vec) : vec := V3 (vx a - vx b) (vy a - vy b) (vz a - vz b).
Definition vneg (a : vec) : vec := V3 (- vx a) (- vy a) (- vz a).
Definition vscale (s : R) (a : vec) : vec := V3 (s * vx a) (s * vy a) (s * vz a).
Definition vdot (a b : vec) : R := vx a * vx b + vy a * vy b + vz a * vz b.
Definition vcross (a b : vec) : vec :=
  V3 (vy a * vz b - vz a * vy b) (vz a * vx b - vx a * vz b) (vx a * vy b - vy a * vx b).
Definition vnorm2 (a : vec) : R := vdot a a.
Definition vnorm (a : vec) : R := sqrt (vnorm2 a).

(** [Matrix<3,3>] in row-major order: [arr[3*row + column]] (src/geometry/Matrix.tpp). *)
Record mat := M33 { m00 : R; m01 : R; m02 : R;
                    m10 : R; m11 : R; m12 : R;
                    m20 : R; m21 : R; m22 : R }.

(** Matrix.tpp:211-217 [operator()(row, column)]. *)
Definition mget (m : mat) (r c : axis) : R :=
  match r, c with
  | AX, AX => m00 m | AX, AY => m01 m | AX, AZ => m02 m
  | AY, AX => m10 m | AY, AY => m11 m | AY, AZ => m12 m
  | AZ, AX => m20 m | AZ, AY => m21 m | AZ, AZ => m22 m
  end.

Definition mmake (f : axis -> axis -> R) : mat :=
  M33 (f AX AX) (f AX AY) (f AX AZ)
      (f AY AX) (f AY AY) (f AY AZ)
      (f AZ AX) (f AZ AY) (f AZ AZ).

(** Matrix.tpp:277-283 [identity]. *)
Definition mid : mat := M33 1 0 0 0 1 0 0 0 1.

(** Matrix.tpp [operator*] of matrices: sum over the inner index. *)
Definition mmul (a b : mat) : mat :=
  mmake (fun i j => mget a i AX * mget b AX j + mget a i AY * mget b AY j + mget a i AZ * mget b AZ j).
(** Matrix.tpp / Vector.tpp: matrix times column vector. *)
Definition mvec (m : mat) (v : vec) : vec :=
  vmake (fun i => mget m i AX * vx v + mget m i AY * vy v + mget m i AZ * vz v).
Definition madd (a b : mat) : mat := mmake (fun i j => mget a i j + mget b i j).
Definition msub (a b : mat) : mat := mmake (fun i j => mget a i j - mget b i j).
Definition mscale (s : R) (a : mat) : mat := mmake (fun i j => s * mget a i j).

(** Matrix.tpp:221-229 [transpose]. *)
Definition mtrans (m : mat) : mat := mmake (fun i j => mget m j i).
(** Matrix.tpp:382-389 [tr]. *)
Definition mtr (m : mat) : R := m00 m + m11 m + m22 m.

(** Matrix.tpp:355-359 [det] for 3x3. *)
Definition mdet (m : mat) : R :=
  m00 m * m11 m * m22 m + m01 m * m12 m * m20 m + m02 m * m10 m * m21 m
  - m02 m * m11 m * m20 m - m01 m * m10 m * m22 m - m00 m * m12 m * m21 m.

(** Remaining row (column) indices after striking one out, in increasing order:
    the four copying loops of Matrix.tpp:302-328. *)
Definition others (a : axis) : axis * axis :=
  match a with AX => (AY, AZ) | AY => (AX, AZ) | AZ => (AX, AY) end.

(** Matrix.tpp:298-331 [matrix_minor], with the 2x2 determinant of Matrix.tpp:346-349. *)
Definition mminor (m : mat) (row column : axis) : R :=
  let (r1, r2) := others row in
  let (c1, c2) := others column in
  mget m r1 c1 * mget m r2 c2 - mget m r1 c2 * mget m r2 c1.

(** [(i + j) % 2 == 0] of Matrix.tpp:269. *)
Definition axis_even (i j : axis) : bool :=
  match i, j with
  | AX, AX | AX, AZ | AZ, AX | AY, AY | AZ, AZ => true
  | _, _ => false
  end.

(** Matrix.tpp:261-271 [inverse]: adjugate over determinant; [None] is the thrown [std::runtime_error]. *)
Definition minverse (m : mat) : option mat :=
  let determinant := mdet m in
  if Reqb determinant 0 then None
  else Some (mmake (fun i j => if axis_even i j then mminor m j i / determinant
                               else - mminor m j i / determinant)).

(** Matrix.tpp:475-491 [row]/[column]. *)
Definition mcol (m : mat) (c : axis) : vec := vmake (fun i => mget m i c).
Definition mrow (m : mat) (r : axis) : vec := vmake (fun j => mget m r j).

(** Matrix.tpp:411-434 [rotation(ax, ay, az)]. *)
Definition mrot_xyz (ax ay az : R) : mat :=
  M33 (cos ay * cos az)
      (sin ax * sin ay * cos az - cos ax * sin az)
      (cos ax * sin ay * cos az + sin ax * sin az)
      (cos ay * sin az)
      (sin ax * sin ay * sin az + cos ax * cos az)
      (cos ax * sin ay * sin az - sin ax * cos az)
      (- sin ay)
      (sin ax * cos ay)
      (cos ax * cos ay).

(** Matrix.tpp:440-450 [rotation(axis, angle)], Rodrigues' formula [I + K sin + (1-cos) K K]. *)
Definition mskew (a : vec) : mat :=
  M33 0 (- vz a) (vy a)
      (vz a) 0 (- vx a)
      (- vy a) (vx a) 0.
Definition mrot_axis (a : vec) (angle : R) : mat :=
  madd (madd mid (mscale (sin angle) (mskew a)))
       (mmul (mscale (1 - cos angle) (mskew a)) (mskew a)).
