(** Convex bodies given by support functions: [src/geometry/xenocollide/XCPrimitives.{h,cpp}], [XCOperations.{h,cpp}], [XCUtils.h] and the stack of
    [XCBodyBuilder.cpp] (without reading commands from text). A geometry is modelled by the values of its four virtual methods. *)
From Coq Require Import Reals List Bool Arith.
From Verif Require Import OptModel GeomModel GeoModel.
Import ListNotations.
Open Scope R_scope.

(** AbstractXCGeometry.h:38-45. [None] of a support point: a division by zero (not-a-number coordinates) *)
Record xc := XC { xc_support : vec -> option vec; xc_centre : vec; xc_circumsphere : R; xc_insphere : R }.

(** XCUtils.h:34-37 *)
Definition ZERO : R := 9094947 / 10 ^ 19.
Definition is_vector_zero (v : vec) : bool := Rltb (Rabs (vx v)) ZERO && Rltb (Rabs (vy v)) ZERO && Rltb (Rabs (vz v)) ZERO.
(** XCUtils.h:39-41 *)
Definition vector_comp_mul (a b : vec) : vec := V3 (vx a * vx b) (vy a * vy b) (vz a * vz b).
(** std::max, std::min and the ones of three elements *)
Definition fmax (a b : R) : R := if Rltb a b then b else a.
Definition fmin (a b : R) : R := if Rltb b a then b else a.
Definition max3 (v : vec) : R := fmax (fmax (vx v) (vy v)) (vz v).
Definition min3 (v : vec) : R := fmin (fmin (vx v) (vy v)) (vz v).
(** A coordinate with the sign changed if the direction is negative *)
Definition signed (n h : R) : R := if Rltb n 0 then - h else h.

(** XCPrimitives.h:35-48 *)
Definition xc_point (pos : vec) : xc := XC (fun _ => Some pos) pos 0 0.
(** XCPrimitives.h:54-67, XCPrimitives.cpp:30-41; [None] of a constructor: a failed precondition *)
Definition xc_segment (halfLength : R) : option xc :=
  if Rltb 0 halfLength then Some (XC (fun n => Some (V3 0 0 (signed (vz n) halfLength))) vzero halfLength 0) else None.
(** XCPrimitives.cpp:43-54 *)
Definition xc_rectangle (halfSideX halfSideY : R) : option xc :=
  if Rltb 0 halfSideX && Rltb 0 halfSideY then
    Some (XC (fun n => Some (V3 (signed (vx n) halfSideX) (signed (vy n) halfSideY) 0)) vzero (vnorm (V3 halfSideX halfSideY 0)) 0)
  else None.
(** XCPrimitives.cpp:56-69 *)
Definition xc_cuboid (halfSides : vec) : option xc :=
  if Rltb 0 (vx halfSides) && Rltb 0 (vy halfSides) && Rltb 0 (vz halfSides) then
    Some (XC (fun n => Some (V3 (signed (vx n) (vx halfSides)) (signed (vy n) (vy halfSides)) (signed (vz n) (vz halfSides)))) vzero (vnorm halfSides) (min3 halfSides))
  else None.
(** XCPrimitives.cpp:71-81 *)
Definition xc_disk (radius : R) : option xc :=
  if Rltb 0 radius then
    Some (XC (fun n => let n2 := V3 (vx n) (vy n) 0 in
                       if is_vector_zero n2 then Some vzero else u <- normalized n2 ;; Some (vscale radius u)) vzero radius 0)
  else None.
(** XCPrimitives.h:138-152, XCPrimitives.cpp:83-85 *)
Definition xc_sphere (radius : R) : option xc :=
  if Rltb 0 radius then Some (XC (fun n => u <- normalized n ;; Some (vscale radius u)) vzero radius radius) else None.
(** XCPrimitives.cpp:87-100 *)
Definition xc_ellipse (semiAxisX semiAxisY : R) : option xc :=
  let semiAxes := V3 semiAxisX semiAxisY 0 in
  if Rltb 0 semiAxisX && Rltb 0 semiAxisY then
    Some (XC (fun n => let n2 := vector_comp_mul semiAxes n in
                       if is_vector_zero n2 then Some vzero else u <- normalized n2 ;; Some (vector_comp_mul u semiAxes)) vzero (max3 semiAxes) 0)
  else None.
(** XCPrimitives.cpp:102-113 *)
Definition xc_ellipsoid (semiAxes : vec) : option xc :=
  if Rltb 0 (vx semiAxes) && Rltb 0 (vy semiAxes) && Rltb 0 (vz semiAxes) then
    Some (XC (fun n => n2 <- normalized (vector_comp_mul n semiAxes) ;; Some (vector_comp_mul n2 semiAxes)) vzero (max3 semiAxes) (min3 semiAxes))
  else None.
(** XCPrimitives.cpp:115-135 *)
Definition xc_football (halfLength radius : R) : option xc :=
  if Rltb 0 radius && Rleb radius halfLength then
    let r2 := / 2 * (halfLength * halfLength / radius + radius) in
    Some (XC (fun n =>
      n3 <- normalized n ;;
      (if Rltb (vz n3 * r2) (- halfLength) then Some (V3 0 0 (- halfLength))
       else if Rltb halfLength (vz n3 * r2) then Some (V3 0 0 halfLength)
       else n2 <- normalized (V3 (vx n) (vy n) 0) ;; Some (vadd (vscale (r2 - radius) (vneg n2)) (vscale r2 n3)))) vzero halfLength radius)
  else None.
(** XCPrimitives.cpp:137-163 *)
Definition xc_saucer (radius halfThickness : R) : option xc :=
  if Rltb 0 radius && Rleb halfThickness radius then
    let t := halfThickness in
    let h := radius in
    let r2 := / 2 * (h * h / t + t) in
    Some (XC (fun n =>
      n3 <- normalized n ;;
      let n4 := V3 (vx n) (vy n) 0 in
      let cap := let n2 := if Rltb (vz n) 0 then V3 0 0 (-1) else V3 0 0 1 in
                 Some (vadd (vscale (r2 - t) (vneg n2)) (vscale r2 n3)) in
      if is_vector_zero n4 then cap
      else
        n4' <- normalized n4 ;;
        let threshold := vx n3 * vx n3 + vy n3 * vy n3 in
        if Rltb (h * h) (threshold * r2 * r2) then Some (vscale h n4') else cap) vzero radius halfThickness)
  else None.

(** XCOperations.h:41-49: a geometry with the position and the orientation *)
Record entry := Entry { en_geometry : xc; en_pos : vec; en_rot : mat }.
Definition entry_support (e : entry) (n : vec) : option vec :=
  s <- xc_support (en_geometry e) (mvec (mtrans (en_rot e)) n) ;; Some (vadd (mvec (en_rot e) s) (en_pos e)).
Definition entry_centre (e : entry) : vec := vadd (mvec (en_rot e) (xc_centre (en_geometry e))) (en_pos e).

(** XCOperations.cpp:38-43 *)
Definition sum_support (entries : list entry) (n : vec) : option vec :=
  fold_left (fun p e => p' <- p ;; s <- entry_support e n ;; Some (vadd p' s)) entries (Some vzero).
(** XCOperations.cpp:45-70 *)
Definition xc_sum (entries : list entry) : xc :=
  let centerSum := fold_left (fun c e => vadd c (en_pos e)) entries vzero in
  let circumsphereRadiusSum := fold_left (fun c e => c + xc_circumsphere (en_geometry e)) entries 0 in
  let insphereRadiusSum := fold_left (fun c e => c + xc_insphere (en_geometry e)) entries 0 in
  let centerDisplacement := vnorm centerSum in
  XC (sum_support entries) (fold_left (fun p e => vadd p (entry_centre e)) entries vzero)
     (centerDisplacement + circumsphereRadiusSum) (fmax 0 (insphereRadiusSum - centerDisplacement)).
(** XCOperations.cpp:72-97 *)
Definition xc_diff (e1 e2 : entry) : xc :=
  let centerDisplacement := vnorm (vsub (en_pos e1) (en_pos e2)) in
  XC (fun n => p1 <- entry_support e1 n ;; p2 <- entry_support e2 (vneg n) ;; Some (vsub p1 p2))
     (vsub (entry_centre e1) (entry_centre e2))
     (centerDisplacement + xc_circumsphere (en_geometry e1) + xc_circumsphere (en_geometry e2))
     (fmax 0 (xc_insphere (en_geometry e1) + xc_insphere (en_geometry e2) - centerDisplacement)).
(** XCOperations.cpp:106-122. [None] for no entries: the first element of an empty vector is accessed *)
Definition max_support (entries : list entry) (n : vec) : option vec :=
  match entries with
  | [] => None
  | first :: rest =>
    v0 <- entry_support first n ;;
    fold_left (fun v e => v' <- v ;; v1 <- entry_support e n ;; Some (if Rltb (vdot v' n) (vdot v1 n) then v1 else v')) rest (Some v0)
  end.
(** XCOperations.cpp:160-185. When [diffNorm] is 0 and so are both radii, not-a-number is passed as the second argument of std::max, which gives the first one, 0. *)
Definition calculateInsphereRadius2 (e1 e2 : entry) : R :=
  let insphere1 := xc_insphere (en_geometry e1) in
  let insphere2 := xc_insphere (en_geometry e2) in
  let diff := vsub (en_pos e2) (en_pos e1) in
  let diffNorm := vnorm diff in
  let normalDiff := vscale (/ diffNorm) diff in
  if negb (Reqb (fmax insphere1 insphere2) 0) && Rltb (diffNorm / fmax insphere1 insphere2) (/ 10 ^ 14) then fmin insphere1 insphere2
  else if Reqb diffNorm 0 then 0
  else
    let originT := - vdot (en_pos e1) normalDiff / diffNorm in
    if Rltb originT 0 then 0
    else if Rltb 1 originT then 0
    else
      let originOffset := sqrt (fmax 0 (vnorm2 (en_pos e1) - vdot (en_pos e1) normalDiff ^ 2)) in
      let interpolatedR := (1 - originT) * insphere1 + originT * insphere2 in
      fmax 0 (interpolatedR - originOffset).
(** XCOperations.cpp:131-143 *)
Definition calculateInsphereRadius (entries : list entry) : R :=
  match entries with
  | [] => 0
  | [e] => fmax 0 (xc_insphere (en_geometry e) - vnorm (en_pos e))
  | [e1; e2] => calculateInsphereRadius2 e1 e2
  | _ => 0
  end.
(** XCOperations.cpp:106-158. Without entries both radii are left as initialised, 0. *)
Definition xc_max (entries : list entry) : xc :=
  let radius e := vnorm (en_pos e) + xc_circumsphere (en_geometry e) in
  XC (max_support entries) (vscale (/ INR (length entries)) (fold_left (fun p e => vadd p (entry_centre e)) entries vzero))
     (match entries with [] => 0 | first :: _ => fold_left (fun r e => fmax r (radius e)) entries (radius first) end)
     (calculateInsphereRadius entries).

(** XCBodyBuilder.h:70-112: the operations of the builder *)
Inductive command :=
| Cuboid (sideX sideY sideZ : R) | Disk (radius : R) | Ellipse (semiAxisX semiAxisY : R) | Ellipsoid (semiAxisX semiAxisY semiAxisZ : R)
| Football (length radius : R) | Point (x y z : R) | Rectangle (sideX sideY : R) | Saucer (radius thickness : R) | Segment (length : R) | Sphere (radius : R)
| Move (x y z : R) | Rotate (x y z : R) | Diff | Sum (count : nat) | Wrap (count : nat) | Dup (numShapes : nat) | Pop | Swap | Clear.
(** XCBodyBuilder.h:42-55; the last element of the list is the first one here *)
Definition stack := list entry.
Definition push (g : xc) (s : stack) : stack := Entry g vzero mid :: s.
Definition push_checked (valid : bool) (g : option xc) (s : stack) : option stack := if valid then match g with Some g => Some (push g s) | None => None end else None.
(** XCBodyBuilder.cpp:50-202; [None]: an exception *)
Definition run_command (c : command) (s : stack) : option stack :=
  match c with
  | Cuboid x y z => push_checked (Rltb 0 x && Rltb 0 y && Rltb 0 z) (xc_cuboid (V3 (x / 2) (y / 2) (z / 2))) s
  | Disk r => push_checked (Rltb 0 r) (xc_disk r) s
  | Ellipse x y => push_checked (Rltb 0 x && Rltb 0 y) (xc_ellipse x y) s
  | Ellipsoid x y z => push_checked (Rltb 0 x && Rltb 0 y && Rltb 0 z) (xc_ellipsoid (V3 x y z)) s
  | Football l r => push_checked (Rltb 0 l && Rltb 0 r && Rleb (2 * r) l) (xc_football (l / 2) r) s
  | Point x y z => Some (push (xc_point (V3 x y z)) s)
  | Rectangle x y => push_checked (Rltb 0 x && Rltb 0 y) (xc_rectangle (x / 2) (y / 2)) s
  | Saucer r t => push_checked (Rltb 0 r && Rltb 0 t && Rleb t (2 * r)) (xc_saucer r (t / 2)) s
  | Segment l => push_checked (Rltb 0 l) (xc_segment (l / 2)) s
  | Sphere r => push_checked (Rltb 0 r) (xc_sphere r) s
  | Move x y z => match s with [] => None | e :: s' => Some (Entry (en_geometry e) (vadd (en_pos e) (V3 x y z)) (en_rot e) :: s') end
  | Rotate x y z => match s with [] => None | e :: s' => Some (Entry (en_geometry e) (en_pos e) (mmul (mrot_xyz (x * PI / 180) (y * PI / 180) (z * PI / 180)) (en_rot e)) :: s') end
  | Diff => match s with e2 :: e1 :: s' => Some (push (xc_diff e1 e2) s') | _ => None end
  | Sum count => if Nat.leb 2 count && Nat.leb count (length s) then Some (push (xc_sum (firstn count s)) (skipn count s)) else None
  | Wrap count => if Nat.leb 2 count && Nat.leb count (length s) then Some (push (xc_max (firstn count s)) (skipn count s)) else None
  | Dup k => if Nat.leb 1 k && Nat.leb k (length s) then Some (firstn k s ++ s) else None
  | Pop => match s with [] => None | _ :: s' => Some s' end
  | Swap => match s with e1 :: e2 :: s' => Some (e2 :: e1 :: s') | _ => None end
  | Clear => Some []
  end.
Fixpoint run_script (cs : list command) (s : stack) : option stack :=
  match cs with [] => Some s | c :: cs' => s' <- run_command c s ;; run_script cs' s' end.
(** XCBodyBuilder.cpp:37-48, for a builder on which the commands have been run *)
Definition releaseCollideGeometry (s : stack) : option xc := match s with [e] => Some (en_geometry e) | _ => None end.
Definition build (cs : list command) : option xc := s <- run_script cs [] ;; releaseCollideGeometry s.
