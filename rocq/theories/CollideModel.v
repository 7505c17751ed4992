(** The XenoCollide test of two convex bodies: [src/geometry/xenocollide/XenoCollide.h] and the interaction of [src/core/shapes/XenoCollideTraits.h]. *)
From Coq Require Import Reals List Bool Arith.
From Verif Require Import OptModel GeomModel GeoModel PackModel XcModel.
Import ListNotations.
Open Scope R_scope.

(** The result after at most the given numbers of turns of the loops. [Undefined]: not-a-number coordinates appeared *)
Inductive outcome := Unfinished | Undefined | Answer (b : bool).

Section Difference.
(** XenoCollide.h:59-66, as used in lines 89, 99, 118, 151: the support points of the difference of the bodies *)
Variable support : vec -> option vec.
Variable v0 : vec.
Definition portal := (vec * vec * vec)%type.
Inductive search := Searching | Lost | Missed | Found (p : portal).
(** XenoCollide.h:116-137 *)
Fixpoint find_portal (fuel : nat) (v1 v2 n : vec) : search :=
  match fuel with
  | O => Searching
  | S fuel' =>
    match support n with
    | None => Lost
    | Some v3 =>
      if Rleb (vdot v3 n) 0 then Missed
      else if Rltb (vdot (vcross v1 v3) v0) 0 then find_portal fuel' v1 v3 (vcross (vsub v1 v0) (vsub v3 v0))
      else if Rltb (vdot (vcross v3 v2) v0) 0 then find_portal fuel' v3 v2 (vcross (vsub v3 v0) (vsub v2 v0))
      else Found (v1, v2, v3)
    end
  end.
(** XenoCollide.h:144 *)
Definition portal_normal (p : portal) : vec := let '(v1, v2, v3) := p in vcross (vsub v2 v1) (vsub v3 v1).
(** XenoCollide.h:158-170 *)
Definition next_portal (p : portal) (v4 : vec) : portal :=
  let '(v1, v2, v3) := p in
  let cross := vcross v4 v0 in
  if Rltb 0 (vdot v1 cross) then
    if Rltb 0 (vdot v2 cross) then (v4, v2, v3) else (v1, v2, v4)
  else
    if Rltb 0 (vdot v3 cross) then (v1, v4, v3) else (v4, v2, v3).
(** XenoCollide.h:142-171 *)
Fixpoint refine_portal (fuel : nat) (boundaryTolerance : R) (p : portal) : outcome :=
  match fuel with
  | O => Unfinished
  | S fuel' =>
    let '(v1, v2, v3) := p in
    let n := portal_normal p in
    if Rleb 0 (vdot n v1) then Answer true
    else
      match support n, normalized n with
      | Some v4, Some u =>
        if Rleb 0 (- vdot v4 u) || Rleb (vdot (vsub v4 v3) u) boundaryTolerance then Answer false
        else refine_portal fuel' boundaryTolerance (next_portal p v4)
      | _, _ => Undefined
      end
  end.
(** XenoCollide.h:81-113: whether the result is known before the loops, or the points and the direction to begin with *)
Inductive beginning := Decided (o : outcome) | Begun (v1 v2 n : vec).
Definition start : beginning :=
  if is_vector_zero v0 then Decided (Answer true)
  else
    let n := vneg v0 in
    match support n with
    | None => Decided Undefined
    | Some v1 =>
      if Rleb (vdot v1 n) 0 then Decided (Answer false)
      else
        let n := vcross v1 v0 in
        if is_vector_zero n then Decided (Answer true)
        else
          match support n with
          | None => Decided Undefined
          | Some v2 =>
            if Rleb (vdot v2 n) 0 then Decided (Answer false)
            else
              let n := vcross (vsub v1 v0) (vsub v2 v0) in
              if Rltb 0 (vdot n v0) then Begun v2 v1 (vneg n) else Begun v1 v2 n
          end
    end.
(** XenoCollide.h:77-175. The second loop is never left for the first one, so they are run one after another. *)
Definition intersect_difference (fuel1 fuel2 : nat) (boundaryTolerance : R) : outcome :=
  match start with
  | Decided o => o
  | Begun v1 v2 n =>
    match find_portal fuel1 v1 v2 n with
    | Searching => Unfinished
    | Lost => Undefined
    | Missed => Answer false
    | Found p => refine_portal fuel2 boundaryTolerance p
    end
  end.
End Difference.

(** XenoCollide.h:59-66 twice *)
Definition difference_support (e1 e2 : entry) (n : vec) : option vec :=
  p2 <- entry_support e2 n ;; p1 <- entry_support e1 (vneg n) ;; Some (vsub p2 p1).
(** XenoCollide.h:77-82 *)
Definition intersect (fuel1 fuel2 : nat) (e1 e2 : entry) (boundaryTolerance : R) : outcome :=
  intersect_difference (difference_support e1 e2) (vsub (entry_centre e2) (entry_centre e1)) fuel1 fuel2 boundaryTolerance.

(** XenoCollideTraits.h:144-167; [geometries]: the collide geometries of the interaction centres *)
Definition xc_overlapBetween (fuel1 fuel2 : nat) (geometries : nat -> xc) (pos1 : vec) (orientation1 : mat) (idx1 : nat) (pos2 : vec) (orientation2 : mat) (idx2 : nat) (bc : bcond) : outcome :=
  let collideGeometry1 := geometries idx1 in
  let collideGeometry2 := geometries idx2 in
  let rCircumsphere := xc_circumsphere collideGeometry1 + xc_circumsphere collideGeometry2 in
  let rInsphere := xc_insphere collideGeometry1 + xc_insphere collideGeometry2 in
  let pos2bc := vadd pos2 (bc_translation bc pos1 pos2) in
  let dist2 := vnorm2 (vsub pos2bc pos1) in
  if Rltb (rCircumsphere * rCircumsphere) dist2 then Answer false
  else if Rltb dist2 (rInsphere * rInsphere) then Answer true
  else intersect fuel1 fuel2 (Entry collideGeometry1 pos1 orientation1) (Entry collideGeometry2 pos2bc orientation2) (/ 10 ^ 12).
(** XenoCollideTraits.h:169-186 *)
Definition xc_overlapWithWall (geometries : nat -> xc) (pos : vec) (orientation : mat) (idx : nat) (wallOrigin wallVector : vec) : option bool :=
  let normalVector := mvec (mtrans orientation) wallVector in
  supportPoint <- xc_support (geometries idx) (vneg normalVector) ;;
  let origin := mvec (mtrans orientation) (vsub wallOrigin pos) in
  let distanceSupport := vdot (vneg supportPoint) normalVector in
  let distanceWall := vdot (vneg origin) normalVector in
  Some (negb (Rltb distanceSupport distanceWall)).
(** XenoCollideTraits.h:188-203, without the cache of the result *)
Definition xc_getRangeRadius (geometries : nat -> xc) (centres : list vec) : R :=
  let numCenters := Nat.max (length centres) 1 in
  2 * fold_left (fun maxRadius i => let newRadius := xc_circumsphere (geometries i) in if Rltb maxRadius newRadius then newRadius else maxRadius) (seq 0 numCenters) 0.
