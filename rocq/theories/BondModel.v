(** [src/core/observables/BondOrder.cpp]: layers, nearest neighbours and the order parameter. Doubles are real numbers. *)
From Coq Require Import Reals ZArith List Bool.
From Verif Require Import GeomModel RFloorModel RotModel HistModel.
Import ListNotations.
Local Open Scope nat_scope.

(** Distances: [None] is std::numeric_limits<double>::infinity(). *)
Definition dist := option R.
Definition dlt (a b : dist) : bool := match a, b with Some x, Some y => Rltb x y | Some _, None => true | None, _ => false end.
(** KnnVector, BondOrder.h:30 *)
Definition neighbour := (nat * dist)%type.
(** BondOrder.cpp:135-147 [insertDistance]. The vector is traversed from its back, so the loop which swaps neighbouring elements is
    written for the reversed vector. *)
Fixpoint sift (x : neighbour) (front : list neighbour) : list neighbour :=
  match front with [] => [x] | y :: front' => if dlt (snd x) (snd y) then y :: sift x front' else x :: y :: front' end.
Definition insertDistance (knn : list neighbour) (idx : nat) (d : R) : list neighbour :=
  match rev knn with [] => [] | back :: front => if dlt (snd back) (Some d) then knn else rev (sift (idx, Some d) front) end.

(** Vector.h:225 [normalized]; [None] stands for NaN *)
Definition normalized (v : vec) : option vec := if Reqb (vnorm v) 0 then None else Some (vscale (/ vnorm v) v).
(** BondOrder.cpp:32-38: std::min_element of the wave vector with its sign; the unit vector in the direction of the least coordinate *)
Definition kVectorOf (inverse : mat) (miller : vec) : vec := vscale (2 * PI) (mvec (mtrans inverse) miller).
Definition nonParallel (k : vec) : vec :=
  if Rltb (vy k) (vx k) then (if Rltb (vz k) (vy k) then V3 0 0 1 else V3 0 1 0) else (if Rltb (vz k) (vx k) then V3 0 0 1 else V3 1 0 0).
Definition planeVectors (k : vec) : option (vec * vec) :=
  match normalized (vcross k (nonParallel k)) with
  | None => None
  | Some p1 => match normalized (vcross k p1) with None => None | Some p2 => Some (p1, p2) end
  end.

Section Bond.
  Variable translation : vec -> vec -> vec. (* BoundaryConditions::getTranslation *)
  Variables k planeVector1 planeVector2 : vec.
  Variable tauAngle : R.
  Variables layering points : list vec.

  (** BondOrder.cpp:114-116 *)
  Definition layer (p : vec) : Z := Rround ((vdot p k - tauAngle) / (2 * PI)).
  Definition sameLayer (i j : nat) : bool :=
    let p1 := nth i layering vzero in let p2 := nth j layering vzero in Z.eqb (layer p1) (layer (vadd p2 (translation p1 p2))).
  (** BondOrder.cpp:105, 120-124 *)
  Definition distance2 (i j : nat) : R :=
    let p1 := nth i points vzero in let p2 := nth j points vzero in
    let diff := vsub (vadd p2 (translation p1 p2)) p1 in
    Rmax 0 (vnorm2 diff - (vdot diff (vscale (/ vnorm k) k)) ^ 2).
  (** BondOrder.cpp:106-129: the body of the loops *)
  Definition visit (knn : list (list neighbour)) (x : nat * nat) : list (list neighbour) :=
    let (i, j) := x in
    if negb (sameLayer i j) then knn
    else update j (fun l => insertDistance l i (distance2 i j)) (update i (fun l => insertDistance l j (distance2 i j)) knn).
  Definition pairs (n : nat) : list (nat * nat) := flat_map (fun i => map (fun j => (i, j)) (seq (i + 1) (n - (i + 1)))) (seq 0 n).
  (** BondOrder.cpp:95-132; [None]: the failed precondition *)
  Definition constructKnn (highestRank : nat) : option (list (list neighbour)) :=
    if negb (length layering =? length points) then None
    else Some (fold_left visit (pairs (length layering)) (repeat (repeat (0, None) highestRank) (length layering))).

  (** Complex numbers. *)
  Definition cadd (a b : R * R) : R * R := ((fst a + fst b)%R, (snd a + snd b)%R).
  Definition cabs (a : R * R) : R := sqrt (fst a * fst a + snd a * snd a).
  Definition cdivr (a : R * R) (r : R) : R * R := ((fst a / r)%R, (snd a / r)%R).
  (** BondOrder.cpp:74-83 *)
  Definition bond (rank i j : nat) : R * R :=
    let p := nth i points vzero in let q := nth j points vzero in
    let diff := vadd (vsub q p) (translation p q) in
    let angle := atan2 (vdot planeVector2 diff) (vdot planeVector1 diff) in
    (cos (INR rank * angle), sin (INR rank * angle)).
  Definition localPsi (rank i : nat) (neighbours : list neighbour) : R * R :=
    fold_left (fun psi nb => cadd psi (bond rank i (fst nb))) (firstn rank neighbours) (0%R, 0%R).
  (** BondOrder.cpp:62-93; [None]: 0/0 *)
  Definition doCalculateBondOrder (local : bool) (rank : nat) (knn : list (list neighbour)) : option R :=
    let psi := fold_left (fun psi i => let neighbours := nth i knn [] in
      if length neighbours <? rank then psi
      else let lp := localPsi rank i neighbours in
           cadd psi (if local then ((cabs lp / INR rank)%R, 0%R) else cdivr lp (INR rank))) (seq 0 (length points)) (0%R, 0%R) in
    if length points =? 0 then None else Some (cabs psi / INR (length points))%R.
  (** BondOrder.cpp:49-60; [ranks] is sorted in the constructor *)
  Definition calculate (local : bool) (ranks : list nat) : option (list (option R)) :=
    match constructKnn (last ranks 0) with None => None | Some knn => Some (map (fun rank => doCalculateBondOrder local rank knn) ranks) end.
End Bond.
