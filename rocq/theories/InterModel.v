(** [src/core/Interaction.cpp], [src/core/interactions]: the functions common to all interactions, compound and central interactions. *)
From Coq Require Import Reals List Bool.
From Verif Require Import GeomModel BoxModel PbcModel PackModel.
Import ListNotations.
Open Scope R_scope.

(** An interaction with its hasWallPart() *)
Record winter := WInter { wi : interaction; wi_wall : bool }.

(** Interaction.cpp:7-30 *)
Definition getCentrePositionForShape (s : shape) (centre : vec) : vec := vadd (sh_pos s) (mvec (sh_rot s) centre).
Definition energyBetweenShapes (w : winter) (s1 s2 : shape) (bc : bcond) : R :=
  let i := wi w in
  match in_centres i with
  | [] => in_energy i (sh_pos s1) (sh_rot s1) 0 (sh_pos s2) (sh_rot s2) 0 bc
  | cs => fold_left (fun e ci => fold_left (fun e cj =>
            e + in_energy i (getCentrePositionForShape s1 (snd ci)) (sh_rot s1) (fst ci) (getCentrePositionForShape s2 (snd cj)) (sh_rot s2) (fst cj) bc)
            (combine (seq 0 (length cs)) cs) e) (combine (seq 0 (length cs)) cs) 0
  end.
(** Interaction.cpp:32-50 *)
Definition overlapBetweenShapes (w : winter) (s1 s2 : shape) (bc : bcond) : bool :=
  let i := wi w in
  match in_centres i with
  | [] => in_overlap i (sh_pos s1) (sh_rot s1) 0 (sh_pos s2) (sh_rot s2) 0 bc
  | cs => existsb (fun ci => existsb (fun cj =>
            in_overlap i (getCentrePositionForShape s1 (snd ci)) (sh_rot s1) (fst ci) (getCentrePositionForShape s2 (snd cj)) (sh_rot s2) (fst cj) bc)
            (combine (seq 0 (length cs)) cs)) (combine (seq 0 (length cs)) cs)
  end.
(** Interaction.cpp:55-71 *)
Fixpoint max_radius2 (cs : list vec) (m : R) : R := match cs with [] => m | c :: cs' => max_radius2 cs' (if Rltb m (vnorm2 c) then vnorm2 c else m) end.
Definition getTotalRangeRadius (cs : list vec) (range : R) : R := match cs with [] => range | _ => 2 * sqrt (max_radius2 cs 0) + range end.
(** Interaction.cpp:73-88 *)
Definition overlapWithWallForShape (w : winter) (s : shape) (origin wall : vec) : bool :=
  let i := wi w in
  match in_centres i with
  | [] => in_wall i (sh_pos s) (sh_rot s) 0 origin wall
  | cs => existsb (fun ci => in_wall i (getCentrePositionForShape s (snd ci)) (sh_rot s) (fst ci) origin wall) (combine (seq 0 (length cs)) cs)
  end.

(** operator== of std::vector<Vector<3>> *)
Definition veqb (a b : vec) : bool := Reqb (vx a) (vx b) && Reqb (vy a) (vy b) && Reqb (vz a) (vz b).
Fixpoint centres_eqb (a b : list vec) : bool := match a, b with [], [] => true | x :: a', y :: b' => veqb x y && centres_eqb a' b' | _, _ => false end.
(** CompoundInteraction.cpp:9-70; [None]: a failed precondition *)
Definition compound (w1 w2 : winter) : option winter :=
  let i1 := wi w1 in let i2 := wi w2 in
  if negb (centres_eqb (in_centres i1) (in_centres i2)) then None
  else Some (WInter (Inter
    (in_hard i1 || in_hard i2) (in_soft i1 || in_soft i2)
    (if in_hard i1 && in_hard i2 then false else if (in_hard i1 && in_convex i1) || (in_hard i2 && in_convex i2) then true else false)
    (Rmax (in_rangeRadius i1) (in_rangeRadius i2)) (Rmax (in_totalRange i1) (in_totalRange i2)) (in_centres i1)
    (fun p1 r1 c1 p2 r2 c2 bc =>
       if in_hard i1 && in_overlap i1 p1 r1 c1 p2 r2 c2 bc then true else if in_hard i2 && in_overlap i2 p1 r1 c1 p2 r2 c2 bc then true else false)
    (fun p1 r1 c1 p2 r2 c2 bc =>
       let e := 0 in
       let e := if in_soft i1 then e + in_energy i1 p1 r1 c1 p2 r2 c2 bc else e in
       if in_soft i2 then e + in_energy i2 p1 r1 c1 p2 r2 c2 bc else e)
    (fun p r c o w => if wi_wall w1 && in_wall i1 p r c o w then true else if wi_wall w2 && in_wall i2 p r c o w then true else false))
    (wi_wall w1 || wi_wall w2)).

(** CentralInteraction.h:20-71; overlapBetween and overlapWithWall are those of Interaction.h:60-110, which report nothing *)
Definition central (energy : R -> R) (range : R) (cs : list vec) : winter :=
  WInter (Inter false true false range (getTotalRangeRadius cs range) cs (fun _ _ _ _ _ _ _ => false) (fun p1 _ _ p2 _ _ bc => energy (bc_distance2 bc p1 p2)) (fun _ _ _ _ _ => false)) false.
(** LennardJonesInteraction.cpp:8-18, .h:28 *)
Definition lj_energy (epsilon sigma distance2 : R) : R :=
  let x2 := sigma * sigma / distance2 in let x6 := x2 * x2 * x2 in let x12 := x6 * x6 in 4 * epsilon * (x12 - x6).
Definition lj_range (sigma : R) : R := 3 * sigma.
Definition positive (epsilon sigma : R) : bool := Rltb 0 epsilon && Rltb 0 sigma.
Definition lj (epsilon sigma : R) (cs : list vec) : option winter := if positive epsilon sigma then Some (central (lj_energy epsilon sigma) (lj_range sigma) cs) else None.
(** RepulsiveLennardJonesInteraction.cpp:8-22, .h:27 *)
Definition rlj_range (sigma : R) : R := sigma * Rpower 2 (1 / 6).
Definition rlj_energy (epsilon sigma distance2 : R) : R :=
  if Rleb (rlj_range sigma * rlj_range sigma) distance2 then 0
  else let x2 := sigma * sigma / distance2 in let x6 := x2 * x2 * x2 in let x12 := x6 * x6 in 4 * epsilon * (x12 - x6) + epsilon.
Definition rlj (epsilon sigma : R) (cs : list vec) : option winter := if positive epsilon sigma then Some (central (rlj_energy epsilon sigma) (rlj_range sigma) cs) else None.
(** SquareInverseCoreInteraction.cpp:8-15, .h:23 *)
Definition sic_energy (epsilon sigma distance2 : R) : R := epsilon * Rmax 0 (sigma ^ 2 / distance2 - 1).
Definition sic (epsilon sigma : R) (cs : list vec) : option winter := if negb (Reqb epsilon 0) && Rltb 0 sigma then Some (central (sic_energy epsilon sigma) sigma cs) else None.
