(** What interactions of shapes are, and what a compound is made of. *)
From Coq Require Import Reals List Bool.
From Verif Require Import GeomModel BoxModel PbcModel PackModel PackSpec DomSpec InterModel.
Import ListNotations.
Open Scope R_scope.

(** The energy of two shapes: the sum over all pairs of sites. *)
Definition shapes_energy (i : interaction) (s1 s2 : shape) (bc : bcond) : R :=
  Rsum (fun a => Rsum (fun b => in_energy i (site_position i s1 a) (sh_rot s1) a (site_position i s2 b) (sh_rot s2) b bc) (seq 0 (sites_no i))) (seq 0 (sites_no i)).
(** Two shapes overlap if some of their sites do. *)
Definition shapes_overlap (i : interaction) (s1 s2 : shape) (bc : bcond) : Prop :=
  exists a b, (a < sites_no i)%nat /\ (b < sites_no i)%nat /\ in_overlap i (site_position i s1 a) (sh_rot s1) a (site_position i s2 b) (sh_rot s2) b bc = true.
Definition wall_overlap (i : interaction) (s : shape) (origin wall : vec) : Prop := exists a, (a < sites_no i)%nat /\ in_wall i (site_position i s a) (sh_rot s) a origin wall = true.
(** A part counts only if it is declared. *)
Definition if_soft (i : interaction) (e : R) : R := if in_soft i then e else 0.
(** The laws of a compound. *)
Definition either_law (i1 i2 : interaction) (o1 o2 : law bool) : law bool := fun r1 c1 r2 c2 d s => in_hard i1 && o1 r1 c1 r2 c2 d s || in_hard i2 && o2 r1 c1 r2 c2 d s.
Definition sum_law (i1 i2 : interaction) (e1 e2 : law R) : law R := fun r1 c1 r2 c2 d s => if_soft i1 (e1 r1 c1 r2 c2 d s) + if_soft i2 (e2 r1 c1 r2 c2 d s).
Definition no_overlaps : law bool := fun _ _ _ _ _ _ => false.
Definition central_law (energy : R -> R) : law R := fun _ _ _ _ _ s => energy s.
(** The energies at a distance: as in textbooks. *)
Definition lj_formula (epsilon sigma r : R) : R := 4 * epsilon * ((sigma / r) ^ 12 - (sigma / r) ^ 6).
