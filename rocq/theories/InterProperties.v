(** C40 and C41: compound and central interactions. *)
From Coq Require Import Reals List Bool Lra.
From Verif Require Import GeomModel GeomProofs BoxModel PbcModel PackModel PackSpec DomSpec InterModel InterSpec InterProofs InterEnergyProofs InterExamples.
Import ListNotations.
Open Scope R_scope.

(** A compound is its parts: what overlaps, the energy, the walls, the declared properties and the ranges. *)
Theorem C40_parts w1 w2 w : compound w1 w2 = Some w ->
  (forall p1 r1 c1 p2 r2 c2 bc, in_overlap (wi w) p1 r1 c1 p2 r2 c2 bc = in_hard (wi w1) && in_overlap (wi w1) p1 r1 c1 p2 r2 c2 bc || in_hard (wi w2) && in_overlap (wi w2) p1 r1 c1 p2 r2 c2 bc) /\
  (forall p1 r1 c1 p2 r2 c2 bc, in_energy (wi w) p1 r1 c1 p2 r2 c2 bc = if_soft (wi w1) (in_energy (wi w1) p1 r1 c1 p2 r2 c2 bc) + if_soft (wi w2) (in_energy (wi w2) p1 r1 c1 p2 r2 c2 bc)) /\
  (forall p r c o v, in_wall (wi w) p r c o v = wi_wall w1 && in_wall (wi w1) p r c o v || wi_wall w2 && in_wall (wi w2) p r c o v) /\
  in_hard (wi w) = in_hard (wi w1) || in_hard (wi w2) /\ in_soft (wi w) = in_soft (wi w1) || in_soft (wi w2) /\ wi_wall w = wi_wall w1 || wi_wall w2 /\
  (in_convex (wi w) = true <-> (in_hard (wi w1) = true /\ in_convex (wi w1) = true /\ in_hard (wi w2) = false) \/ (in_hard (wi w2) = true /\ in_convex (wi w2) = true /\ in_hard (wi w1) = false)) /\
  in_rangeRadius (wi w) = Rmax (in_rangeRadius (wi w1)) (in_rangeRadius (wi w2)) /\ in_totalRange (wi w) = Rmax (in_totalRange (wi w1)) (in_totalRange (wi w2)) /\
  in_centres (wi w) = in_centres (wi w1) /\ in_centres (wi w) = in_centres (wi w2).
Proof. exact (compound_parts w1 w2 w). Qed.
Print Assumptions C40_parts.
Example C40_parts_case : exists w, compound spheres soft = Some w /\ in_rangeRadius (wi w) = 3 /\ in_hard (wi w) = true /\ in_soft (wi w) = true /\ in_convex (wi w) = true /\ wi_wall w = true.
Proof. exact both. Qed.

(** Parts with different interaction centres are refused, and only they are. *)
Theorem C40_refused w1 w2 : compound w1 w2 = None <-> in_centres (wi w1) <> in_centres (wi w2).
Proof. exact (compound_refused w1 w2). Qed.
Print Assumptions C40_refused.
Example C40_refused_case : compound spheres (central (sic_energy 1 3) 3 []) = None.
Proof. exact others. Qed.

(** The same for whole shapes. *)
Theorem C40_shapes w1 w2 w : compound w1 w2 = Some w ->
  (forall s1 s2 bc, energyBetweenShapes w s1 s2 bc = if_soft (wi w1) (energyBetweenShapes w1 s1 s2 bc) + if_soft (wi w2) (energyBetweenShapes w2 s1 s2 bc)) /\
  (forall s1 s2 bc, overlapBetweenShapes w s1 s2 bc = in_hard (wi w1) && overlapBetweenShapes w1 s1 s2 bc || in_hard (wi w2) && overlapBetweenShapes w2 s1 s2 bc) /\
  (forall s o v, overlapWithWallForShape w s o v = wi_wall w1 && overlapWithWallForShape w1 s o v || wi_wall w2 && overlapWithWallForShape w2 s o v).
Proof. exact (compound_shapes w1 w2 w). Qed.
Print Assumptions C40_shapes.

(** For any interaction: shapes interact through all pairs of their sites. *)
Theorem C40_sites w : (forall s1 s2 bc, energyBetweenShapes w s1 s2 bc = shapes_energy (wi w) s1 s2 bc) /\ (forall s1 s2 bc, overlapBetweenShapes w s1 s2 bc = true <-> shapes_overlap (wi w) s1 s2 bc) /\ (forall s o v, overlapWithWallForShape w s o v = true <-> wall_overlap (wi w) s o v).
Proof. exact (conj (energy_shapes w) (conj (overlap_shapes w) (wall_shapes w))). Qed.
Print Assumptions C40_sites.

(** The total range is the smallest one which covers all centres. *)
Theorem C40_total_range cs range : range <= getTotalRangeRadius cs range /\ (forall c, In c cs -> 2 * vnorm c + range <= getTotalRangeRadius cs range) /\ (getTotalRangeRadius cs range = range \/ exists c, In c cs /\ getTotalRangeRadius cs range = 2 * vnorm c + range).
Proof. exact (total_range cs range). Qed.
Print Assumptions C40_total_range.

(** If the parts meet what is assumed of interactions in the theorems about packings and about domains, so does the compound. *)
Theorem C40_lawful w1 w2 w o1 e1 o2 e2 : compound w1 w2 = Some w -> lawful (wi w1) o1 e1 -> lawful (wi w2) o2 e2 -> lawful (wi w) (either_law (wi w1) (wi w2) o1 o2) (sum_law (wi w1) (wi w2) e1 e2).
Proof. exact (compound_lawful w1 w2 w o1 e1 o2 e2). Qed.
Print Assumptions C40_lawful.
Theorem C40_reach w1 w2 w : compound w1 w2 = Some w -> centres_reach (wi w1) -> centres_reach (wi w2) -> centres_reach (wi w).
Proof. exact (compound_reach w1 w2 w). Qed.
Print Assumptions C40_reach.
Example C40_lawful_case : lawful (wi spheres) spheres_law no_energy /\ lawful (wi soft) no_overlaps (central_law (sic_energy 1 3)) /\ centres_reach (wi soft).
Proof. exact (conj spheres_lawful (sic_lawful 1 3 dimer soft soft_built)). Qed.

(** The repulsive Lennard-Jones potential: zero outside, as in textbooks and positive inside, continuous and non-increasing. *)
Theorem C41_repulsive e s : 0 < e -> 0 < s ->
  (forall r, rlj_range s <= r -> rlj_energy e s (r * r) = 0) /\
  (forall r, 0 < r < rlj_range s -> rlj_energy e s (r * r) = lj_formula e s r + e /\ 0 < rlj_energy e s (r * r)) /\
  (forall r, 0 < r -> continuity_pt (fun d => rlj_energy e s (d * d)) r) /\
  (forall a b, 0 < a <= b -> rlj_energy e s (b * b) <= rlj_energy e s (a * a)) /\ 0 < rlj_range s /\ rlj_range s ^ 6 = 2 * s ^ 6.
Proof. exact (fun He Hs => conj (fun r => rlj_zero e s r Hs) (conj (fun r => rlj_inside e s r He Hs) (conj (fun r => rlj_continuous e s r Hs) (conj (fun a b => rlj_decreasing e s a b He Hs) (cut_six s Hs))))). Qed.
Print Assumptions C41_repulsive.

(** The square inverse core: zero outside, of the sign of epsilon inside, continuous. *)
Theorem C41_core e s : 0 < s ->
  (forall r, s <= r -> sic_energy e s (r * r) = 0) /\ (forall r, 0 < r < s -> sic_energy e s (r * r) = e * ((s / r) ^ 2 - 1) /\ 0 < (s / r) ^ 2 - 1) /\ (forall r, 0 < r -> continuity_pt (fun d => sic_energy e s (d * d)) r).
Proof. exact (fun Hs => conj (fun r => sic_zero e s r Hs) (conj (fun r => sic_inside e s r) (fun r => sic_continuous e s r Hs))). Qed.
Print Assumptions C41_core.

(** Both meet what is assumed of interactions, with the ranges they declare. *)
Theorem C41_lawful e s cs w : (rlj e s cs = Some w -> lawful (wi w) no_overlaps (central_law (rlj_energy e s)) /\ centres_reach (wi w)) /\ (sic e s cs = Some w -> lawful (wi w) no_overlaps (central_law (sic_energy e s)) /\ centres_reach (wi w)).
Proof. exact (conj (rlj_lawful e s cs w) (sic_lawful e s cs w)). Qed.
Print Assumptions C41_lawful.
Example C41_lawful_case : sic 1 3 dimer = Some soft.
Proof. exact soft_built. Qed.

(** Parameters are checked, and the ranges are declared. *)
Theorem C41_built e s cs :
  (forall w, rlj e s cs = Some w <-> 0 < e /\ 0 < s /\ w = central (rlj_energy e s) (rlj_range s) cs) /\
  (forall w, sic e s cs = Some w <-> e <> 0 /\ 0 < s /\ w = central (sic_energy e s) s cs) /\
  (forall w, lj e s cs = Some w <-> 0 < e /\ 0 < s /\ w = central (lj_energy e s) (3 * s) cs).
Proof. exact (proj2 (built e s cs)). Qed.
Print Assumptions C41_built.

(** Lennard-Jones: the formula, with the minimum -epsilon exactly where the repulsive part ends. *)
Theorem C41_lennard_jones e s r : 0 < e -> 0 < s -> 0 < r -> lj_energy e s (r * r) = lj_formula e s r /\ - e <= lj_energy e s (r * r) /\ (lj_energy e s (r * r) = - e <-> r = rlj_range s).
Proof. exact (fun He Hs Hr => conj (lj_at e s r (Rgt_not_eq r 0 Hr)) (lj_bottom e s r He Hs Hr)). Qed.
Print Assumptions C41_lennard_jones.

(** It is not truncated: beyond the declared range of 3 sigma it is never zero, so no law of this range describes it, and what the neighbour grid
    leaves out depends on the size of its cells. *)
Theorem C41_truncation_refuted e s cs w : lj e s cs = Some w -> (forall r, 3 * s < r -> lj_energy e s (r * r) < 0) /\ forall o l, ~ lawful (wi w) o l.
Proof. intros H. split; [|exact (lj_unlawful e s cs w H)]. apply built in H. destruct H as (He & Hs & _). intros r L. apply lj_never_zero; lra. Qed.
Print Assumptions C41_truncation_refuted.
Example C41_truncation_case : lj 1 1 [] = Some (central (lj_energy 1 1) (3 * 1) []).
Proof. apply built. repeat split; lra. Qed.
