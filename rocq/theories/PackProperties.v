(** C10-C15, C25: overlaps, energies, moves, scaling and renormalisation of a packing, over all histories. *)
From Coq Require Import Reals ZArith List Bool.
From Verif Require Import GeomModel BoxModel BoxSpec PbcModel PbcSpec PbcTotalModel NGModel PackModel PackSpec ParModel PackFinalProofs PackHistProofs PackExamples.
Import ListNotations.
Open Scope nat_scope.

(** With a neighbour grid, or when the box is wide, the reported number of overlaps is the number of overlapping pairs, all
    periodic images included, plus the wall overlaps. *)
Theorem C10_count : forall inter ov en threads shapes b os pk, lawful inter ov en -> reachable threads shapes b inter os pk ->
  (pk_ng pk <> None \/ one_image (pk_box pk) inter /\ trusted_distance (pk_box pk) ov) ->
  exists n w, countTotalOverlaps pk inter false = Some (n + w) /\ counts (overlapping ov (pk_box pk) inter (shapes_of pk)) n /\
    countWallOverlaps pk inter false = Some w.
Proof. intros inter ov en threads shapes b os pk HL. exact (reach_counts inter ov en HL threads shapes b os pk). Qed.
Print Assumptions C10_count.

Theorem C10_energy : forall inter ov en threads shapes b os pk, lawful inter ov en -> reachable threads shapes b inter os pk ->
  in_soft inter = true -> (pk_ng pk <> None \/ one_image (pk_box pk) inter /\ trusted_distance (pk_box pk) en) ->
  exists e, getTotalEnergy pk inter = Some e /\ total_energy en (pk_box pk) inter (shapes_of pk) e.
Proof. intros inter ov en threads shapes b os pk HL. exact (reach_energy inter ov en HL threads shapes b os pk). Qed.
Print Assumptions C10_energy.

(** With and without the grid the same is reported, provided the box is wider than twice the range. *)
Theorem C10_grid_or_not : forall inter ov en threads shapes b os pk, lawful inter ov en -> reachable threads shapes b inter os pk ->
  one_image (pk_box pk) inter ->
  (trusted_distance (pk_box pk) ov -> countTotalOverlaps (set_ng pk None) inter false = countTotalOverlaps pk inter false) /\
  (in_soft inter = true -> trusted_distance (pk_box pk) en -> getTotalEnergy (set_ng pk None) inter = getTotalEnergy pk inter).
Proof. intros inter ov en threads shapes b os pk HL. exact (reach_same inter ov en HL threads shapes b os pk). Qed.
Print Assumptions C10_grid_or_not.

(** Without this proviso it is not so: two balls which overlap twice, through both sides of a narrow box. *)
Theorem C10_narrow_refuted : exists b pk m, reachable 1 narrow_shapes b (ball 1) [] pk /\ pk_ng pk <> None /\
  counts (overlapping (ball_ov 1) b (ball 1) narrow_shapes) 2 /\
  countTotalOverlaps pk (ball 1) false = Some 2 /\ countTotalOverlaps (set_ng pk None) (ball 1) false = Some m /\ m <= 1.
Proof. exact narrow_differs. Qed.
Print Assumptions C10_narrow_refuted.

(** Early exit reports something exactly if the full count does. *)
Theorem C11_early_exit : forall inter ov en threads shapes b os pk, lawful inter ov en -> reachable threads shapes b inter os pk ->
  exists n full, countTotalOverlaps pk inter true = Some n /\ countTotalOverlaps pk inter false = Some full /\ (0 < n <-> 0 < full).
Proof. intros inter ov en threads shapes b os pk HL. exact (reach_early inter ov en HL threads shapes b os pk). Qed.
Print Assumptions C11_early_exit.

(** For every division of the iterations among threads and every interleaving of them. *)
Theorem C11_schedules : forall inter ov en threads shapes b os pk ee full, lawful inter ov en -> reachable threads shapes b inter os pk ->
  countTotalOverlaps pk inter false = Some full ->
  (exists n, parallelTotalOverlaps pk inter ee n) /\
  forall n, parallelTotalOverlaps pk inter ee n -> (ee = false -> n = full) /\ (0 < n <-> 0 < full).
Proof. intros inter ov en threads shapes b os pk ee full HL. exact (reach_parallel inter ov en HL threads shapes b os pk ee full). Qed.
Print Assumptions C11_schedules.

Theorem C11_no_endless_run : forall A ee f (run : nat -> pstate A), ~ (forall k, pstep A ee f (run k) (run (S k))).
Proof. exact (@no_endless_run). Qed.
Print Assumptions C11_no_endless_run.

(** The cached number of overlaps is what a fresh count gives, after any history. *)
Theorem C12_cached : forall inter ov en threads shapes b os pk, lawful inter ov en -> reachable threads shapes b inter os pk ->
  pk_counting pk = true ->
  exists n, countTotalOverlaps pk inter false = Some n /\ getCachedNumberOfOverlaps pk = Some (Z.of_nat n).
Proof. intros inter ov en threads shapes b os pk HL. exact (cached_overlaps inter ov en HL threads shapes b os pk). Qed.
Print Assumptions C12_cached.

(** No legal history fails (no access out of bounds, no refused precondition). *)
Theorem C12_histories_run : forall inter ov en threads shapes b os, lawful inter ov en -> legal_start b inter shapes ->
  legal_pack_ops (length shapes) threads false os -> exists pk, reachable threads shapes b inter os pk.
Proof. intros inter ov en threads shapes b os HL. exact (reachable_exists inter ov en HL threads shapes b os). Qed.
Print Assumptions C12_histories_run.

(** Trying a move changes nothing one can see. *)
Theorem C13_try : forall inter ov en threads shapes b os pk o thread i pk1 e, lawful inter ov en -> reachable threads shapes b inter os pk ->
  particle_move o thread i -> i < length shapes -> thread < threads -> try_op inter o pk = Some (pk1, e) -> same_packing pk pk1.
Proof. intros inter ov en threads shapes b os pk o thread i pk1 e HL. exact (reach_try inter ov en HL threads shapes b os pk o thread i pk1 e). Qed.
Print Assumptions C13_try.

(** Reverting a scaling restores everything. *)
Theorem C13_revert : forall inter ov en threads shapes b os pk newBox, lawful inter ov en -> reachable threads shapes b inter os pk ->
  constructed newBox -> exists pk1 e, tryScaling newBox inter pk = Some (pk1, e) /\ same_packing pk (revertScaling pk1).
Proof. intros inter ov en threads shapes b os pk newBox HL. exact (reach_revert inter ov en HL threads shapes b os pk newBox). Qed.
Print Assumptions C13_revert.

(** The reported energy change of a move is the change of the total energy; it is infinite as the change of the number of
    overlaps tells. Without overlap counting and with overlaps present, only what is reported as possible is guaranteed
    not to add overlaps. *)
Theorem C14_move : forall inter ov en threads shapes b os pk o thread i s, lawful inter ov en -> reachable threads shapes b inter os pk ->
  particle_move o thread i -> nth_error (shapes_of pk) i = Some s -> thread < threads ->
  exists pk1 e s', try_op inter o pk = Some (pk1, e) /\ moves_to (pk_box pk) o s s' /\
    (outside_domain o (sh_pos s') -> e = PosInf) /\
    (~ outside_domain o (sh_pos s') -> exists pk2 n0 n2 e0 e2, accept_op o pk1 = Some pk2 /\
       set_nth (shapes_of pk) i s' = Some (shapes_of pk2) /\ pk_box pk2 = pk_box pk /\ pk_wall pk2 = pk_wall pk /\
       pk_counting pk2 = pk_counting pk /\
       countTotalOverlaps pk inter false = Some n0 /\ countTotalOverlaps pk2 inter false = Some n2 /\
       getTotalEnergy pk inter = Some e0 /\ getTotalEnergy pk2 inter = Some e2 /\
       (pk_counting pk = true \/ n0 = 0 -> e = energy_change n0 n2 e0 e2 (pk_counting pk)) /\
       (e = Fin (e2 - e0) \/ e = PosInf \/ e = NegInf) /\
       (pk_counting pk = false -> e <> NegInf) /\
       (pk_counting pk = false -> e <> PosInf -> n2 <= n0)).
Proof. intros inter ov en threads shapes b os pk o thread i s HL. exact (reach_move inter ov en HL threads shapes b os pk o thread i s). Qed.
Print Assumptions C14_move.

(** The same for a scaling, particles keeping their relative coordinates, except that no overlaps are looked for when
    a packing of convex particles has all its sides made longer. *)
Theorem C14_scaling : forall inter ov en threads shapes b os pk newBox, lawful inter ov en -> reachable threads shapes b inter os pk ->
  constructed newBox ->
  exists pk1 e n0 n1 e0 e1, tryScaling newBox inter pk = Some (pk1, e) /\ pk_box pk1 = newBox /\
    shapes_of pk1 = map (fun s => Shape (relativeToAbsolute newBox (absoluteToRelative (pk_box pk) (sh_pos s))) (sh_rot s)) (shapes_of pk) /\
    pk_wall pk1 = pk_wall pk /\ pk_counting pk1 = pk_counting pk /\
    countTotalOverlaps pk inter false = Some n0 /\ countTotalOverlaps pk1 inter false = Some n1 /\
    getTotalEnergy pk inter = Some e0 /\ getTotalEnergy pk1 inter = Some e1 /\
    (pk_counting pk = true \/ in_convex inter = false \/ isBoxUpscaled (pk_box pk) newBox = false ->
     e = energy_change n0 n1 e0 e1 (pk_counting pk)) /\
    (pk_counting pk = false -> in_convex inter = true -> isBoxUpscaled (pk_box pk) newBox = true -> e = Fin (e1 - e0)).
Proof. intros inter ov en threads shapes b os pk newBox HL. exact (reach_scaling inter ov en HL threads shapes b os pk newBox). Qed.
Print Assumptions C14_scaling.

(** This exception loses overlaps: balls in a skewed box, all sides of which are made longer. *)
Theorem C14_upscaling_refuted : exists b b' pk pk1 e n, reachable 1 skew_shapes b (ball scaling_diameter) [] pk /\
  tryScaling b' (ball scaling_diameter) pk = Some (pk1, Fin e) /\
  countTotalOverlaps pk (ball scaling_diameter) false = Some 0 /\
  countTotalOverlaps pk1 (ball scaling_diameter) false = Some n /\ 0 < n.
Proof. exact upscaling_overlaps. Qed.
Print Assumptions C14_upscaling_refuted.

(** No particle is lost; particles and interaction centres stay in the box, each centre where the orientation puts it, up to
    a lattice vector. *)
Theorem C15_in_box : forall inter ov en threads shapes b os pk, lawful inter ov en -> reachable threads shapes b inter os pk ->
  length (pk_parts pk) = length shapes /\
  forall p, In p (pk_parts pk) -> in_box (pk_box pk) (pt_pos p) /\
    length (pt_abs p) = length (in_centres inter) /\
    forall c q v, nth_error (pt_abs p) c = Some q -> nth_error (in_centres inter) c = Some v ->
      in_box (pk_box pk) q /\ is_lattice_vector (pk_box pk) (vsub q (vadd (pt_pos p) (mvec (pt_rot p) v))).
Proof. intros inter ov en threads shapes b os pk HL. exact (stay_in_box inter ov en HL threads shapes b os pk). Qed.
Print Assumptions C15_in_box.

(** Renormalisation replaces every orientation by the fixed one, except for the reported number of particles, which are left
    as they were; it adds no overlaps. *)
Theorem C25_renormalize : forall inter ov en threads shapes b os pk thread, lawful inter ov en -> reachable threads shapes b inter os pk ->
  thread < threads ->
  exists pk' bad n0 n1, renormalizeOrientations thread inter false pk = Some (pk', length bad) /\
    pk_box pk' = pk_box pk /\ pk_wall pk' = pk_wall pk /\ pk_counting pk' = pk_counting pk /\ NoDup bad /\ (in_hard inter = false -> bad = []) /\
    length (shapes_of pk') = length (shapes_of pk) /\
    (forall i s, nth_error (shapes_of pk) i = Some s ->
       (~ In i bad -> nth_error (shapes_of pk') i = Some (Shape (sh_pos s) (fixRotationMatrix (sh_rot s)))) /\
       (In i bad -> nth_error (shapes_of pk') i = Some s)) /\
    countTotalOverlaps pk inter false = Some n0 /\ countTotalOverlaps pk' inter false = Some n1 /\ n1 <= n0.
Proof. intros inter ov en threads shapes b os pk thread HL. exact (reach_renormalize inter ov en HL threads shapes b os pk thread). Qed.
Print Assumptions C25_renormalize.

(** When overlaps are allowed nothing is renormalised: this contradicts the purpose of the call. *)
Theorem C25_allowed_refuted : forall inter ov en threads shapes b os pk thread, lawful inter ov en -> reachable threads shapes b inter os pk ->
  thread < threads ->
  exists pk', renormalizeOrientations thread inter true pk = Some (pk', 0) /\ shapes_of pk' = shapes_of pk.
Proof. intros inter ov en threads shapes b os pk thread HL. exact (reach_renormalize_allowed inter ov en HL threads shapes b os pk thread). Qed.
Print Assumptions C25_allowed_refuted.

(** The hypotheses are met by hard balls with an attractive well in a narrow box and a history with every operation. *)
Example C10_nonvacuous : lawful (ball 1) (ball_ov 1) (ball_en 1) /\
  exists b, legal_start b (ball 1) narrow_shapes /\
    exists pk, reachable 2 narrow_shapes b (ball 1)
      [DoTranslation 0 1 (V3 0 3 0) None true; DoCounting true; DoRotation 1 0 (M33 0 (-1) 0 1 0 0 0 0 1) true;
       DoMove 1 0 (V3 0 0 5) (M33 1 0 0 0 0 (-1) 0 1 0) None false; DoScaling b true; DoCounting false; DoWall AX true;
       DoRenormalize 1 true; DoRenormalize 0 false] pk.
Proof. exact balls_history. Qed.
