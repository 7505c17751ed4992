(** C16-C19: domain decomposition and concurrent moves. *)
From Coq Require Import Reals ZArith List Bool.
From Verif Require Import GeomModel BoxModel BoxSpec RFloorModel PbcModel PbcSpec NGModel NGSpec PackModel PackSpec PackExamples DomModel DomSpec DomFinalProofs DomRunFinalProofs DomMoreProofs DomExamples.
Import ListNotations.
Open Scope R_scope.

(** Workers, each moving particles listed in its own active domain, interleave their tries and accepts in any way. The run can always be
    completed, e.g. one domain after another; no step fails; the cached number of overlaps is right at any time; and all completed runs give
    the same shapes, the same reported energy changes, the same energy and the same number of overlaps. *)
Theorem C16_schedules : forall inter ov en threads shapes b os pk div origin d cs ws,
  lawful inter ov en -> in_rangeRadius inter <= in_totalRange inter -> centres_reach inter ->
  reachable threads shapes b inter os pk -> rotated_properly pk ->
  (forall a, (1 <= div a)%nat) -> in_box (pk_box pk) origin -> decompose pk inter div origin = DdReady d ->
  Forall2 (legal_worker threads d) cs ws -> different_domains cs ->
  (exists pk' ws', run_workers inter (one_by_one ws) (pk, ws) = Some (pk', ws') /\ Forall finished ws') /\
  (forall s pk' ws', run_workers inter s (pk, ws) = Some (pk', ws') ->
     (forall k w, nth_error ws' k = Some w -> ~ finished w -> (wk_pending w = None -> busy (wk_thread w) ws' = false) ->
        workers_step inter k (pk', ws') <> None) /\
     exists m, countTotalOverlaps pk' inter false = Some m /\
       (pk_counting pk' = true -> getCachedNumberOfOverlaps pk' = Some (Z.of_nat m))) /\
  (forall s1 s2 pk1 ws1 pk2 ws2, run_workers inter s1 (pk, ws) = Some (pk1, ws1) -> Forall finished ws1 ->
     run_workers inter s2 (pk, ws) = Some (pk2, ws2) -> Forall finished ws2 ->
     shapes_of pk1 = shapes_of pk2 /\ map wk_log ws1 = map wk_log ws2 /\
     countTotalOverlaps pk1 inter false = countTotalOverlaps pk2 inter false /\
     getTotalEnergy pk1 inter = getTotalEnergy pk2 inter /\
     (pk_counting pk = true -> getCachedNumberOfOverlaps pk1 = getCachedNumberOfOverlaps pk2)).
Proof.
  intros inter ov en threads shapes b os pk div origin d cs ws HL Hr HC HR Hrot Hdiv Ho Hd Hw Hc.
  exact (run_facts inter ov en HL Hr HC threads shapes b os pk HR Hrot div origin d Hdiv Ho Hd cs ws Hw Hc).
Qed.
Print Assumptions C16_schedules.

(** Cells of the neighbour grid touched by sites of particles in different active domains are at least two cells apart, so that no
    cell next to one of them is a cell of the other: [u] and [v] are displacements of the sites from the particle positions. *)
Theorem C16_cells : forall pk inter div ng origin d c c' ad ad' p q a u v (z : Z),
  well_placed pk -> in_rangeRadius inter <= in_totalRange inter -> legal_decomposition pk inter div ng origin ->
  makeDecomposition pk inter div ng origin = DdReady d -> valid_coords div c -> valid_coords div c' ->
  getActiveDomainBounds d c = Some ad -> getActiveDomainBounds d c' = Some ad' -> in_box (pk_box pk) p -> in_box (pk_box pk) q ->
  isInside ad p = true -> isInside ad' q = true -> c a <> c' a ->
  2 * vnorm u <= in_totalRange inter - in_rangeRadius inter -> 2 * vnorm v <= in_totalRange inter - in_rangeRadius inter ->
  (2 <= Z.abs (slice (ng a) (vget (absoluteToRelative (pk_box pk) (vadd q v)) a) -
               slice (ng a) (vget (absoluteToRelative (pk_box pk) (vadd p u)) a) + z * ng a))%Z.
Proof.
  intros pk inter div ng origin d c c' ad ad' p q a u v z HP Hr HL Hd Hc Hc' Ha Ha' Hp Hq Ip Iq Hne Hu Hv.
  exact (cells_apart pk inter div ng origin HP Hr HL d Hd c c' ad ad' p q Hc Hc' Ha Ha' Hp Hq Ip Iq a u v Hne Hu Hv z).
Qed.
Print Assumptions C16_cells.

Example C16_example : exists b pk d ad0 ad1, reachable 2 two_balls b (ball 1) [] pk /\ rotated_properly pk /\
  decompose pk (ball 1) halves vzero = DdReady d /\
  getActiveDomainBounds d (domain 0) = Some ad0 /\ getActiveDomainBounds d (domain 1) = Some ad1 /\
  Forall2 (legal_worker 2 d) [domain 0; domain 1] [mover ad0 0; mover ad1 1] /\ different_domains [domain 0; domain 1] /\
  in_box (pk_box pk) vzero.
Proof. destruct two_box as (b & Hb). exists b. exact (two_example b Hb). Qed.
Example C16_example_law : lawful (ball 1) (ball_ov 1) (ball_en 1) /\ centres_reach (ball 1).
Proof. split; [exact (ball_lawful 1 Rlt_0_1)|exact (ball_reach 1)]. Qed.

(** Without a too narrow axis the decomposition is made: ghost layers in the middle of grid cells, active domains exactly between them,
    each holding exactly the particles inside. With one, the first such axis is reported. No internal check fails. *)
Theorem C17_decomposition : forall pk inter div ng origin,
  well_placed pk -> in_rangeRadius inter <= in_totalRange inter -> legal_decomposition pk inter div ng origin ->
  let ghost a := ghost_thickness (box_height (pk_box pk) a) (in_rangeRadius inter) (in_totalRange inter) (ng a) in
  match makeDecomposition pk inter div ng origin with
  | DdFailed => False
  | DdTooNarrow a => narrow_axis pk inter div ng a /\ forall a', earlier a' a -> ~ narrow_axis pk inter div ng a'
  | DdReady d => (forall a, ~ narrow_axis pk inter div ng a) /\ dd_div d = div /\ dd_box d = pk_box pk /\
     exists cells : axis -> nat -> Z,
       (forall a, (2 <= div a)%nat -> ghost_cells (vget (absoluteToRelative (pk_box pk) origin) a) (div a) (ng a) (cells a)) /\
       (forall a k, (2 <= div a)%nat -> (k < div a)%nat ->
          cell_middle (ng a) (cells a k) + ghost a / 2 < cell_middle (ng a) (cells a (S k)) - ghost a / 2) /\
       forall c, valid_coords div c -> exists ad, getActiveDomainBounds d c = Some ad /\ ad_box ad = pk_box pk /\
         (forall p, in_box (pk_box pk) p -> isInside ad p = true <->
            forall a, (2 <= div a)%nat ->
              between_ghosts (ng a) (cells a) (ghost a) (c a) (vget (absoluteToRelative (pk_box pk) p) a)) /\
         getParticlesInRegion d c =
           Some (filter (fun i => isInside ad (nth i (map pt_pos (pk_parts pk)) vzero)) (seq 0 (pk_size pk)))
  end.
Proof. intros pk inter div ng origin HP Hr HL. exact (decomposition_spec pk inter div ng origin HP Hr HL). Qed.
Print Assumptions C17_decomposition.

(** Points of different active domains, all periodic images included, are separated by more than the given distance. *)
Theorem C17_separated : forall pk inter div ng origin d c c' ad ad' p q a t,
  well_placed pk -> in_rangeRadius inter <= in_totalRange inter -> legal_decomposition pk inter div ng origin ->
  makeDecomposition pk inter div ng origin = DdReady d -> valid_coords div c -> valid_coords div c' ->
  getActiveDomainBounds d c = Some ad -> getActiveDomainBounds d c' = Some ad' -> in_box (pk_box pk) p -> in_box (pk_box pk) q ->
  isInside ad p = true -> isInside ad' q = true -> c a <> c' a -> is_lattice_vector (pk_box pk) t ->
  in_totalRange inter - in_rangeRadius inter + box_height (pk_box pk) a / IZR (ng a) < vnorm (vsub (vadd q t) p).
Proof.
  intros pk inter div ng origin d c c' ad ad' p q a t HP Hr HL Hd Hc Hc' Ha Ha' Hp Hq Ip Iq Hne Ht.
  exact (apart_distance pk inter div ng origin HP Hr HL d Hd c c' ad ad' p q Hc Hc' Ha Ha' Hp Hq Ip Iq a t Hne Ht).
Qed.
Print Assumptions C17_separated.

Theorem C17_nonempty : forall pk inter div ng origin d c,
  well_placed pk -> in_rangeRadius inter <= in_totalRange inter -> legal_decomposition pk inter div ng origin ->
  makeDecomposition pk inter div ng origin = DdReady d -> valid_coords div c ->
  exists ad p, getActiveDomainBounds d c = Some ad /\ in_box (pk_box pk) p /\ isInside ad p = true.
Proof. intros pk inter div ng origin d c HP Hr HL Hd. exact (nonempty pk inter div ng origin HP Hr HL d Hd c). Qed.
Print Assumptions C17_nonempty.

(** The assumptions of the theorems above hold for packings one can get, with the divisions of their own neighbour grid. *)
Theorem C17_legal : forall inter ov en threads shapes b os pk div origin, lawful inter ov en ->
  reachable threads shapes b inter os pk -> pk_ng pk <> None -> (forall a, (1 <= div a)%nat) -> in_box (pk_box pk) origin ->
  exists ng, decompose pk inter div origin = makeDecomposition pk inter div ng origin /\ well_placed pk /\
    legal_decomposition pk inter div ng origin.
Proof.
  intros inter ov en threads shapes b os pk div origin HL HR Hng Hdiv Ho.
  exact (reach_decompose inter ov en HL threads shapes b os pk HR Hng div origin Hdiv Ho).
Qed.
Print Assumptions C17_legal.

(** The list of a domain: exactly particles inside, each once. *)
Theorem C18_listed : forall pk inter div ng origin d c,
  well_placed pk -> in_rangeRadius inter <= in_totalRange inter -> legal_decomposition pk inter div ng origin ->
  makeDecomposition pk inter div ng origin = DdReady d -> valid_coords div c ->
  exists ad l, getActiveDomainBounds d c = Some ad /\ getParticlesInRegion d c = Some l /\
    l = filter (fun i => isInside ad (nth i (map pt_pos (pk_parts pk)) vzero)) (seq 0 (pk_size pk)).
Proof. intros pk inter div ng origin d c HP Hr HL Hd. exact (lists pk inter div ng origin HP Hr HL d Hd c). Qed.
Print Assumptions C18_listed.

(** A position is inside at most one domain. *)
Theorem C18_one_domain : forall pk inter div ng origin d c c' ad ad' p,
  well_placed pk -> in_rangeRadius inter <= in_totalRange inter -> legal_decomposition pk inter div ng origin ->
  makeDecomposition pk inter div ng origin = DdReady d -> valid_coords div c -> valid_coords div c' ->
  getActiveDomainBounds d c = Some ad -> getActiveDomainBounds d c' = Some ad' -> in_box (pk_box pk) p ->
  isInside ad p = true -> isInside ad' p = true -> forall a, c a = c' a.
Proof.
  intros pk inter div ng origin d c c' ad ad' p HP Hr HL Hd Hc Hc' Ha Ha' Hp I1 I2.
  exact (one_domain pk inter div ng origin HP Hr HL d Hd c c' ad ad' p Hc Hc' Ha Ha' Hp I1 I2).
Qed.
Print Assumptions C18_one_domain.

(** Retrying ends with, along every axis, the largest division which is not too narrow; whatever origins are drawn the decomposition
    then succeeds; moves are made sequentially exactly if nothing is divided. *)
Theorem C19_retry : forall inter ov en threads shapes b os pk div origins, lawful inter ov en ->
  in_rangeRadius inter <= in_totalRange inter -> reachable threads shapes b inter os pk -> pk_ng pk <> None ->
  (forall a, (1 <= div a)%nat) -> (forall k, in_box (pk_box pk) (origins k)) ->
  exists ng div' sequential, (match pk_ng pk with Some g => ng = cget (getCellDivisions g) | None => False end) /\
    terminates_with (fun fuel => performMoves fuel 0 (fun k div => narrow_along (decompose pk inter div (origins k))) div) (div', sequential) /\
    (forall a, best_division (box_height (pk_box pk) a) (in_rangeRadius inter) (in_totalRange inter) (ng a) (div a) (div' a)) /\
    (sequential = true <-> forall a, div' a = 1%nat) /\
    forall origin, in_box (pk_box pk) origin -> exists d, decompose pk inter div' origin = DdReady d.
Proof.
  intros inter ov en threads shapes b os pk div origins HL Hr HR Hng Hdiv Ho.
  exact (reach_retry inter ov en HL Hr threads shapes b os pk HR Hng div origins Hdiv Ho).
Qed.
Print Assumptions C19_retry.

(** In a box too small for a neighbour grid any division into domains reads divisions of a grid which is not there. *)
Theorem C19_no_grid_refuted : exists b pk, reachable 1 [upright 1 1 1] b (ball 1) [] pk /\ in_box (pk_box pk) vzero /\
  forall div, decompose pk (ball 1) div vzero = DdFailed.
Proof. exact small_box. Qed.
Print Assumptions C19_no_grid_refuted.
