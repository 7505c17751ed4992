From Coq Require Import Reals ZArith List Bool Lia Lra Permutation Sorted.
From Verif Require Import GeomModel PackSpec HistModel BondModel BondSpec BondProofs BondOrderProofs.
Import ListNotations.
Local Open Scope nat_scope.

(** The list of each particle has the nearest ones among all particles of its layer, sorted by the distance in the plane. *)
Theorem C46_nearest : forall translation k tau layering points r, k <> vzero -> 1 <= r -> length layering = length points ->
  exists knn, constructKnn translation k tau layering points r = Some knn /\ length knn = length points /\
    forall i, i < length points -> nearest r (candidates translation k tau layering points i) (nth i knn []).
Proof. exact knn_nearest. Qed.
Print Assumptions C46_nearest.
(** If there are enough of them, nothing else is in the list, and those not in the list are not closer. *)
Theorem C46_enough : forall k c l, k <= length c -> nearest k c l -> length l = k /\ StronglySorted closer l /\ exists rest, Permutation (l ++ rest) c /\ Forall (fun a => Forall (closer a) rest) l.
Proof. exact nearest_enough. Qed.
Print Assumptions C46_enough.
(** The order parameter of each rank is calculated from that many nearest neighbours, and is between 0 and 1. *)
Theorem C46_order : forall translation k tau layering points p1 p2 local ranks, k <> vzero -> length layering = length points -> 1 <= length points -> StronglySorted le ranks -> Forall (fun r => 1 <= r) ranks -> ranks <> [] ->
  exists psis, calculate translation k p1 p2 tau layering points local ranks = Some psis /\
    Forall2 (fun rank psi => exists nb, (forall i, i < length points -> exists l, nearest rank (candidates translation k tau layering points i) l /\ nb i = map fst l) /\ psi = Some (mean translation p1 p2 points local rank nb)) ranks psis.
Proof. exact calculated. Qed.
Print Assumptions C46_order.
Theorem C46_range : forall translation p1 p2 points local rank nb, 1 <= rank -> 1 <= length points -> (forall i, i < length points -> length (nb i) = rank) -> (0 <= mean translation p1 p2 points local rank nb <= 1)%R.
Proof. exact order_range. Qed.
Print Assumptions C46_range.
(** Perfect order: the phases of all bonds of a particle are equal. *)
Theorem C46_perfect : forall translation p1 p2 points rank nb, 1 <= rank -> 1 <= length points -> (forall i, i < length points -> length (nb i) = rank) ->
  (forall i, i < length points -> exists a, forall j, In j (nb i) -> cos (INR rank * angle translation p1 p2 points i j) = cos a /\ sin (INR rank * angle translation p1 p2 points i j) = sin a) -> mean translation p1 p2 points true rank nb = 1%R.
Proof. exact order_aligned. Qed.
Print Assumptions C46_perfect.
(** Finding: particles which have too few neighbours are not skipped: if no particle has any neighbour, the order is perfect instead of none. *)
Theorem C46_isolated_refuted : forall translation k tau layering points p1 p2 rank, k <> vzero -> length layering = length points -> 1 <= length points -> 1 <= rank -> (forall i, i < length points -> candidates translation k tau layering points i = []) ->
  calculate translation k p1 p2 tau layering points true [rank] = Some [Some 1%R].
Proof. exact isolated. Qed.
Print Assumptions C46_isolated_refuted.
(** Vectors spanning the plane: unit, perpendicular to each other and to the wave vector; coordinates along them give the distance in the plane. *)
Theorem C46_plane : forall k q1 q2, planeVectors k = Some (q1, q2) ->
  vnorm2 q1 = 1%R /\ vnorm2 q2 = 1%R /\ vdot q1 q2 = 0%R /\ vdot q1 k = 0%R /\ vdot q2 k = 0%R /\ forall d, (vdot q1 d * vdot q1 d + vdot q2 d * vdot q2 d)%R = in_plane2 k d.
Proof. exact plane_vectors. Qed.
Print Assumptions C46_plane.
(** Finding: they are not numbers if the wave vector has the direction opposite to one of the axes. *)
Theorem C46_no_plane_refuted : forall k, planeVectors k = None <-> exists t, (t <= 0)%R /\ (k = V3 t 0 0 \/ k = V3 0 t 0 \/ k = V3 0 0 t).
Proof. exact no_plane. Qed.
Print Assumptions C46_no_plane_refuted.
(** The wave vector has phases which are multiples of 2 pi at all nodes of the lattice of the box, if Miller indices are integers. *)
Theorem C46_wave_vector : forall box inverse miller v, mmul inverse box = mid -> vdot (kVectorOf inverse miller) (mvec box v) = (2 * PI * vdot miller v)%R.
Proof. exact wave_vector. Qed.
Print Assumptions C46_wave_vector.

(** Insertion of distances 3, 1, 2, 5, 1 in this order, for two neighbours. *)
Definition no_translation (_ _ : vec) : vec := vzero.
Example candidate_exists : nearest 2 [(4, Some 1%R); (3, Some 5%R); (1, Some 1%R)] [(1, Some 1%R); (4, Some 1%R)].
Proof.
  exists [(1, Some 1%R); (4, Some 1%R); (3, Some 5%R)]. split; [|split; [|reflexivity]].
  - change [(1, Some 1%R); (4, Some 1%R); (3, Some 5%R)] with ([(1, Some 1%R)] ++ [(4, Some 1%R); (3, Some 5%R)]). apply Permutation_app_comm.
  - repeat constructor; cbn; lra.
Qed.
Example opposite : planeVectors (kVectorOf mid (V3 (-1) 0 0)) = None.
Proof. apply no_plane. exists (- (2 * PI))%R. split; [pose proof PI_RGT_0; lra|]. left. unfold kVectorOf, mvec, mtrans, mmake, vmake, mid, vscale, mget, vget. cbn. f_equal; ring. Qed.
Example along : planeVectors (V3 1 0 0) <> None.
Proof. intros H. apply no_plane in H. destruct H as (t & Ht & [E|[E|E]]); injection E; intros; lra. Qed.
(** Two particles in different layers: no neighbours. *)
Example different_layers : forall i, i < 2 -> candidates no_translation (V3 (2 * PI) 0 0) 0 [V3 0 0 0; V3 1 0 0] [V3 0 0 0; V3 1 0 0] i = [].
Proof.
  assert (L0 : layer (V3 (2 * PI) 0 0) 0 (V3 0 0 0) = 0%Z) by (unfold layer, vdot; cbn [vx vy vz]; replace ((0 * (2 * PI) + 0 * 0 + 0 * 0 - 0) / (2 * PI))%R with 0%R by (field; apply PI_neq0); unfold RFloorModel.Rround; destruct (Rle_dec 0 0) as [|N]; [|exfalso; apply N; lra]; apply RFloorProofs.Rfl_unique; cbn; lra).
  assert (L1 : layer (V3 (2 * PI) 0 0) 0 (vadd (V3 1 0 0) vzero) = 1%Z) by (unfold layer, vdot, vadd, vzero; cbn [vx vy vz]; replace (((1 + 0) * (2 * PI) + (0 + 0) * 0 + (0 + 0) * 0 - 0) / (2 * PI))%R with 1%R by (field; apply PI_neq0); unfold RFloorModel.Rround; destruct (Rle_dec 0 1) as [|N]; [|exfalso; apply N; lra]; apply RFloorProofs.Rfl_unique; cbn; lra).
  assert (S : sameLayer no_translation (V3 (2 * PI) 0 0) 0 [V3 0 0 0; V3 1 0 0] 0 1 = false) by (unfold sameLayer, no_translation; cbn [nth]; rewrite L0, L1; reflexivity).
  intros [|[|i]] H; [| |lia]; unfold candidates; cbn [length seq filter Nat.eqb negb andb Nat.min Nat.max]; rewrite S; reflexivity.
Qed.
