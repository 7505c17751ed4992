From Coq Require Import ZArith Reals List Bool Arith Lia.
From Verif Require Import GeomModel BoxModel BoxSpec PbcSpec LatticeModel DimsModel DimsSpec DimsProofs.
Local Open Scope nat_scope.

Theorem C53_enough fuel n m b d : optimize_dims fuel n m b = Some d -> n <= cells_in d * m.
Proof. exact (dims_enough fuel n m b d). Qed.
Print Assumptions C53_enough.

(* which dimensions: the nearest to cubic cells, with the first greatest one extended only as much as needed *)
Theorem C53_result fuel n m b d : constructed b -> 0 < n -> optimize_dims fuel n m b = Some d ->
  exists cells t r a k, cells_needed n m cells /\ cube_side b cells t /\ (forall a, nearest (box_height b a / t)%R (iget r a)) /\
    first_greatest r a /\ lengthened r a k d /\ cells <= cells_in d /\
    (forall j d', j < k -> lengthened r a j d' -> cells_in d' < cells).
Proof. exact (dims_result fuel n m b d). Qed.
Print Assumptions C53_result.

Theorem C53_terminates n m b cells t : constructed b -> 0 < n -> 0 < m -> cells_needed n m cells -> cube_side b cells t ->
  (forall a, (t <= 2 * box_height b a)%R) -> exists d, terminates_with (fun fuel => optimize_dims fuel n m b) d.
Proof. exact (fun C P M N T => proj1 (dims_terminate n m b cells t C P M N T)). Qed.
Print Assumptions C53_terminates.

Theorem C53_never_ends n m b cells t : constructed b -> 0 < n -> 0 < m -> cells_needed n m cells -> cube_side b cells t ->
  (exists a, (2 * box_height b a < t)%R) -> forall fuel, optimize_dims fuel n m b = None.
Proof. exact (fun C P M N T => proj2 (dims_terminate n m b cells t C P M N T)). Qed.
Print Assumptions C53_never_ends.

Theorem C53_every_box_refuted : ~ (forall n m b, constructed b -> 0 < n -> 0 < m -> exists d, terminates_with (fun fuel => optimize_dims fuel n m b) d).
Proof. intros H. destruct flat_box_refuted as (b&C&F). destruct (H 8 1 b C ltac:(lia) ltac:(lia)) as (d&N&T). specialize (T N (le_n N)). cbn beta in T. rewrite F in T. discriminate T. Qed.
Print Assumptions C53_every_box_refuted.

(* a 5 x 10 x 20 box, 15 molecules and 2 in a cell *)
Example C53_example : exists b, constructed b /\ cells_needed 15 2 8 /\ cube_side b 8 5 /\ (forall a, (5 <= 2 * box_height b a)%R).
Proof. exact cube_example. Qed.
