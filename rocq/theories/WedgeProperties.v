(** C66: smooth and polyhedral wedges *)
From Coq Require Import Reals ZArith List Bool Arith Lia Lra.
From Verif Require Import TextModel GeomModel ShapesModel XcModel XcSpec GeoModel VolSpec WedgeModel WedgeSpec WedgeWholeProofs.
Import ListNotations.
Open Scope R_scope.

Theorem C66_smooth : forall R0 r l subdivisions,
  ((exists g, smooth_wedge R0 r l subdivisions = Some g) <-> 0 < R0 /\ 0 < r /\ 0 < l /\ Rabs (R0 - r) <= l /\ ((2 <= subdivisions)%nat -> Rabs (R0 - r) < l)) /\
  forall g, smooth_wedge R0 r l subdivisions = Some g ->
    length (g_data g) = Nat.max 1 subdivisions /\ made_of (smooth_body R0 r l) (g_data g) /\ (exists c, forall d, In d (g_data g) -> xc_circumsphere (fst d) = c) /\
    volume (smooth_body R0 r l) (g_volume g) /\ g_primary g = Some (V3 0 0 1) /\ g_secondary g = None /\ g_origin g = vzero /\
    ends_at g ((- l + R0 - r) / 2) ((l + R0 - r) / 2).
Proof. exact smooth_wedge_spec. Qed.
Theorem C66_polyhedral : forall axB ayB axT ayT len subdivisions, 0 <= axB -> 0 <= ayB -> 0 <= axT -> 0 <= ayT ->
  ((exists g, polyhedral_wedge axB ayB axT ayT len subdivisions = Some g) <-> (0 < axT /\ 0 < ayB \/ 0 < ayT /\ 0 < axB) /\ 0 < len) /\
  forall g, polyhedral_wedge axB ayB axT ayT len subdivisions = Some g ->
    length (g_data g) = Nat.max 1 subdivisions /\ made_of (polyhedral_body axB ayB axT ayT len) (g_data g) /\
    (forall i d, nth_error (g_data g) i = Some d -> snd d = V3 0 0 (len / 2 - (INR i + 1 / 2) * (len / INR (Nat.max 1 subdivisions)))) /\
    volume (polyhedral_body axB ayB axT ayT len) (g_volume g) /\ g_primary g = Some (V3 0 0 1) /\ g_secondary g = Some (V3 1 0 0) /\ g_origin g = vzero /\
    ends_at g (- len / 2) (len / 2).
Proof. exact polyhedral_wedge_spec. Qed.
(** A negative side is accepted: the volume and the radius of the inner sphere are negative. *)
Theorem C66_polyhedral_refuted : exists g x, polyhedral_wedge 1 1 1 (-10) 1 0 = Some g /\ g_volume g < 0 /\ g_data g = [(x, vzero)] /\ xc_insphere x < 0.
Proof. exact polyhedral_negative. Qed.

Example C66_smooth_ex : exists g, smooth_wedge 2 1 3 4 = Some g. Proof. apply (proj1 (C66_smooth 2 1 3 4)). rewrite Rabs_pos_eq by lra. repeat split; intros; lra. Qed.
(** The radii differ by exactly the length: fine undivided, refused divided. *)
Example C66_smooth_tie : (exists g, smooth_wedge 2 1 1 1 = Some g) /\ smooth_wedge 2 1 1 2 = None.
Proof.
  split; [apply (proj1 (C66_smooth 2 1 1 1)); rewrite Rabs_pos_eq by lra; repeat split; intros; try lra; lia|].
  destruct (smooth_wedge 2 1 1 2) as [g|] eqn:E; [|reflexivity]. exfalso. destruct (proj1 (proj1 (C66_smooth 2 1 1 2)) (ex_intro _ g E)) as (_&_&_&_&H). specialize (H (le_n 2)). rewrite Rabs_pos_eq in H; lra.
Qed.
(** A triangular prism *)
Example C66_polyhedral_ex : exists g, polyhedral_wedge 1 2 0 2 3 5 = Some g. Proof. apply (proj1 (C66_polyhedral 1 2 0 2 3 5 ltac:(lra) ltac:(lra) ltac:(lra) ltac:(lra))). split; [right|]; lra. Qed.

Print Assumptions C66_smooth.
Print Assumptions C66_polyhedral.
Print Assumptions C66_polyhedral_refuted.
