(** C01, C05: the simulation box. *)
From Coq Require Import Reals Lra.
From Verif Require Import GeomModel BoxModel BoxSpec GeomProofs BoxProofs.
Open Scope R_scope.

(** C01. Conversions are mutually inverse and relative coordinates are coefficients of the side vectors. *)
Theorem C01_box_round_trip : forall s0 s1 s2 b, box_of_sides s0 s1 s2 = Some b ->
  (forall p, relativeToAbsolute b (absoluteToRelative b p) = p) /\
  (forall r, absoluteToRelative b (relativeToAbsolute b r) = r) /\
  (forall x y z, relativeToAbsolute b (V3 x y z) = lincomb s0 s1 s2 x y z).
Proof. exact box_round_trip. Qed.
Print Assumptions C01_box_round_trip.

(** C01. A box is constructed exactly for linearly independent sides; otherwise the constructor throws. *)
Theorem C01_box_constructible_iff : forall s0 s1 s2,
  lin_indep s0 s1 s2 <-> exists b, box_of_sides s0 s1 s2 = Some b.
Proof. exact box_constructible. Qed.
Print Assumptions C01_box_constructible_iff.

Example C01_nonvacuous : exists b, box_of_sides (V3 1 0 0) (V3 (1/2) 1 0) (V3 0 (1/3) 2) = Some b.
Proof.
  apply box_constructible. intros a b c H. unfold lincomb, vzero in H. simpl in H. injection H; intros. lra.
Qed.
Example C01_degenerate : box_of_sides (V3 1 0 0) (V3 2 0 0) (V3 0 0 1) = None.
Proof.
  destruct (box_of_sides _ _ _) eqn:E; auto. exfalso.
  assert (exists b, box_of_sides (V3 1 0 0) (V3 2 0 0) (V3 0 0 1) = Some b) as Hx by eauto.
  apply box_constructible in Hx. specialize (Hx 2 (-1) 0).
  destruct Hx as [H _]; [|lra]. unfold lincomb. vec_ring.
Qed.

(** C05. The volume is the triple product of the sides. *)
Theorem C05_volume : forall s0 s1 s2 b, box_of_sides s0 s1 s2 = Some b ->
  box_volume b = Rabs (vdot s0 (vcross s1 s2)) /\ 0 < box_volume b.
Proof. exact volume_triple. Qed.
Print Assumptions C05_volume.

(** C05. The height along an axis is the distance of the opposite faces: the length of the shortest displacement
    whose relative coordinate along that axis is 1. *)
Theorem C05_heights : forall b a, constructed b ->
  0 < box_height b a /\
  (forall d, Rabs (vget (absoluteToRelative b d) a) * box_height b a <= vnorm d) /\
  (exists d, vget (absoluteToRelative b d) a = 1 /\ vnorm d = box_height b a).
Proof. exact heights_spec. Qed.
Print Assumptions C05_heights.

(** C05. Scaling the side vectors. *)
Theorem C05_scale_sides : forall b f, constructed b -> 0 < vx f -> 0 < vy f -> 0 < vz f ->
  exists b', box_scale_sides f b = Some b' /\ constructed b' /\
    box_volume b' = vx f * vy f * vz f * box_volume b /\
    (forall a, box_side b' a = vscale (vget f a) (box_side b a)) /\
    (forall a, box_height b' a = vget f a * box_height b a).
Proof. exact scale_sides_props. Qed.
Print Assumptions C05_scale_sides.

(** C05. [TriclinicBox::scale] stretches the laboratory axes. *)
Theorem C05_scale : forall b f, constructed b -> 0 < vx f -> 0 < vy f -> 0 < vz f ->
  exists b', box_scale f b = Some b' /\ constructed b' /\
    box_volume b' = vx f * vy f * vz f * box_volume b /\
    (forall r, relativeToAbsolute b' r =
               V3 (vx f * vx (relativeToAbsolute b r)) (vy f * vy (relativeToAbsolute b r))
                  (vz f * vz (relativeToAbsolute b r))).
Proof. exact scale_props. Qed.
Print Assumptions C05_scale.

Example C05_nonvacuous : exists b, constructed b /\ box_volume b = 2.
Proof.
  destruct C01_nonvacuous as [b Hb]. exists b. split; [exists (V3 1 0 0), (V3 (1/2) 1 0), (V3 0 (1/3) 2); auto|].
  destruct (volume_triple _ _ _ _ Hb) as [-> _]. unfold vdot; simpl. rewrite Rabs_pos_eq; lra.
Qed.
