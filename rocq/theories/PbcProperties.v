(** C02, C03, C04, C15 (single move): periodic boundary conditions. *)
From Coq Require Import Reals ZArith Lra.
From Verif Require Import GeomModel BoxModel PbcModel BoxSpec PbcSpec BoxProofs PbcProofs PbcDistSpec PbcDistProofs.
Open Scope R_scope.

(** C02. *)
Theorem C02_correction : forall b p, constructed b ->
  exists c, terminates_with (fun fuel => getCorrection fuel b p) c /\ is_lattice_vector b c /\
            in_box b (vadd p c) /\ (in_box b p -> c = vzero).
Proof. exact correction_property. Qed.
Print Assumptions C02_correction.

(** C02. There is only one such vector. *)
Theorem C02_correction_unique : forall b p l1 l2, constructed b ->
  is_lattice_vector b l1 -> is_lattice_vector b l2 ->
  in_box b (vadd p l1) -> in_box b (vadd p l2) -> l1 = l2.
Proof. exact correction_unique. Qed.
Print Assumptions C02_correction_unique.

(** C03. *)
Theorem C03_translation : forall b p1 p2, constructed b ->
  exists t, terminates_with (fun fuel => getTranslation fuel b p1 p2) t /\ is_lattice_vector b t /\
    (forall a, Rabs (vget (absoluteToRelative b (vsub (vadd p2 t) p1)) a) <= 1/2) /\
    (forall a l, is_lattice_vector b l ->
       Rabs (vget (absoluteToRelative b (vsub (vadd p2 t) p1)) a) <=
       Rabs (vget (absoluteToRelative b (vsub (vadd p2 l) p1)) a)) /\
    (forall d, terminates_with (fun fuel => getTranslation fuel b (vadd p1 d) (vadd p2 d)) t) /\
    ((forall a, Rabs (vget (absoluteToRelative b (vsub p2 p1)) a) <= 1/2) -> t = vzero).
Proof. exact translation_property. Qed.
Print Assumptions C03_translation.

(** C04, for all boxes: the squared distance is the squared length of the displacement to the chosen image mirrored along
    the axes along which the second point precedes the first one. *)
Theorem C04_distance : forall b p1 p2, constructed b ->
  exists d t, terminates_with (fun fuel => getDistance2 fuel b p1 p2) d /\
    terminates_with (fun fuel => getTranslation fuel b p1 p2) t /\
    d = vnorm2 (mirrored b p1 p2 (vsub (vadd p2 t) p1)).
Proof. exact distance_mirrored. Qed.
Print Assumptions C04_distance.

(** C04, for points none of which precedes the other along one axis and follows it along another one. *)
Theorem C04_same_signs : forall b p1 p2, constructed b -> same_signs b p1 p2 ->
  exists d t, terminates_with (fun fuel => getDistance2 fuel b p1 p2) d /\
    terminates_with (fun fuel => getTranslation fuel b p1 p2) t /\
    d = vnorm2 (vsub (vadd p2 t) p1).
Proof. exact distance_same_signs. Qed.
Print Assumptions C04_same_signs.

(** C04, for boxes with perpendicular sides: the squared distance is the one to the chosen image and no image is closer. *)
Theorem C04_perpendicular : forall b p1 p2, constructed b -> orthogonal_sides b ->
  exists d t, terminates_with (fun fuel => getDistance2 fuel b p1 p2) d /\
    terminates_with (fun fuel => getTranslation fuel b p1 p2) t /\
    d = vnorm2 (vsub (vadd p2 t) p1) /\
    (forall l, is_lattice_vector b l -> d <= vnorm2 (vsub (vadd p2 l) p1)).
Proof. exact distance_property_orthogonal. Qed.
Print Assumptions C04_perpendicular.

(** C04 is false of the code for a triclinic box: the reported distance exceeds the distance to the chosen image. *)
Theorem C04_distance_refuted :
  exists b p1 p2 d t, constructed b /\ in_box b p1 /\ in_box b p2 /\
    terminates_with (fun fuel => getDistance2 fuel b p1 p2) d /\
    terminates_with (fun fuel => getTranslation fuel b p1 p2) t /\
    vnorm2 (vsub (vadd p2 t) p1) < d.
Proof. exact distance_refuted. Qed.
Print Assumptions C04_distance_refuted.

(** C15 for a single shape: translating keeps the particle in the box, equivalent to the requested displacement. *)
Theorem C15_translate_in_box : forall b t s, constructed b ->
  exists s', terminates_with (fun fuel => shape_translate fuel b t s) s' /\ in_box b (sh_pos s') /\
    is_lattice_vector b (vsub (sh_pos s') (vadd (sh_pos s) t)) /\ sh_rot s' = sh_rot s.
Proof. exact translate_property. Qed.
Print Assumptions C15_translate_in_box.

Example C02_C03_nonvacuous : constructed skew_box /\ ~ in_box skew_box (V3 5 0 0).
Proof.
  split; [apply constructed_valid, skew_valid|]. intros H. specialize (H AX). simpl in H. lra.
Qed.
Example C04_nonvacuous : exists b, constructed b /\ orthogonal_sides b /\ ~ in_box b (V3 5 0 0).
Proof.
  destruct (proj1 (box_constructible (V3 1 1 0) (V3 (-1) 1 0) (V3 0 0 2))) as [b Hb].
  - intros x y z H. unfold lincomb, vzero in H. simpl in H. injection H; intros. lra.
  - exists b. split; [do 3 eexists; eauto|]. destruct (box_sides_given _ _ _ _ Hb) as (E0&E1&E2).
    split.
    + unfold orthogonal_sides. rewrite E0, E1, E2. unfold vdot; simpl. lra.
    + intros Hin. pose proof (Hin AX) as Hx.
      destruct (box_round_trip _ _ _ _ Hb) as (_&Hr&Hl).
      assert (absoluteToRelative b (V3 5 0 0) = V3 (5/2) (-5/2) 0) as E.
      { rewrite <- (Hr (V3 (5/2) (-5/2) 0)), Hl. f_equal. apply GeomProofs.vec_ext; unfold lincomb; simpl; lra. }
      rewrite E in Hx. simpl in Hx. lra.
Qed.
